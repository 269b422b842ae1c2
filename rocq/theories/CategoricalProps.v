(** Factor types, levels and codes (C32, C33, C34, C35). *)
From Coq Require Import Ascii QArith Permutation Sorted.
From Verif Require Import Base PySort BuildModel CategoricalModel CategoricalSpec CategoricalKeyProofs CategoricalProofs CategoricalSortProofs CategoricalCodeProofs CategoricalTypeProofs.
Open Scope nat_scope.
Open Scope string_scope.
Open Scope list_scope.

(** * C32: factor types *)
(** Each factor gets the type its own data shows, whatever the other factors are and in whatever order
    the sets of factors are gone through; detection fails only if it fails for one of the factors alone. *)
Theorem factor_types : forall (C F D : Type) (feqb : F -> F -> bool) (eval : F -> D -> result (@value C)) (origin_of : F -> option origin) na order addr hash_order factors chunks,
  (forall f g, feqb f g = true <-> f = g) -> (forall n l, Permutation (order n l) l) -> NoDup factors ->
  match examine_factor_types feqb eval origin_of na order addr hash_order factors chunks with
  | Ok (num, cat) => forall f, In f factors ->
      match type_of eval origin_of na f chunks with
      | Ok (Some (TNum n)) => dget feqb f num = Some n /\ dget feqb f cat = None
      | Ok (Some (TCat sn)) => dget feqb f num = None /\ dget feqb f cat = Some (levels_contrast addr hash_order sn)
      | Ok None => dget feqb f num = None /\ dget feqb f cat = None
      | Err _ => False
      end
  | Err _ => exists f e, In f factors /\ type_of eval origin_of na f chunks = Err e
  end.
Proof.
  intros C F D feqb eval origin_of na order addr hash_order factors chunks He Ho Hn. unfold examine_factor_types.
  destruct (examine_chunks feqb eval origin_of na order 0 chunks (mkEx [] [] factors)) as [st|e] eqn:E; cbn [bind].
  - intros f Hf. pose proof (chunks_status feqb He eval origin_of na order Ho chunks 0 [] (mkEx [] [] factors) st factors Hn (fun g H => H) (fun g H => start_status feqb eval origin_of na factors g H) E f Hf) as H.
    unfold final in H. cbn [app] in H. rewrite (dget_map feqb). destruct (type_of eval origin_of na f chunks) as [[[n|sn]|]|]; [| | |exact H]; destruct H as [H1 H2]; rewrite H2; auto.
  - destruct (Forall_Exists_dec (fun f => exists t, type_of eval origin_of na f chunks = Ok t)) with (l := factors) as [H|H].
    + intros f. destruct (type_of eval origin_of na f chunks) as [t|]; [left; eauto|right; intros [t H]; discriminate].
    + exfalso. rewrite Forall_forall in H. destruct (chunks_total feqb He eval origin_of na order Ho chunks 0 [] (mkEx [] [] factors) factors Hn (fun g H => H) (fun g H => start_status feqb eval origin_of na factors g H) H) as [st' H']. congruence.
    + apply Exists_exists in H. destruct H as [f [Hf H]]. exists f. destruct (type_of eval origin_of na f chunks) as [t|e']; [exfalso; apply H; eauto|eauto].
Qed.
Print Assumptions factor_types.

(** If finding out the types fails, it is with the error of one of the factors. *)
Theorem factor_type_errors : forall (C F D : Type) (feqb : F -> F -> bool) (eval : F -> D -> result (@value C)) (origin_of : F -> option origin) na order addr hash_order factors chunks e,
  (forall f g, feqb f g = true <-> f = g) -> (forall n l, Permutation (order n l) l) -> NoDup factors ->
  examine_factor_types feqb eval origin_of na order addr hash_order factors chunks = Err e -> exists f, In f factors /\ type_of eval origin_of na f chunks = Err e.
Proof.
  intros C F D feqb eval origin_of na order addr hash_order factors chunks e He Ho Hn. unfold examine_factor_types.
  destruct (examine_chunks feqb eval origin_of na order 0 chunks (mkEx [] [] factors)) as [st|e'] eqn:E; cbn [bind]; [discriminate|]. intros [= <-].
  exact (chunks_err feqb He eval origin_of na order Ho chunks e' 0 [] (mkEx [] [] factors) factors Hn (fun g H => H) (fun g H => start_status feqb eval origin_of na factors g H) E).
Qed.
Print Assumptions factor_type_errors.

(** What makes a factor numerical, and how many columns it has, is decided by the first chunk of data. *)
Theorem numerical_or_categorical : forall (C F D : Type) (feqb : F -> F -> bool) (eval : F -> D -> result (@value C)) (origin_of : F -> option origin) na order addr hash_order factors d r f v,
  (forall f g, feqb f g = true <-> f = g) -> (forall n l, Permutation (order n l) l) -> NoDup factors -> In f factors -> eval f d = Ok v ->
  match examine_factor_types feqb eval origin_of na order addr hash_order factors (d :: r) with
  | Ok (num, cat) =>
      ~ too_deep v /\ (forall n, dget feqb f num = Some n <-> numerical v n) /\ (dget feqb f cat = None <-> exists n, numerical v n)
  | Err _ => True
  end /\
  ((exists n, numerical v n) -> exists n, type_of eval origin_of na f (d :: r) = Ok (Some (TNum n))) /\
  (too_deep v -> exists msg, type_of eval origin_of na f (d :: r) = Err (PatsyError msg (origin_of f))).
Proof.
  intros C F D feqb eval origin_of na order addr hash_order factors d r f v He Ho Hn Hf Ev.
  pose proof (factor_types C F D feqb eval origin_of na order addr hash_order factors (d :: r) He Ho Hn) as T.
  assert (N : forall n, numerical v n -> type_of eval origin_of na f (d :: r) = Ok (Some (TNum n))).
  { intros n H. unfold type_of. rewrite Ev. cbn [bind]. destruct H as [l|x|nd nc H]; cbn; try reflexivity. destruct nd as [|[|[|nd]]]; try reflexivity. lia. }
  assert (M : too_deep v -> exists msg, type_of eval origin_of na f (d :: r) = Err (PatsyError msg (origin_of f))).
  { intros H. unfold type_of. rewrite Ev. cbn [bind]. destruct H as [nd nc H]. cbn. destruct nd as [|[|[|nd]]]; try lia. eexists. reflexivity. }
  assert (K : (exists n, numerical v n) \/ too_deep v \/ guess_categorical v = true).
  { destruct v as [x c l|[cats codes|nd l|[|] l|[|] x|[|] nd nc]]; auto; try (left; eexists; constructor; fail). destruct (le_lt_dec nd 2) as [H|H]; [left; eexists; constructor; exact H|right; left; constructor; exact H]. }
  assert (G : guess_categorical v = true -> ~ (exists n, numerical v n) /\ ~ too_deep v).
  { intros G. split; [intros [n H]|intros H]; destruct H; discriminate. }
  split; [|split; [intros [n H]; exists n; now apply N|exact M]].
  destruct (examine_factor_types feqb eval origin_of na order addr hash_order factors (d :: r)) as [[num cat]|]; [|exact Logic.I]. specialize (T f Hf).
  destruct K as [[n H]|[H|H]].
  - rewrite (N n H) in T. destruct T as [T1 T2]. split; [intros X; destruct H; inversion X; lia|]. split; [|split; [eauto|intros _; exact T2]].
    intros k. rewrite T1. split; [intros [= <-]; exact H|]. intros H'. pose proof (N k H') as E. rewrite (N n H) in E. congruence.
  - destruct (M H) as [msg E]. rewrite E in T. contradiction.
  - destruct (G H) as [G1 G2]. unfold type_of in T. rewrite Ev in T. cbn [bind] in T. rewrite H in T. destruct (look eval origin_of na f (d :: r) new_sniffer) as [sn|]; [|contradiction]. cbn [bind] in T. destruct T as [T1 T2].
    split; [exact G2|]. split; [intros n; rewrite T1; split; [discriminate|intros X; elim G1; eauto]|]. rewrite T2. split; [discriminate|intros X; contradiction].
Qed.
Print Assumptions numerical_or_categorical.

(** * C33: levels *)
(** For categorical data without declared levels, the levels are the distinct values that are not
    missing, each once, in all of the data. *)
Theorem levels_cover_data : forall (C F D : Type) (feqb : F -> F -> bool) (eval : F -> D -> result (@value C)) (origin_of : F -> option origin) na order addr hash_order factors chunks num cat f ls,
  (forall f g, feqb f g = true <-> f = g) -> (forall n l, Permutation (order n l) l) -> (forall l, Permutation (hash_order l) l) -> NoDup factors ->
  examine_factor_types feqb eval origin_of na order addr hash_order factors chunks = Ok (num, cat) ->
  In f factors -> starts_categorical eval f chunks -> data_of eval f chunks ls -> zero_one_pure na (concat ls) ->
  exists levels contrast, dget feqb f cat = Some (levels, contrast) /\ levels_exact na (concat ls) levels.
Proof.
  intros C F D feqb eval origin_of na order addr hash_order factors chunks num cat f ls He Ho Hh Hn H Hf [d [r [v [-> [Ev Hg]]]]] Hd Hp.
  pose proof (factor_types C F D feqb eval origin_of na order addr hash_order factors (d :: r) He Ho Hn) as T. rewrite H in T. specialize (T f Hf).
  unfold type_of in T. rewrite Ev in T. cbn [bind] in T. rewrite Hg in T. destruct (look eval origin_of na f (d :: r) new_sniffer) as [sn|] eqn:El; [|contradiction]. cbn [bind] in T. destruct T as [_ T].
  destruct (look_keys eval origin_of na f (d :: r) ls Hd new_sniffer sn [] El eq_refl (NoDup_nil _)) as [L [N K]].
  - intros k. split; [intros []|intros G; now apply covers_nil in G].
  - exact Hp.
  - rewrite T. unfold levels_contrast. rewrite L. eexists _, _. split; [reflexivity|].
    apply levels_exact_perm with (s := sn_set sn); [|now apply keys_levels].
    transitivity (hash_order (sn_set sn)); [apply Permutation_sym, Hh|]. apply py_sort_perm.
Qed.
Print Assumptions levels_cover_data.

(** Finding the levels of such data succeeds if all values can be used as levels. *)
Theorem levels_found : forall (C F D : Type) (eval : F -> D -> result (@value C)) (origin_of : F -> option origin) na f chunks ls,
  starts_categorical eval f chunks -> data_of eval f chunks ls -> Forall (usable na) (concat ls) ->
  exists sn, type_of eval origin_of na f chunks = Ok (Some (TCat sn)).
Proof.
  intros C F D eval origin_of na f chunks ls [d [r [v [-> [Ev Hg]]]]] Hd Hu. unfold type_of. rewrite Ev. cbn [bind]. rewrite Hg.
  destruct (look_ok eval origin_of na f (d :: r) ls Hd Hu new_sniffer) as [sn ->]. cbn. eauto.
Qed.
Print Assumptions levels_found.

(** Declared levels (of [C], or the categories of pandas data) in the first chunk are taken as they are. *)
Theorem levels_declared : forall (C F D : Type) (feqb : F -> F -> bool) (eval : F -> D -> result (@value C)) (origin_of : F -> option origin) na order addr hash_order factors d r num cat f v levels,
  (forall f g, feqb f g = true <-> f = g) -> (forall n l, Permutation (order n l) l) -> NoDup factors ->
  examine_factor_types feqb eval origin_of na order addr hash_order factors (d :: r) = Ok (num, cat) -> In f factors -> eval f d = Ok v ->
  (exists x c, v = Boxed x c (Some levels)) \/ (exists codes, v = Plain (DPandas levels codes)) ->
  exists contrast, dget feqb f cat = Some (levels, contrast) /\ (forall x c, v = Boxed x c (Some levels) -> contrast = c).
Proof.
  intros C F D feqb eval origin_of na order addr hash_order factors d r num cat f v levels He Ho Hn H Hf Ev Hv.
  pose proof (factor_types C F D feqb eval origin_of na order addr hash_order factors (d :: r) He Ho Hn) as T. rewrite H in T. specialize (T f Hf).
  unfold type_of in T. rewrite Ev in T. cbn [bind] in T. destruct Hv as [[x [c ->]]|[codes ->]]; cbn in T; rewrite Ev in T; cbn in T; destruct T as [_ T]; rewrite T; eexists; (split; [reflexivity|]); intros x' c' E; cbn; congruence.
Qed.
Print Assumptions levels_declared.

(** Looking stops once the levels are zero and one, so a later 2 of integer data is missed. *)
Theorem levels_cover_refuted : exists (eval : unit -> list pval -> result (@value unit)) chunks,
  starts_categorical eval tt chunks /\ data_of eval tt chunks chunks /\
  exists levels contrast, examine_factor_types (fun _ _ => true) eval (fun _ => None) (mkNA true true) (fun _ l => l) (fun _ => 0) (fun l => l) [tt] chunks = Ok ([], [(tt, (levels, contrast))]) /\
    ~ levels_exact (mkNA true true) (concat chunks) levels /\
    categorical_to_int (Boxed (DSeq true (concat chunks)) contrast None) levels (mkNA true true) None =
      Err (PatsyError "Error converting data to categorical: observation does not match any of the expected levels" None).
Proof.
  exists (fun _ l => Ok (Boxed (DSeq true l) None None)), [[VInt 0; VInt 1]; [VInt 2]]. split.
  { exists [VInt 0; VInt 1], [[VInt 2]]. eexists. split; [reflexivity|]. split; reflexivity. }
  split.
  { repeat constructor; eexists; (split; [reflexivity|]); constructor; try constructor; try discriminate; intros [a [b H]]; discriminate. }
  exists [VInt 0; VInt 1], None. split; [vm_compute; reflexivity|]. split; [|vm_compute; reflexivity].
  intros [_ L]. destruct (proj2 (L (VInt 2))) as [l [Hl Hs]].
  - exists (VInt 2). split; [right; right; now left|]. split; [|left; apply same_refl]. unfold missing. intros [[_ [[i A]|[s [A _]]]]|[_ A]]; discriminate.
  - apply same_iff in Hs. destruct Hl as [<-|[<-|[]]]; discriminate.
Qed.
Print Assumptions levels_cover_refuted.

(** However the data is split into chunks, and whatever the order of iteration over sets, the levels
    are the same tuple. *)
Theorem levels_chunking : forall (C F D : Type) (feqb : F -> F -> bool) (eval : F -> D -> result (@value C)) (origin_of : F -> option origin) na addr f ls1 ls2
  order1 hash_order1 factors1 chunks1 num1 cat1 order2 hash_order2 factors2 chunks2 num2 cat2,
  (forall f g, feqb f g = true <-> f = g) ->
  (forall n l, Permutation (order1 n l) l) -> (forall l, Permutation (hash_order1 l) l) -> NoDup factors1 ->
  (forall n l, Permutation (order2 n l) l) -> (forall l, Permutation (hash_order2 l) l) -> NoDup factors2 ->
  examine_factor_types feqb eval origin_of na order1 addr hash_order1 factors1 chunks1 = Ok (num1, cat1) ->
  examine_factor_types feqb eval origin_of na order2 addr hash_order2 factors2 chunks2 = Ok (num2, cat2) ->
  In f factors1 -> In f factors2 -> starts_categorical eval f chunks1 -> starts_categorical eval f chunks2 ->
  data_of eval f chunks1 ls1 -> data_of eval f chunks2 ls2 -> concat ls1 = concat ls2 -> zero_one_pure na (concat ls1) ->
  Forall sortable (concat ls1) -> addresses addr (concat ls1) ->
  exists levels1 c1 levels2 c2, dget feqb f cat1 = Some (levels1, c1) /\ dget feqb f cat2 = Some (levels2, c2) /\ Forall2 same levels1 levels2.
Proof.
  intros C F D feqb eval origin_of na addr f ls1 ls2 order1 hash_order1 factors1 chunks1 num1 cat1 order2 hash_order2 factors2 chunks2 num2 cat2 He Ho1 Hh1 Hn1 Ho2 Hh2 Hn2 H1 H2 Hf1 Hf2 S1 S2 D1 D2 Hc Hp Hs Ha.
  assert (G : forall order hash_order factors chunks num cat ls, (forall n l, Permutation (order n l) l) -> (forall l, Permutation (hash_order l) l) -> NoDup factors ->
    examine_factor_types feqb eval origin_of na order addr hash_order factors chunks = Ok (num, cat) -> In f factors -> starts_categorical eval f chunks -> data_of eval f chunks ls -> zero_one_pure na (concat ls) ->
    exists s c, dget feqb f cat = Some (sort_levels addr (hash_order s), c) /\ NoDup (keys s) /\ (forall k, In k (keys s) <-> covers na (concat ls) k) /\ forall x, In x s -> In x (concat ls) \/ exists b, x = VBool b).
  { clear - He. intros order hash_order factors chunks num cat ls Ho Hh Hn H Hf [d [r [v [-> [Ev Hg]]]]] Hd Hp.
    pose proof (factor_types C F D feqb eval origin_of na order addr hash_order factors (d :: r) He Ho Hn) as T. rewrite H in T. specialize (T f Hf).
    unfold type_of in T. rewrite Ev in T. cbn [bind] in T. rewrite Hg in T. destruct (look eval origin_of na f (d :: r) new_sniffer) as [sn|] eqn:El; [|contradiction]. cbn [bind] in T. destruct T as [_ T].
    destruct (look_keys eval origin_of na f (d :: r) ls Hd new_sniffer sn [] El eq_refl (NoDup_nil _)) as [L [N K]].
    - intros k. split; [intros []|intros G; now apply covers_nil in G].
    - exact Hp.
    - exists (sn_set sn), (sn_contrast sn). unfold levels_contrast in T. rewrite L in T. split; [exact T|]. split; [exact N|]. split; [exact K|].
      exact (look_in eval origin_of na f (d :: r) ls Hd new_sniffer sn (concat ls) El (fun x (H : In x []) => match H with end) (fun x H => H)). }
  destruct (G order1 hash_order1 factors1 chunks1 num1 cat1 ls1 Ho1 Hh1 Hn1 H1 Hf1 S1 D1 Hp) as [s1 [c1 [E1 [N1 [K1 I1]]]]].
  rewrite Hc in Hp. destruct (G order2 hash_order2 factors2 chunks2 num2 cat2 ls2 Ho2 Hh2 Hn2 H2 Hf2 S2 D2 Hp) as [s2 [c2 [E2 [N2 [K2 I2]]]]].
  exists (sort_levels addr (hash_order1 s1)), c1, (sort_levels addr (hash_order2 s2)), c2. split; [exact E1|]. split; [exact E2|].
  apply keys_same. rewrite Hc in K1, I1, Hs, Ha.
  assert (Q : forall s, (forall x, In x s -> In x (concat ls2) \/ exists b, x = VBool b) -> Forall (good (fun x => In x (concat ls2) \/ exists b, x = VBool b)) s).
  { intros s I. apply Forall_forall. intros x Hx. split; [|auto]. rewrite Forall_forall in Hs. destruct (I x Hx) as [X|[b ->]]; [auto|exact Logic.I]. }
  apply (sort_levels_unique addr (fun x => In x (concat ls2) \/ exists b, x = VBool b)).
  - intros a b [A|[a' ->]] [B|[b' ->]] Oa Ob; try contradiction. now apply Ha.
  - apply Q. intros x Hx. apply I1. eapply Permutation_in; [apply Hh1|exact Hx].
  - apply Q. intros x Hx. apply I2. eapply Permutation_in; [apply Hh2|exact Hx].
  - eapply Permutation_NoDup; [apply Permutation_sym, keys_perm, Hh1|exact N1].
  - eapply Permutation_NoDup; [apply Permutation_sym, keys_perm, Hh2|exact N2].
  - assert (P : forall (h : list pval -> list pval), (forall l, Permutation (h l) l) -> forall s k, In k (keys (h s)) <-> In k (keys s)).
    { intros h Hh s k. split; apply Permutation_in; [|apply Permutation_sym]; apply keys_perm, Hh. }
    intros k. rewrite (P _ Hh1), (P _ Hh2), K1, K2. tauto.
Qed.
Print Assumptions levels_chunking.

(** The number/category decision is taken from the first chunk alone: a list of 1 and "a" is categorical
    as a whole, but numeric if 1 is the first chunk. *)
Theorem types_chunking_refuted : exists (eval : unit -> list pval -> result (@value unit)) chunks,
  eval tt (concat chunks) = Ok (Plain (DSeq false (concat chunks))) /\
  (exists levels c, examine_factor_types (fun _ _ => true) eval (fun _ => None) (mkNA true true) (fun _ l => l) (fun _ => 0) (fun l => l) [tt] [concat chunks] = Ok ([], [(tt, (levels, c))])) /\
  examine_factor_types (fun _ _ => true) eval (fun _ => None) (mkNA true true) (fun _ l => l) (fun _ => 0) (fun l => l) [tt] chunks = Ok ([(tt, 1)], []).
Proof.
  exists (fun _ l => Ok (Plain (DSeq (forallb (fun v => match to_num v with Some _ => true | None => false end) l) l))), [[VInt 1]; [VStr "a"]].
  split; [reflexivity|]. split; [eexists _, _; vm_compute; reflexivity|vm_compute; reflexivity].
Qed.
Print Assumptions types_chunking_refuted.

(** * C34: codes *)
(** If coding succeeds, every missing value has the code -1 and every other the position of its level. *)
Theorem category_codes : forall (C : Type) (v : @value C) levels na org codes d l,
  v = Plain d /\ ~ is_pandas d \/ (exists c bl, v = Boxed d c bl) -> consists_of d l ->
  categorical_to_int v levels na org = Ok codes -> Forall2 (coded na levels) l codes.
Proof.
  intros C v levels na org codes d l Hv Hc. rewrite to_int_unfold. destruct Hv as [[-> Hp]|[c [bl ->]]].
  - destruct d; try (apply code_data_ok; exact Hc). exfalso. apply Hp. now exists categories, codes0.
  - destruct bl as [bl|]; [destruct (tuple_eqb bl levels); [|discriminate]|]; apply code_data_ok; exact Hc.
Qed.
Print Assumptions category_codes.

(** pandas data is taken over with its codes if its categories are the levels, and rejected otherwise. *)
Theorem category_codes_pandas : forall (C : Type) levels na org cats codes,
  (Forall2 same cats levels /\ @categorical_to_int C (Plain (DPandas cats codes)) levels na org = Ok codes) \/
  (~ Forall2 same cats levels /\ exists msg, @categorical_to_int C (Plain (DPandas cats codes)) levels na org = Err (PatsyError msg org)).
Proof.
  intros C levels na org cats codes. rewrite to_int_unfold. destruct (tuple_eqb cats levels) eqn:E.
  - left. split; [|reflexivity]. now apply keys_same, tuple_eqb_keys.
  - right. split; [|eauto]. intros H. apply keys_same, tuple_eqb_keys in H. congruence.
Qed.
Print Assumptions category_codes_pandas.

(** Coding succeeds if all values have codes and the levels declared with [C] agree; any failure is a
    PatsyError with the factor's origin. *)
Theorem category_codes_total : forall (C : Type) (v : @value C) levels na org d l,
  (v = Plain d /\ ~ is_pandas d) \/ (exists c, v = Boxed d c None) \/ (exists c bl, v = Boxed d c (Some bl) /\ Forall2 same bl levels) -> consists_of d l ->
  (forall n m, d = DBools n m -> (exists x, In x levels /\ same x (VBool false)) /\ exists x, In x levels /\ same x (VBool true)) ->
  forallb hashable levels = true -> Forall (usable na) l -> (forall x, In x l -> missing na x \/ exists y, In y levels /\ same y x) ->
  exists codes, categorical_to_int v levels na org = Ok codes.
Proof.
  intros C v levels na org d l Hv Hc Hb Hh Hu Hl. rewrite to_int_unfold.
  assert (T : exists codes, code_data na org levels d = Ok codes).
  { apply (code_data_total na org levels d l Hc Hh Hb). rewrite Forall_forall in *. intros x Hx. destruct (Hu x Hx) as [U1 U2]. split; [exact U1|]. split; [exact U2|].
    destruct (testable_cases na x U1) as [[_ M]|[_ M]]; [exists (-1)%Z; left; auto|]. destruct (Hl x Hx) as [M'|Y]; [contradiction|].
    destruct (in_place levels x Y) as [i Hi]. exists (Z.of_nat i). right. split; [exact M|]. apply last_place_some in Hi. destruct Hi as [a [y [b [A [B [E ->]]]]]]. exists a, y, b. auto. }
  destruct Hv as [[-> Hp]|[[c ->]|[c [bl [-> Hbl]]]]].
  - destruct d; try exact T. exfalso. apply Hp. now exists categories, codes.
  - exact T.
  - apply keys_same, tuple_eqb_keys in Hbl. now rewrite Hbl.
Qed.
Print Assumptions category_codes_total.

Theorem category_codes_error : forall (C : Type) (v : @value C) levels na org d l e,
  v = Plain d \/ (exists c bl, v = Boxed d c bl) -> consists_of d l ->
  (forall n m, d = DBools n m -> (exists x, In x levels /\ same x (VBool false)) /\ exists x, In x levels /\ same x (VBool true)) ->
  Forall (testable na) l -> categorical_to_int v levels na org = Err e -> exists msg, e = PatsyError msg org.
Proof.
  intros C v levels na org d l e Hv Hc Hb Ht. rewrite to_int_unfold. pose proof (code_data_error na org levels d l e Hc Hb Ht) as T.
  destruct Hv as [->|[c [bl ->]]].
  - destruct d; try exact T. destruct (tuple_eqb _ _); [discriminate|]. intros H. injection H as <-. eauto.
  - destruct bl as [bl|]; [destruct (tuple_eqb bl levels)|]; try exact T. intros H. injection H as <-. eauto.
Qed.
Print Assumptions category_codes_error.

(** An array of booleans with levels that lack False gives a KeyError, though all its values are levels. *)
Theorem category_codes_bools_refuted : exists levels l, (forall b, In b l -> In (VBool b) levels) /\ l <> [] /\
  @categorical_to_int unit (Plain (DBools 1 l)) levels (mkNA true true) None = Err KeyError.
Proof. exists [VBool true], [true; true]. split; [|split; [discriminate|reflexivity]]. intros b [<-|[<-|[]]]; now left. Qed.
Print Assumptions category_codes_bools_refuted.

(** * C35: the order of levels *)
(** Sorted levels are the levels, numbers ascending first, then strings in character order. *)
Theorem levels_sorted : forall addr l, Forall sortable l -> addresses addr l ->
  Permutation l (sort_levels addr l) /\ StronglySorted before (sort_levels addr l).
Proof.
  intros addr l Hs Ha. split; [apply py_sort_perm|].
  assert (G : Forall (good (fun x => In x l)) l) by (rewrite Forall_forall in *; intros x Hx; split; auto).
  pose proof (sort_levels_sorted addr (fun x => In x l) Ha l G) as S.
  assert (Hs' : Forall sortable (sort_levels addr l)) by (rewrite Forall_forall in *; intros x Hx; apply Hs; now apply (py_sort_in (sort_key_lt addr))).
  revert Hs'. induction S as [|x m Sm IH Hx]; intros Hs'; [constructor|]. inversion Hs' as [|? ? Sx Sm']; subst. constructor; [auto|].
  rewrite Forall_forall in *. intros y Hy. eapply before_le; eauto.
Qed.
Print Assumptions levels_sorted.

(** The order does not depend on the order of the input. *)
Theorem levels_order : forall addr l m, Forall sortable (l ++ m) -> addresses addr (l ++ m) -> same_levels l m ->
  Forall2 same (sort_levels addr l) (sort_levels addr m).
Proof.
  intros addr l m Hs Ha H. apply same_levels_keys in H. destruct H as [N1 [N2 K]]. apply keys_same.
  assert (G : Forall (good (fun x => In x (l ++ m))) (l ++ m)) by (rewrite Forall_forall in *; intros x Hx; split; auto).
  apply Forall_app in G. destruct G as [G1 G2]. exact (sort_levels_unique addr (fun x => In x (l ++ m)) Ha l m G1 G2 N1 N2 K).
Qed.
Print Assumptions levels_order.

(** For numbers and strings, it does not depend on addresses either. *)
Theorem levels_order_plain : forall addr1 addr2 l m, Forall plain_value (l ++ m) -> same_levels l m ->
  Forall2 same (sort_levels addr1 l) (sort_levels addr2 m).
Proof.
  intros addr1 addr2 l m Hp H. rewrite (addr_plain m addr2 addr1) by (now apply Forall_app in Hp). apply levels_order; [| |exact H].
  - eapply Forall_impl; [|exact Hp]. apply plain_sortable.
  - intros a b Ha _ Oa. rewrite Forall_forall in Hp. destruct (Hp a Ha) as [[N _]|[s ->]]; [|contradiction]. exfalso. unfold is_number in N. destruct a; contradiction || (apply N; reflexivity).
Qed.
Print Assumptions levels_order_plain.

(** Tuples that have numbers in the same places, and strings in the others, are sorted by the first place where
    they differ, whatever the addresses and the order of the input. *)
Theorem tuple_levels_sorted : forall addr ks l, Forall (tuple_of ks) l ->
  Permutation l (sort_levels addr l) /\ StronglySorted tuple_before (sort_levels addr l) /\
  forall addr' m, Forall (tuple_of ks) m -> same_levels l m -> Forall2 same (sort_levels addr l) (sort_levels addr' m).
Proof.
  intros addr ks l H. split; [apply py_sort_perm|]. split; [now apply (tuples_sorted addr ks)|]. intros addr' m Hm. apply (tuples_order addr addr' ks). now apply Forall_app.
Qed.
Print Assumptions tuple_levels_sorted.

(** In general the order does depend on addresses for tuples, since tuples holding a number and a string in the same place compare by address. *)
Theorem levels_order_tuples_refuted : exists addr l m, (forall a b, addr a = addr b -> In a l -> In b l -> a = b) /\ Forall (fun v => hashable v = true) l /\
  Permutation l m /\ distinct l /\ ~ Forall2 same (sort_levels addr l) (sort_levels addr m).
Proof.
  set (a := VTuple [VInt 1; VStr "a"]). set (b := VTuple [VInt 1; VInt 0]). set (c := VTuple [VInt 1; VInt 1]).
  exists (fun v => if key_eqb v a then 1 else if key_eqb v b then 2 else 0), [a; b; c], [b; c; a]. split; [|split; [|split; [|split]]].
  - intros x y E [<-|[<-|[<-|[]]]] [<-|[<-|[<-|[]]]]; try reflexivity; discriminate.
  - repeat constructor.
  - apply (Permutation_app_comm [a] [b; c]).
  - apply distinct_iff. repeat constructor; cbn; intuition discriminate.
  - intros H. apply keys_same in H. vm_compute in H. discriminate.
Qed.
Print Assumptions levels_order_tuples_refuted.

(** * Examples *)
Definition ex_na := mkNA true true.
Definition ex_eval (f : nat) (d : list pval) : result (@value string) :=
  Ok (if Nat.eqb f 0 then Plain (DSeq false d) else if Nat.eqb f 1 then Plain (DArray true 2 3) else Boxed (DSeq false d) (Some "Sum") None).
Definition ex_types order := examine_factor_types Nat.eqb ex_eval (fun _ => None) ex_na order (fun _ => 0) (@rev pval) [0; 1; 2].
Definition ex_chunks := [[VStr "b"; VNan 7]; [VInt 3; VStr "a"; VNone]; [VStr "b"; VFloat 3]].
(** Hypotheses of [factor_types], [levels_cover_data]: three factors, two orders of visiting. *)
Example factor_types_example :
  ex_types (fun _ l => l) ex_chunks = Ok ([(1, 3)], [(0, ([VInt 3; VStr "a"; VStr "b"], None)); (2, ([VInt 3; VStr "a"; VStr "b"], Some "Sum"))]) /\
  ex_types (fun _ l => rev l) ex_chunks = Ok ([(1, 3)], [(2, ([VInt 3; VStr "a"; VStr "b"], Some "Sum")); (0, ([VInt 3; VStr "a"; VStr "b"], None))]) /\
  ex_types (fun _ l => l) [concat ex_chunks] = Ok ([(1, 3)], [(0, ([VInt 3; VStr "a"; VStr "b"], None)); (2, ([VInt 3; VStr "a"; VStr "b"], Some "Sum"))]).
Proof. vm_compute. auto. Qed.
Example levels_cover_example : starts_categorical ex_eval 0 ex_chunks /\ data_of ex_eval 0 ex_chunks ex_chunks /\ zero_one_pure ex_na (concat ex_chunks) /\
  Forall (usable ex_na) (concat ex_chunks) /\ levels_exact ex_na (concat ex_chunks) [VInt 3; VStr "a"; VStr "b"].
Proof.
  split; [eexists _, _, _; split; [reflexivity|split; reflexivity]|].
  assert (D : data_of ex_eval 0 ex_chunks ex_chunks).
  { repeat constructor; eexists; (split; [reflexivity|]); constructor; try constructor; try discriminate; intros [a [b H]]; discriminate. }
  split; [exact D|].
  assert (P : zero_one_pure ex_na (concat ex_chunks)).
  { apply pure_iff. intros [v [Hv [_ [H|[[b ->] _]]]]]; cbn in Hv; exfalso; repeat (destruct Hv as [Hv|Hv]; [try discriminate; subst v; discriminate|]); exact Hv. }
  split; [exact P|]. split.
  { repeat (apply Forall_cons; [split; [intros z Hz _; try discriminate; injection Hz as <-; vm_compute; reflexivity|right; reflexivity]|]). constructor. }
  destruct (levels_cover_data string nat (list pval) Nat.eqb ex_eval (fun _ => None) ex_na (fun _ l => l) (fun _ => 0) (@rev pval) [0; 1; 2] ex_chunks _ _ 0 ex_chunks Nat.eqb_eq (fun _ l => Permutation_refl l) (fun l => Permutation_sym (Permutation_rev l)) ltac:(repeat constructor; cbn; intuition discriminate) (proj1 factor_types_example)) as [levels [c [E L]]]; auto.
  - now left.
  - eexists _, _, _; split; [reflexivity|split; reflexivity].
  - cbn in E. injection E as <- <-. exact L.
Qed.
(** Hypotheses of [category_codes] and [category_codes_total]: repeated values, missing ones, and numbers of different types. *)
Example category_codes_example :
  let l := [VStr "a"; VNan 3; VFloat 3; VBool true; VStr "nan"; VNone; VInt 3] in
  let levels := [VInt 1; VInt 3; VStr "a"] in
  @categorical_to_int unit (Plain (DSeq false l)) levels ex_na None = Ok [2; -1; 1; 0; -1; -1; 1]%Z /\
  forallb hashable levels = true /\ Forall (usable ex_na) l /\
  @categorical_to_int unit (Plain (DBools 1 [true; false])) [VBool false; VBool true] ex_na None = Ok [1; 0]%Z /\
  @categorical_to_int unit (Plain (DSeq false [VStr "c"])) levels ex_na (Some (mkOrigin "x" 0 1)) =
    Err (PatsyError "Error converting data to categorical: observation does not match any of the expected levels" (Some (mkOrigin "x" 0 1))).
Proof.
  split; [vm_compute; reflexivity|]. split; [reflexivity|]. split; [|split; vm_compute; reflexivity].
  repeat (apply Forall_cons; [split; [intros z Hz _; try discriminate; injection Hz as <-; vm_compute; reflexivity|right; reflexivity]|]). constructor.
Qed.
(** Hypotheses of [tuple_levels_sorted] and [numerical_or_categorical]. *)
Example tuples_example :
  let l := [VTuple [VInt 2; VStr "a"]; VTuple [VInt 1; VStr "b"]; VTuple [VBool true; VStr "a"]] in
  Forall (tuple_of [KNumber; KText]) l /\ same_levels l (rev l) /\ sort_levels (fun _ => 0) l = [VTuple [VBool true; VStr "a"]; VTuple [VInt 1; VStr "b"]; VTuple [VInt 2; VStr "a"]].
Proof.
  split; [|split; [|vm_compute; reflexivity]].
  - repeat (apply Forall_cons; [eexists; split; [reflexivity|]; constructor; [split; [cbn; discriminate|discriminate]|constructor; [eexists; reflexivity|constructor]]|]). constructor.
  - apply same_levels_keys. split; [repeat constructor; cbn; intuition discriminate|]. split; [repeat constructor; cbn; intuition discriminate|]. intros k. unfold keys. rewrite map_rev. apply in_rev.
Qed.
Example numerical_example : numerical (C := string) (Plain (DArray true 2 3)) 3 /\ too_deep (C := string) (Plain (DArray true 3 3)) /\ ~ (exists n, numerical (C := string) (Plain (DBools 1 [true])) n).
Proof. split; [repeat constructor|]. split; [repeat constructor|]. intros [n H]. inversion H. Qed.
(** Hypotheses of [levels_sorted], [levels_order] and [levels_order_plain]. *)
Example levels_order_example :
  let l := [VStr "b"; VInt 10; VNone; VFloat (1 # 2); VStr "B"; VInf true; VObj "Thing" 4 true] in
  Forall sortable l /\ addresses (fun v => match v with VObj _ i _ => i | _ => 0 end) l /\ same_levels l (rev l) /\
  sort_levels (fun v => match v with VObj _ i _ => i | _ => 0 end) (rev l) = [VInf true; VFloat (1 # 2); VInt 10; VNone; VObj "Thing" 4 true; VStr "B"; VStr "b"].
Proof.
  cbv zeta. split; [repeat constructor; discriminate|]. split.
  - intros a b Ha Hb Oa Ob E. cbn in Ha, Hb. repeat (destruct Ha as [Ha|Ha]; [subst a; try contradiction|]); try contradiction; repeat (destruct Hb as [Hb|Hb]; [subst b; try contradiction|]); try contradiction; try reflexivity; discriminate.
  - split; [|vm_compute; reflexivity]. apply same_levels_keys. split; [|split].
    + vm_compute. repeat constructor; cbn; intuition discriminate.
    + vm_compute. repeat constructor; cbn; intuition discriminate.
    + intros k. unfold keys. rewrite map_rev, <- in_rev. tauto.
Qed.
