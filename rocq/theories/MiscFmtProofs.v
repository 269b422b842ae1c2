From Coq Require Import Ascii ZArith QArith Lqa.
From Verif Require Import Base BuildModel MiscModel MiscSpec.
Open Scope nat_scope.
Open Scope string_scope.
Open Scope list_scope.
Notation app := String.append.

Lemma sapp_assoc a b c : app (app a b) c = app a (app b c).
Proof. induction a; cbn; [reflexivity|now f_equal]. Qed.
Lemma sapp_nil a : app a "" = a. Proof. induction a; cbn; [reflexivity|now f_equal]. Qed.
Lemma sapp_length a b : String.length (app a b) = String.length a + String.length b.
Proof. induction a; cbn; auto. Qed.
Lemma chars_app a b : list_ascii_of_string (app a b) = (list_ascii_of_string a ++ list_ascii_of_string b)%list.
Proof. induction a; cbn; [reflexivity|now f_equal]. Qed.
Lemma zeros_length z : String.length (zeros_str z) = z. Proof. induction z; cbn; auto. Qed.

Lemma ends_with_iff c s : ends_with c s = true <-> s = app (chop s) (String c "").
Proof.
  induction s as [|d r IH]; [split; discriminate|]. destruct r as [|e r'].
  - cbn. split; intros H; [apply Ascii.eqb_eq in H; now subst|injection H as ->; apply Ascii.eqb_refl].
  - change (ends_with c (String d (String e r'))) with (ends_with c (String e r')).
    change (chop (String d (String e r'))) with (String d (chop (String e r'))). rewrite IH. split; intros H.
    + cbn [app]. f_equal. exact H.
    + cbn [app] in H. now injection H.
Qed.
Lemma chop_app s c : chop (app s (String c "")) = s.
Proof. induction s as [|d r IH]; [reflexivity|]. cbn [app]. cbn [chop]. destruct (app r (String c "")) eqn:E; [destruct r; discriminate|]. now rewrite <- E, IH, <- ?E || (rewrite IH; reflexivity). Qed.

(** * The loop *)
Definition entry (col : list (bool * string)) : Prop := existsb fst col = true.
Lemma entry_chop col : entry (map (fun ms : bool * string => if fst ms then (true, chop (snd ms)) else ms) col) <-> entry col.
Proof.
  unfold entry. induction col as [|[b s] col IH]; cbn; [reflexivity|]. destruct b; cbn; [reflexivity|exact IH].
Qed.
Definition masked_min (col : list (bool * string)) (n : nat) : Prop := exists s, In (true, s) col /\ String.length s <= n.

(** The relation between the given strings and those in the loop. *)
Inductive state (R : string -> string -> Prop) : list (bool * string) -> list (bool * string) -> Prop :=
| st_nil : state R [] []
| st_mask : forall s s' l l', R s s' -> state R l l' -> state R ((true, s) :: l) ((true, s') :: l')
| st_plain : forall s l l', state R l l' -> state R ((false, s) :: l) ((false, s) :: l').
Definition ends_all (c : ascii) (col : list (bool * string)) : bool :=
  forallb (fun ms : bool * string => negb (fst ms) || ends_with c (snd ms)) col.
Definition chop_all (col : list (bool * string)) : list (bool * string) :=
  map (fun ms : bool * string => if fst ms then (true, chop (snd ms)) else ms) col.
Lemma state_chop (R R' : string -> string -> Prop) c l l' : state R l l' -> ends_all c l' = true ->
  (forall s t, R s (app t (String c "")) -> R' s t) -> state R' l (chop_all l').
Proof.
  intros H. induction H as [|s s' l l' HR H IH|s l l' H IH]; intros E HH; cbn in *; try constructor.
  - apply andb_true_iff in E as [E1 E2]. apply ends_with_iff in E1. apply HH. now rewrite <- E1.
  - apply andb_true_iff in E as [E1 E2]. auto.
  - auto.
Qed.
Lemma contains_app c a b : contains c (app a b) <-> contains c a \/ contains c b.
Proof. unfold contains. rewrite chars_app, in_app_iff. reflexivity. Qed.
Lemma zeros_snoc z : app (String "0" "") (zeros_str z) = zeros_str (S z).
Proof. reflexivity. Qed.

Definition one_dot (l : list (bool * string)) : Prop := forall s, In (true, s) l -> count_char "." s = 1.
Lemma count_app c a b : count_char c (app a b) = count_char c a + count_char c b.
Proof. unfold count_char. rewrite chars_app. apply count_occ_app. Qed.
Lemma count_zeros z : count_char "." (zeros_str z) = 0.
Proof. unfold count_char. induction z; cbn; auto. Qed.
Lemma count_not_in c s : count_char c s = 0 <-> ~ contains c s.
Proof. unfold count_char, contains. symmetry. apply count_occ_not_In. Qed.
Lemma state_in R l l' s : state R l l' -> In (true, s) l -> exists s', In (true, s') l' /\ R s s'.
Proof.
  intros H. induction H as [|s0 s' l l' HR H IH|s0 l l' H IH]; intros HI; cbn in *; [easy| |].
  - destruct HI as [[= ->]|HI]; [eauto|]. destruct (IH HI) as (s1 & ? & ?). eauto.
  - destruct HI as [[=]|HI]. destruct (IH HI) as (s1 & ? & ?). eauto.
Qed.
Lemma state_in_r R l l' s' : state R l l' -> In (true, s') l' -> exists s, In (true, s) l /\ R s s'.
Proof.
  intros H. induction H as [|s0 s0' l l' HR H IH|s0 l l' H IH]; intros HI; cbn in *; [easy| |].
  - destruct HI as [[= ->]|HI]; [eauto|]. destruct (IH HI) as (s1 & ? & ?). eauto.
  - destruct HI as [[=]|HI]. destruct (IH HI) as (s1 & ? & ?). eauto.
Qed.
Lemma ends_all_in c col s : ends_all c col = true -> In (true, s) col -> ends_with c s = true.
Proof. unfold ends_all. rewrite forallb_forall. intros H HI. apply H in HI. exact HI. Qed.

(** What the result looks like: trimmed alike, and no further. *)
Definition stripped (l l' : list (bool * string)) : Prop :=
  exists z dot, state (trimmed z dot) l l' /\ (dot = false -> ends_all "0" l' = false /\ ends_all "." l' = false).
Lemma point_stage fuel l l' z : one_dot l -> (exists s, In (true, s) l) -> state (trimmed z false) l l' ->
  ends_all "0" l' = false -> 2 <= fuel ->
  exists r, strip_loop fuel "." l' = Ok r /\ stripped l r.
Proof.
  intros H1 (s & Hs) HS E0 Hf. destruct fuel as [|[|fuel]]; [lia|lia|]. cbn [strip_loop]. fold (ends_all "." l').
  destruct (ends_all "." l') eqn:E.
  - fold (chop_all l'). fold (ends_all "." (chop_all l')).
    assert (HS' : state (trimmed z true) l (chop_all l')).
    { apply (state_chop _ _ _ _ _ HS E). cbn. intros s0 t [H _]. now rewrite sapp_assoc in H. }
    assert (E' : ends_all "." (chop_all l') = false).
    { destruct (ends_all "." (chop_all l')) eqn:X; auto. exfalso.
      destruct (state_in _ _ _ _ HS' Hs) as (s' & Hs' & T). pose proof (ends_all_in _ _ _ X Hs') as Y.
      apply ends_with_iff in Y. cbn in T. specialize (H1 s Hs). rewrite T, Y in H1.
      rewrite !count_app in H1. unfold count_char in H1 at 2 3. cbn in H1. lia. }
    rewrite E'. cbn [Ascii.eqb Bool.eqb]. exists (chop_all l'). split; [reflexivity|]. exists z, true. split; [exact HS'|discriminate].
  - cbn [Ascii.eqb Bool.eqb]. exists l'. split; [reflexivity|]. exists z, false. auto.
Qed.
Lemma zero_stage fuel : forall l l' z, one_dot l -> (exists s, In (true, s) l) -> state (trimmed z false) l l' ->
  (exists s, In (true, s) l' /\ String.length s + 3 <= fuel) ->
  exists r, strip_loop fuel "0" l' = Ok r /\ stripped l r.
Proof.
  induction fuel as [|fuel IH]; intros l l' z H1 Hl HS (s & Hs & Hf); [lia|]. cbn [strip_loop]. fold (ends_all "0" l').
  destruct (ends_all "0" l') eqn:E.
  - apply (IH l _ (S z)); auto.
    + apply (state_chop _ _ _ _ _ HS E). cbn. intros s0 t [H C]. rewrite sapp_assoc in H. split; [exact H|].
      apply contains_app in C as [C|[C|[]]]; [exact C|discriminate].
    + exists (chop s). pose proof (ends_all_in _ _ _ E Hs) as Y. apply ends_with_iff in Y. split.
      * apply in_map_iff. exists (true, s). auto.
      * rewrite Y in Hf. rewrite sapp_length in Hf. cbn in Hf. lia.
  - cbn [Ascii.eqb Bool.eqb]. eapply point_stage; eauto. lia.
Qed.

Lemma simple_plain s : simple_float s = true <-> plain_number s.
Proof.
  unfold simple_float, plain_number, contains. rewrite andb_true_iff, forallb_forall, existsb_exists.
  assert (C : forall c, existsb (Ascii.eqb c) (list_ascii_of_string "+-0123456789.") = true <-> c = "."%char \/ c = "+"%char \/ c = "-"%char \/ digit c <> None).
  { intros c. destruct c as [[] [] [] [] [] [] [] []]; vm_compute; intuition (try discriminate; try congruence). }
  split.
  - intros [A (c & Hc & E)]. apply Ascii.eqb_eq in E. subst c. split; [exact Hc|]. intros c Hc'. apply C, A, Hc'.
  - intros [A B]. split; [intros c Hc; apply C, B, Hc|]. exists "."%char. split; [exact A|reflexivity].
Qed.
Lemma simple_contains s : simple_float s = true -> contains "." s.
Proof.
  unfold simple_float. intros H. apply andb_true_iff in H as [_ H]. apply existsb_exists in H as (c & Hc & E).
  apply Ascii.eqb_eq in E. now subst.
Qed.
Lemma max_length col s : In s col -> String.length s <= fold_right Nat.max 0 (map String.length col).
Proof. induction col as [|x col IH]; cbn; [easy|]. intros [->|H]; [lia|]. specialize (IH H). lia. Qed.
Lemma state_refl col : state (trimmed 0 false) (map (fun s => (simple_float s, s)) col) (map (fun s => (simple_float s, s)) col).
Proof.
  induction col as [|s col IH]; cbn [map]; [constructor|]. destruct (simple_float s) eqn:E; constructor; auto.
  cbn. rewrite sapp_nil. split; auto. now apply simple_contains.
Qed.
Definition masked (col : list string) : list (bool * string) := map (fun s => (simple_float s, s)) col.
Lemma format_stripped col : (forall s, In s col -> count_char "." s <= 1) ->
  existsb simple_float col = true ->
  exists r, format_column col = Ok (map snd r) /\ stripped (masked col) r.
Proof.
  intros H1 H. unfold format_column. fold (masked col).
  assert (E : existsb fst (masked col) = true).
  { unfold masked. clear H1. induction col as [|s col IH]; cbn in *; auto. destruct (simple_float s); auto. }
  rewrite E. apply existsb_exists in H as (s & Hs & Hf).
  assert (HI : In (true, s) (masked col)) by (apply in_map_iff; exists s; rewrite Hf; auto).
  destruct (zero_stage (fold_right Nat.max 0 (map String.length col) + 3) (masked col) (masked col) 0) as (r & Er & Hr).
  - intros s0 Hs0. apply in_map_iff in Hs0 as (s1 & [= E1 <-] & Hs1). specialize (H1 s1 Hs1).
    apply simple_contains in E1. destruct (count_char "." s1) as [|[|]] eqn:X; auto; [|lia].
    now apply count_not_in in X.
  - eauto.
  - apply state_refl.
  - exists s. split; auto. pose proof (max_length col s Hs). lia.
  - rewrite Er. cbn [bind]. eauto.
Qed.
Lemma state_forall2 R col r : state R (masked col) r ->
  Forall2 (fun s s' => if simple_float s then R s s' else s' = s) col (map snd r).
Proof.
  revert r. induction col as [|s col IH]; intros r H; cbn [masked map] in H.
  - inversion H; subst. constructor.
  - destruct (simple_float s) eqn:E; inversion H; subst; cbn [map snd]; constructor; rewrite ?E; auto.
Qed.

(** * The numbers *)
Lemma digits_app a b acc : digits acc (app a b) = match digits acc a with Some x => digits x b | None => None end.
Proof. revert acc. induction a as [|c a IH]; intros acc; cbn; [reflexivity|]. destruct (digit c); auto. Qed.
Lemma digits_zeros z acc : digits acc (zeros_str z) = Some (acc * 10 ^ Z.of_nat z)%Z.
Proof.
  revert acc. induction z as [|z IH]; intros acc; cbn [zeros_str digits].
  - cbn. f_equal. lia.
  - change (digit "0") with (Some 0%Z). cbv beta iota. rewrite IH. f_equal. rewrite Nat2Z.inj_succ, Z.pow_succ_r by lia. lia.
Qed.
Lemma pow10_nz n : ~ (inject_Z (10 ^ Z.of_nat n) == 0)%Q.
Proof. intros H. assert (0 < 10 ^ Z.of_nat n)%Z by (apply Z.pow_pos_nonneg; lia). unfold Qeq, inject_Z in H. cbn in H. lia. Qed.
Lemma decimal_zeros s : forall acc z, contains "." s -> same_number (decimal acc (app s (zeros_str z))) (decimal acc s).
Proof.
  induction s as [|c s IH]; intros acc z H; [easy|]. cbn [app decimal]. destruct (Ascii.eqb c ".") eqn:E.
  - rewrite digits_app. destruct (digits 0 s) as [f|]; [|exact I]. rewrite digits_zeros. cbn.
    rewrite sapp_length, zeros_length, Nat2Z.inj_add, Z.pow_add_r by lia. rewrite !inject_Z_mult.
    pose proof (pow10_nz (String.length s)). pose proof (pow10_nz z). field. auto.
  - destruct H as [H|H]; [subst c; discriminate E|]. destruct (digit c) as [d|]; [|exact I]. now apply IH.
Qed.
Lemma decimal_point s : forall acc z, ~ contains "." s -> same_number (decimal acc (app s (String "." (zeros_str z)))) (decimal acc s).
Proof.
  induction s as [|c s IH]; intros acc z H; cbn [app decimal].
  - rewrite Ascii.eqb_refl, digits_zeros. cbn [same_number]. pose proof (pow10_nz (String.length (zeros_str z))).
    replace (0 * 10 ^ Z.of_nat z)%Z with 0%Z by lia. change (inject_Z 0) with 0%Q. field. auto.
  - destruct (Ascii.eqb c ".") eqn:E; [apply Ascii.eqb_eq in E; subst; exfalso; apply H; now left|].
    destruct (digit c) as [d|]; [|exact I]. apply IH. intros X. apply H. now right.
Qed.
Lemma same_opp a b : same_number a b -> same_number (option_map Qopp a) (option_map Qopp b).
Proof. destruct a, b; cbn; auto. intros ->. reflexivity. Qed.
Lemma same_refl a : same_number a a. Proof. destruct a; cbn; [reflexivity|exact I]. Qed.
Lemma number_app s t (H : forall acc r, (exists h, s = app h r) -> same_number (decimal acc (app r t)) (decimal acc r)) :
  match t with EmptyString => True | String c _ => c = "0"%char \/ c = "."%char end ->
  same_number (number (app s t)) (number s).
Proof.
  intros Ht. destruct s as [|c s].
  - cbn [app]. specialize (H 0%Q "" (ex_intro _ "" eq_refl)). cbn [app] in H. destruct t as [|d t]; [apply same_refl|].
    destruct Ht as [-> | ->]; exact H.
  - pose proof (H 0%Q s (ex_intro _ (String c "") eq_refl)) as H1. pose proof (H 0%Q (String c s) (ex_intro _ "" eq_refl)) as H2.
    cbn [app] in *. unfold number.
    destruct c as [[] [] [] [] [] [] [] []]; try exact H2; auto using same_opp.
Qed.
Lemma trimmed_number z dot s s' : count_char "." s <= 1 -> trimmed z dot s s' -> same_number (number s') (number s).
Proof.
  intros H1 H. assert (S : forall a b, same_number a b -> same_number b a).
  { intros [] []; cbn; auto. intros X. now symmetry. }
  apply S. destruct dot; cbn in H.
  - rewrite H in *. rewrite count_app in H1. unfold count_char in H1 at 2. cbn in H1.
    assert (C : count_char "." s' = 0) by lia. apply count_not_in in C. apply number_app; [|auto].
    intros acc r (h & ->). apply decimal_point. intros X. apply C. apply contains_app. now right.
  - destruct H as [-> H]. rewrite count_app in H1.
    destruct s' as [|c s']; [easy|]. 
    destruct (Ascii.eqb c "+") eqn:Ep; [apply Ascii.eqb_eq in Ep; subst c; destruct H as [H|H]; [discriminate|]; cbn; now apply decimal_zeros|].
    destruct (Ascii.eqb c "-") eqn:Em; [apply Ascii.eqb_eq in Em; subst c; destruct H as [H|H]; [discriminate|]; cbn [app number]; now apply same_opp, decimal_zeros|].
    assert (N : forall t, number (String c t) = decimal 0 (String c t)).
    { intros t. unfold number. destruct c as [[] [] [] [] [] [] [] []]; cbn in Ep, Em; try discriminate; reflexivity. }
    cbn [app]. rewrite !N. change (String c (app s' (zeros_str z))) with (app (String c s') (zeros_str z)). now apply decimal_zeros.
Qed.
