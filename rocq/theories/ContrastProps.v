(** C38-C40: the built-in contrast codings. *)
From Coq Require Import Sorted Permutation.
From Verif Require Import Base PySort NumModel ContrastModel RankSpec RankProofs RankTopProofs ContrastSpec ContrastProofs ContrastMatProofs
  ContrastTopProofs RedundancyModel RedundancySpec RedundancyProps RankProps.
Open Scope nat_scope.

(** C40. *)
Theorem reference_level_lookup : forall (L : Type) (leqb : L -> L -> bool) as_int levels ref,
  match get_level leqb as_int levels ref with
  | Ok i => i < length levels /\ forall j, level_at leqb as_int levels ref j <-> j = i
  | Err e => is_patsy_error e = true /\ forall j, ~ level_at leqb as_int levels ref j
  end.
Proof.
  intros L leqb as_int levels ref. pose proof (get_level_lemma leqb as_int levels ref) as H.
  destruct (get_level leqb as_int levels ref) as [i|e]; [|exact H]. destruct H as [H Hi]. split; [exact Hi|]. intros j. split.
  - intros Hj. exact (level_at_unique leqb as_int levels ref j i Hj H).
  - intros ->. exact H.
Qed.
Print Assumptions reference_level_lookup.

(** Levels that are integers or strings; a level equal to the integer beats the position. *)
Definition zlevel := (Z + string)%type.
Definition zl_eqb (a b : zlevel) : bool :=
  match a, b with inl x, inl y => Z.eqb x y | inr x, inr y => String.eqb x y | _, _ => false end.
Definition zl_int (a : zlevel) : option Z := match a with inl z => Some z | inr _ => None end.
Definition zl_str (a : zlevel) : string := match a with inl z => "n" | inr s => s end.
Example level_name : get_level zl_eqb zl_int [inr "a"; inr "b"; inr "c"]%string (inr "b"%string) = Ok 1. Proof. reflexivity. Qed.
Example level_negative : get_level zl_eqb zl_int [inr "a"; inr "b"; inr "c"]%string (inl (-1)%Z) = Ok 2. Proof. reflexivity. Qed.
Example level_equal_wins : get_level zl_eqb zl_int [inl 3; inl 0; inl 1]%Z (inl 0%Z) = Ok 1. Proof. reflexivity. Qed.
Example level_bad : exists m, get_level zl_eqb zl_int [inr "a"; inr "b"]%string (inl 2%Z) = Err (PatsyError m None). Proof. eexists. reflexivity. Qed.

(** C38: entries and names of the reduced codings, entries of the full codings. *)
Theorem builtin_codings_entries : forall (L : Type) (leqb : L -> L -> bool) as_int readable argsort b levels r,
  sorts argsort -> levels <> [] -> ref_of leqb as_int b levels r ->
  let n := length levels in
  exists cr cf,
    code_without_intercept leqb as_int readable argsort b levels = Ok cr /\
    matrix_is n (n - 1) (entry_of b n r) (cm_matrix cr) /\
    suffixes_are readable (prefix_of b) levels (named_of b r) (n - 1) (cm_suffixes cr) /\
    code_with_intercept leqb as_int readable argsort b levels = Ok cf /\
    matrix_is n n (match b with Treatment _ => kron 0%Qc 1%Qc | _ => ones_first (entry_of b n r) end) (cm_matrix cf) /\
    length (cm_suffixes cf) = n.
Proof.
  intros L leqb as_int readable argsort b levels r Hs Hne Hr n.
  destruct (reduced_lemma leqb as_int readable argsort Hs b levels r Hne Hr) as [cr [E1 [H1 H2]]].
  destruct (full_lemma leqb as_int readable argsort Hs b levels r Hne Hr) as [cf [E2 H3]].
  exists cr, cf. split; [exact E1|]. split; [exact H1|]. split; [exact H2|]. split; [exact E2|]. split; [exact H3|].
  exact (full_suffix_length leqb as_int readable argsort b levels cf Hne E2).
Qed.
Print Assumptions builtin_codings_entries.

Theorem builtin_codings_full_names : forall (L : Type) (leqb : L -> L -> bool) as_int readable argsort b levels r,
  sorts argsort -> levels <> [] -> ref_of leqb as_int b levels r ->
  exists cr cf, code_without_intercept leqb as_int readable argsort b levels = Ok cr /\
    code_with_intercept leqb as_int readable argsort b levels = Ok cf /\
    full_names readable b levels (cm_suffixes cr) (cm_suffixes cf).
Proof. intros L leqb as_int readable argsort b levels r Hs. exact (full_names_lemma leqb as_int readable argsort Hs b levels r). Qed.
Print Assumptions builtin_codings_full_names.

Theorem builtin_codings_full_rank : forall (L : Type) (leqb : L -> L -> bool) as_int readable argsort b levels r,
  sorts argsort -> levels <> [] -> ref_of leqb as_int b levels r ->
  exists cr cf, code_without_intercept leqb as_int readable argsort b levels = Ok cr /\
    code_with_intercept leqb as_int readable argsort b levels = Ok cf /\
    length (cm_suffixes cr) = length levels - 1 /\
    qinvertible (length levels) (with_const 1%Qc (get (cm_matrix cr))) /\
    qinvertible (length levels) (get (cm_matrix cf)).
Proof. intros L leqb as_int readable argsort b levels r Hs. exact (builtin_full_rank_lemma leqb as_int readable argsort Hs b levels r). Qed.
Print Assumptions builtin_codings_full_rank.

Theorem builtin_codings_bad_reference : forall (L : Type) (leqb : L -> L -> bool) as_int readable argsort b levels,
  levels <> [] -> (forall r, ~ ref_of leqb as_int b levels r) ->
  exists m, code_without_intercept leqb as_int readable argsort b levels = Err (PatsyError m None).
Proof. intros L leqb as_int readable argsort. exact (builtin_error_lemma leqb as_int readable argsort). Qed.
Print Assumptions builtin_codings_bad_reference.

(** The columns of Sum, Helmert and Diff codings sum to zero. *)
Theorem builtin_codings_sum_to_zero : forall (L : Type) (leqb : L -> L -> bool) as_int readable argsort b levels r cr,
  sorts argsort -> levels <> [] -> ref_of leqb as_int b levels r ->
  match b with Treatment _ => False | _ => True end ->
  code_without_intercept leqb as_int readable argsort b levels = Ok cr ->
  columns_sum_to_zero (length levels) (get (cm_matrix cr)).
Proof.
  intros L leqb as_int readable argsort b levels r cr Hs Hne Hr Hb E.
  destruct (reduced_lemma leqb as_int readable argsort Hs b levels r Hne Hr) as [c [E' [[_ [_ H]] _]]].
  rewrite E in E'. injection E' as <-. pose proof (ref_lt leqb as_int readable b levels r Hne Hr) as Hlt.
  assert (H0 : 0 < length levels) by (destruct levels; [congruence|cbn; lia]).
  intros k Hk. rewrite (qsum_ext _ (fun i => entry_of b (length levels) r i k)) by (intros i Hi; apply in_seq in Hi; apply H; lia).
  destruct b; cbn in *; [contradiction|now apply sum_columns|now apply helmert_columns|now apply diff_columns].
Qed.
Print Assumptions builtin_codings_sum_to_zero.

(** C39: what the coefficients mean. *)
Theorem builtin_codings_coefficients : forall (L : Type) (leqb : L -> L -> bool) as_int readable argsort b levels r cr mu b0 (beta : nat -> Qc),
  sorts argsort -> levels <> [] -> ref_of leqb as_int b levels r ->
  code_without_intercept leqb as_int readable argsort b levels = Ok cr ->
  let n := length levels in
  (fits n (get (cm_matrix cr)) mu b0 beta <->
   match b with
   | Treatment _ => b0 = mu r /\ forall k, k < n - 1 -> beta k = (mu (other r k) - mu r)%Qc
   | Sum _ => b0 = mean n mu /\ forall k, k < n - 1 -> beta k = (mu (other r k) - mean n mu)%Qc
   | Helmert => b0 = mean n mu /\ forall k, k < n - 1 -> beta k = ((mu (S k) - mean (S k) mu) / qn (S (S k)))%Qc
   | Diff => b0 = mean n mu /\ forall k, k < n - 1 -> beta k = (mu (S k) - mu k)%Qc
   end).
Proof.
  intros L leqb as_int readable argsort b levels r cr mu b0 beta Hs Hne Hr E n.
  destruct (reduced_lemma leqb as_int readable argsort Hs b levels r Hne Hr) as [c [E' [[_ [_ H]] _]]].
  rewrite E in E'. injection E' as <-. pose proof (ref_lt leqb as_int readable b levels r Hne Hr) as Hlt. fold n in H, Hlt.
  assert (H0 : 0 < n) by (subst n; destruct levels; [congruence|cbn; lia]).
  transitivity (fits n (entry_of b n r) mu b0 beta).
  { unfold fits. split; intros F i Hi; rewrite (F i Hi); f_equal; apply qsum_ext; intros k Hk; apply in_seq in Hk; rewrite H by lia; reflexivity. }
  destruct b; cbn [entry_of] in *; [now apply treatment_coef|now apply sum_coef|now apply helmert_coef|now apply diff_coef].
Qed.
Print Assumptions builtin_codings_coefficients.

(** A sorting permutation for the examples: insertion sort of the positions. *)
Definition ex_argsort (l : list nat) : list nat := py_sort (fun i j => nth i l 0 <? nth j l 0) (seq 0 (length l)).
Lemma ex_argsort_sorts : sorts ex_argsort.
Proof.
  intros l. unfold ex_argsort. split; [symmetry; apply py_sort_perm|].
  assert (H : StronglySorted (le (fun i j => nth i l 0 <? nth j l 0)) (py_sort (fun i j => nth i l 0 <? nth j l 0) (seq 0 (length l)))).
  { apply py_sort_sorted; unfold le; intros *; rewrite ?Nat.ltb_lt, ?Nat.ltb_ge; lia. }
  induction H as [|x r H IH HF]; cbn; constructor; [exact IH|]. apply Forall_map. eapply Forall_impl; [|exact HF].
  unfold le, Nat.le. intros y Hy. cbn beta in Hy. rewrite Nat.ltb_ge in Hy. exact Hy.
Qed.

Definition abc : list zlevel := [inr "a"; inr "b"; inr "c"]%string.
Example sum_ref : ref_of zl_eqb zl_int (Sum (Some (inr "b"%string))) abc 1.
Proof. left. exists (inr "b"%string). split; [reflexivity|]. split; [reflexivity|]. intros [|j] z Hj; [intros [= <-]; reflexivity|lia]. Qed.
Example sum_codes : exists c, code_without_intercept zl_eqb zl_int zl_str ex_argsort (Sum (Some (inr "b"%string))) abc = Ok c /\
  cm_matrix c = [[qz 1; qz 0]; [qz (-1); qz (-1)]; [qz 0; qz 1]] /\ cm_suffixes c = ["[S.a]"; "[S.c]"]%string.
Proof. eexists. vm_compute. repeat split; reflexivity. Qed.
Example diff_codes : exists c, code_without_intercept zl_eqb zl_int zl_str ex_argsort Diff abc = Ok c /\
  matrix_is 3 2 (fun i k => Q2Qc (nth k (nth i [[- (2#3); - (1#3)]; [1#3; - (1#3)]; [1#3; 2#3]]%Q []) 0%Q)) (cm_matrix c).
Proof.
  eexists. split; [vm_compute; reflexivity|]. split; [reflexivity|]. split; [repeat constructor|].
  intros [|[|[|i]]] [|[|k]] Hi Hk; try lia; apply Qc_is_canon; vm_compute; reflexivity.
Qed.
Example helmert_codes : exists c, code_without_intercept zl_eqb zl_int zl_str ex_argsort Helmert abc = Ok c /\
  cm_matrix c = [[qz (-1); qz (-1)]; [qz 1; qz (-1)]; [qz 0; qz 2]] /\ cm_suffixes c = ["[H.b]"; "[H.c]"]%string.
Proof. eexists. vm_compute. repeat split; reflexivity. Qed.
Example helmert_full_codes : exists c, code_with_intercept zl_eqb zl_int zl_str ex_argsort Helmert abc = Ok c /\
  cm_suffixes c = ["[H.intercept]"; "[H.b]"; "[H.c]"]%string.
Proof. eexists. vm_compute. split; reflexivity. Qed.
Example bad_ref : forall r, ~ ref_of zl_eqb zl_int (Treatment (Some (inl 7%Z))) abc r.
Proof.
  intros r [[y [H1 [H2 _]]]|[_ [z [[= <-] [H1 H2]]]]].
  - apply nth_error_In in H1. cbn in H1. destruct H1 as [<-|[<-|[<-|[]]]]; discriminate.
  - cbn in *. lia.
Qed.

(** contrasts.py:537-538 says that in the full-rank Diff coding the intercept is the mean of
    the first level; it is the mean of the level means. *)
Theorem diff_intercept_is_first_level_mean_refuted :
  exists (levels : list zlevel) cr mu b0 beta,
    code_without_intercept zl_eqb zl_int zl_str ex_argsort Diff levels = Ok cr /\
    fits (length levels) (get (cm_matrix cr)) mu b0 beta /\ b0 <> mu 0.
Proof.
  destruct (builtin_codings_full_rank zlevel zl_eqb zl_int zl_str ex_argsort Diff [inr "a"; inr "b"]%string 0 ex_argsort_sorts ltac:(discriminate) I)
    as [cr [_ [E _]]].
  exists [inr "a"; inr "b"]%string, cr, (fun i => qn i), (mean 2 qn), (fun k => (qn (S k) - qn k)%Qc). split; [exact E|]. split.
  - apply (builtin_codings_coefficients zlevel zl_eqb zl_int zl_str ex_argsort Diff [inr "a"; inr "b"]%string 0 cr _ _ _ ex_argsort_sorts ltac:(discriminate) I E). auto.
  - intros H. apply (f_equal this) in H. vm_compute in H. discriminate.
Qed.
Print Assumptions diff_intercept_is_first_level_mean_refuted.

(** C21 for the built-in codings: no contract left. *)
Theorem builtin_design_full_rank : forall (F L : Type) (feqb : F -> F -> bool) hash is_numeric terms
    (leqb : L -> L -> bool) as_int readable argsort (coding : F -> builtin L) (levels : F -> list L) (cr cf : F -> contrast) ok,
  sorts argsort ->
  (forall a b, feqb a b = true <-> a = b) -> collision_free hash (List.concat terms) -> Forall (@NoDup F) terms ->
  let cats := map (filter (fun f => negb (is_numeric f))) terms in
  let all := List.concat cats in
  let nlev f := length (levels f) in
  let ncol f (full : bool) := length (cm_suffixes (if full then cf f else cr f)) in
  let M f (full : bool) := get (cm_matrix (if full then cf f else cr f)) in
  (forall f, In f all -> levels f <> [] /\
     code_without_intercept leqb as_int readable argsort (coding f) (levels f) = Ok (cr f) /\
     code_with_intercept leqb as_int readable argsort (coding f) (levels f) = Ok (cf f)) ->
  complete_data nlev all ok ->
  exists css, pick_all feqb hash terms is_numeric [] = Ok css /\
    let cols := flat_map (coding_cols 1%Qc Qcmult ncol M) (List.concat css) in
    independent 0%Qc Qcplus Qcmult ok cols /\
    forall Y, in_span 0%Qc Qcplus Qcmult ok cols Y <-> model_space 0%Qc Qcplus nlev all cats ok Y.
Proof.
  intros F L feqb hash is_numeric terms leqb as_int readable argsort coding levels cr cf ok Hs Hf Hc Hn cats all nlev ncol M Hcod Hdata.
  apply (design_columns_full_rank Qc 0%Qc 1%Qc Qcplus Qcmult Qcminus Qcopp F feqb hash is_numeric terms nlev ncol M ok Qcrt Hf Hc Hn); [|exact Hdata].
  intros f Hin. destruct (Hcod f Hin) as [Hne [E1 E2]].
  destruct (ref_exists leqb as_int readable argsort (coding f) (levels f) (cr f) Hne E1) as [r Hr].
  destruct (builtin_codings_entries L leqb as_int readable argsort (coding f) (levels f) r Hs Hne Hr) as [cr' [cf' [E1' [_ [[Hl _] [E2' [_ Hl2]]]]]]].
  destruct (builtin_codings_full_rank L leqb as_int readable argsort (coding f) (levels f) r Hs Hne Hr) as [cr'' [cf'' [E1'' [E2'' [_ [Hi1 Hi2]]]]]].
  rewrite E1 in E1', E1''. rewrite E2 in E2', E2''. injection E1' as <-. injection E2' as <-. injection E1'' as <-. injection E2'' as <-.
  assert (0 < length (levels f)) by (destruct (levels f); [congruence|cbn; lia]).
  unfold good_coding, ncol, M, nlev. split; [exact Hl2|]. split; [rewrite Hl; lia|]. split; assumption.
Qed.
Print Assumptions builtin_design_full_rank.

(** Two factors, three levels each: one Sum coded, one Helmert coded. *)
Definition ex_coding (f : nat) : builtin zlevel := if f =? 0 then Sum (Some (inr "b"%string)) else Helmert.
Definition ex_code (full : bool) (f : nat) : contrast :=
  match (if full then @code_with_intercept zlevel else @code_without_intercept zlevel) zl_eqb zl_int zl_str ex_argsort (ex_coding f) abc with
  | Ok c => c | Err _ => mkContrast [] [] end.
Example builtin_rank_ex : exists css, pick_all Nat.eqb bithash [[]; [0]; [0; 1]] (fun _ => false) [] = Ok css /\
  independent 0%Qc Qcplus Qcmult (fun rho => rho 0 < 3 /\ rho 1 < 3)
    (flat_map (coding_cols 1%Qc Qcmult (fun f b => length (cm_suffixes (if b then ex_code true f else ex_code false f)))
      (fun f b => get (cm_matrix (if b then ex_code true f else ex_code false f)))) (List.concat css)).
Proof.
  destruct (builtin_design_full_rank nat zlevel Nat.eqb bithash (fun _ => false) [[]; [0]; [0; 1]] zl_eqb zl_int zl_str ex_argsort ex_coding
    (fun _ => abc) (ex_code false) (ex_code true) (fun rho => rho 0 < 3 /\ rho 1 < 3) ex_argsort_sorts Nat.eqb_eq (bithash_collision_free _)) as [css [E [H _]]].
  - repeat constructor; cbn; intuition discriminate.
  - intros f Hf. cbn in Hf. assert (f = 0 \/ f = 1) as [->| ->] by intuition; (split; [discriminate|]); vm_compute; split; reflexivity.
  - split.
    + intros rho [H0 H1] f Hf. cbn in Hf. change (length abc) with 3. intuition; subst; lia.
    + intros rho H. exists rho. split; [|auto]. split; [apply (H 0)|apply (H 1)]; cbn; auto.
  - exists css. split; [exact E|exact H].
Qed.
