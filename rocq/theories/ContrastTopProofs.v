From Verif Require Import Base NumModel ContrastModel RankSpec RankProofs ContrastSpec ContrastProofs ContrastMatProofs.
Open Scope nat_scope.

Lemma invertible_ext n (A A' : nat -> nat -> Qc) : (forall i j, i < n -> j < n -> A' i j = A i j) -> qinvertible n A -> qinvertible n A'.
Proof.
  intros H [B [H1 H2]]. exists B. split; intros i j Hi Hj;
    [rewrite <- (H1 i j Hi Hj)|rewrite <- (H2 i j Hi Hj)]; apply qsum_ext; intros k Hk; apply in_seq in Hk; rewrite H by lia; reflexivity.
Qed.
Lemma eye_invertible n : qinvertible n (kron 0%Qc 1%Qc).
Proof.
  exists (kron 0%Qc 1%Qc). split; intros i j Hi Hj; rewrite (qsum_kron (fun k => kron 0%Qc 1%Qc i k)) by exact Hj; reflexivity.
Qed.

Section Top.
Context {L : Type} (leqb : L -> L -> bool) (as_int : L -> option Z) (readable : L -> string).
Variable argsort : list nat -> list nat.
Hypothesis Hsort : sorts argsort.

Lemma reduced_lemma b levels r : levels <> [] -> ref_of leqb as_int b levels r ->
  exists c, code_without_intercept leqb as_int readable argsort b levels = Ok c /\
    matrix_is (length levels) (length levels - 1) (entry_of b (length levels) r) (cm_matrix c) /\
    suffixes_are readable (prefix_of b) levels (named_of b r) (length levels - 1) (cm_suffixes c).
Proof.
  intros Hne Hr. destruct b as [ref|omit| |]; cbn in *.
  - destruct (treatment_lemma leqb as_int readable ref levels r Hne Hr) as [c [E [H1 [H2 _]]]]. eauto.
  - destruct (sum_lemma leqb as_int readable omit levels r Hne Hr) as [c [E [H1 [H2 _]]]]. eauto.
  - exact (helmert_lemma readable levels Hne).
  - exact (diff_lemma readable argsort Hsort levels Hne).
Qed.
Lemma full_lemma b levels r : levels <> [] -> ref_of leqb as_int b levels r ->
  exists c, code_with_intercept leqb as_int readable argsort b levels = Ok c /\
    matrix_is (length levels) (length levels)
      (match b with Treatment _ => kron 0%Qc 1%Qc | _ => ones_first (entry_of b (length levels) r) end) (cm_matrix c).
Proof.
  intros Hne Hr. destruct b as [ref|omit| |]; cbn in *.
  - destruct (dummy_lemma readable levels) as [c [E [H1 _]]]. eauto.
  - exact (sum_full_lemma leqb as_int readable omit levels r Hne Hr).
  - exact (helmert_full_lemma readable levels Hne).
  - exact (diff_full_lemma readable argsort Hsort levels Hne).
Qed.
Lemma ref_lt b levels r : levels <> [] -> ref_of leqb as_int b levels r -> match b with Treatment _ | Sum _ => r < length levels | _ => True end.
Proof.
  intros Hne Hr. destruct b as [ref|omit| |]; cbn in *; auto.
  - now destruct (treatment_lemma leqb as_int readable ref levels r Hne Hr) as [c [_ [_ [_ H]]]].
  - now destruct (sum_lemma leqb as_int readable omit levels r Hne Hr) as [c [_ [_ [_ H]]]].
Qed.
Lemma entry_invertible (b : builtin L) n r : 0 < n -> match b with Treatment _ | Sum _ => r < n | _ => True end -> qinvertible n (with_const 1%Qc (entry_of b n r)).
Proof.
  intros Hn Hr. destruct b as [ref|omit| |]; cbn in *; eexists.
  - now apply treatment_inverse.
  - now apply sum_inverse.
  - now apply helmert_inverse.
  - now apply diff_inverse.
Qed.

Lemma builtin_full_rank_lemma b levels r : levels <> [] -> ref_of leqb as_int b levels r ->
  exists cr cf, code_without_intercept leqb as_int readable argsort b levels = Ok cr /\
    code_with_intercept leqb as_int readable argsort b levels = Ok cf /\
    length (cm_suffixes cr) = length levels - 1 /\ 
    qinvertible (length levels) (with_const 1%Qc (get (cm_matrix cr))) /\
    qinvertible (length levels) (get (cm_matrix cf)).
Proof.
  intros Hne Hr. destruct (reduced_lemma b levels r Hne Hr) as [cr [E [[_ [_ H1]] [Hn _]]]].
  destruct (full_lemma b levels r Hne Hr) as [cf [E' [_ [_ H2]]]]. exists cr, cf. split; [exact E|]. split; [exact E'|]. split; [exact Hn|].
  assert (H0 : 0 < length levels) by (destruct levels; [congruence|cbn; lia]).
  pose proof (entry_invertible b (length levels) r H0 (ref_lt b levels r Hne Hr)) as Inv. split.
  - eapply invertible_ext; [|exact Inv]. intros i [|j] Hi Hj; cbn; [reflexivity|]. apply H1; lia.
  - destruct b as [ref|omit| |]; (eapply invertible_ext; [exact H2|]); try exact Inv. apply eye_invertible.
Qed.

(** No other outcome: when the reference does not resolve, PatsyError. *)
Lemma builtin_error_lemma b levels : levels <> [] -> (forall r, ~ ref_of leqb as_int b levels r) ->
  exists m, code_without_intercept leqb as_int readable argsort b levels = Err (PatsyError m None).
Proof.
  intros Hne H. destruct b as [[x|]|[x|]| |]; cbn in H.
  - cbn. unfold treatment_reduced. pose proof (get_level_lemma leqb as_int levels x) as G. destruct (get_level leqb as_int levels x) as [i|e] eqn:E.
    + exfalso. apply (H i). apply G.
    + revert E. unfold get_level. destruct (index_of leqb x levels); [discriminate|]. destruct (as_int x); cbn zeta; [destruct (_ && _); [discriminate|]|]; intros [= <-]; cbn; eauto.
  - exfalso. now apply (H 0).
  - cbn. unfold sum_reduced, sum_contrast, omit_i. pose proof (get_level_lemma leqb as_int levels x) as G. destruct (get_level leqb as_int levels x) as [i|e] eqn:E.
    + exfalso. apply (H i). apply G.
    + revert E. unfold get_level. destruct (index_of leqb x levels); [discriminate|]. destruct (as_int x); cbn zeta; [destruct (_ && _); [discriminate|]|]; intros [= <-]; cbn; eauto.
  - exfalso. now apply (H (length levels - 1)).
  - exfalso. now apply (H 0).
  - exfalso. now apply (H 0).
Qed.
End Top.

(** Meaning of the coefficients. *)
Lemma treatment_coef n r mu b0 b : r < n -> (fits n (treatment_entry r) mu b0 b <-> b0 = mu r /\ forall k, k < n - 1 -> b k = (mu (other r k) - mu r)%Qc).
Proof.
  intros Hr. rewrite (fits_iff n _ _ _ mu b0 b ltac:(lia) (treatment_inverse n r Hr)).
  rewrite (qsum_kron' mu n r Hr). 
  assert (E : forall k, k < n - 1 -> qsum (fun j => treat_B r k j * mu j)%Qc (seq 0 n) = (mu (other r k) - mu r)%Qc).
  { intros k Hk. unfold treat_B. rewrite (qsum_ext _ (fun j => kron 0%Qc 1%Qc j (other r k) * mu j - kron 0%Qc 1%Qc j r * mu j)%Qc) by (intros; ring).
    rewrite qsum_sub, !qsum_kron'; [reflexivity|exact Hr|now apply other_lt]. }
  split; intros [H1 H2]; (split; [exact H1|]); intros k Hk; rewrite H2 by exact Hk; [|symmetry]; now apply E.
Qed.
Lemma inv_mean n mu : 0 < n -> qsum (fun j => / qn n * mu j)%Qc (seq 0 n) = mean n mu.
Proof. intros Hn. rewrite qsum_scale. unfold mean, Qcdiv. ring. Qed.
Lemma sum_coef n r mu b0 b : r < n -> (fits n (sum_entry r) mu b0 b <-> b0 = mean n mu /\ forall k, k < n - 1 -> b k = (mu (other r k) - mean n mu)%Qc).
Proof.
  intros Hr. rewrite (fits_iff n _ _ _ mu b0 b ltac:(lia) (sum_inverse n r Hr)). rewrite inv_mean by lia.
  assert (E : forall k, k < n - 1 -> qsum (fun j => sum_B n r k j * mu j)%Qc (seq 0 n) = (mu (other r k) - mean n mu)%Qc).
  { intros k Hk. unfold sum_B. rewrite (qsum_ext _ (fun j => kron 0%Qc 1%Qc j (other r k) * mu j - / qn n * mu j)%Qc) by (intros; ring).
    rewrite qsum_sub, inv_mean, qsum_kron'; [reflexivity|now apply other_lt|lia]. }
  split; intros [H1 H2]; (split; [exact H1|]); intros k Hk; rewrite H2 by exact Hk; [|symmetry]; now apply E.
Qed.
Lemma diff_coef n mu b0 b : 0 < n -> (fits n (diff_entry n) mu b0 b <-> b0 = mean n mu /\ forall k, k < n - 1 -> b k = (mu (S k) - mu k)%Qc).
Proof.
  intros Hn. rewrite (fits_iff n _ _ _ mu b0 b Hn (diff_inverse n Hn)). rewrite inv_mean by lia.
  assert (E : forall k, k < n - 1 -> qsum (fun j => diff_B k j * mu j)%Qc (seq 0 n) = (mu (S k) - mu k)%Qc).
  { intros k Hk. unfold diff_B. rewrite (qsum_ext _ (fun j => kron 0%Qc 1%Qc j (S k) * mu j - kron 0%Qc 1%Qc j k * mu j)%Qc) by (intros; ring).
    rewrite qsum_sub, !qsum_kron' by lia. reflexivity. }
  split; intros [H1 H2]; (split; [exact H1|]); intros k Hk; rewrite H2 by exact Hk; [|symmetry]; now apply E.
Qed.
Lemma helmert_coef n mu b0 b : 0 < n -> (fits n helmert_entry mu b0 b <-> b0 = mean n mu /\
  forall k, k < n - 1 -> b k = ((mu (S k) - mean (S k) mu) / qn (S (S k)))%Qc).
Proof.
  intros Hn. rewrite (fits_iff n _ _ _ mu b0 b Hn (helmert_inverse n Hn)). rewrite inv_mean by lia.
  assert (E : forall k, k < n - 1 -> qsum (fun j => helmert_B k j * mu j)%Qc (seq 0 n) = ((mu (S k) - mean (S k) mu) / qn (S (S k)))%Qc).
  { intros k Hk. unfold helmert_B, Qcdiv. rewrite (qsum_ext _ (fun j => / (qn (S k) * qn (S (S k))) * (helmert_entry j k * mu j))%Qc) by (intros; ring).
    rewrite qsum_scale, helmert_col by lia. unfold mean.
    assert (D1 : qn (S k) <> 0%Qc) by (apply qn_nz; lia). assert (D2 : qn (S (S k)) <> 0%Qc) by (apply qn_nz; lia). field. split; assumption. }
  split; intros [H1 H2]; (split; [exact H1|]); intros k Hk; rewrite H2 by exact Hk; [|symmetry]; now apply E.
Qed.

Section More.
Context {L : Type} (leqb : L -> L -> bool) (as_int : L -> option Z) (readable : L -> string).
Variable argsort : list nat -> list nat.
Lemma mk_contrast_length n m s c : mk_contrast n m s = Ok c -> length (cm_suffixes c) = n.
Proof. unfold mk_contrast. destruct (Nat.eqb_spec n (length s)); intros [= <-]. symmetry. assumption. Qed.
Lemma full_suffix_length b levels c : levels <> [] -> code_with_intercept leqb as_int readable argsort b levels = Ok c ->
  length (cm_suffixes c) = length levels.
Proof.
  intros Hne. assert (H0 : 0 < length levels) by (destruct levels; [congruence|cbn; lia]).
  destruct b as [ref|omit| |]; cbn; unfold treatment_full, dummy_code, sum_full, helmert_full, diff_full; intros E.
  - now apply mk_contrast_length in E.
  - destruct (sum_reduced _ _ _ _ _); [|discriminate]. cbn [bind] in E. apply mk_contrast_length in E. lia.
  - destruct (helmert_contrast _); [|discriminate]. cbn [bind] in E. apply mk_contrast_length in E. lia.
  - destruct (diff_contrast _ _); [|discriminate]. cbn [bind] in E. apply mk_contrast_length in E. lia.
Qed.
(** The names of the full codings. *)
Lemma full_names_lemma (Hsort : sorts argsort) b levels r : levels <> [] -> ref_of leqb as_int b levels r ->
  exists cr cf, code_without_intercept leqb as_int readable argsort b levels = Ok cr /\
    code_with_intercept leqb as_int readable argsort b levels = Ok cf /\
    full_names readable b levels (cm_suffixes cr) (cm_suffixes cf).
Proof.
  intros Hne Hr. destruct (reduced_lemma leqb as_int readable argsort Hsort b levels r Hne Hr) as [cr [E1 _]]. destruct (full_lemma leqb as_int readable argsort Hsort b levels r Hne Hr) as [cf [E2 _]].
  exists cr, cf. split; [exact E1|]. split; [exact E2|]. destruct b as [ref|omit| |]; cbn in *.
  - unfold treatment_full, dummy_code, mk_contrast in E2. destruct (Nat.eqb _ _); [|discriminate]. injection E2 as <-. cbn [cm_suffixes].
    unfold name_levels, name_strs. now rewrite map_map.
  - unfold sum_full in E2. rewrite E1 in E2. cbn [bind] in E2. unfold mk_contrast in E2. destruct (Nat.eqb _ _); [|discriminate]. now injection E2 as <-.
  - unfold helmert_full, helmert_reduced in *. destruct (helmert_contrast levels); [|discriminate]. cbn [bind] in *. unfold mk_contrast in *.
    destruct (Nat.eqb (length levels - 1) _) in E1; [|discriminate]. destruct (Nat.eqb (S (length levels - 1)) _) in E2; [|discriminate].
    injection E1 as <-. now injection E2 as <-.
  - unfold diff_full in E2. destruct (diff_contrast argsort levels); [|discriminate]. cbn [bind] in E2. unfold mk_contrast in E2.
    destruct (Nat.eqb _ _); [|discriminate]. injection E2 as <-. cbn [cm_suffixes]. unfold name_levels, name_strs. now rewrite map_map.
Qed.
Lemma ref_exists b levels c : levels <> [] -> code_without_intercept leqb as_int readable argsort b levels = Ok c ->
  exists r, ref_of leqb as_int b levels r.
Proof.
  intros Hne. destruct b as [[x|]|[x|]| |]; cbn; [| |  | |now exists 0..]; try (intros; eexists; reflexivity).
  - unfold treatment_reduced. pose proof (get_level_lemma leqb as_int levels x) as G.
    destruct (get_level leqb as_int levels x) as [i|]; [|discriminate]. intros _. exists i. apply G.
  - unfold sum_reduced, sum_contrast, omit_i. pose proof (get_level_lemma leqb as_int levels x) as G.
    destruct (get_level leqb as_int levels x) as [i|]; [|discriminate]. intros _. exists i. apply G.
Qed.
End More.
