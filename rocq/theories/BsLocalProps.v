(** C110: the curves of bs() are local and stay between their coefficients. *)
From Coq Require Import ZArith Lqa.
From Verif Require Import Base NumModel RankSpec RankProofs ContrastSpec ContrastProofs StateModel SplineModel SplineSpec SplineNumProofs BsModel BsSpec BsProofs BsProps.
Open Scope nat_scope.
Open Scope list_scope.

(** C110 (locality): a column of bs() is zero outside the [degree + 1] intervals that start at its own knot: with another
    coefficient for it the curve is the same elsewhere. *)
Theorem bs_local : forall a x st y k m, bs_finish a x = Ok st -> bs_transform a st y = Ok (k, m) ->
  (first_knot (bs_all_knots st) < last_knot (bs_all_knots st))%Qc ->
  let t := fun i => nth i (bs_all_knots st) 0%Qc in
  let skip := if bs_intercept a then 0 else 1 in
  exists v, as_vector y = Ok v /\
    Forall2 (fun w row => length row = k /\ forall i, i < k -> nth i row 0%Qc <> 0%Qc -> (t (i + skip)%nat <= w)%Qc /\ (w <= t (i + skip + bs_deg st + 1)%nat)%Qc) v m.
Proof.
  intros a x st y k m Hf E Hlt t skip. destruct (bs_basis a x st y k m Hf E Hlt) as (v & Ev & B). fold t in B. fold skip in B.
  destruct (bs_columns a x st y k m Hf E) as ((v' & Ev' & Hs1 & Hs2) & _). assert (v' = v) by congruence. subst v'.
  destruct (bs_finish_spec a x st Hf) as (_ & _ & lo & hi & inner & _ & _ & Hlh & Hi & Hp & _).
  destruct (padded_min lo hi _ inner _ Hlh Hi Hp) as (_ & _ & _ & So). assert (Nd : nondecreasing (bs_all_knots st)) by (rewrite <- So; apply np_sort_sorted).
  assert (L : k + skip + bs_deg st + 1 = length (bs_all_knots st)).
  { revert E. unfold bs_transform. rewrite Ev. cbn [bind]. destruct (eval_basis v _ _) as [[k0 m0]|] eqn:Eb; [|discriminate]. cbn [bind fst snd].
    destruct (eval_basis_ok v lo hi _ inner _ Hlh Hi Hp _ _ Eb) as (_ & _ & _ & K0 & _). destruct Hp as (s & P & _ & ->). rewrite !app_length, !repeat_length, <- (Permutation.Permutation_length P).
    unfold skip. destruct (bs_intercept a); intros E; injection E as E _; lia. }
  exists v. split; auto. clear - B Hs2 Nd L. induction B as [|w row v m (l & (I1 & I2 & I3 & I4) & H) B IH]; constructor; inversion Hs2; subst; auto. split; [reflexivity|].
  intros i Hi N. rewrite H in N by auto. assert (G : ~ (l < i + skip \/ i + skip + bs_deg st < l)) by (intros X; apply N; now apply bspline_support).
  split.
  - eapply Qcle_trans; [|exact I3]. apply sorted_nth; auto; lia.
  - assert (W : (w <= t (l + 1)%nat)%Qc) by (destruct I4 as [I4|[_ I4]]; auto; now apply Qclt_le_weak). eapply Qcle_trans; [exact W|]. apply sorted_nth; auto; lia.
Qed.
Print Assumptions bs_local.

Lemma between_sum (row co : list Qc) lo hi : Forall (fun q => (0 <= q)%Qc) row -> (forall i, i < length row -> nth i row 0%Qc <> 0%Qc -> (lo <= nth i co 0)%Qc /\ (nth i co 0 <= hi)%Qc) ->
  (lo * qsum (fun q => q) row <= qsum (fun i => nth i co 0 * nth i row 0)%Qc (seq 0 (length row)))%Qc /\
  (qsum (fun i => nth i co 0 * nth i row 0)%Qc (seq 0 (length row)) <= hi * qsum (fun q => q) row)%Qc.
Proof.
  rewrite qsum_list. intros F H. assert (G : forall l, (forall i, In i l -> i < length row) ->
    (lo * qsum (fun i => nth i row 0%Qc) l <= qsum (fun i => nth i co 0 * nth i row 0)%Qc l)%Qc /\ (qsum (fun i => nth i co 0 * nth i row 0)%Qc l <= hi * qsum (fun i => nth i row 0%Qc) l)%Qc).
  { induction l as [|i l IH]; intros Hl; cbn [qsum]; [split; qq; lra|]. destruct IH as [A B]; [intros j Hj; apply Hl; now right|].
    assert (Li : i < length row) by (apply Hl; now left). assert (P : (0 <= nth i row 0)%Qc) by (rewrite Forall_forall in F; apply F, nth_In; auto).
    assert (C : (lo * nth i row 0 <= nth i co 0 * nth i row 0)%Qc /\ (nth i co 0 * nth i row 0 <= hi * nth i row 0)%Qc).
    { destruct (Qc_eq_dec (nth i row 0%Qc) 0%Qc) as [->|N]; [split; qq; lra|]. destruct (H i Li N). split; apply Qcmult_le_compat_r; auto. }
    destruct C as [C1 C2]. rewrite !Qcmult_plus_distr_r. split; apply Qcplus_le_compat; auto. }
  apply G. intros i Hi. apply in_seq in Hi. lia.
Qed.
(** C110 (hull): with include_intercept the curve at [w] is between any bounds of the coefficients whose knots are around [w]. *)
Theorem bs_hull : forall a x st y k m v, bs_finish a x = Ok st -> bs_intercept a = true -> bs_transform a st y = Ok (k, m) -> as_vector y = Ok v ->
  (first_knot (bs_all_knots st) < last_knot (bs_all_knots st))%Qc ->
  let t := fun i => nth i (bs_all_knots st) 0%Qc in
  forall co lo hi, Forall2 (fun w row => (w < last_knot (bs_all_knots st))%Qc \/ (t (k - 1)%nat < last_knot (bs_all_knots st))%Qc ->
    (forall i, i < k -> (t i <= w)%Qc -> (w <= t (i + bs_deg st + 1)%nat)%Qc -> (lo <= nth i co 0)%Qc /\ (nth i co 0 <= hi)%Qc) ->
    (lo <= qsum (fun i => nth i co 0 * nth i row 0)%Qc (seq 0 k))%Qc /\ (qsum (fun i => nth i co 0 * nth i row 0)%Qc (seq 0 k) <= hi)%Qc) v m.
Proof.
  intros a x st y k m v Hf Hint E Ey Hlt t co lo hi. pose proof (bs_rows_sum_to_one a x st y k m v Hf Hint E Ey Hlt) as S.
  destruct (bs_local a x st y k m Hf E Hlt) as (v' & Ev & B). assert (v' = v) by congruence. subst v'. rewrite Hint in B. fold t in B.
  clear - S B. induction S as [|w row v m S1 S IH]; [constructor|]. inversion B as [|? ? ? ? [L B1] B2]; subst. constructor; [|now apply IH].
  intros Hw Hc. destruct (S1 Hw) as [P O]. destruct (between_sum row co lo hi P) as [A C].
  { intros i Hi N. destruct (B1 i Hi N) as [B3 B4]. rewrite Nat.add_0_r in *. auto. }
  rewrite O, Qcmult_1_r in A, C. auto.
Qed.
Print Assumptions bs_hull.

(** * Example *)
(** A cubic basis with knots at 1 and 2 between 0 and 4: at 1/2 the fifth coefficient does not matter and the fourth does. *)
Example bs_local_example : let a := mkBsArgs None (Some [1%Qc; qz 2]) 3%Z true None None in
  exists st k m, bs_finish a [0%Qc; qz 4] = Ok st /\ bs_transform a st (A1 [(1 / qz 2)%Qc]) = Ok (k, m) /\ (first_knot (bs_all_knots st) < last_knot (bs_all_knots st))%Qc /\
    k = 6 /\ map (fun r => nth 4 r 0%Qc) m = [0%Qc] /\ map (fun r => nth 3 r 0%Qc) m <> [0%Qc].
Proof.
  intros a. destruct (bs_finish a [0%Qc; qz 4]) as [st|] eqn:E; [|vm_compute in E; discriminate].
  destruct (bs_transform a st (A1 [(1 / qz 2)%Qc])) as [[k m]|] eqn:Et; [|injection E as <-; vm_compute in Et; discriminate]. exists st, k, m.
  injection E as <-. vm_compute in Et. injection Et as <- <-. split; [reflexivity|]. split; [reflexivity|]. split; [vm_compute; reflexivity|]. split; [reflexivity|].
  split; [cbn; f_equal; apply Qc_is_canon; reflexivity|cbn; intros X; injection X as X; discriminate].
Qed.
