(** C111: more knots for bs() only add curves. *)
From Coq Require Import ZArith.
From Verif Require Import Base NumModel RankSpec ContrastSpec StateModel SplineModel SplineSpec BsModel BsSpec BsProofs BsProps BsCurveSpec BsCurveProps.
Open Scope nat_scope.
Open Scope list_scope.

(** A spline is also a spline of a higher degree, if each knot is repeated as many times more; and on more knots. *)
Lemma spline_more : forall p p' knots knots' f, p <= p' -> (forall k, In k knots -> count_occ Qc_eq_dec knots k + (p' - p) <= count_occ Qc_eq_dec knots' k) ->
  spline p knots f -> spline p' knots' f.
Proof.
  intros p p' knots knots' f Hp Hc (pa & js & L & F & Hs). exists pa, (map (fun j => let '(k, m, b) := j in (k, m + (p' - p), b)) js). split; [lia|]. split.
  - apply Forall_forall. intros j Hj. apply in_map_iff in Hj. destruct Hj as ([[k m] b] & <- & Hj). rewrite Forall_forall in F. specialize (F _ Hj). cbn in F.
    assert (In k knots) by (apply (count_occ_In Qc_eq_dec); lia). specialize (Hc k H). lia.
  - intros x. rewrite Hs. f_equal. clear - Hp F. induction F as [|[[k m] b] js [_ Hm] F IH]; [reflexivity|].
    unfold qsum in *. cbn. rewrite IH. replace (p' - (m + (p' - p))) with (p - m) by lia. reflexivity.
Qed.

(** C111: let every inner knot of one bs() be an inner knot of another with the same bounds, at least as often; and if the degree
    of the second is higher, as many times more often.  Every curve of the first, with any coefficients, on all data is
    a curve of the second (with a constant, that is an intercept in the formula, if the second has none of its own):
    the models are nested. *)
Theorem bs_nested : forall a st a' x' st' lo hi inner inner', (lo < hi)%Qc ->
  padded lo hi (S (bs_deg st)) inner (bs_all_knots st) ->
  (forall k, In k inner -> (lo < k)%Qc /\ (k < hi)%Qc /\ count_occ Qc_eq_dec inner k <= S (bs_deg st)) ->
  bs_finish a' x' = Ok st' -> bs_deg st <= bs_deg st' -> padded lo hi (S (bs_deg st')) inner' (bs_all_knots st') -> (forall k, In k inner' -> (k < hi)%Qc) ->
  (forall k, In k inner -> count_occ Qc_eq_dec inner k + (bs_deg st' - bs_deg st) <= count_occ Qc_eq_dec inner' k) ->
  forall c0 co, exists c0' co', (bs_intercept a' = true -> c0' = 0%Qc) /\
    forall y k m k' m', bs_transform a st y = Ok (k, m) -> bs_transform a' st' y = Ok (k', m') -> length co' = k' /\
      Forall2 (fun row row' => (c0 + qsum (fun i => nth i co 0 * nth i row 0) (seq 0 k) = c0' + qsum (fun i => nth i co' 0 * nth i row' 0) (seq 0 k'))%Qc) m m'.
Proof.
  intros a st a' x' st' lo hi inner inner' Hlt Hp Hi Hf Ed Hp' Hi' Hc c0 co.
  destruct (bs_draws_only_splines a st lo hi inner c0 co Hlt Hp Hi) as (f & Hs & Hd).
  assert (Hs' := spline_more _ _ _ _ f Ed Hc Hs).
  assert (Ends : first_knot (bs_all_knots st') = lo /\ last_knot (bs_all_knots st') = hi).
  { destruct Hp' as (s & P & _ & Et). rewrite Et. unfold first_knot, last_knot. split; [reflexivity|].
    rewrite app_nth2; rewrite !app_length, !repeat_length; [|lia]. rewrite app_nth2 by lia.
    rewrite (nth_indep _ 0%Qc hi) by (rewrite repeat_length; lia). apply nth_repeat. }
  destruct (bs_draws_splines a' x' st' lo hi inner' f Hf) as (c0' & co' & H0 & H); auto; [now rewrite (proj1 Ends), (proj2 Ends)|].
  exists c0', co'. split; auto. intros y k m k' m' E E'.
  assert (Ev : exists v, as_vector y = Ok v) by (unfold bs_transform in E; destruct (as_vector y) as [v|]; [now exists v|discriminate]). destruct Ev as [v Ev].
  destruct (H y k' m' v E' Ev) as [L' H']. split; auto. specialize (Hd y k m v E Ev). clear - Hd H' Hi'. revert m' H'.
  induction Hd as [|w row v m E Hd IH]; intros m' H'; inversion H' as [|? row' ? m'' E']; subst; constructor; auto. rewrite E. symmetry. apply E'. now right.
Qed.
Print Assumptions bs_nested.

(** * Example *)
(** A straight line with a bend at 1, and a curve of degree 2 with two knots at 1 and one at 2, between 0 and 4. *)
Definition nest_args d ks := mkBsArgs None (Some ks) d false None None.
Example bs_nested_example : exists st st', bs_finish (nest_args 1 [1%Qc]) [0%Qc; qz 4] = Ok st /\ bs_finish (nest_args 2 [qz 2; 1%Qc; 1%Qc]) [0%Qc; qz 4] = Ok st' /\
  bs_deg st <= bs_deg st' /\ padded 0%Qc (qz 4) (S (bs_deg st)) [1%Qc] (bs_all_knots st) /\ padded 0%Qc (qz 4) (S (bs_deg st')) [qz 2; 1%Qc; 1%Qc] (bs_all_knots st') /\
  (forall k, In k [1%Qc] -> count_occ Qc_eq_dec [1%Qc] k + (bs_deg st' - bs_deg st) <= count_occ Qc_eq_dec [qz 2; 1%Qc; 1%Qc] k) /\
  exists k m k' m', bs_transform (nest_args 1 [1%Qc]) st (A1 [1%Qc; qz 3]) = Ok (k, m) /\ bs_transform (nest_args 2 [qz 2; 1%Qc; 1%Qc]) st' (A1 [1%Qc; qz 3]) = Ok (k', m') /\ k = 2 /\ k' = 5.
Proof.
  destruct (bs_finish (nest_args 1 [1%Qc]) [0%Qc; qz 4]) as [st|] eqn:E; [|vm_compute in E; discriminate].
  destruct (bs_finish (nest_args 2 [qz 2; 1%Qc; 1%Qc]) [0%Qc; qz 4]) as [st'|] eqn:E'; [|vm_compute in E'; discriminate].
  exists st, st'. split; auto. split; auto.
  injection E as <-. injection E' as <-. split; [cbn; lia|].
  split; [exists [1%Qc]; split; [apply Permutation.Permutation_refl|split; [repeat constructor|vm_compute; reflexivity]]|].
  split; [exists [1%Qc; 1%Qc; qz 2]; split; [eapply Permutation.perm_trans; [apply Permutation.perm_swap|apply Permutation.perm_skip, Permutation.perm_swap]|split; [repeat constructor; vm_compute; discriminate|vm_compute; reflexivity]]|].
  split; [intros k [<-|[]]; vm_compute; lia|].
  eexists _, _, _, _. split; [vm_compute; reflexivity|]. split; [vm_compute; reflexivity|]. split; reflexivity.
Qed.
