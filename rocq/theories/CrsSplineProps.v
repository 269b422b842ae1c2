(** C65, C66: the curves that cr() and cc() can draw; constraints and centering. *)
From Coq Require Import ZArith Sorted.
From Verif Require Import Base NumModel RankSpec ContrastSpec ContrastProofs ContrastMatProofs StateModel StateSpec StateProofs LinModel LinProofs SplineModel SplineSpec SplineProofs BsSpec CrsProofs CrsSpec CrsSolveProofs CrsSplineProofs CrsConsProofs CrsFinalProofs CrsCenterProofs CrsFewProofs.
Open Scope nat_scope.
Open Scope list_scope.

(** C65: with any coefficients the columns draw a natural (cyclic for cc) cubic spline on the remembered knots
    that meets the constraint; without a constraint, the coefficients are its values at the knots. *)
Theorem crs_curves : forall qr cyclic a x st y0 k dm0, qr_sound qr -> crs_finish cyclic a x = Ok st ->
  enough_knots cyclic (crs_all_knots st) -> well_formed (crs_constr a) -> crs_transform qr cyclic st y0 = Ok (k, dm0) ->
  forall gam, length gam = k -> exists s, is_spline cyclic (crs_all_knots st) s /\
    meets_constraint (crs_constr a) (free_knots cyclic (crs_all_knots st)) x s /\
    (crs_constr a = NoConstraint -> map s (free_knots cyclic (crs_all_knots st)) = gam) /\ draws qr cyclic st k gam s.
Proof. intros. eapply draw_sound; eauto. Qed.
Print Assumptions crs_curves.

(** C65: conversely every such spline that meets the constraint is drawn, by exactly one list of coefficients. *)
Theorem crs_all_curves : forall qr cyclic a x st y0 k dm0, qr_sound qr -> crs_finish cyclic a x = Ok st ->
  enough_knots cyclic (crs_all_knots st) -> well_formed (crs_constr a) -> independent (crs_constr a) -> crs_transform qr cyclic st y0 = Ok (k, dm0) ->
  forall s, is_spline cyclic (crs_all_knots st) s -> meets_constraint (crs_constr a) (free_knots cyclic (crs_all_knots st)) x s ->
  exists gam, length gam = k /\ draws qr cyclic st k gam s /\ forall gam', length gam' = k -> draws qr cyclic st k gam' s -> gam' = gam.
Proof. intros. eapply draw_complete; eauto. Qed.
Print Assumptions crs_all_curves.

(** C65: new data of the right shape is never refused, unless scipy's qr refuses the constraint. *)
Theorem crs_total : forall (qr : nat -> mat -> result (mat * mat)) cyclic a x st y v, crs_finish cyclic a x = Ok st ->
  enough_knots cyclic (crs_all_knots st) -> well_formed (crs_constr a) ->
  (crs_constr a = NoConstraint \/ forall n m, exists p, qr n m = Ok p) -> as_vector y = Ok v -> exists k dm, crs_transform qr cyclic st y = Ok (k, dm).
Proof.
  intros qr cyclic a x st y v Hf He Hw Hq Ey. destruct (cons_info _ _ _ _ Hf He Hw) as [Hinc Hc].
  destruct (free_complete cyclic _ Hinc He _ (const_spline cyclic _ He 0%Qc) v) as (dm & Ed & _). unfold crs_transform. rewrite Ey. cbn [bind]. rewrite Ed. cbn [bind].
  destruct (crs_cons st) as [cn|]; cbn [absorb_opt]; [|eauto]. destruct Hc as (C1 & _ & C3 & _). destruct Hq as [|Hq]; [easy|].
  unfold absorb_constraints. destruct (Hq (fst cn) (transpose (fst cn) (snd cn))) as [p Ep]. rewrite Ep. cbn [bind fst]. rewrite C1, Nat.eqb_refl. eauto.
Qed.
Print Assumptions crs_total.

(** C65, C66: such decompositions exist, for every matrix. *)
Theorem qr_exists : exists qr, qr_sound qr /\ forall n m, exists p, qr n m = Ok p.
Proof. exists rational_qr. split; [exact rational_qr_sound|]. intros n m. eexists. reflexivity. Qed.
Print Assumptions qr_exists.

(** C65: without a constraint each row sums to one; and for cr() weighting the columns by the knots gives the
    data back. *)
Theorem crs_reproduces : forall qr cyclic a x st, crs_finish cyclic a x = Ok st -> enough_knots cyclic (crs_all_knots st) -> crs_constr a = NoConstraint ->
  draws qr cyclic st (length (free_knots cyclic (crs_all_knots st))) (map (fun _ => 1%Qc) (free_knots cyclic (crs_all_knots st))) (fun _ => 1%Qc) /\
  (cyclic = false -> draws qr cyclic st (length (crs_all_knots st)) (crs_all_knots st) (fun t => t)).
Proof.
  intros qr cyclic a x st Hf He Hc.
  assert (Hw : well_formed (crs_constr a)) by (rewrite Hc; exact I). destruct (cons_info _ _ _ _ Hf He Hw) as [Hinc Hn].
  destruct (crs_cons st) as [cn|] eqn:Ec; [now destruct Hn as (_ & _ & [] & _)|].
  assert (G : forall s, is_spline cyclic (crs_all_knots st) s -> draws qr cyclic st (length (free_knots cyclic (crs_all_knots st))) (map s (free_knots cyclic (crs_all_knots st))) s).
  { intros s Hs y v Ey. destruct (free_complete cyclic _ Hinc He s Hs v) as (dm & Ed & Em). unfold crs_transform. rewrite Ey. cbn [bind]. rewrite Ed, Ec. cbn [bind absorb_opt].
    exists dm. split; [now rewrite free_knots_length|]. rewrite <- Em. apply free_crs_shape in Ed as [_ Ed]. rewrite Forall_forall in Ed. apply map_ext_in. intros r Hr.
    apply inner_dot. rewrite map_length, free_knots_length. auto. }
  split; [apply G, (const_spline _ _ He)|]. intros ->. specialize (G (fun t => t)). rewrite map_id in G. apply G.
  destruct (line_natural (crs_all_knots st) He 0%Qc 1%Qc) as (l & p & r & H1 & H2 & H3 & H4). exists l, p, r. split; auto.
  assert (Z : forall t, (0 + 1 * t)%Qc = t) by (intros; ring). repeat split; intros; match goal with |- ?t = _ => rewrite <- (Z t) at 1 end; eauto.
Qed.
Print Assumptions crs_reproduces.

(** C66: with constraints='center' every column sums to zero over the training data. *)
Theorem crs_centered : forall qr cyclic a x st y k dm, qr_sound qr -> crs_finish cyclic a x = Ok st -> crs_constr a = Centering ->
  as_vector y = Ok x -> crs_transform qr cyclic st y = Ok (k, dm) -> forall j, col_sum dm j = 0%Qc.
Proof. intros. eapply crs_centered_ok; eauto. Qed.
Print Assumptions crs_centered.

(** C66: the same for te(), over all the pieces of the training data together. *)
Theorem te_centered : forall qr k chunks cn outs, qr_sound qr -> Forall (te_piece k) chunks -> te_memorize Centering chunks = Ok cn ->
  mapM (te_transform qr cn) chunks = Ok outs -> forall j, qsum (fun o => col_sum (snd o) j) outs = 0%Qc.
Proof. intros. eapply te_centered_ok; eauto. Qed.
Print Assumptions te_centered.

(** C65 needs three knots for cr(): with the two bounds alone, as for df=2, memorizing succeeds and every
    transform fails. *)
Theorem cr_two_knots_fail : forall qr st y v, length (crs_all_knots st) = 2 -> as_vector y = Ok v -> exists msg, crs_transform qr false st y = Err (ValueError msg).
Proof. intros qr st y v L Ey. unfold crs_transform. rewrite Ey. cbn [bind]. destruct (cr_two _ v L) as [msg ->]. now exists msg. Qed.
Print Assumptions cr_two_knots_fail.

(** C65 needs four knots for cc(): with df 1 or 2 what it draws is not a cyclic spline. *)
Theorem cc_few_knots_refuted : forall d, d = 1%Z \/ d = 2%Z -> exists a x st gam, crs_df a = Some d /\ crs_constr a = NoConstraint /\
  crs_finish true a x = Ok st /\ Z.of_nat (length gam) = d /\ forall qr s, is_spline true (crs_all_knots st) s -> ~ draws qr true st (length gam) gam s.
Proof.
  intros d [->| ->].
  - destruct (crs_finish true (cc_args 1) (cc_data 1)) as [st|] eqn:E; [|vm_compute in E; discriminate].
    exists (cc_args 1), (cc_data 1), st, [1%Qc]. split; [reflexivity|]. split; [reflexivity|]. split; auto. split; [reflexivity|]. intros qr s. now apply cc_one.
  - destruct (crs_finish true (cc_args 2) (cc_data 2)) as [st|] eqn:E; [|vm_compute in E; discriminate].
    exists (cc_args 2), (cc_data 2), st, [1; 1]%Qc. split; [reflexivity|]. split; [reflexivity|]. split; auto. split; [reflexivity|]. intros qr s. now apply cc_two.
Qed.
Print Assumptions cc_few_knots_refuted.

(** * Examples *)
(** A decomposition of one matrix, by a reflection; it refuses the others. *)
Definition ex_q : mat := map (map Q2Qc) [[0; -3 # 5; -4 # 5]; [-3 # 5; 16 # 25; -12 # 25]; [-4 # 5; -12 # 25; 9 # 25]]%Q.
Definition ex_r : mat := [[qz (-5)]; [0%Qc]; [0%Qc]].
Definition ex_a : mat := transpose 3 [map qz [0; 3; 4]%Z].
Definition ex_qr (n : nat) (a : mat) : result (mat * mat) :=
  if list_eq_dec (list_eq_dec Qc_eq_dec) a ex_a then if Nat.eqb n 3 then Ok (ex_q, ex_r) else Err OutOfFuel else Err OutOfFuel.
Example ex_qr_sound : qr_sound ex_qr.
Proof.
  intros n k a q r [Hs1 Hs2]. unfold ex_qr. destruct (list_eq_dec (list_eq_dec Qc_eq_dec) a ex_a) as [->|]; [|discriminate]. destruct (Nat.eqb_spec n 3) as [->|]; [|discriminate].
  intros [= <- <-]. assert (k = 1) by (inversion Hs2 as [|? ? H _]; subst; reflexivity). subst k.
  assert (C : forall i, i < 3 -> i = 0 \/ i = 1 \/ i = 2) by lia.
  split; [split; [reflexivity|repeat constructor]|]. split; [split; [reflexivity|repeat constructor]|]. split; [|split; [|split]].
  - intros i j Hi Hj D. destruct (C i Hi) as [->|[->| ->]], (C j Hj) as [->|[->| ->]]; try lia; apply Qc_is_canon; vm_compute; reflexivity.
  - intros i Hi. destruct (C i Hi) as [->|[->| ->]]; intros E; apply (f_equal this) in E; vm_compute in E; discriminate.
  - intros i j Hi. destruct i as [|[|[|i]]]; [lia| | |]; unfold get, ex_r; cbn [nth]; destruct j as [|[|j]]; cbn; auto; now destruct i.
  - intros i j Hi Hj. assert (j = 0) by lia. subst j. destruct (C i Hi) as [->|[->| ->]]; apply Qc_is_canon; vm_compute; reflexivity.
Qed.
Definition ex_cargs := mkCrsArgs None (Some [1%Qc]) None None (Constraint 3 [map qz [0; 3; 4]%Z]).
Definition ex_x : list Qc := map qz [0; 1; 3]%Z.
Example ex_constrained : match (let* st := crs_finish false ex_cargs ex_x in crs_transform ex_qr false st (A1 [1; 1 + 1]%Qc)) with
                         | Ok (k, dm) => Some (k, map (map this) dm) | _ => None end = Some (2, [[16 # 25; - 12 # 25]; [53 # 100; - 17 # 200]]%Q).
Proof. vm_compute. reflexivity. Qed.
Example ex_constrained_enough : match crs_finish false ex_cargs ex_x with Ok st => enough_knots false (crs_all_knots st) | _ => False end.
Proof. vm_compute. lia. Qed.
Example ex_constrained_indep : well_formed (crs_constr ex_cargs) /\ independent (crs_constr ex_cargs).
Proof.
  split; [repeat constructor|]. intros w H i Hi. cbn in Hi. assert (i = 0) by lia. subst i. specialize (H 1 ltac:(lia)). cbn in H.
  assert (N : qz 3 <> 0%Qc) by discriminate. destruct (Qcmult_integral (qz 3) (w 0)); auto; [|easy]. etransitivity; [|exact H]. unfold get. cbn [nth]. ring.
Qed.
(** The mean row (4/5, 3/5 in the middle and at the end) of a te() of one argument is absorbed. *)
Definition ex_te_qr (n : nat) (a : mat) : result (mat * mat) :=
  if list_eq_dec (list_eq_dec Qc_eq_dec) a (transpose 2 [map qz [3; 4]%Z]) then
    if Nat.eqb n 2 then Ok (map (map Q2Qc) [[3 # 5; -4 # 5]; [4 # 5; 3 # 5]]%Q, [[qz 5]; [0%Qc]]) else Err OutOfFuel else Err OutOfFuel.
Definition ex_chunks : list (list arr) := [[A2 2 [map qz [3; 1]; map qz [5; 4]]%Z]; [A2 2 [map qz [1; 7]]%Z]].
Example ex_te_pieces : Forall (te_piece 2) ex_chunks.
Proof.
  unfold ex_chunks. constructor; [|constructor; [|constructor]]; (split; [discriminate|split; [|reflexivity]]).
  - exists 2. repeat constructor; cbn; lia.
  - exists 1. repeat constructor; cbn; lia.
Qed.
Example ex_te_centered : match (let* cn := te_memorize Centering ex_chunks in mapM (te_transform ex_te_qr cn) ex_chunks) with
                         | Ok outs => Some (map (fun o => map (map this) (snd o)) outs) | _ => None end
  = Some [[[-9 # 5]; [-8 # 5]]; [[17 # 5]]]%Q.
Proof. vm_compute. reflexivity. Qed.
Example ex_two_knots : match crs_finish false (mkCrsArgs (Some 2%Z) None None None NoConstraint) ex_x with Ok st => length (crs_all_knots st) | _ => 0 end = 2.
Proof. vm_compute. reflexivity. Qed.
