(** C108: the surfaces that te() can draw. *)
From Coq Require Import ZArith Sorted Permutation.
From Verif Require Import Base NumModel RankSpec ContrastSpec ContrastProofs ContrastMatProofs StateModel StateSpec StateProofs LinModel LinProofs SplineModel SplineSpec SplineProofs BsModel BsSpec BsProofs BsCurveSpec BsDimProofs BsCurveProps CrsProofs CrsSpec CrsSolveProofs CrsSplineProofs CrsConsProofs CrsFinalProofs CrsProps CrsSplineProps TeSpec TeProofs.
Open Scope nat_scope.
Open Scope list_scope.

(** C108: with any coefficients te() draws a surface, a sum of products of the columns of its arguments, that meets the
    constraint; without a constraint the coefficients are the weights of the products. *)
Theorem te_surfaces : forall qr ks cn gam, qr_sound qr -> ks <> [] -> Forall (fun k => 0 < k) ks -> constraint_for cn (n_choices ks) ->
  length gam = n_choices ks - n_constraints cn ->
  exists theta, length theta = n_choices ks /\ satisfies cn theta /\ te_draws qr cn ks gam theta /\ (cn = None -> theta = gam).
Proof.
  intros qr ks cn gam Hq Ne P C L. destruct (weights qr Hq ks cn Ne P C) as [up [down [U [_ N]]]]. exists (up gam). destruct (U gam L) as [A [B [D _]]]. split; [exact A|]. split; [exact B|]. split; [exact D|]. intros E. now apply N.
Qed.
Print Assumptions te_surfaces.

(** C108: conversely every surface that meets the constraint is drawn. *)
Theorem te_all_surfaces : forall qr ks cn theta, qr_sound qr -> (forall n m, exists p, qr n m = Ok p) -> ks <> [] -> Forall (fun k => 0 < k) ks ->
  constraint_for cn (n_choices ks) -> independent_constraints cn -> length theta = n_choices ks -> satisfies cn theta ->
  exists gam, length gam = n_choices ks - n_constraints cn /\ te_draws qr cn ks gam theta.
Proof.
  intros qr ks cn theta Hq Q Ne P C Ind L S. destruct (weights qr Hq ks cn Ne P C) as [up [down [U [V _]]]]. destruct (V theta L S) as [A B]. exists (down theta). split; [exact A|].
  assert (X : exists p, match cn with None => True | Some c => qr (n_choices ks) (transpose (n_choices ks) (snd c)) = Ok p end) by (destruct cn; [apply Q|exists ([], []); exact I]).
  destruct (U (down theta) A) as [_ [_ [D _]]]. rewrite (B Ind X) in D. exact D.
Qed.
Print Assumptions te_all_surfaces.

(** C108: if the rows of each argument tell apart the coefficients for its columns, the rows of te() tell apart those for its own. *)
Theorem te_coefficients_unique : forall qr ks cn Rs gam gam', qr_sound qr -> (forall n m, exists p, qr n m = Ok p) -> ks <> [] -> Forall (fun k => 0 < k) ks ->
  constraint_for cn (n_choices ks) -> Forall2 telling ks Rs ->
  length gam = n_choices ks - n_constraints cn -> length gam' = n_choices ks - n_constraints cn ->
  (forall args k dm, margins ks 1 args -> Forall2 (fun (R : list Qc -> Prop) r => R r) Rs (rows_at args 0) -> te_transform qr cn args = Ok (k, dm) ->
     inner (nth 0 dm []) gam = inner (nth 0 dm []) gam') -> gam = gam'.
Proof. exact unique_weights. Qed.
Print Assumptions te_coefficients_unique.

(** C108: constraints='center' demands that the surface sums to zero over the training data, in however many pieces. *)
Theorem te_center_constraint : forall k chunks cn, Forall (te_piece k) chunks -> te_memorize Centering chunks = Ok cn ->
  constraint_for cn k /\ n_constraints cn = 1 /\
  forall theta, satisfies cn theta <-> qsum (fun args => qsum (fun i => surface theta (rows_at args i)) (seq 0 (n_rows args))) chunks = 0%Qc.
Proof. exact center_lemma. Qed.
Print Assumptions te_center_constraint.

(** C108: the rows of bs() tell apart coefficients, and so do those of cr() and cc(). *)
Theorem bs_telling : forall a st lo hi inner_knots k, (lo < hi)%Qc -> padded lo hi (S (bs_deg st)) inner_knots (bs_all_knots st) ->
  (forall q, In q inner_knots -> (lo < q)%Qc /\ (q < hi)%Qc /\ count_occ Qc_eq_dec inner_knots q <= S (bs_deg st)) -> bs_deg st <= 5 ->
  k = (if bs_intercept a then S (bs_deg st) + length inner_knots else S (bs_deg st) + length inner_knots - 1) ->
  telling k (fun r => exists y m, bs_transform a st y = Ok (k, m) /\ In r m).
Proof.
  intros a st lo hi ik k H1 H2 H3 H5 ->. split.
  - intros r [y [m [Ht Hr]]]. assert (Ev : exists v, as_vector y = Ok v) by (unfold bs_transform in Ht; destruct (as_vector y); [eauto|discriminate]). destruct Ev as [v Ev].
    destruct (columns a st lo hi ik H1 H2 H3 y _ m v Ht Ev) as [_ F]. clear Ht Ev. induction F as [|w row v m [l [_ [_ [E _]]]] F IH]; [destruct Hr|]. destruct Hr as [<-|Hr]; [|now apply IH].
    rewrite E. unfold full_row. destruct (bs_intercept a); [now rewrite map_length, seq_length|]. cbn [Nat.add seq map tl]. rewrite map_length, seq_length. lia.
  - intros c L Z. apply (bs_coefficients_unique a st lo hi ik 0%Qc c 0%Qc (repeat 0%Qc _) H1 H2 H3 H5); auto; [now rewrite repeat_length|].
    intros y k m Ht. apply Forall_forall. intros row Hr. assert (Ek : k = length c).
    { rewrite L. assert (Ev : exists v, as_vector y = Ok v) by (unfold bs_transform in Ht; destruct (as_vector y); [eauto|discriminate]). destruct Ev as [v Ev]. exact (proj1 (columns a st lo hi ik H1 H2 H3 y k m v Ht Ev)). }
    assert (Zr : inner row c = 0%Qc) by (apply Z; exists y, m; rewrite <- L, <- Ek; split; assumption).
    assert (Lr : length row = k).
    { assert (Ev : exists v, as_vector y = Ok v) by (unfold bs_transform in Ht; destruct (as_vector y); [eauto|discriminate]). destruct Ev as [v Ev]. destruct (columns a st lo hi ik H1 H2 H3 y k m v Ht Ev) as [Ek' F]. rewrite Ek'. clear - F Hr.
      induction F as [|w row' v m [l [_ [_ [E _]]]] F IH]; [destruct Hr|]. destruct Hr as [<-|Hr]; [|now apply IH]. rewrite E. unfold full_row. destruct (bs_intercept a); [now rewrite map_length, seq_length|]. cbn [Nat.add seq map tl]. rewrite map_length, seq_length. lia. }
    f_equal. transitivity (inner row c); [unfold inner; rewrite Lr; apply qsum_ext; intros; ring|]. rewrite Zr. symmetry. apply qzero. intros i _. rewrite nth_zeros. ring.
Qed.
Print Assumptions bs_telling.
Theorem crs_telling : forall qr cyclic a x st y0 k dm0, qr_sound qr -> (forall n m, exists p, qr n m = Ok p) -> crs_finish cyclic a x = Ok st ->
  enough_knots cyclic (crs_all_knots st) -> well_formed (crs_constr a) -> independent (crs_constr a) -> crs_transform qr cyclic st y0 = Ok (k, dm0) ->
  telling k (fun r => exists y dm, crs_transform qr cyclic st y = Ok (k, dm) /\ In r dm).
Proof.
  intros qr cyclic a x st y0 k dm0 Hq Q Hf He Hw Hi Ht. assert (Sh : forall y k' dm, crs_transform qr cyclic st y = Ok (k', dm) -> k' = k /\ Forall (fun r => length r = k') dm).
  { intros y k' dm E. destruct (crs_columns qr cyclic a x st y k' dm Hf E) as [[v [_ [_ S]]] [_ K]]. destruct (crs_columns qr cyclic a x st y0 k dm0 Hf Ht) as [_ [_ K0]]. split; [congruence|exact S]. }
  split.
  - intros r [y [dm [E Hr]]]. destruct (Sh y k dm E) as [_ S]. rewrite Forall_forall in S. now apply S.
  - intros c L Z. set (s := fun _ : Qc => 0%Qc). assert (D : forall g, length g = k -> (forall r, (exists y dm, crs_transform qr cyclic st y = Ok (k, dm) /\ In r dm) -> inner r g = 0%Qc) -> draws qr cyclic st k g s).
    { intros g Lg Zg y v Ev. destruct (crs_total qr cyclic a x st y v Hf He Hw (or_intror Q) Ev) as [k' [dm E]]. destruct (Sh y k' dm E) as [-> _]. exists dm. split; [exact E|].
      destruct (crs_columns qr cyclic a x st y k dm Hf E) as [[v' [Ev' [Ld _]]] _]. assert (v' = v) by congruence. subst v'. rewrite (map_ext_in _ (fun _ => 0%Qc)); [|intros r Hr; apply Zg; exists y, dm; now split]. unfold s. clear - Ld. revert v Ld. induction dm as [|r dm IH]; intros [|w v] Ld; try discriminate; cbn; [reflexivity|]. f_equal. apply IH. now injection Ld. }
    destruct (crs_all_curves qr cyclic a x st y0 k dm0 Hq Hf He Hw Hi Ht s (const_spline cyclic _ He 0%Qc)) as [g [_ [_ U]]].
    { unfold meets_constraint, s. destruct (crs_constr a) as [| |n rows]; [exact I|apply qzero; reflexivity|]. apply Forall_forall. intros row _. unfold inner. apply qzero. intros i _.
      assert (E0 : nth i (map (fun _ : Qc => 0%Qc) (free_knots cyclic (crs_all_knots st))) 0%Qc = 0%Qc) by (generalize (free_knots cyclic (crs_all_knots st)) as l; clear; intros l; revert i; induction l; intros [|i]; cbn; auto). rewrite E0. ring. }
    rewrite (U c L (D c L Z)). symmetry. apply U; [apply repeat_length|]. apply D; [apply repeat_length|]. intros r _. unfold inner. apply qzero. intros i _. rewrite nth_zeros. ring.
Qed.
Print Assumptions crs_telling.

(** * Examples *)
(** bs() with five columns and cr() with three: the hypotheses are met. *)
Definition ex_te_cr_args := mkCrsArgs (Some 3%Z) (Some [qz 2]) None (Some (qz 4)) NoConstraint.
Example ex_te_margins : exists st, crs_finish false ex_te_cr_args ex_data = Ok st /\
  Forall2 telling [5; 3] [(fun r => exists y m, bs_transform ex_curve_args ex_curve_state y = Ok (5, m) /\ In r m); (fun r => exists y dm, crs_transform rational_qr false st y = Ok (3, dm) /\ In r dm)].
Proof.
  destruct (crs_finish false ex_te_cr_args ex_data) as [st|] eqn:E; [|vm_compute in E; discriminate]. exists st. split; [reflexivity|]. constructor; [|constructor; [|constructor]].
  - destruct ex_curve_hypotheses as [_ [_ [Hp _]]]. destruct ex_curve_conditions as [Hc [H5 _]]. apply (bs_telling ex_curve_args ex_curve_state (qz 0) (qz 8) (map qz [2; 4]%Z)); auto. reflexivity.
  - assert (Ek : length (crs_all_knots st) = 3).
    { enough (X : match crs_finish false ex_te_cr_args ex_data with Ok st => length (crs_all_knots st) | _ => 0 end = 3) by (rewrite E in X; exact X). vm_compute. reflexivity. }
    assert (Et : exists dm, crs_transform rational_qr false st (A1 [qz 1]) = Ok (3, dm)).
    { enough (X : match (let* st := crs_finish false ex_te_cr_args ex_data in crs_transform rational_qr false st (A1 [qz 1])) with Ok (k, _) => k | _ => 0 end = 3).
      - rewrite E in X. cbn [bind] in X. destruct (crs_transform rational_qr false st (A1 [qz 1])) as [[k dm]|]; [|discriminate]. subst k. eauto.
      - vm_compute. reflexivity. }
    destruct Et as [dm Et]. apply (crs_telling rational_qr false ex_te_cr_args ex_data st (A1 [qz 1]) 3 dm); auto; [exact rational_qr_sound|intros n m; eexists; reflexivity|unfold enough_knots; rewrite Ek; lia|exact I|exact I].
Qed.
(** A centered te() of a margin with three columns and a variable, in two pieces: coefficients, and the weights they stand for. *)
Definition ex_te_pieces := [[A2 3 [map qz [1; 0; 2]; map qz [0; 1; 1]]%Z; A1 (map qz [1; 2])%Z]; [A2 3 [map qz [1; 1; 0]]%Z; A1 (map qz [3])%Z]].
Example ex_te_pieces_ok : Forall (te_piece 3) ex_te_pieces.
Proof.
  repeat constructor; try discriminate; [exists 2|exists 1]; repeat constructor.
Qed.
Definition ex_te_weights := match te_memorize Centering ex_te_pieces with
  | Ok (Some (n, rows)) => match rational_qr n (transpose n rows) with Ok (q, _) => spread n rows q (map qz [1; 2]%Z) | _ => [] end | _ => [] end.
Example ex_te_surface : match te_memorize Centering ex_te_pieces with
  | Ok cn => match mapM (te_transform rational_qr cn) ex_te_pieces with
             | Ok outs => let rows := concat (map snd outs) in
                 (map (fun row => this (inner row (map qz [1; 2]%Z))) rows, this (qsum (fun row => inner row (map qz [1; 2]%Z)) rows)) =
                 (map (fun args => this (surface ex_te_weights args)) (rows_at (nth 0 ex_te_pieces []) 0 :: rows_at (nth 0 ex_te_pieces []) 1 :: rows_at (nth 1 ex_te_pieces []) 0 :: []), 0%Q)
                 /\ map this ex_te_weights <> repeat 0%Q 3
             | _ => False end
  | _ => False end.
Proof. vm_compute. split; [reflexivity|discriminate]. Qed.
