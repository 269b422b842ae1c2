From Coq Require Import ZArith Lqa Sorted Field.
From Verif Require Import Base NumModel RankSpec RankProofs ContrastSpec ContrastProofs ContrastMatProofs StateModel StateProofs LinModel LinProofs SplineModel SplineSpec SplineNumProofs SplineProofs BsSpec BsProofs CrsProofs CrsSpec CrsCurveProofs CrsSolveProofs CrsSplineProofs.
Open Scope nat_scope.
Open Scope list_scope.

Section Cyclic.
Variable knots : list Qc.
Hypothesis Hinc : increasing knots.
Let n := length knots.
Hypothesis Hn : 4 <= n.
Let m := n - 1.
Let knot := knot knots.
Let gap := gap knots.
Let Hn2 : 2 <= length knots. Proof. fold n. lia. Qed.
Definition wrap_at (k : nat) (b : nat -> Qc) (i : nat) : Qc := if Nat.eqb i k then b 0 else b i.
Let period := (last_knot knots - first_knot knots)%Qc.
Let Hp : (first_knot knots < last_knot knots)%Qc. Proof. apply inc_nth; auto; fold n; lia. Qed.

(** ** Wrapping *)
Definition wrap1 (lb ub v : Qc) : Qc :=
  let w := if qltb ub v then (lb + qmod (v - ub) (ub - lb))%Qc else v in
  if qltb w lb then (ub - qmod (lb - w) (ub - lb))%Qc else w.
Lemma map_cyclic_wrap x lb ub : (lb < ub)%Qc -> map_cyclic x lb ub = Ok (map (wrap1 lb ub) x).
Proof. intros H. unfold map_cyclic. replace (qleb ub lb) with false by (symmetry; now apply qleb_not). rewrite map_map. reflexivity. Qed.
Lemma wrap1_spec lb ub v : (lb < ub)%Qc -> (lb <= wrap1 lb ub v)%Qc /\ (wrap1 lb ub v <= ub)%Qc /\ (exists k, v = wrap1 lb ub v + qz k * (ub - lb))%Qc /\ ((lb <= v)%Qc -> (v <= ub)%Qc -> wrap1 lb ub v = v).
Proof.
  intros H. destruct (map_cyclic_ok [v] lb ub H) as (y & E & F). rewrite map_cyclic_wrap in E by auto. injection E as <-. cbn [map] in F. inversion F; subst. auto.
Qed.
Lemma wrap1_eq lb ub v w k : (lb < ub)%Qc -> (lb <= w)%Qc -> (w <= ub)%Qc -> (v = w + qz k * (ub - lb))%Qc ->
  wrap1 lb ub v = w \/ wrap1 lb ub v = lb /\ w = ub \/ wrap1 lb ub v = ub /\ w = lb.
Proof.
  intros H W1 W2 E. destruct (wrap1_spec lb ub v H) as (A1 & A2 & (k' & A3) & _). set (u := wrap1 lb ub v) in *. clearbody u. rewrite E in A3.
  set (p := (ub - lb)%Qc) in *. assert (Pp : (0 < p)%Qc) by (unfold p; qq; lra).
  assert (D : (w - u = qz (k' - k) * p)%Qc).
  { unfold Z.sub. rewrite qz_add, qz_opp. transitivity (w + qz k * p - u - qz k * p)%Qc; [ring|]. rewrite A3. ring. }
  assert (Z : (k' - k = 0 \/ k' - k = 1 \/ k' - k = -1)%Z).
  { assert (Lt : forall z, (2 <= z)%Z -> (p < qz z * p)%Qc).
    { intros z Hz. assert (0 < (qz z - 1) * p)%Qc.
      { apply Qcmul_pos; auto. assert (this (qz z) == inject_Z z)%Q by apply this_qz. assert (inject_Z 2 <= inject_Z z)%Q by (now rewrite <- Zle_Qle). change (inject_Z 2) with 2%Q in *. qq. lra. }
      replace ((qz z - 1) * p)%Qc with (qz z * p - p)%Qc in H0 by ring. generalize dependent (qz z * p)%Qc. intros q. intros. qq. lra. }
    assert (Up : (w - u <= p)%Qc) by (unfold p; qq; lra). assert (Lo : (- p <= w - u)%Qc) by (unfold p; qq; lra).
    destruct (Z_le_gt_dec 2 (k' - k)) as [G|G].
    - exfalso. specialize (Lt _ G). rewrite <- D in Lt. qq. lra.
    - destruct (Z_le_gt_dec (k' - k) (-2)) as [G2|G2]; [|lia]. exfalso. specialize (Lt (- (k' - k))%Z ltac:(lia)). rewrite qz_opp in Lt.
      replace (- qz (k' - k) * p)%Qc with (- (qz (k' - k) * p))%Qc in Lt by ring. rewrite <- D in Lt. qq. lra. }
  destruct Z as [Z|[Z|Z]]; rewrite Z in D.
  - left. rewrite qz_0 in D. replace u with (w - (w - u))%Qc by ring. rewrite D. ring.
  - right. left. change (qz 1) with 1%Qc in D. assert (X : (w - u = ub - lb)%Qc) by (rewrite D; unfold p; ring). apply qc_eq_inv in X. clear D E A3. split; apply Qcle_antisym; auto; qq; lra.
  - right. right. change (qz (-1)) with (- (1))%Qc in D. assert (X : (u - w = ub - lb)%Qc) by (replace (u - w)%Qc with (- (w - u))%Qc by ring; rewrite D; unfold p; ring). apply qc_eq_inv in X. clear D E A3. split; apply Qcle_antisym; auto; qq; lra.
Qed.

(** ** The curve *)
Lemma cyclic_row f beta x : length beta = m ->
  dot (crs_row knots true f x) beta = blend (wrap_at m (fun i => nth i beta 0%Qc)) (wrap_at m (fun i => qsum (fun c => get f i c * nth c beta 0)%Qc (seq 0 m))) (base_functions x knots).
Proof.
  intros Lb. unfold crs_row. destruct (find_lower_spec x knots Hinc Hn2) as (j & Ej & Hj & _). fold n in Hj.
  assert (E : snd (base_functions x knots) = j) by (unfold base_functions; rewrite Ej, Nat2Z.id; reflexivity).
  destruct (base_functions x knots) as [[[[am ap] cm] cp] j0]. cbn [snd] in E. subst j0. cbn [andb blend]. fold n m.
  rewrite row_dot; [|auto|unfold m; lia|destruct (Nat.eqb_spec (j + 1) m); unfold m in *; lia].
  unfold wrap_at. destruct (Nat.eqb_spec j m); [unfold m in *; lia|]. destruct (Nat.eqb_spec (j + 1) m); reflexivity.
Qed.
Definition seam (b g : nat -> Qc) : Prop :=
  (gap (m - 1) / qz 6 * g (m - 1)%nat + (gap (m - 1) + gap 0) / qz 3 * g 0%nat + gap 0 / qz 6 * g 1%nat =
   b (m - 1)%nat / gap (m - 1) - (1 / gap (m - 1) + 1 / gap 0) * b 0%nat + b 1%nat / gap 0)%Qc.
Lemma cyclic_meet b g : b m = b 0 -> g m = g 0 -> (forall i, i + 2 < n -> balance knots b g i) -> seam b g -> cyclic_spline knots (pieces knots b g).
Proof.
  intros Bm Gm B Sm. split; [now apply pieces_length|]. split; [now apply pieces_cubic|]. split.
  - intros i Hi. fold n in Hi. rewrite !pieces_nth by (fold n; lia). now apply inner_meet, B.
  - fold n. replace (n - 2) with (m - 1) by (unfold m; lia). rewrite !pieces_nth by (fold n; unfold m; lia). unfold piece. fold knot.
    change (last_knot knots) with (knot (n - 1)). change (first_knot knots) with (knot 0). replace (n - 1) with (m - 1 + 1) by (unfold m; lia).
    replace (b (m - 1 + 1)) with (b 0) by (replace (m - 1 + 1) with m by (unfold m; lia); auto). replace (g (m - 1 + 1)) with (g 0) by (replace (m - 1 + 1) with m by (unfold m; lia); auto).
    apply junction; [apply gap_nz; auto; fold n; unfold m; lia..|]. exact Sm.
Qed.
Lemma cyclic_curve beta : length beta = m -> exists s, is_cyclic_spline knots s /\ (forall i, i < m -> s (knot i) = nth i beta 0%Qc) /\
  forall x, exists dm, free_crs_dmatrix x knots true = Ok dm /\ map (fun r => dot r beta) dm = map s x.
Proof.
  intros Lb. destruct (cyclic_f_ok knots Hinc Hn) as (f & Ef & Hf). fold n m in Hf.
  set (b := wrap_at m (fun i => nth i beta 0%Qc)). set (g := wrap_at m (fun i => qsum (fun c => get f i c * nth c beta 0)%Qc (seq 0 m))).
  specialize (Hf (fun i => nth i beta 0%Qc)). cbv beta zeta in Hf. set (g1 := fun i => qsum (fun c => get f i c * nth c beta 0)%Qc (seq 0 m)) in *.
  assert (W : forall h i, i < m -> wrap_at m h i = h i) by (intros h i Hi; unfold wrap_at; destruct (Nat.eqb_spec i m); [lia|auto]).
  assert (B : forall i, i + 2 < n -> balance knots b g i).
  { intros i Hi. specialize (Hf (i + 1) ltac:(unfold m; lia)). unfold wrap_prev, wrap_next in Hf. destruct (Nat.eqb_spec (i + 1) 0); [lia|]. replace (i + 1 - 1) with i in Hf by lia.
    unfold balance, b, g. rewrite !(W _ i), !(W _ (i + 1)) by (unfold m; lia). unfold wrap_at. replace (i + 1 + 1) with (i + 2) in Hf by lia.
    destruct (Nat.eqb_spec (i + 2) m); exact Hf. }
  assert (Sm : seam b g).
  { specialize (Hf 0 ltac:(unfold m; lia)). 
    replace (wrap_prev m 0) with (m - 1) in Hf by reflexivity. replace (wrap_next m 0) with 1 in Hf by (unfold wrap_next; destruct (Nat.eqb_spec (0 + 1) m); [unfold m in *; lia|reflexivity]).
    unfold seam, b, g. rewrite !W by (unfold m; lia). exact Hf. }
  assert (Bm : b m = b 0) by (unfold b; rewrite (W _ 0) by (unfold m; lia); unfold wrap_at; now rewrite Nat.eqb_refl).
  assert (Gm : g m = g 0) by (unfold g; rewrite (W _ 0) by (unfold m; lia); unfold wrap_at; now rewrite Nat.eqb_refl).
  set (s := fun x => blend b g (base_functions (wrap1 (first_knot knots) (last_knot knots) x) knots)).
  assert (Sin : forall i x, i + 1 < n -> (knot i <= x)%Qc -> (x <= knot (i + 1))%Qc -> s x = peval (nth i (pieces knots b g) []) x).
  { intros i x Hi X0 X1. unfold s. destruct (wrap1_spec (first_knot knots) (last_knot knots) x Hp) as (_ & _ & _ & ->).
    - rewrite pieces_nth by auto. now apply blend_piece.
    - eapply Qcle_trans; [|exact X0]. apply inc_nth_le; auto; [lia|fold n; lia].
    - eapply Qcle_trans; [exact X1|]. apply inc_nth_le; auto; fold n; lia. }
  assert (Le : forall i, i + 1 < n -> (knot i <= knot (i + 1))%Qc) by (intros i Hi; apply Qclt_le_weak, inc_nth; auto; lia).
  assert (Sk : forall i, i < m -> s (knot i) = nth i beta 0%Qc).
  { intros i Hi. rewrite (Sin i) by (try apply Qcle_refl; try apply Le; unfold m in *; lia). rewrite pieces_nth by (fold n; unfold m in *; lia).
    unfold knot. rewrite piece_left by (auto; fold n; unfold m in *; lia). unfold b. now apply W. }
  assert (Send : s (last_knot knots) = s (first_knot knots)).
  { change (first_knot knots) with (knot 0). rewrite Sk by (unfold m; lia). change (last_knot knots) with (knot (n - 1)). replace (n - 1) with (n - 2 + 1) by lia.
    rewrite (Sin (n - 2)) by (try apply Qcle_refl; try apply Le; lia). rewrite pieces_nth by (fold n; lia). unfold knot. rewrite piece_right by (auto; fold n; lia).
    replace (n - 2 + 1) with m by (unfold m; lia). rewrite Bm. unfold b. now rewrite W by (unfold m; lia). }
  exists s. split; [|split; auto].
  - exists (pieces knots b g). split; [now apply cyclic_meet|]. split; [exact Sin|].
    intros x z. fold period. destruct (wrap1_spec (first_knot knots) (last_knot knots) x Hp) as (A1 & A2 & (k & A3) & A4).
    set (w := wrap1 (first_knot knots) (last_knot knots) x) in *.
    assert (Sw : forall v, (first_knot knots <= v)%Qc -> (v <= last_knot knots)%Qc -> s v = blend b g (base_functions v knots)).
    { intros v V1 V2. unfold s. destruct (wrap1_spec (first_knot knots) (last_knot knots) v Hp) as (_ & _ & _ & ->); auto. }
    destruct (wrap1_eq (first_knot knots) (last_knot knots) (x + qz z * period)%Qc w (k + z) Hp A1 A2) as [E|[[E Ew]|[E Ew]]].
    + rewrite qz_add. unfold period. rewrite A3 at 1. ring.
    + unfold s at 1. rewrite E. unfold s. fold w. reflexivity.
    + unfold s. fold w. rewrite E, Ew. rewrite <- !Sw by (try apply Qcle_refl; now apply Qclt_le_weak). symmetry. exact Send.
    + unfold s. fold w. rewrite E, Ew. rewrite <- !Sw by (try apply Qcle_refl; now apply Qclt_le_weak). exact Send.
  - intros x. exists (map (fun v => crs_row knots true f (wrap1 (first_knot knots) (last_knot knots) v)) x). split.
    + unfold free_crs_dmatrix. destruct (ends knots Hinc Hn2) as [-> ->]. change (map_cyclic x (CrsCurveProofs.knot knots 0) (CrsCurveProofs.knot knots (length knots - 1))) with (map_cyclic x (first_knot knots) (last_knot knots)).
      rewrite map_cyclic_wrap by exact Hp. cbn [bind]. rewrite Ef. cbn [bind]. rewrite map_map. reflexivity.
    + rewrite map_map. apply map_ext. intros v. now apply cyclic_row.
Qed.

(** ** Uniqueness *)
Lemma cyclic_unique b g g' : g m = g 0 -> g' m = g' 0 -> seam b g -> seam b g' ->
  (forall i, i + 2 < n -> balance knots b g i) -> (forall i, i + 2 < n -> balance knots b g' i) -> forall i, i < n -> g i = g' i.
Proof.
  intros Gm Gm' Sm Sm' B B' i Hi. set (v := fun i => (g i - g' i)%Qc).
  assert (V : forall i, i + 2 < n -> (gap i / qz 6 * v i + (gap i + gap (i + 1)) / qz 3 * v (i + 1)%nat + gap (i + 1) / qz 6 * v (i + 2)%nat = 0)%Qc).
  { intros j Hj. pose proof (B j Hj) as E. pose proof (B' j Hj) as E'. unfold balance in E, E'. fold gap in E, E'. rewrite <- E' in E. unfold v.
    match type of E with ?l = ?r => transitivity (l - r)%Qc; [unfold Qcdiv; ring|rewrite E; ring] end. }
  assert (Vs : (gap (m - 1) / qz 6 * v (m - 1)%nat + (gap (m - 1) + gap 0) / qz 3 * v 0%nat + gap 0 / qz 6 * v 1%nat = 0)%Qc).
  { unfold seam in Sm, Sm'. rewrite <- Sm' in Sm. unfold v. match type of Sm with ?l = ?r => transitivity (l - r)%Qc; [unfold Qcdiv; ring|rewrite Sm; ring] end. }
  assert (Vm : v m = v 0) by (unfold v; now rewrite Gm, Gm').
  destruct (max_abs v n ltac:(lia)) as (j & M & Hj & HM & Hv & Ha).
  assert (Gp : forall i, i + 1 < n -> (0 < gap i / qz 6)%Qc) by (intros k Hk; apply Qcmul_pos; [apply gap_pos; auto|reflexivity]).
  assert (Z : M = 0%Qc).
  { destruct (Nat.eq_dec j 0) as [J0|J0]; [|destruct (Nat.eq_dec j m) as [J1|J1]].
    1, 2: assert (Hv0 : v 0 = M \/ v 0 = (- M)%Qc) by (subst j; rewrite ?Vm in Hv; auto); destruct (Ha (m - 1) ltac:(unfold m; lia)), (Ha 1 ltac:(lia));
      apply (dominated (gap (m - 1) / qz 6) (gap 0 / qz 6) M (v 0) (v (m - 1)) (v 1)); auto; try (apply Gp; unfold m; lia);
      rewrite third in Vs; etransitivity; [|exact Vs]; ring.
    specialize (V (j - 1) ltac:(unfold m in *; lia)). replace (j - 1 + 1) with j in V by lia. replace (j - 1 + 2) with (j + 1) in V by lia.
    destruct (Ha (j - 1) ltac:(lia)), (Ha (j + 1) ltac:(unfold m in *; lia)).
    apply (dominated (gap (j - 1) / qz 6) (gap j / qz 6) M (v j) (v (j - 1)) (v (j + 1))); auto; try (apply Gp; unfold m in *; lia).
    rewrite third in V. etransitivity; [|exact V]. ring. }
  subst M. destruct (Ha i Hi). assert (E : v i = 0%Qc) by (apply Qcle_antisym; auto). unfold v in E.
  replace (g i) with (g i - g' i + g' i)%Qc by ring. rewrite E. ring.
Qed.
Lemma cyclic_params ps s : cyclic_spline knots ps -> on_circle knots ps s ->
  exists g, g m = g 0 /\ seam (fun i => s (knot i)) g /\ (forall i, i + 2 < n -> balance knots (fun i => s (knot i)) g i) /\
    forall i x, i + 1 < n -> peval (nth i ps []) x = peval (piece knots (fun i => s (knot i)) g i) x /\
                             peval (pderiv (nth i ps [])) x = peval (pderiv (piece knots (fun i => s (knot i)) g i)) x.
Proof.
  intros (L & F & M & Ms) (O3 & _). fold n in L, M, Ms. replace (n - 2) with (m - 1) in Ms by (unfold m; lia).
  change (last_knot knots) with (knot m) in Ms. change (first_knot knots) with (knot 0) in Ms.
  set (g := wrap_at m (fun i => peval (pderiv (pderiv (nth i ps []))) (knot i))).
  assert (W : forall h i, i < m -> wrap_at m h i = h i) by (intros h i Hi; unfold wrap_at; destruct (Nat.eqb_spec i m); [lia|auto]).
  assert (Gm : g m = g 0) by (unfold g; rewrite (W _ 0) by (unfold m; lia); unfold wrap_at; now rewrite Nat.eqb_refl).
  assert (Le : forall i, i + 1 < n -> (knot i <= knot (i + 1))%Qc) by (intros i Hi; apply Qclt_le_weak, inc_nth; auto; lia).
  assert (G1 : forall i, i + 1 < n -> g (i + 1) = peval (pderiv (pderiv (nth i ps []))) (knot (i + 1))).
  { intros i Hi. destruct (Nat.eq_dec (i + 1) m) as [E|E].
    - rewrite E, Gm. unfold g. rewrite W by (unfold m; lia). destruct Ms as (_ & _ & Ms). rewrite <- Ms. replace (m - 1) with i by lia. reflexivity.
    - unfold g. rewrite W by (unfold m in *; lia). destruct (M i ltac:(unfold m in *; lia)) as (_ & _ & X). symmetry. exact X. }
  assert (P : forall i x, i + 1 < n -> peval (nth i ps []) x = peval (piece knots (fun i => s (knot i)) g i) x /\
                             peval (pderiv (nth i ps [])) x = peval (pderiv (piece knots (fun i => s (knot i)) g i)) x).
  { intros i x Hi. assert (L4 : length (nth i ps []) <= 4) by (rewrite Forall_forall in F; apply F, nth_In; lia).
    pose proof (poly_cubic (nth i ps []) (knot i) (knot (i + 1)) L4 (gap_nz knots Hinc Hn2 i Hi) x) as C.
    unfold piece. fold knot. cbv beta. rewrite (O3 i (knot i)) by (auto; try apply Qcle_refl; now apply Le). rewrite (O3 i (knot (i + 1))) by (auto; try apply Qcle_refl; now apply Le).
    rewrite (G1 i Hi). replace (g i) with (peval (pderiv (pderiv (nth i ps []))) (knot i)); [exact C|]. unfold g. now rewrite W by (unfold m; lia). }
  exists g. split; auto. split; [|split; auto].
  - assert (Es : s (knot (m - 1 + 1)) = s (knot 0)).
    { rewrite (O3 (m - 1) (knot (m - 1 + 1))) by (fold n; try apply Qcle_refl; try apply Le; unfold m; lia). rewrite (O3 0 (knot 0)) by (fold n; try apply Qcle_refl; try apply Le; lia).
      destruct Ms as (Ms & _). replace (m - 1 + 1) with m by (unfold m; lia). exact Ms. }
    unfold seam, gap. fold knot.
    apply (junction_inv (knot (m - 1)) (knot (m - 1 + 1)) (knot 0) (knot (0 + 1)) (s (knot (m - 1))) (s (knot 0)) (s (knot 1)) (g (m - 1)) (g 0) (g 1)); [apply gap_nz; auto; fold n; unfold m; lia..|].
    destruct (P (m - 1) (knot m) ltac:(unfold m; lia)) as [_ E1]. destruct (P 0 (knot 0) ltac:(lia)) as [_ E2]. destruct Ms as (_ & Ms & _).
    rewrite E1, E2 in Ms. unfold piece in Ms. fold knot in Ms. rewrite Es in Ms. replace (g (m - 1 + 1)) with (g 0) in Ms by (rewrite <- Gm; f_equal; unfold m; lia).
    replace (knot m) with (knot (m - 1 + 1)) in Ms by (f_equal; unfold m; lia). exact Ms.
  - intros i Hi. unfold balance, gap. fold knot. replace (i + 2) with (i + 1 + 1) by lia. apply junction_inv; try (apply gap_nz; auto; fold n; lia).
    destruct (M i ltac:(lia)) as (_ & E & _). change (nth (i + 1) knots 0%Qc) with (knot (i + 1)) in E.
    destruct (P i (knot (i + 1)) ltac:(lia)) as [_ E1]. destruct (P (i + 1) (knot (i + 1)) ltac:(lia)) as [_ E2]. rewrite E1, E2 in E. exact E.
Qed.
Lemma cyclic_same s s' : is_cyclic_spline knots s -> is_cyclic_spline knots s' -> (forall i, i < m -> s (knot i) = s' (knot i)) -> forall x, s x = s' x.
Proof.
  intros (ps & N & O) (ps' & N' & O') E0 x.
  destruct (cyclic_params _ _ N O) as (g & Gm & Sm & B & P). destruct (cyclic_params _ _ N' O') as (g' & Gm' & Sm' & B' & P').
  assert (Per : forall t, is_cyclic_spline knots t -> t (knot m) = t (knot 0)).
  { intros t (qs & _ & _ & T). specialize (T (knot 0) 1%Z). rewrite <- T. f_equal. change (qz 1) with 1%Qc. unfold knot, CrsCurveProofs.knot, last_knot, first_knot. fold n m. ring. }
  assert (E : forall i, i < n -> s (knot i) = s' (knot i)).
  { intros i Hi. destruct (Nat.eq_dec i m) as [->|]; [|apply E0; unfold m in *; lia]. rewrite !Per by (eexists; eauto). apply E0. unfold m; lia. }
  assert (Eb : forall i, i + 2 < n -> balance knots (fun i => s (knot i)) g' i).
  { intros i Hi. pose proof (B' i Hi) as Z. unfold balance in *. rewrite !E by lia. exact Z. }
  assert (Es : seam (fun i => s (knot i)) g') by (unfold seam in *; rewrite !E by (unfold m; lia); exact Sm').
  assert (Eg : forall i, i < n -> g i = g' i) by (now apply (cyclic_unique (fun i => s (knot i)))).
  destruct O as (O3 & O4), O' as (O3' & O4').
  assert (K : forall w, (first_knot knots <= w)%Qc -> (w <= last_knot knots)%Qc -> s w = s' w).
  { intros w W1 W2. assert (J : exists j, j + 1 < n /\ (knot j <= w)%Qc /\ (w <= knot (j + 1))%Qc).
    { destruct (blend_inside knots Hinc Hn2 (fun _ => 0%Qc) (fun _ => 0%Qc) w W1 W2) as (j & Hj & J1 & J2 & _). eauto. }
    destruct J as (j & Hj & J1 & J2). rewrite (O3 j w), (O3' j w) by auto. destruct (P j w Hj) as [-> _]. destruct (P' j w Hj) as [-> _].
    unfold piece. rewrite !E, !Eg by lia. reflexivity. }
  destruct (wrap1_spec (first_knot knots) (last_knot knots) x Hp) as (A1 & A2 & (k & A3) & _). rewrite A3. rewrite O4, O4'. now apply K.
Qed.
Lemma cyclic_complete s : is_cyclic_spline knots s -> forall x, exists dm, free_crs_dmatrix x knots true = Ok dm /\ map (fun r => dot r (map s (removelast knots))) dm = map s x.
Proof.
  intros Hs. destruct (cyclic_curve (map s (removelast knots))) as (s' & Hs' & E & H); [rewrite map_length; apply removelast_length|].
  intros x. destruct (H x) as (dm & Ed & Em). exists dm. split; auto. rewrite Em. apply map_ext. apply cyclic_same; auto.
  intros i Hi. rewrite E by auto. unfold knot, CrsCurveProofs.knot. rewrite (nth_map_lt _ _ _ _ 0%Qc) by (rewrite removelast_length; fold n; auto).
  rewrite nth_removelast by (fold n; unfold m in *; lia). reflexivity.
Qed.
Lemma const_cyclic a : is_cyclic_spline knots (fun _ => a).
Proof.
  exists (repeat [a] m). assert (A : forall i, i < m -> nth i (repeat [a] m) [] = [a]).
  { intros i Hi. rewrite (nth_indep _ _ [a]) by (rewrite repeat_length; lia). apply nth_repeat. }
  split.
  - split; [apply repeat_length|]. split; [apply Forall_forall; intros p Hin; apply repeat_spec in Hin; subst; cbn; lia|]. fold n. split.
    + intros i Hi. rewrite !A by (unfold m; lia). repeat split; cbn; ring.
    + rewrite !A by (unfold m; lia). repeat split; cbn; ring.
  - split; auto. intros i x Hi _ _. fold n in Hi. rewrite A by (unfold m; lia). cbn. ring.
Qed.
End Cyclic.
