From Coq Require Import ZArith Lqa Sorted Field.
From Verif Require Import Base NumModel RankSpec RankProofs ContrastSpec ContrastProofs ContrastMatProofs StateModel StateProofs LinModel LinProofs SplineModel SplineSpec SplineNumProofs SplineProofs BsSpec BsProofs CrsProofs CrsSpec CrsCurveProofs CrsSolveProofs.
Open Scope nat_scope.
Open Scope list_scope.

(** * A cubic polynomial from its values and curvatures at two points *)
Lemma poly_cubic p u v : length p <= 4 -> (v - u <> 0)%Qc ->
  let c := cubic u v (peval p u) (peval p v) (peval (pderiv (pderiv p)) u) (peval (pderiv (pderiv p)) v) in
  forall x, peval p x = peval c x /\ peval (pderiv p) x = peval (pderiv c) x.
Proof.
  intros Lp H c x. unfold c. rewrite cubic_eval, cubic_deriv by auto. clear c.
  destruct p as [|c0 [|c1 [|c2 [|c3 [|c4 p]]]]]; [..|cbn in Lp; lia]; cbn [peval pderiv tl pderiv_from];
    change (qn 1) with 1%Qc; change (qn 2) with two; change (qn 3) with (two + 1)%Qc; rewrite qz6; unfold two; split; field; repeat split; auto; discriminate.
Qed.
Lemma junction_inv u v u' w b0 b1 b2 g0 g1 g2 : (v - u <> 0)%Qc -> (w - u' <> 0)%Qc ->
  peval (pderiv (cubic u v b0 b1 g0 g1)) v = peval (pderiv (cubic u' w b1 b2 g1 g2)) u' ->
  ((v - u) / qz 6 * g0 + ((v - u) + (w - u')) / qz 3 * g1 + (w - u') / qz 6 * g2 = b0 / (v - u) - (1 / (v - u) + 1 / (w - u')) * b1 + b2 / (w - u'))%Qc.
Proof.
  intros H1 H2. rewrite !cubic_deriv by auto. rewrite qz6, qz3. unfold two. set (h := (v - u)%Qc) in *. set (h' := (w - u')%Qc) in *. intros E.
  replace (v - v)%Qc with 0%Qc in E by ring. replace (u' - u')%Qc with 0%Qc in E by ring.
  match type of E with ?l = ?r => assert (D : (l - r)%Qc = 0%Qc) by (rewrite E; ring) end.
  match goal with |- ?l = ?r => replace l with (r + (l - r))%Qc by ring; assert (D' : (l - r)%Qc = 0%Qc) end.
  { etransitivity; [|exact D]. fold h h'. field. repeat split; auto; discriminate. }
  rewrite D'. ring.
Qed.
Lemma line_poly p u : length p <= 2 -> forall x, peval p x = peval (line u (peval p u) (peval (pderiv p) u)) x.
Proof.
  intros Lp x. rewrite line_eval. destruct p as [|c0 [|c1 [|c2 p]]]; [..|cbn in Lp; lia]; cbn [peval pderiv tl pderiv_from]; change (qn 1) with 1%Qc; ring.
Qed.
Lemma line_flat p u : length p <= 2 -> peval (pderiv (pderiv p)) u = 0%Qc.
Proof. intros Lp. destruct p as [|c0 [|c1 [|c2 p]]]; [..|cbn in Lp; lia]; reflexivity. Qed.

(** * Natural splines *)
Section Natural.
Variable knots : list Qc.
Hypothesis Hinc : increasing knots.
Let n := length knots.
Hypothesis Hn : 3 <= n.
Let knot := knot knots.
Let gap := gap knots.
Let Hn2 : 2 <= length knots. Proof. fold n. lia. Qed.

(** The curvatures are determined by the values. *)
Lemma natural_unique b g g' : g 0 = 0%Qc -> g (n - 1) = 0%Qc -> g' 0 = 0%Qc -> g' (n - 1) = 0%Qc ->
  (forall i, i + 2 < n -> balance knots b g i) -> (forall i, i + 2 < n -> balance knots b g' i) -> forall i, i < n -> g i = g' i.
Proof.
  intros G0 Gn G0' Gn' B B' i Hi. set (v := fun i => (g i - g' i)%Qc).
  assert (V : forall i, i + 2 < n -> (gap i / qz 6 * v i + (gap i + gap (i + 1)) / qz 3 * v (i + 1)%nat + gap (i + 1) / qz 6 * v (i + 2)%nat = 0)%Qc).
  { intros j Hj. pose proof (B j Hj) as E. pose proof (B' j Hj) as E'. unfold balance in E, E'. fold gap in E, E'. rewrite <- E' in E. unfold v.
    match type of E with ?l = ?r => transitivity (l - r)%Qc; [unfold Qcdiv; ring|rewrite E; ring] end. }
  destruct (max_abs v n ltac:(lia)) as (j & M & Hj & HM & Hv & Ha).
  assert (Z : M = 0%Qc).
  { destruct (Nat.eq_dec j 0) as [->|J0]; [|destruct (Nat.eq_dec j (n - 1)) as [->|J1]].
    - assert (E : v 0 = 0%Qc) by (unfold v; rewrite G0, G0'; ring). rewrite E in Hv. destruct Hv as [Hv|Hv]; [auto|]. replace M with (- - M)%Qc by ring. rewrite <- Hv. ring.
    - assert (E : v (n - 1) = 0%Qc) by (unfold v; rewrite Gn, Gn'; ring). rewrite E in Hv. destruct Hv as [Hv|Hv]; [auto|]. replace M with (- - M)%Qc by ring. rewrite <- Hv. ring.
    - specialize (V (j - 1) ltac:(lia)). replace (j - 1 + 1) with j in V by lia. replace (j - 1 + 2) with (j + 1) in V by lia.
      destruct (Ha (j - 1) ltac:(lia)), (Ha (j + 1) ltac:(lia)).
      apply (dominated (gap (j - 1) / qz 6) (gap j / qz 6) M (v j) (v (j - 1)) (v (j + 1))); auto.
      + apply Qcmul_pos; [apply gap_pos; auto; fold n; lia|reflexivity].
      + apply Qcmul_pos; [apply gap_pos; auto; fold n; lia|reflexivity].
      + rewrite third in V. etransitivity; [|exact V]. ring. }
  subst M. destruct (Ha i Hi). assert (E : v i = 0%Qc) by (apply Qcle_antisym; auto). unfold v in E.
  replace (g i) with (g i - g' i + g' i)%Qc by ring. rewrite E. ring.
Qed.

(** Any natural spline arises from its values at the knots and some curvatures. *)
Lemma natural_params left ps right s : natural_spline knots left ps right -> on_line knots left ps right s ->
  exists g, g 0 = 0%Qc /\ g (n - 1) = 0%Qc /\ (forall i, i + 2 < n -> balance knots (fun i => s (knot i)) g i) /\
    forall i x, i + 1 < n -> peval (nth i ps []) x = peval (piece knots (fun i => s (knot i)) g i) x /\
                             peval (pderiv (nth i ps [])) x = peval (pderiv (piece knots (fun i => s (knot i)) g i)) x.
Proof.
  intros (L & F & Ll & Lr & M) (O1 & O2 & O3). fold n in L, M.
  set (all := left :: ps ++ [right]) in *.
  assert (A : forall i, i + 1 < n -> nth (i + 1) all [] = nth i ps []).
  { intros i Hi. unfold all. rewrite Nat.add_1_r. cbn [nth]. now rewrite app_nth1 by (rewrite L; lia). }
  set (g := fun i => peval (pderiv (pderiv (nth i all []))) (knot i)).
  assert (Gn : g (n - 1) = peval (pderiv (pderiv right)) (knot (n - 1))).
  { unfold g. destruct (M (n - 1) ltac:(lia)) as (_ & _ & E). fold knot in E. cbv zeta in E. change (nth (n - 1) knots 0%Qc) with (knot (n - 1)) in E. rewrite E. do 3 f_equal. unfold all.
    replace (n - 1 + 1) with (S (n - 1)) by lia. cbn [nth]. rewrite app_nth2, L, Nat.sub_diag by lia. reflexivity. }
  assert (Le : forall i, i + 1 < n -> (knot i <= knot (i + 1))%Qc) by (intros i Hi; apply Qclt_le_weak, inc_nth; auto; lia).
  assert (P : forall i x, i + 1 < n -> peval (nth i ps []) x = peval (piece knots (fun i => s (knot i)) g i) x /\
                             peval (pderiv (nth i ps [])) x = peval (pderiv (piece knots (fun i => s (knot i)) g i)) x).
  { intros i x Hi. assert (L4 : length (nth i ps []) <= 4) by (rewrite Forall_forall in F; apply F, nth_In; lia).
    pose proof (poly_cubic (nth i ps []) (knot i) (knot (i + 1)) L4 (gap_nz knots Hinc Hn2 i Hi) x) as C.
    unfold piece. fold knot. cbv beta. rewrite (O3 i (knot i)) by (auto; try apply Qcle_refl; now apply Le). rewrite (O3 i (knot (i + 1))) by (auto; try apply Qcle_refl; now apply Le).
    replace (g i) with (peval (pderiv (pderiv (nth i ps []))) (knot i)).
    2:{ unfold g. destruct (M i ltac:(lia)) as (_ & _ & E). change (nth i knots 0%Qc) with (knot i) in E. rewrite E. now rewrite A. }
    replace (g (i + 1)) with (peval (pderiv (pderiv (nth i ps []))) (knot (i + 1))); [exact C|]. unfold g. now rewrite A. }
  exists g. split; [|split; [|split; auto]].
  - unfold g. now apply line_flat.
  - rewrite Gn. now apply line_flat.
  - intros i Hi. unfold balance, gap. fold knot. replace (i + 2) with (i + 1 + 1) by lia. apply junction_inv; try (apply gap_nz; auto; fold n; lia).
    destruct (M (i + 1) ltac:(lia)) as (_ & E & _). rewrite A in E by lia. replace (i + 1 + 1) with (S (i + 1)) in E by lia.
    change (nth (S (i + 1)) all []) with (nth (i + 1) (ps ++ [right]) []) in E. rewrite app_nth1 in E by lia.
    change (nth (i + 1) knots 0%Qc) with (knot (i + 1)) in E.
    destruct (P i (knot (i + 1)) ltac:(lia)) as [_ E1]. destruct (P (i + 1) (knot (i + 1)) ltac:(lia)) as [_ E2].
    rewrite E1, E2 in E. exact E.
Qed.

Definition crs_row (knots : list Qc) (cyclic : bool) (f : mat) (v : Qc) : list Qc :=
  let n := if cyclic then length knots - 1 else length knots in
  let '(ajm, ajp, cjm, cjp, j) := base_functions v knots in
  let j1 := if cyclic && Nat.eqb (j + 1) n then 0 else j + 1 in
  map (fun c => (ajm * get (eye n) j c + ajp * get (eye n) j1 c + cjm * get f j c + cjp * get f j1 c)%Qc) (seq 0 n).
Lemma natural_row f beta x : length beta = n ->
  dot (crs_row knots false f x) beta = blend (fun i => nth i beta 0%Qc) (fun i => qsum (fun c => get f i c * nth c beta 0)%Qc (seq 0 n)) (base_functions x knots).
Proof.
  intros Lb. unfold crs_row. destruct (find_lower_spec x knots Hinc Hn2) as (j & Ej & Hj & _). fold n in Hj.
  assert (E : snd (base_functions x knots) = j) by (unfold base_functions; rewrite Ej, Nat2Z.id; reflexivity).
  destruct (base_functions x knots) as [[[[am ap] cm] cp] j0]. cbn [snd] in E. subst j0. cbn [andb blend]. fold n. rewrite row_dot by (auto; lia). reflexivity.
Qed.
Lemma natural_curve beta : length beta = n -> exists s, is_natural_spline knots s /\ (forall i, i < n -> s (knot i) = nth i beta 0%Qc) /\
  forall x, exists dm, free_crs_dmatrix x knots false = Ok dm /\ map (fun r => dot r beta) dm = map s x.
Proof.
  intros Lb. destruct (natural_f_ok knots Hinc Hn) as (f & Ef & Hf). destruct (Hf (fun i => nth i beta 0%Qc)) as (G0 & Gn & B).
  eexists. split; [|split].
  - eexists _, _, _. split; [apply (natural_pieces knots Hinc Hn2 (fun i => nth i beta 0%Qc) _ G0 Gn B)|]. apply (natural_on_line knots Hinc Hn2 (fun i => nth i beta 0%Qc) _ G0 Gn B).
  - intros i Hi. cbv beta. now apply (natural_at_knots knots Hinc Hn2 (fun i => nth i beta 0%Qc) _ B).
  - intros x. exists (map (crs_row knots false f) x). split.
    + unfold free_crs_dmatrix. cbn [bind]. rewrite Ef. reflexivity.
    + rewrite map_map. apply map_ext. intros v. now apply natural_row.
Qed.
(** The curve through given points is unique. *)
Lemma natural_same s s' : is_natural_spline knots s -> is_natural_spline knots s' -> (forall i, i < n -> s (knot i) = s' (knot i)) -> forall x, s x = s' x.
Proof.
  intros (l & ps & r & N & O) (l' & ps' & r' & N' & O') E x.
  destruct (natural_params _ _ _ _ N O) as (g & G0 & Gn & B & P). destruct (natural_params _ _ _ _ N' O') as (g' & G0' & Gn' & B' & P').
  assert (Eb : forall i, i + 2 < n -> balance knots (fun i => s (knot i)) g' i).
  { intros i Hi. pose proof (B' i Hi) as Z. unfold balance in *. rewrite !E by lia. exact Z. }
  assert (Eg : forall i, i < n -> g i = g' i) by (now apply (natural_unique (fun i => s (knot i)))).
  assert (Ep : forall i, i + 1 < n -> piece knots (fun i => s (knot i)) g i = piece knots (fun i => s' (knot i)) g' i).
  { intros i Hi. unfold piece. rewrite !E, !Eg by lia. reflexivity. }
  assert (Inner : forall i, i + 1 < n -> forall z, peval (nth i ps []) z = peval (nth i ps' []) z /\ peval (pderiv (nth i ps [])) z = peval (pderiv (nth i ps' [])) z).
  { intros i Hi z. destruct (P i z Hi) as [-> ->]. destruct (P' i z Hi) as [-> ->]. now rewrite Ep. }
  destruct N as (L & _ & Ll & Lr & M), N' as (L' & _ & Ll' & Lr' & M'). fold n in L, L', M, M'. destruct O as (O1 & O2 & O3), O' as (O1' & O2' & O3').
  assert (Hl : forall z, peval l z = peval l' z).
  { intros z. destruct (M 0 ltac:(lia)) as (V1 & V2 & _). destruct (M' 0 ltac:(lia)) as (V1' & V2' & _).
    rewrite (line_poly l (knot 0)), (line_poly l' (knot 0)) by auto. destruct (Inner 0 ltac:(lia) (knot 0)) as [I1 I2].
    cbn [Nat.add nth] in V1, V2, V1', V2'. rewrite app_nth1 in V1, V2 by lia. rewrite app_nth1 in V1', V2' by lia. fold knot in V1, V2, V1', V2'. change (nth 0 knots 0%Qc) with (knot 0) in *.
    now rewrite V1, V2, V1', V2', I1, I2. }
  assert (Hr : forall z, peval r z = peval r' z).
  { intros z. destruct (M (n - 1) ltac:(lia)) as (V1 & V2 & _). destruct (M' (n - 1) ltac:(lia)) as (V1' & V2' & _).
    rewrite (line_poly r (knot (n - 1))), (line_poly r' (knot (n - 1))) by auto. destruct (Inner (n - 2) ltac:(lia) (knot (n - 1))) as [I1 I2].
    change (nth (n - 1) knots 0%Qc) with (knot (n - 1)) in *.
    replace (nth (n - 1) (l :: ps ++ [r]) []) with (nth (n - 2) ps []) in V1, V2 by (replace (n - 1) with (S (n - 2)) by lia; cbn [nth]; now rewrite app_nth1 by lia).
    replace (nth (n - 1 + 1) (l :: ps ++ [r]) []) with r in V1, V2 by (replace (n - 1 + 1) with (S (n - 1)) by lia; cbn [nth]; rewrite app_nth2, L, Nat.sub_diag by lia; reflexivity).
    replace (nth (n - 1) (l' :: ps' ++ [r']) []) with (nth (n - 2) ps' []) in V1', V2' by (replace (n - 1) with (S (n - 2)) by lia; cbn [nth]; now rewrite app_nth1 by lia).
    replace (nth (n - 1 + 1) (l' :: ps' ++ [r']) []) with r' in V1', V2' by (replace (n - 1 + 1) with (S (n - 1)) by lia; cbn [nth]; rewrite app_nth2, L', Nat.sub_diag by lia; reflexivity).
    now rewrite <- V1, <- V2, <- V1', <- V2', I1, I2. }
  destruct (Qclt_le_dec (knot 0) x) as [C|C]; [|rewrite O1, O1' by exact C; apply Hl].
  destruct (Qclt_le_dec x (knot (n - 1))) as [D|D]; [|rewrite O2, O2' by exact D; apply Hr].
  destruct (find_lower_spec x knots Hinc Hn2) as (j & _ & Hj & _ & _ & F). fold n in Hj. destruct F as [F1 F2]; [exact C|now apply Qclt_le_weak|].
  rewrite (O3 j), (O3' j) by (auto; try lia; now apply Qclt_le_weak). apply Inner. lia.
Qed.
(** A natural spline is computed from its values at the knots. *)
Lemma natural_complete s : is_natural_spline knots s -> forall x, exists dm, free_crs_dmatrix x knots false = Ok dm /\ map (fun r => dot r (map s knots)) dm = map s x.
Proof.
  intros Hs. destruct (natural_curve (map s knots)) as (s' & Hs' & E & H); [apply map_length|].
  intros x. destruct (H x) as (dm & Ed & Em). exists dm. split; auto. rewrite Em. apply map_ext. apply natural_same; auto.
  intros i Hi. rewrite E by auto. unfold knot, CrsCurveProofs.knot. now rewrite (nth_map_lt _ _ _ _ 0%Qc) by auto.
Qed.
Lemma line_natural a c : is_natural_spline knots (fun x => a + c * x)%Qc.
Proof.
  exists [a; c], (repeat [a; c] (n - 1)), [a; c]. split.
  - split; [apply repeat_length|]. split; [apply Forall_forall; intros p Hp; apply repeat_spec in Hp; subst; cbn; lia|]. split; [cbn; lia|]. split; [cbn; lia|].
    intros i Hi. cbv zeta. assert (A : forall k, k < n + 1 -> nth k ([a; c] :: repeat [a; c] (n - 1) ++ [[a; c]]) [] = [a; c]).
    { intros [|k] Hk; cbn [nth]; auto. destruct (Nat.eq_dec k (n - 1)) as [->|].
      - rewrite app_nth2; rewrite repeat_length, ?Nat.sub_diag; auto.
      - rewrite app_nth1 by (rewrite repeat_length; lia). rewrite (nth_indep _ _ [a; c]) by (rewrite repeat_length; lia). apply nth_repeat. }
    fold n in Hi. rewrite !A by lia. repeat split.
  - split; [intros; cbn; ring|]. split; [intros; cbn; ring|]. intros i x Hi _ _. fold n in Hi.
    rewrite (nth_indep _ _ [a; c]) by (rewrite repeat_length; lia). rewrite nth_repeat. cbn. ring.
Qed.
End Natural.
