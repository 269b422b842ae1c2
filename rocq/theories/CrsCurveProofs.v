From Coq Require Import ZArith Lqa Sorted Field.
From Verif Require Import Base NumModel RankSpec RankProofs ContrastSpec ContrastProofs ContrastMatProofs StateModel StateProofs LinModel LinProofs SplineModel SplineSpec SplineNumProofs SplineProofs BsSpec BsProofs CrsProofs CrsSpec.
Open Scope nat_scope.
Open Scope list_scope.

(** * One piece *)
Definition two : Qc := (1 + 1)%Qc.
Lemma qz6 : qz 6 = (two * (two + 1))%Qc. Proof. reflexivity. Qed.
Lemma qz3 : qz 3 = (two + 1)%Qc. Proof. reflexivity. Qed.
Definition cubic (u v b0 b1 g0 g1 : Qc) : list Qc :=
  let h := (v - u)%Qc in
  [(v * b0 - u * b1) / h + (v * v * v * g0 - u * u * u * g1) / (qz 6 * h) - h * v * g0 / qz 6 + h * u * g1 / qz 6;
   (b1 - b0) / h + (u * u * g1 - v * v * g0) / (two * h) + h * g0 / qz 6 - h * g1 / qz 6;
   (v * g0 - u * g1) / (two * h);
   (g1 - g0) / (qz 6 * h)]%Qc.
Section Piece.
Variables (u v b0 b1 g0 g1 : Qc).
Hypothesis Huv : (v - u <> 0)%Qc.
Let h := (v - u)%Qc.
Lemma cubic_eval x : peval (cubic u v b0 b1 g0 g1) x =
  ((v - x) / h * b0 + (x - u) / h * b1 + ((v - x) * (v - x) * (v - x) / (qz 6 * h) - h * (v - x) / qz 6) * g0
   + ((x - u) * (x - u) * (x - u) / (qz 6 * h) - h * (x - u) / qz 6) * g1)%Qc.
Proof. unfold cubic, h in *. cbn [peval]. rewrite qz6. unfold two. field. repeat split; auto; discriminate. Qed.
Lemma cubic_deriv x : peval (pderiv (cubic u v b0 b1 g0 g1)) x =
  ((b1 - b0) / h - ((v - x) * (v - x) / (two * h) - h / qz 6) * g0 + ((x - u) * (x - u) / (two * h) - h / qz 6) * g1)%Qc.
Proof.
  unfold cubic, h in *. cbn [peval pderiv tl pderiv_from]. change (qn 1) with 1%Qc. change (qn 2) with two. change (qn 3) with (two + 1)%Qc.
  rewrite qz6. unfold two. field. repeat split; auto; discriminate.
Qed.
Lemma cubic_curve x : peval (pderiv (pderiv (cubic u v b0 b1 g0 g1))) x = ((v - x) / h * g0 + (x - u) / h * g1)%Qc.
Proof.
  unfold cubic, h in *. cbn [peval pderiv tl pderiv_from]. change (qn 1) with 1%Qc. change (qn 2) with two. change (qn 3) with (two + 1)%Qc.
  rewrite qz6. unfold two. field. repeat split; auto; discriminate.
Qed.
End Piece.
(** A straight line. *)
Definition line (u b s : Qc) : list Qc := [b - u * s; s]%Qc.
Lemma line_eval u b s x : peval (line u b s) x = (b + s * (x - u))%Qc. Proof. cbn. ring. Qed.
Lemma line_deriv u b s x : peval (pderiv (line u b s)) x = s. Proof. cbn. change (qn 1) with 1%Qc. ring. Qed.
Lemma line_curve u b s x : peval (pderiv (pderiv (line u b s))) x = 0%Qc. Proof. reflexivity. Qed.

(** * Rows of the matrix *)
Lemma row_dot n f beta am ap cm cp j j1 : length beta = n -> j < n -> j1 < n ->
  dot (map (fun c => am * get (eye n) j c + ap * get (eye n) j1 c + cm * get f j c + cp * get f j1 c)%Qc (seq 0 n)) beta =
  (am * nth j beta 0 + ap * nth j1 beta 0 + cm * qsum (fun c => get f j c * nth c beta 0) (seq 0 n) + cp * qsum (fun c => get f j1 c * nth c beta 0) (seq 0 n))%Qc.
Proof.
  intros Hb Hj Hj1. rewrite (dot_qsum n) by (auto; now rewrite map_length, seq_length).
  rewrite (qsum_ext _ (fun c => am * (qkron c j * nth c beta 0) + ap * (qkron c j1 * nth c beta 0) + (cm * (get f j c * nth c beta 0) + cp * (get f j1 c * nth c beta 0)))%Qc).
  - rewrite !qsum_add, !qsum_scale. rewrite !(qsum_kron' (fun c => nth c beta 0%Qc)) by auto. ring.
  - intros c Hc. apply in_seq in Hc. rewrite nth_map_seq by lia. rewrite !get_eye by lia. rewrite !(kron_sym c). ring.
Qed.
(** Solving for all the columns solves for their combinations. *)
Lemma solve_comb n m b f d (beta : nat -> Qc) i : Forall (fun r => length r = n) b -> length f = n -> length b = n -> i < n ->
  (forall c, c < m -> dot (nth i b []) (column f c) = get d i c) ->
  qsum (fun l => get b i l * qsum (fun c => get f l c * beta c) (seq 0 m))%Qc (seq 0 n) = qsum (fun c => get d i c * beta c)%Qc (seq 0 m).
Proof.
  intros Hb Hf Lb Hi H. rewrite Forall_forall in Hb.
  rewrite (qsum_ext _ (fun l => qsum (fun c => get b i l * get f l c * beta c)%Qc (seq 0 m))).
  2:{ intros l _. rewrite <- qsum_scale. apply qsum_ext. intros. ring. }
  rewrite (rsum_swap _ _ _ _ _ _ Qcrt). apply qsum_ext. intros c Hc. apply in_seq in Hc. rewrite <- H by lia.
  rewrite (dot_qsum n) by (rewrite ?column_length; auto; apply Hb, nth_In; lia).
  rewrite (qsum_ext _ (fun l => beta c * (get b i l * get f l c))%Qc) by (intros; ring). rewrite qsum_scale.
  rewrite (qsum_ext (fun i0 => nth i0 (nth i b []) 0 * nth i0 (column f c) 0)%Qc (fun l => get b i l * get f l c)%Qc).
  - ring.
  - intros l _. now rewrite column_nth.
Qed.

(** * Three nonzero entries in a row *)
Lemma delta_sum (f : nat -> Qc) k m : qsum (fun j => if Nat.eqb j k then f j else 0%Qc) (seq 0 m) = if Nat.ltb k m then f k else 0%Qc.
Proof.
  destruct (Nat.ltb_spec k m).
  - rewrite <- (qsum_kron' f m k) by auto. apply qsum_ext. intros j _. unfold kron. destruct (Nat.eqb j k); ring.
  - apply (rsum_zero _ _ _ _ _ _ Qcrt). intros j Hj. apply in_seq in Hj. destruct (Nat.eqb_spec j k); [lia|auto].
Qed.
Lemma three_sum (e : nat -> Qc) i p s m a l u (v : nat -> Qc) : i < m -> p <> i -> s <> i -> p <> s ->
  (forall j, j < m -> e j = if Nat.eqb j i then a else if Nat.eqb j p then l else if Nat.eqb j s then u else 0%Qc) ->
  qsum (fun j => e j * v j)%Qc (seq 0 m) = (a * v i + (if Nat.ltb p m then l * v p else 0) + (if Nat.ltb s m then u * v s else 0))%Qc.
Proof.
  intros Hi Hp Hs Hps He.
  rewrite (qsum_ext _ (fun j => (if Nat.eqb j i then a * v j else 0) + (if Nat.eqb j p then l * v j else 0) + (if Nat.eqb j s then u * v j else 0))%Qc).
  - rewrite !qsum_add, (delta_sum (fun j => a * v j)%Qc), (delta_sum (fun j => l * v j)%Qc), (delta_sum (fun j => u * v j)%Qc).
    destruct (Nat.ltb_spec i m); [reflexivity|lia].
  - intros j Hj. apply in_seq in Hj. rewrite He by lia. destruct (Nat.eqb_spec j i), (Nat.eqb_spec j p), (Nat.eqb_spec j s); try lia; ring.
Qed.

(** * Diagonal dominance *)
Lemma Qcmul_pos a b : (0 < a)%Qc -> (0 < b)%Qc -> (0 < a * b)%Qc.
Proof. intros. qq. now apply Qmult_lt_0_compat. Qed.
Lemma max_abs (v : nat -> Qc) m : 0 < m -> exists i M, i < m /\ (0 <= M)%Qc /\ (v i = M \/ v i = (- M)%Qc) /\ forall j, j < m -> (- M <= v j)%Qc /\ (v j <= M)%Qc.
Proof.
  induction m as [|[|m] IH]; intros Hm; [lia| |].
  - destruct (Qclt_le_dec (v 0) 0) as [L|L].
    + exists 0, (- v 0%nat)%Qc. split; [lia|]. split; [qq; lra|]. split; [right; ring|]. intros j Hj. assert (j = 0) by lia. subst. qq. lra.
    + exists 0, (v 0). split; [lia|]. split; [auto|]. split; [now left|]. intros j Hj. assert (j = 0) by lia. subst. qq. lra.
  - destruct IH as (i & M & Hi & HM & Hv & H); [lia|].
    destruct (Qclt_le_dec M (v (S m))) as [L|L].
    { exists (S m), (v (S m)). split; [lia|]. split; [qq; lra|]. split; [now left|]. intros j Hj. destruct (Nat.eq_dec j (S m)) as [->|Hne]; [qq; lra|].
      destruct (H j ltac:(lia)). qq. lra. }
    destruct (Qclt_le_dec (v (S m)) (- M)) as [L2|L2].
    { exists (S m), (- v (S m))%Qc. split; [lia|]. split; [qq; lra|]. split; [right; ring|]. intros j Hj. destruct (Nat.eq_dec j (S m)) as [->|Hne]; [qq; lra|].
      destruct (H j ltac:(lia)). qq. lra. }
    exists i, M. split; [lia|]. split; auto. split; auto. intros j Hj. destruct (Nat.eq_dec j (S m)) as [->|Hne]; auto. apply H. lia.
Qed.
Lemma dominated l u M vi vp vs : (0 < l)%Qc -> (0 < u)%Qc -> (0 <= M)%Qc -> (vi = M \/ vi = (- M)%Qc) -> (- M <= vp)%Qc -> (vp <= M)%Qc -> (- M <= vs)%Qc -> (vs <= M)%Qc ->
  (two * (l + u) * vi + l * vp + u * vs = 0)%Qc -> M = 0%Qc.
Proof.
  intros Hl Hu HM Hi P1 P2 S1 S2 E. destruct (Qclt_le_dec 0 M) as [L|L]; [exfalso|apply Qcle_antisym; auto].
  assert (A1 : (0 <= l * (M - vp))%Qc) by (apply Qcmul_nonneg; qq; lra). assert (A2 : (0 <= l * (M + vp))%Qc) by (apply Qcmul_nonneg; qq; lra).
  assert (B1 : (0 <= u * (M - vs))%Qc) by (apply Qcmul_nonneg; qq; lra). assert (B2 : (0 <= u * (M + vs))%Qc) by (apply Qcmul_nonneg; qq; lra).
  assert (C : (0 < (l + u) * M)%Qc) by (apply Qcmul_pos; qq; lra).
  assert (E' : (two * ((l + u) * vi) + l * vp + u * vs = 0)%Qc) by (rewrite <- E; ring). clear E.
  assert (D : ((l + u) * vi = (l + u) * M \/ (l + u) * vi = - ((l + u) * M))%Qc) by (destruct Hi as [-> | ->]; [left; ring|right; ring]).
  replace (l * (M - vp))%Qc with (l * M - l * vp)%Qc in A1 by ring. replace (l * (M + vp))%Qc with (l * M + l * vp)%Qc in A2 by ring.
  replace (u * (M - vs))%Qc with (u * M - u * vs)%Qc in B1 by ring. replace (u * (M + vs))%Qc with (u * M + u * vs)%Qc in B2 by ring.
  replace ((l + u) * M)%Qc with (l * M + u * M)%Qc in * by ring.
  generalize dependent ((l + u) * vi)%Qc. generalize dependent (l * vp)%Qc. generalize dependent (u * vs)%Qc. generalize dependent (l * M)%Qc. generalize dependent (u * M)%Qc.
  unfold two. intros. destruct D as [D|D]; rewrite D in *; clear D; apply qc_eq_inv in E'; qq; lra.
Qed.

(** * Pieces that meet *)
Lemma junction u v u' w b0 b1 b2 g0 g1 g2 : (v - u <> 0)%Qc -> (w - u' <> 0)%Qc ->
  ((v - u) / qz 6 * g0 + ((v - u) + (w - u')) / qz 3 * g1 + (w - u') / qz 6 * g2 = b0 / (v - u) - (1 / (v - u) + 1 / (w - u')) * b1 + b2 / (w - u'))%Qc ->
  meet (cubic u v b0 b1 g0 g1) v (cubic u' w b1 b2 g1 g2) u'.
Proof.
  intros H1 H2 E. unfold meet. rewrite !cubic_eval, !cubic_deriv, !cubic_curve by auto. rewrite qz6, qz3 in *. unfold two in *. split; [|split].
  - field. repeat split; auto; discriminate.
  - set (h := (v - u)%Qc) in *. set (h' := (w - u')%Qc) in *.
    assert (N2 : (1 + 1 <> 0)%Qc) by discriminate. assert (N3 : (1 + 1 + 1 <> 0)%Qc) by discriminate.
    match goal with |- ?l = ?r => assert (D : (l - r)%Qc = 0%Qc) end.
    { transitivity ((h / ((1 + 1) * (1 + 1 + 1)) * g0 + (h + h') / (1 + 1 + 1) * g1 + h' / ((1 + 1) * (1 + 1 + 1)) * g2)
                    - (b0 / h - (1 / h + 1 / h') * b1 + b2 / h'))%Qc.
      - replace (v - v)%Qc with 0%Qc by ring. replace (u' - u')%Qc with 0%Qc by ring. fold h h'. field. repeat split; auto; discriminate.
      - rewrite E. ring. }
    match goal with |- ?l = ?r => replace l with (r + (l - r))%Qc by ring end. rewrite D. ring.
  - field. repeat split; auto; discriminate.
Qed.

Section Curve.
Variable knots : list Qc.
Hypothesis Hinc : increasing knots.
Let n := length knots.
Hypothesis Hn : 2 <= n.
Variables b g : nat -> Qc.
Definition knot (i : nat) : Qc := nth i knots 0%Qc.
Definition gap (i : nat) : Qc := (knot (i + 1) - knot i)%Qc.
Lemma gap_pos i : i + 1 < n -> (0 < gap i)%Qc.
Proof. intros H. pose proof (inc_nth knots i (i + 1) Hinc ltac:(lia) H). unfold gap, knot. qq. lra. Qed.
Lemma gap_nz i : i + 1 < n -> (knot (i + 1) - knot i <> 0)%Qc.
Proof. intros H E. pose proof (gap_pos i H) as P. unfold gap in P. rewrite E in P. discriminate P. Qed.
Lemma diffs_length : length (diffs knots) = n - 1.
Proof. unfold diffs. rewrite map2_length. fold n. destruct knots; cbn in *; lia. Qed.
Lemma diffs_nth i : i + 1 < n -> nth i (diffs knots) 0%Qc = gap i.
Proof.
  intros H. unfold diffs. rewrite (nth_map2 _ _ _ _ 0%Qc 0%Qc); [|destruct knots; cbn in *; lia|fold n; lia].
  unfold gap, knot. rewrite Nat.add_1_r. now destruct knots.
Qed.
Definition piece (i : nat) : list Qc := cubic (knot i) (knot (i + 1)) (b i) (b (i + 1)) (g i) (g (i + 1)).
Definition pieces : list (list Qc) := map piece (seq 0 (n - 1)).
Lemma pieces_length : length pieces = n - 1.
Proof. unfold pieces. now rewrite map_length, seq_length. Qed.
Lemma pieces_nth i : i + 1 < n -> nth i pieces [] = piece i.
Proof. intros H. unfold pieces. apply nth_map_seq. lia. Qed.
Lemma pieces_cubic : Forall (fun p => length p <= 4) pieces.
Proof. unfold pieces. rewrite Forall_map. apply Forall_forall. intros. cbn. lia. Qed.
(** The equation for an inner knot. *)
Definition balance (i : nat) : Prop :=
  (gap i / qz 6 * g i + (gap i + gap (i + 1)) / qz 3 * g (i + 1) + gap (i + 1) / qz 6 * g (i + 2) =
   b i / gap i - (1 / gap i + 1 / gap (i + 1)) * b (i + 1) + b (i + 2) / gap (i + 1))%Qc.
Lemma inner_meet i : i + 2 < n -> balance i -> meet (piece i) (knot (i + 1)) (piece (i + 1)) (knot (i + 1)).
Proof.
  intros H B. unfold piece, balance, gap in *. replace (i + 1 + 1) with (i + 2) in * by lia. apply junction; auto.
  - apply gap_nz. lia.
  - replace (i + 2) with (i + 1 + 1) by lia. apply gap_nz. lia.
Qed.
Lemma piece_left i : i + 1 < n -> peval (piece i) (knot i) = b i.
Proof.
  intros H. unfold piece. pose proof (gap_nz i H). rewrite cubic_eval by auto. set (h := (knot (i + 1) - knot i)%Qc) in *.
  replace (knot i - knot i)%Qc with 0%Qc by ring. rewrite qz6. unfold two. field. repeat split; auto; discriminate.
Qed.
Lemma piece_right i : i + 1 < n -> peval (piece i) (knot (i + 1)) = b (i + 1).
Proof.
  intros H. unfold piece. pose proof (gap_nz i H). rewrite cubic_eval by auto. set (h := (knot (i + 1) - knot i)%Qc) in *.
  replace (knot (i + 1) - knot (i + 1))%Qc with 0%Qc by ring. rewrite qz6. unfold two. field. repeat split; auto; discriminate.
Qed.
Lemma ends : np_min knots = knot 0 /\ np_max knots = knot (n - 1).
Proof.
  assert (Ne : knots <> []) by (intros ->; cbn in *; lia). destruct (np_min_least knots Ne) as [A1 A2]. destruct (np_max_greatest knots Ne) as [B1 B2].
  destruct (inc_ends knots _ _ Hinc A1 B1) as [E1 E2]; [auto|]. auto.
Qed.
(** What the code computes from the base functions. *)
Definition blend (r : Qc * Qc * Qc * Qc * nat) : Qc :=
  let '(am, ap, cm, cp, j) := r in (am * b j + ap * b (j + 1) + cm * g j + cp * g (j + 1))%Qc.
Lemma blend_inside x : (knot 0 <= x)%Qc -> (x <= knot (n - 1))%Qc -> exists j, j + 1 < n /\
  (knot j <= x)%Qc /\ (x <= knot (j + 1))%Qc /\ Z.to_nat (find_lower x knots) = j /\ blend (base_functions x knots) = peval (piece j) x.
Proof.
  intros X0 X1. destruct (find_lower_spec x knots Hinc Hn) as (j & Ej & Hj & F0 & _ & Fi). fold n in Hj. exists j. split; [lia|].
  assert (B : (knot j <= x)%Qc /\ (x <= knot (j + 1))%Qc).
  { destruct (Qclt_le_dec (knot 0) x) as [L|L].
    - destruct Fi as [Y1 Y2]; auto. split; auto. now apply Qclt_le_weak.
    - assert (x = knot 0) by (now apply Qcle_antisym). subst x. rewrite F0 by exact L. split; [apply Qcle_refl|]. apply Qclt_le_weak, inc_nth; auto. }
  split; [apply B|]. split; [apply B|]. rewrite Ej, Nat2Z.id. split; auto. unfold base_functions. rewrite Ej, Nat2Z.id.
  destruct ends as [-> ->].
  replace (qltb (knot (n - 1)) x) with false by (symmetry; now apply qltb_not). replace (qltb x (knot 0)) with false by (symmetry; now apply qltb_not).
  rewrite diffs_nth by lia. unfold blend, piece. rewrite cubic_eval by (apply gap_nz; lia). fold (knot j) (knot (j + 1)). fold (gap j). ring.
Qed.
Lemma blend_piece i x : (forall i, i + 2 < n -> balance i) -> i + 1 < n -> (knot i <= x)%Qc -> (x <= knot (i + 1))%Qc -> blend (base_functions x knots) = peval (piece i) x.
Proof.
  intros Hbal Hi X0 X1. destruct (blend_inside x) as (j & Hj & Y0 & Y1 & _ & E).
  - eapply Qcle_trans; [|exact X0]. apply inc_nth_le; auto; [lia|fold n; lia].
  - eapply Qcle_trans; [exact X1|]. apply inc_nth_le; auto; [lia|fold n; lia].
  - rewrite E. destruct (Nat.lt_trichotomy i j) as [L|[->|L]]; auto.
    + assert (knot (i + 1) <= knot j)%Qc by (apply inc_nth_le; auto; [lia|fold n; lia]).
      assert (Ex : x = knot j) by (apply Qcle_antisym; auto; qq; lra).
      assert (j = i + 1).
      { destruct (Nat.eq_dec j (i + 1)); auto. assert (knot (i + 1) < knot j)%Qc by (apply inc_nth; auto; [lia|fold n; lia]). subst x. exfalso. qq. lra. }
      subst j x. rewrite piece_left, piece_right by lia. reflexivity.
    + assert (knot (j + 1) <= knot i)%Qc by (apply inc_nth_le; auto; [lia|fold n; lia]).
      assert (Ex : x = knot i) by (apply Qcle_antisym; auto; qq; lra).
      assert (i = j + 1).
      { destruct (Nat.eq_dec i (j + 1)); auto. assert (knot (j + 1) < knot i)%Qc by (apply inc_nth; auto; [lia|fold n; lia]). subst x. exfalso. qq. lra. }
      subst i x. rewrite piece_left, piece_right by lia. reflexivity.
Qed.

(** ** Natural splines *)
Hypothesis g0 : g 0 = 0%Qc.
Hypothesis gn : g (n - 1) = 0%Qc.
Hypothesis Hbal : forall i, i + 2 < n -> balance i.
Definition left_line : list Qc := line (knot 0) (b 0) ((b 1%nat - b 0%nat) / gap 0 - gap 0 / qz 6 * g 1%nat)%Qc.
Definition right_line : list Qc := line (knot (n - 1)) (b (n - 1)) ((b (n - 1)%nat - b (n - 2)%nat) / gap (n - 2) + gap (n - 2) / qz 6 * g (n - 2)%nat)%Qc.
Lemma left_meet : meet left_line (knot 0) (piece 0) (knot 0).
Proof.
  pose proof (gap_nz 0 ltac:(lia)) as H. unfold meet, left_line, piece. rewrite line_eval, line_deriv, line_curve, cubic_eval, cubic_deriv, cubic_curve by auto.
  unfold gap. cbn [Nat.add] in *. set (h := (knot 1 - knot 0)%Qc) in *. replace (knot 0 - knot 0)%Qc with 0%Qc by ring. rewrite g0, qz6. unfold two. repeat split; field; repeat split; auto; discriminate.
Qed.
Lemma right_meet : meet (piece (n - 2)) (knot (n - 1)) right_line (knot (n - 1)).
Proof.
  pose proof (gap_nz (n - 2) ltac:(lia)) as H. unfold meet, right_line, piece. rewrite line_eval, line_deriv, line_curve, cubic_eval, cubic_deriv, cubic_curve by auto.
  unfold gap. replace (n - 2 + 1) with (n - 1) in * by lia. set (h := (knot (n - 1) - knot (n - 2))%Qc) in *.
  replace (knot (n - 1) - knot (n - 1))%Qc with 0%Qc by ring. rewrite gn, qz6. unfold two. repeat split; field; repeat split; auto; discriminate.
Qed.
Lemma natural_pieces : natural_spline knots left_line pieces right_line.
Proof.
  split; [apply pieces_length|]. split; [apply pieces_cubic|]. split; [cbn; lia|]. split; [cbn; lia|]. intros i Hi. fold n in Hi. cbv zeta.
  rewrite (Nat.add_1_r i). cbn [nth]. fold (knot i). destruct (Nat.eq_dec i (n - 1)) as [->|Ne].
  - rewrite (app_nth2 pieces) by (rewrite pieces_length; lia). rewrite pieces_length, Nat.sub_diag. cbn [nth].
    pose proof right_meet as R. replace (n - 1) with (S (n - 2)) in * by lia. cbn [nth].
    rewrite app_nth1 by (rewrite pieces_length; lia). rewrite pieces_nth by lia. exact R.
  - rewrite (app_nth1 pieces) by (rewrite pieces_length; lia). rewrite (pieces_nth i) by lia. destruct i as [|i]; [apply left_meet|].
    rewrite app_nth1 by (rewrite pieces_length; lia). rewrite pieces_nth by lia. rewrite <- (Nat.add_1_r i). apply inner_meet; [lia|]. apply Hbal. lia.
Qed.
Lemma natural_on_line : on_line knots left_line pieces right_line (fun x => blend (base_functions x knots)).
Proof.
  assert (In : forall i x, i + 1 < n -> (knot i <= x)%Qc -> (x <= knot (i + 1))%Qc -> blend (base_functions x knots) = peval (nth i pieces []) x).
  { intros i x Hi X0 X1. rewrite pieces_nth by auto. now apply blend_piece. }
  split; [|split; [|exact In]].
  - intros x Hx. destruct (Qclt_le_dec x (knot 0)) as [L|L].
    + unfold base_functions. destruct (find_lower_spec x knots Hinc Hn) as (j & Ej & Hj & F0 & _). rewrite Ej, Nat2Z.id, F0 by auto. clear j Ej Hj F0.
      destruct ends as [-> ->].
      replace (qltb x (knot 0)) with true by (symmetry; now apply qltb_iff). rewrite diffs_nth by lia. fold (knot 0) (knot (0 + 1)).
      unfold blend, left_line. rewrite line_eval, g0. pose proof (gap_nz 0 ltac:(lia)) as N. unfold gap. cbn [Nat.add] in *.
      set (h := (knot 1 - knot 0)%Qc) in *. replace (knot 1 - x)%Qc with (h - (x - knot 0))%Qc by (unfold h; ring). rewrite qz6. unfold two.
      field. repeat split; auto; discriminate.
    + assert (E : x = knot 0) by (now apply Qcle_antisym). rewrite E. rewrite (In 0) by (try lia; try apply Qcle_refl; apply Qclt_le_weak, inc_nth; auto; fold n; lia).
      rewrite pieces_nth by lia. destruct left_meet as [M _]. now rewrite M.
  - intros x Hx. change (last_knot knots) with (knot (n - 1)) in Hx. destruct (Qclt_le_dec (knot (n - 1)) x) as [L|L].
    + unfold base_functions. destruct (find_lower_spec x knots Hinc Hn) as (j & Ej & Hj & _ & Fn & _). rewrite Ej, Nat2Z.id, Fn by auto. clear j Ej Hj Fn. fold n.
      destruct ends as [-> ->].
      replace (qltb (knot (n - 1)) x) with true by (symmetry; now apply qltb_iff).
      replace (qltb x (knot 0)) with false.
      2:{ symmetry. apply qltb_not. assert (knot 0 <= knot (n - 1))%Qc by (apply inc_nth_le; auto; [lia|fold n; lia]). qq. lra. }
      rewrite diffs_nth by lia. fold (knot (n - 2)) (knot (n - 2 + 1)).
      unfold blend, right_line. rewrite line_eval. pose proof (gap_nz (n - 2) ltac:(lia)) as N. unfold gap. replace (n - 2 + 1) with (n - 1) in * by lia. rewrite gn.
      set (h := (knot (n - 1) - knot (n - 2))%Qc) in *. replace (x - knot (n - 2))%Qc with (h - (knot (n - 1) - x))%Qc by (unfold h; ring). rewrite qz6. unfold two.
      field. repeat split; auto; discriminate.
    + assert (E : x = knot (n - 1)) by (now apply Qcle_antisym). rewrite E. replace (n - 1) with (n - 2 + 1) by lia.
      rewrite (In (n - 2)) by (try lia; try apply Qcle_refl; apply Qclt_le_weak, inc_nth; auto; fold n; lia).
      rewrite pieces_nth by lia. replace (n - 2 + 1) with (n - 1) by lia. destruct right_meet as [M _]. now rewrite M.
Qed.
Lemma natural_at_knots i : i < n -> blend (base_functions (knot i) knots) = b i.
Proof.
  intros Hi. destruct (Nat.eq_dec i (n - 1)) as [->|Ne].
  - replace (n - 1) with (n - 2 + 1) by lia. rewrite (blend_piece (n - 2)) by (auto; try lia; try apply Qcle_refl; apply Qclt_le_weak, inc_nth; auto; fold n; lia).
    now rewrite piece_right by lia.
  - rewrite (blend_piece i) by (auto; try lia; try apply Qcle_refl; apply Qclt_le_weak, inc_nth; auto; fold n; lia). now rewrite piece_left by lia.
Qed.
End Curve.
