From Coq Require Import ZArith Lqa Sorted Field.
From Verif Require Import Base NumModel RankSpec RankProofs ContrastSpec ContrastProofs ContrastMatProofs StateModel StateProofs LinModel LinProofs SplineModel SplineSpec SplineNumProofs SplineProofs BsSpec BsProofs CrsProofs CrsSpec CrsCurveProofs CrsSolveProofs QrProofs.
Open Scope nat_scope.
Open Scope list_scope.

Notation qswap := (rsum_swap 0%Qc 1%Qc Qcplus Qcmult Qcminus Qcopp Qcrt).
Notation qzero := (rsum_zero 0%Qc 1%Qc Qcplus Qcmult Qcminus Qcopp Qcrt).
Lemma inner_dot a b : length a = length b -> inner a b = dot a b.
Proof. intros H. unfold inner. now rewrite (dot_qsum (length a)). Qed.
Lemma nth_skipn' {A} m (l : list A) c d : nth c (skipn m l) d = nth (m + c) l d.
Proof. revert l. induction m as [|m IH]; intros [|a l]; cbn; auto. now destruct c. Qed.
Lemma get_skipn m q i c : get (map (skipn m) q) i c = get q i (m + c).
Proof.
  unfold get. destruct (Nat.lt_ge_cases i (length q)) as [H|H].
  - rewrite (nth_map_lt _ _ _ _ []) by auto. apply nth_skipn'.
  - rewrite !(nth_overflow _ []) by (rewrite ?map_length; auto). transitivity 0%Qc; [now destruct c|now destruct (m + c)].
Qed.

Lemma seq_plus m n : forall a, map (Nat.add m) (seq a n) = seq (m + a) n.
Proof. induction n as [|n IH]; intros a; [reflexivity|]. cbn [seq map]. f_equal. rewrite IH. f_equal. lia. Qed.

Lemma q_squares {X} (h : X -> Qc) l : qsum (fun x => h x * h x)%Qc l = 0%Qc -> forall x, In x l -> h x = 0%Qc.
Proof.
  assert (N : forall a : Qc, (0 <= a * a)%Qc) by (intros a; destruct (Qclt_le_dec a 0) as [H|H]; [replace (a * a)%Qc with ((- a) * (- a))%Qc by ring; assert (0 <= - a)%Qc by (qq; lra)|]; qq; nra).
  assert (P : forall l, (0 <= qsum (fun x => h x * h x)%Qc l)%Qc).
  { induction l0 as [|x l0 IH]; [apply Qcle_refl|]. cbn [rsum]. rewrite <- (Qcplus_0_l 0). apply Qcplus_le_compat; auto. }
  induction l as [|y l IH]; cbn [rsum]; [intros _ x []|]. intros H x Hx.
  assert (Z : (h y * h y)%Qc = 0%Qc /\ qsum (fun x => h x * h x)%Qc l = 0%Qc).
  { specialize (N (h y)). specialize (P l). remember (qsum (fun x => h x * h x)%Qc l) as b eqn:Eb. remember (h y * h y)%Qc as c eqn:Ec. clear Eb Ec.
    apply qc_eq_inv in H. split; apply qc_eq; qq; lra. }
  destruct Z as [Z1 Z2]. destruct Hx as [<-|Hx]; [|auto]. now destruct (Qcmult_integral _ _ Z1).
Qed.
Section Absorb.
Variables (k : nat) (rows q r : mat).
Let m := length rows.
Hypothesis Hrows : Forall (fun row => length row = k) rows.
Hypothesis Hqr : is_qr k m (transpose k rows) q r.
Let Sq : has_shape k k q. Proof. apply Hqr. Qed.
Let nrm (t : nat) : Qc := qsum (fun l => get q l t * get q l t)%Qc (seq 0 k).
Let Nrm : forall t, t < k -> nrm t <> 0%Qc. Proof. apply Hqr. Qed.
Let Orth : forall i j, i < k -> j < k -> qsum (fun l => get q l i * get q l j)%Qc (seq 0 k) = (qkron i j * nrm j)%Qc.
Proof. intros i j Hi Hj. unfold kron. destruct (Nat.eqb_spec i j) as [->|D]; [unfold nrm; ring|]. transitivity 0%Qc; [|ring]. now apply Hqr. Qed.
Let Orth' : forall i j, i < k -> j < k -> qsum (fun l => get q i l * get q j l / nrm l)%Qc (seq 0 k) = qkron i j.
Proof. intros i j Hi Hj. apply (complete_rows 0%Qc 1%Qc Qcplus Qcmult Qcminus Qcopp Qcdiv Qcinv Qcft q_squares k (fun u l => get q l u)); auto. split; apply Hqr. Qed.
Let Tri : forall i j, j < i -> get r i j = 0%Qc. Proof. apply Hqr. Qed.
Let Fac : forall i l, i < m -> l < k -> get rows i l = qsum (fun t => get q l t * get r t i)%Qc (seq 0 k).
Proof. intros i l Hi Hl. rewrite <- (transpose_get k rows l i Hl). now apply Hqr. Qed.

Definition spread (gam : list Qc) : list Qc := map (fun i => qsum (fun c => get q i (m + c) * nth c gam 0)%Qc (seq 0 (k - m))) (seq 0 k).
Lemma spread_length gam : length (spread gam) = k.
Proof. unfold spread. now rewrite map_length, seq_length. Qed.
Lemma spread_nth gam i : i < k -> nth i (spread gam) 0%Qc = qsum (fun c => get q i (m + c) * nth c gam 0)%Qc (seq 0 (k - m)).
Proof. intros H. unfold spread. now rewrite nth_map_seq. Qed.
Lemma row_q i t : i < m -> t < k -> qsum (fun l => get rows i l * get q l t)%Qc (seq 0 k) = (get r t i * nrm t)%Qc.
Proof.
  intros Hi Ht. transitivity (qsum (fun l => qsum (fun u => get r u i * (get q l u * get q l t))%Qc (seq 0 k)) (seq 0 k)).
  - apply qsum_ext. intros l Hl. apply in_seq in Hl. rewrite Fac by lia. rewrite Qcmult_comm, <- qsum_scale. apply qsum_ext. intros. ring.
  - rewrite qswap. transitivity (qsum (fun u => qkron u t * (get r u i * nrm t))%Qc (seq 0 k)); [|now rewrite (qsum_kron' (fun u => get r u i * nrm t)%Qc)].
    apply qsum_ext. intros u Hu. apply in_seq in Hu. rewrite qsum_scale, Orth by lia. ring.
Qed.
Lemma spread_zero gam i : i < m -> inner (nth i rows []) (spread gam) = 0%Qc.
Proof.
  intros Hi. unfold inner. assert (Hl : length (nth i rows []) = k) by (rewrite Forall_forall in Hrows; apply Hrows, nth_In, Hi). rewrite Hl.
  transitivity (qsum (fun l => qsum (fun c => nth c gam 0 * (get rows i l * get q l (m + c)%nat))%Qc (seq 0 (k - m))) (seq 0 k)).
  - apply qsum_ext. intros l Hin. apply in_seq in Hin. rewrite spread_nth by lia. rewrite <- qsum_scale. apply qsum_ext. intros. unfold get. ring.
  - rewrite qswap. apply qzero. intros c Hc. apply in_seq in Hc. rewrite qsum_scale, row_q by lia. rewrite Tri by lia. ring.
Qed.
Lemma dot_spread row gam : length row = k -> length gam = k - m ->
  dot (map (fun c => dot row (column (map (skipn m) q) c)) (seq 0 (k - m))) gam = dot row (spread gam).
Proof.
  intros Hr Hg. rewrite (dot_qsum (k - m)) by (rewrite ?map_length, ?seq_length; auto). rewrite (dot_qsum k row) by (auto; apply spread_length).
  transitivity (qsum (fun c => qsum (fun l => nth l row 0 * (get q l (m + c)%nat * nth c gam 0))%Qc (seq 0 k)) (seq 0 (k - m))).
  - apply qsum_ext. intros c Hc. apply in_seq in Hc. rewrite nth_map_seq by lia.
    rewrite (dot_qsum k) by (rewrite ?column_length, ?map_length; auto; apply Sq). rewrite Qcmult_comm, <- qsum_scale. apply qsum_ext. intros l _.
    rewrite column_nth, get_skipn. ring.
  - rewrite qswap. apply qsum_ext. intros l Hl. apply in_seq in Hl. rewrite spread_nth by lia. now rewrite <- qsum_scale.
Qed.
(** Every solution of the constraints arises. *)
Definition gather (beta : list Qc) : list Qc := map (fun c => qsum (fun l => get q l (m + c) * nth l beta 0 / nrm (m + c)%nat)%Qc (seq 0 k)) (seq 0 (k - m)).
Lemma gather_length beta : length (gather beta) = k - m.
Proof. unfold gather. now rewrite map_length, seq_length. Qed.
Lemma gather_spread gam : length gam = k - m -> gather (spread gam) = gam.
Proof.
  intros Lg. apply nth_ext_Qc; [now rewrite gather_length|]. rewrite gather_length. intros c Hc. unfold gather. rewrite nth_map_seq by auto.
  assert (N : nrm (m + c)%nat <> 0%Qc) by (apply Nrm; lia).
  transitivity (qsum (fun l => qsum (fun c' => get q l (m + c) * get q l (m + c') * (nth c' gam 0 / nrm (m + c)%nat))%Qc (seq 0 (k - m))) (seq 0 k)).
  - apply qsum_ext. intros l Hl. apply in_seq in Hl. rewrite spread_nth by lia.
    transitivity (get q l (m + c) / nrm (m + c)%nat * qsum (fun c' => get q l (m + c') * nth c' gam 0) (seq 0 (k - m)))%Qc; [field; exact N|].
    rewrite <- qsum_scale. apply qsum_ext. intros. field. exact N.
  - rewrite qswap. transitivity (qsum (fun c' => qkron c' c * nth c' gam 0)%Qc (seq 0 (k - m))); [|now apply (qsum_kron' (fun c' => nth c' gam 0%Qc))].
    apply qsum_ext. intros c' Hc'. apply in_seq in Hc'.
    transitivity (nth c' gam 0 / nrm (m + c)%nat * qsum (fun l => get q l (m + c') * get q l (m + c))%Qc (seq 0 k))%Qc.
    + rewrite <- qsum_scale. apply qsum_ext. intros. ring.
    + rewrite Orth by lia. unfold kron. destruct (Nat.eqb_spec (m + c') (m + c)), (Nat.eqb_spec c' c); try lia; field; exact N.
Qed.
Lemma spread_gather beta : length beta = k -> independent_rows k rows -> (forall i, i < m -> inner (nth i rows []) beta = 0%Qc) -> spread (gather beta) = beta.
Proof.
  intros Lb Ind Hb. set (z := fun t => qsum (fun l => get q l t * nth l beta 0)%Qc (seq 0 k)).
  assert (Zr : forall i, i < m -> qsum (fun t => get r t i * z t)%Qc (seq 0 k) = 0%Qc).
  { intros i Hi. etransitivity; [|exact (Hb i Hi)]. unfold inner. assert (Hl : length (nth i rows []) = k) by (rewrite Forall_forall in Hrows; apply Hrows, nth_In, Hi). rewrite Hl.
    transitivity (qsum (fun t => qsum (fun l => get r t i * (get q l t * nth l beta 0))%Qc (seq 0 k)) (seq 0 k)).
    - apply qsum_ext. intros t _. unfold z. now rewrite <- qsum_scale.
    - rewrite qswap. apply qsum_ext. intros l Hl'. apply in_seq in Hl'. change (nth l (nth i rows []) 0%Qc) with (get rows i l). rewrite Fac by lia.
      rewrite Qcmult_comm, <- qsum_scale. apply qsum_ext. intros. ring. }
  set (R1 := map (fun t => map (fun i => get r t i) (seq 0 m)) (seq 0 m)).
  assert (G1 : forall t i, t < m -> i < m -> get R1 t i = get r t i) by (intros t i Ht Hi; unfold get at 1, R1; rewrite nth_map_seq by auto; now rewrite nth_map_seq).
  assert (S1 : length R1 = m) by (unfold R1; now rewrite map_length, seq_length).
  assert (S2 : Forall (fun row => length row = m) R1) by (unfold R1; rewrite Forall_map; apply Forall_forall; intros; now rewrite map_length, seq_length).
  assert (Reg : regular m R1).
  { intros w Lw Hw. apply (Ind (fun i => nth i w 0%Qc)). intros l Hl.
    transitivity (qsum (fun i => qsum (fun t => get q l t * (get r t i * nth i w 0))%Qc (seq 0 k)) (seq 0 m)).
    - fold m. apply qsum_ext. intros i Hi. apply in_seq in Hi. rewrite Fac by lia. rewrite Qcmult_comm, <- qsum_scale. apply qsum_ext. intros. ring.
    - rewrite qswap. apply qzero. intros t Ht. apply in_seq in Ht. rewrite qsum_scale. replace (qsum _ (seq 0 m)) with 0%Qc; [ring|]. symmetry.
      destruct (Nat.lt_ge_cases t m) as [H|H].
      + etransitivity; [|exact (Hw t H)]. rewrite (row_sum m) by (auto; lia). apply qsum_ext. intros i Hi. apply in_seq in Hi. now rewrite G1 by lia.
      + apply qzero. intros i Hi. apply in_seq in Hi. rewrite Tri by lia. ring. }
  destruct (np_solve_ok m R1 m (eye m) S1 S2 (proj1 (shape_eye m)) Reg) as (F & _ & LF & _ & HF).
  assert (Z1 : forall j, j < m -> j < k -> z j = 0%Qc).
  { intros j Hj Hjk.
    assert (E : qsum (fun i => get F i j * qsum (fun t => get r t i * z t)%Qc (seq 0 k))%Qc (seq 0 m) = 0%Qc).
    { apply qzero. intros i Hi. apply in_seq in Hi. rewrite Zr by lia. ring. }
    etransitivity; [|exact E]. transitivity (qsum (fun t => qkron t j * z t)%Qc (seq 0 k)); [now rewrite (qsum_kron' z)|].
    transitivity (qsum (fun t => qsum (fun i => get F i j * (get r t i * z t))%Qc (seq 0 m)) (seq 0 k)).
    - apply qsum_ext. intros t Ht. apply in_seq in Ht.
      transitivity (z t * qsum (fun i => get r t i * get F i j)%Qc (seq 0 m))%Qc; [|rewrite <- qsum_scale; apply qsum_ext; intros; ring].
      destruct (Nat.lt_ge_cases t m) as [H|H].
      + rewrite (qsum_ext _ (fun i => get R1 t i * nth i (column F j) 0)%Qc) by (intros i Hi; apply in_seq in Hi; rewrite G1, column_nth by lia; reflexivity).
        rewrite <- (row_sum m) by (auto; rewrite ?column_length; lia). rewrite HF, get_eye by lia. ring.
      + rewrite kron_diff by lia. replace (qsum _ _) with 0%Qc; [ring|]. symmetry. apply qzero. intros i Hi. apply in_seq in Hi. rewrite Tri by lia. ring.
    - rewrite qswap. apply qsum_ext. intros i _. now rewrite <- qsum_scale. }
  apply (nth_ext_Qc (spread (gather beta)) beta); [rewrite spread_length; auto|]. intros l Hl. rewrite spread_length in Hl.
  rewrite spread_nth by auto.
  transitivity (qsum (fun t => get q l t * (z t / nrm t))%Qc (seq 0 k)).
  - destruct (Nat.le_ge_cases m k) as [H|H].
    + transitivity (qsum (fun t => get q l t * (z t / nrm t))%Qc (seq 0 m ++ seq m (k - m))).
      2:{ f_equal. change (seq m (k - m)) with (seq (0 + m) (k - m)). rewrite <- seq_app. f_equal. lia. }
      rewrite qsum_app. rewrite (qzero (fun t => get q l t * (z t / nrm t))%Qc (seq 0 m)).
      * replace (seq m (k - m)) with (map (Nat.add m) (seq 0 (k - m))) by (rewrite seq_plus; f_equal; lia). rewrite (rsum_map 0%Qc Qcplus).
        transitivity (qsum (fun c => get q l (m + c) * (z (m + c)%nat / nrm (m + c)%nat))%Qc (seq 0 (k - m))); [|ring]. apply qsum_ext. intros c Hc. apply in_seq in Hc.
        unfold gather. rewrite nth_map_seq by lia. f_equal. unfold z, Qcdiv. now rewrite <- qsum_scale_r.
      * intros t Ht. apply in_seq in Ht. rewrite Z1 by lia. field. apply Nrm. lia.
    + replace (k - m) with 0 by lia. cbn [seq rsum]. symmetry. apply qzero. intros t Ht. apply in_seq in Ht. rewrite Z1 by lia. field. apply Nrm. lia.
  - transitivity (qsum (fun t => qsum (fun u => nth u beta 0 * (get q l t * get q u t / nrm t))%Qc (seq 0 k)) (seq 0 k)).
    + apply qsum_ext. intros t _. unfold z, Qcdiv. rewrite <- qsum_scale_r, <- qsum_scale. apply qsum_ext. intros. ring.
    + rewrite qswap. transitivity (qsum (fun u => qkron u l * nth u beta 0)%Qc (seq 0 k)); [|now rewrite (qsum_kron' (fun u => nth u beta 0%Qc))].
      apply qsum_ext. intros u Hu. apply in_seq in Hu. rewrite qsum_scale, Orth' by lia. rewrite (kron_sym u). ring.
Qed.
End Absorb.

(** Every matrix has a decomposition. *)
Definition rational_qr (n : nat) (a : mat) : result (mat * mat) :=
  let k := length (hd [] a) in
  let q := qr_q 0%Qc 1%Qc Qcplus Qcmult Qcminus Qcdiv (fun x => Qc_eq_dec x 0%Qc) n (fun s l => get a l s) in
  let r := qr_r 0%Qc 1%Qc Qcplus Qcmult Qcminus Qcdiv (fun x => Qc_eq_dec x 0%Qc) n (fun s l => get a l s) in
  Ok (map (fun l => map (fun u => q u l) (seq 0 n)) (seq 0 n), map (fun u => map (fun s => r u s) (seq 0 k)) (seq 0 n)).
Lemma get_map2 (f : nat -> nat -> Qc) n k i j : i < n -> j < k -> get (map (fun l => map (fun u => f l u) (seq 0 k)) (seq 0 n)) i j = f i j.
Proof. intros Hi Hj. unfold get. rewrite nth_map_seq by auto. now rewrite nth_map_seq. Qed.
Lemma rational_qr_sound : qr_sound rational_qr.
Proof.
  intros n k a q r [S1 S2] [= <- <-].
  assert (C : forall m, qsum (fun _ : nat => 1%Qc) (seq 0 m) = 0%Qc -> m = 0).
  { intros [|m] H; [reflexivity|]. exfalso. rewrite qsum_const, seq_length in H. apply (qn_nz (Datatypes.S m)); [lia|]. etransitivity; [|exact H]. ring. }
  destruct (qr_factors 0%Qc 1%Qc Qcplus Qcmult Qcminus Qcopp Qcdiv Qcinv Qcft (fun x => Qc_eq_dec x 0%Qc) q_squares C n (fun s l => get a l s)) as [[O N] [T F]].
  set (gq := qr_q _ _ _ _ _ _ _ _ _) in *. set (gr := qr_r _ _ _ _ _ _ _ _ _) in *.
  assert (K : 0 < n -> length (hd [] a) = k) by (intros Hn; destruct a as [|row a]; [cbn in S1; lia|now inversion S2]).
  split; [split; [now rewrite map_length, seq_length|apply Forall_map, Forall_forall; intros; now rewrite map_length, seq_length]|].
  split; [split; [now rewrite map_length, seq_length|apply Forall_map, Forall_forall; intros i Hi; apply in_seq in Hi; rewrite map_length, seq_length; apply K; lia]|].
  assert (G : forall l u, l < n -> u < n -> get (map (fun l => map (fun u => gq u l) (seq 0 n)) (seq 0 n)) l u = gq u l) by (intros; now apply (get_map2 (fun l u => gq u l))).
  split; [|split; [|split]].
  - intros i j Hi Hj D. etransitivity; [|apply (O i j Hi Hj D)]. unfold ip. apply qsum_ext. intros l Hl. apply in_seq in Hl. rewrite !G by lia. reflexivity.
  - intros i Hi E. apply (N i Hi). etransitivity; [|exact E]. unfold ip. apply qsum_ext. intros l Hl. apply in_seq in Hl. rewrite !G by lia. reflexivity.
  - intros i j H. destruct (Nat.lt_ge_cases i n) as [Hi|Hi].
    + destruct (Nat.lt_ge_cases j (length (hd [] a))) as [Hj|Hj]; [rewrite (get_map2 gr); auto|]. unfold get. rewrite nth_map_seq by auto. apply nth_overflow. now rewrite map_length, seq_length.
    + unfold get. rewrite (nth_overflow _ []) by now rewrite map_length, seq_length. now destruct j.
  - intros i j Hi Hj. rewrite (F j i Hi). apply qsum_ext. intros u Hu. apply in_seq in Hu. rewrite G, (get_map2 gr) by (rewrite ?K by lia; lia). reflexivity.
Qed.
