From Coq Require Import ZArith Lqa Sorted Field.
From Verif Require Import Base NumModel RankSpec RankProofs ContrastSpec ContrastProofs ContrastMatProofs StateModel StateProofs LinModel LinProofs SplineModel SplineSpec SplineNumProofs SplineProofs BsSpec BsProofs CrsProofs CrsSpec CrsCurveProofs.
Open Scope nat_scope.
Open Scope list_scope.

Lemma third l u : ((l + u) / qz 3 = two * (l / qz 6 + u / qz 6))%Qc.
Proof. rewrite qz6, qz3. unfold two. field. split; discriminate. Qed.
Lemma nth_removelast {A} (l : list A) i d : i + 1 < length l -> nth i (removelast l) d = nth i l d.
Proof.
  revert i. induction l as [|a l IH]; intros i H; cbn in *; [lia|]. destruct l as [|a' l]; [cbn in *; lia|].
  destruct i as [|i]; [reflexivity|]. cbn [nth]. apply IH. cbn in *. lia.
Qed.
Lemma removelast_length {A} (l : list A) : length (removelast l) = length l - 1.
Proof. induction l as [|a l IH]; [reflexivity|]. destruct l as [|a' l]; [reflexivity|]. cbn [removelast length] in *. rewrite IH. lia. Qed.
Lemma tl_nth {A} (l : list A) i d : nth i (tl l) d = nth (S i) l d.
Proof. destruct l; [now destruct i|reflexivity]. Qed.
Lemma tl_length {A} (l : list A) : length (tl l) = length l - 1.
Proof. destruct l; cbn; lia. Qed.

Section Natural.
Variable knots : list Qc.
Hypothesis Hinc : increasing knots.
Let n := length knots.
Hypothesis Hn : 3 <= n.
Let m := n - 2.
Let gap := gap knots.
Let Lh : length (diffs knots) = n - 1. Proof. apply diffs_length; auto. unfold n in *. lia. Qed.
Let Hh : forall i, i + 1 < n -> nth i (diffs knots) 0%Qc = gap i. Proof. intros i. apply diffs_nth; auto. unfold n in *. lia. Qed.
Let Hg : forall i, i + 1 < n -> (0 < gap i)%Qc. Proof. intros i. apply gap_pos; auto. unfold n in *. lia. Qed.

Definition ul_ (h : list Qc) : list Qc := map (fun q => q / qz 6)%Qc (tl (removelast h)).
Lemma ul_length : length (ul_ (diffs knots)) = m - 1.
Proof. unfold ul_. rewrite map_length, tl_length, removelast_length, Lh. unfold m. lia. Qed.
Lemma ul_nth i : i + 1 < m -> nth i (ul_ (diffs knots)) 0%Qc = (gap (i + 1) / qz 6)%Qc.
Proof.
  intros H. unfold ul_. rewrite (nth_map_lt _ _ _ _ 0%Qc) by (rewrite tl_length, removelast_length, Lh; unfold m in *; lia).
  rewrite tl_nth, nth_removelast by (rewrite Lh; unfold m in *; lia). rewrite Hh by (unfold m in *; lia). now rewrite Nat.add_1_r.
Qed.
Lemma banded_get i j : i < m -> j < m ->
  get (banded (natural_banded knots) m) i j =
  if Nat.eqb j i then ((gap i + gap (i + 1)) / qz 3)%Qc
  else if Nat.eqb j (if Nat.eqb i 0 then m else i - 1) then (gap i / qz 6)%Qc
  else if Nat.eqb j (i + 1) then (gap (i + 1) / qz 6)%Qc else 0%Qc.
Proof.
  intros Hi Hj. unfold get at 1, banded. rewrite nth_map_seq by auto. rewrite nth_map_seq by auto. rewrite (Nat.eqb_sym j i).
  unfold natural_banded, get. cbn [nth]. change (map (fun q => q / qz 6)%Qc (tl (removelast (diffs knots)))) with (ul_ (diffs knots)).
  destruct (Nat.eqb_spec i j) as [->|Nij].
  - rewrite (nth_map_lt _ _ _ _ 0%Qc) by (rewrite map2_length, removelast_length, tl_length, Lh; unfold m in *; lia).
    rewrite (nth_map2 _ _ _ _ 0%Qc 0%Qc) by (rewrite ?removelast_length, ?tl_length, Lh; unfold m in *; lia).
    rewrite nth_removelast by (rewrite Lh; unfold m in *; lia). rewrite tl_nth, !Hh by (unfold m in *; lia). now rewrite Nat.add_1_r.
  - destruct (Nat.eqb_spec j (i + 1)) as [->|Nj].
    + destruct (Nat.eqb_spec (i + 1) (if Nat.eqb i 0 then m else i - 1)) as [E|_]; [destruct (Nat.eqb_spec i 0); lia|].
      rewrite Nat.add_1_r at 1. apply ul_nth. lia.
    + destruct (Nat.eqb_spec i (j + 1)) as [->|Ni].
      * destruct (Nat.eqb_spec (j + 1) 0); [lia|]. replace (j + 1 - 1) with j by lia. rewrite Nat.eqb_refl.
        rewrite app_nth1 by (rewrite ul_length; lia). apply ul_nth. lia.
      * destruct (Nat.eqb_spec j (if Nat.eqb i 0 then m else i - 1)) as [E|_]; auto. destruct (Nat.eqb_spec i 0); lia.
Qed.
Lemma banded_shape : length (banded (natural_banded knots) m) = m /\ Forall (fun r => length r = m) (banded (natural_banded knots) m).
Proof.
  unfold banded. split; [now rewrite map_length, seq_length|]. rewrite Forall_map. apply Forall_forall. intros. now rewrite map_length, seq_length.
Qed.
Lemma banded_sum i (v : nat -> Qc) : i < m ->
  qsum (fun j => get (banded (natural_banded knots) m) i j * v j)%Qc (seq 0 m) =
  ((gap i + gap (i + 1)) / qz 3 * v i + (if Nat.eqb i 0 then 0 else gap i / qz 6 * v (i - 1)%nat) + (if Nat.eqb (i + 1) m then 0 else gap (i + 1) / qz 6 * v (i + 1)%nat))%Qc.
Proof.
  intros Hi. rewrite (three_sum (get (banded (natural_banded knots) m) i) i (if Nat.eqb i 0 then m else i - 1) (if Nat.eqb (i + 1) m then S m else i + 1) m
    ((gap i + gap (i + 1)) / qz 3)%Qc (gap i / qz 6)%Qc (gap (i + 1) / qz 6)%Qc v); auto.
  - f_equal; [f_equal|].
    + destruct (Nat.eqb_spec i 0); [destruct (Nat.ltb_spec m m); [lia|auto]|destruct (Nat.ltb_spec (i - 1) m); [auto|lia]].
    + destruct (Nat.eqb_spec (i + 1) m); [destruct (Nat.ltb_spec (S m) m); [lia|auto]|destruct (Nat.ltb_spec (i + 1) m); [auto|lia]].
  - destruct (Nat.eqb_spec i 0); lia.
  - destruct (Nat.eqb_spec (i + 1) m); lia.
  - destruct (Nat.eqb_spec i 0), (Nat.eqb_spec (i + 1) m); lia.
  - intros j Hj. rewrite banded_get by auto. destruct (Nat.eqb_spec j i); auto. destruct (Nat.eqb_spec j (if Nat.eqb i 0 then m else i - 1)); auto.
    destruct (Nat.eqb_spec j (i + 1)), (Nat.eqb_spec (i + 1) m), (Nat.eqb_spec j (S m)), (Nat.eqb_spec j (i + 1)); auto; lia.
Qed.
Lemma row_sum k b (v : list Qc) i : Forall (fun r => length r = k) b -> i < length b -> length v = k ->
  dot (nth i b []) v = qsum (fun j => get b i j * nth j v 0)%Qc (seq 0 k).
Proof. intros Hb Hi Hv. rewrite Forall_forall in Hb. rewrite (dot_qsum k) by (auto; apply Hb, nth_In, Hi). reflexivity. Qed.
Lemma banded_regular : regular m (banded (natural_banded knots) m).
Proof.
  intros x Lx Hx. assert (Hm : 0 < m) by (unfold m; lia). destruct banded_shape as [S1 S2].
  destruct (max_abs (fun i => nth i x 0%Qc) m Hm) as (i & M & Hi & HM & Hv & Ha).
  assert (Z : M = 0%Qc).
  { specialize (Hx i Hi). rewrite (row_sum m) in Hx by (auto; lia). rewrite (banded_sum i (fun j => nth j x 0%Qc)) in Hx by auto.
    apply (dominated (gap i / qz 6) (gap (i + 1) / qz 6) M (nth i x 0%Qc) (if Nat.eqb i 0 then 0%Qc else nth (i - 1) x 0%Qc) (if Nat.eqb (i + 1) m then 0%Qc else nth (i + 1) x 0%Qc)); auto.
    - apply Qcmul_pos; [apply Hg; unfold m in *; lia|reflexivity].
    - apply Qcmul_pos; [apply Hg; unfold m in *; lia|reflexivity].
    - destruct (Nat.eqb_spec i 0); [qq; lra|]. apply Ha. lia.
    - destruct (Nat.eqb_spec i 0); [qq; lra|]. apply Ha. lia.
    - destruct (Nat.eqb_spec (i + 1) m); [qq; lra|]. apply Ha. lia.
    - destruct (Nat.eqb_spec (i + 1) m); [qq; lra|]. apply Ha. lia.
    - rewrite third in Hx. etransitivity; [|exact Hx]. destruct (Nat.eqb i 0), (Nat.eqb (i + 1) m); ring. }
  intros j Hj. destruct (Ha j Hj). subst M. apply Qcle_antisym; auto.
Qed.

Lemma natural_d_ok : exists d, natural_d knots = Ok d /\ shape m n d /\
  forall i j, i < m -> get d i j = if Nat.eqb j i then (1 / gap i)%Qc else if Nat.eqb j (i + 1) then (- (1 / gap i) - 1 / gap (i + 1))%Qc
                                   else if Nat.eqb j (i + 2) then (1 / gap (i + 1))%Qc else 0%Qc.
Proof.
  unfold natural_d. cbv zeta. fold n m.
  enough (K : forall k, k <= m -> exists d, foldM (fun d i =>
           let* d := set_entry d i i (1 / nth i (diffs knots) 0)%Qc in
           let* d := set_entry d i (i + 2) (1 / nth (i + 1) (diffs knots) 0)%Qc in
           set_entry d i (i + 1) (- get d i i - get d i (i + 2))%Qc) (seq 0 k) (zeros m n) = Ok d /\ shape m n d /\
    forall i j, i < m -> get d i j = if Nat.ltb i k then if Nat.eqb j i then (1 / gap i)%Qc else if Nat.eqb j (i + 1) then (- (1 / gap i) - 1 / gap (i + 1))%Qc
                                   else if Nat.eqb j (i + 2) then (1 / gap (i + 1))%Qc else 0%Qc else 0%Qc).
  { destruct (K m (le_n _)) as (d & E & S & G). exists d. split; auto. split; auto. intros i j Hi. rewrite G by auto. destruct (Nat.ltb_spec i m); [auto|lia]. }
  induction k as [|k IH]; intros Hk.
  - exists (zeros m n). split; [reflexivity|]. split; [apply shape_zeros|]. intros. apply get_zeros.
  - destruct IH as (d & E & S & G); [lia|]. rewrite seq_S, foldM_app, E. cbn [bind foldM Nat.add].
    destruct (set_entry_spec m n d k k (1 / nth k (diffs knots) 0)%Qc S ltac:(lia) ltac:(unfold m in *; lia)) as (d1 & -> & S1 & G1). cbn [bind].
    destruct (set_entry_spec m n d1 k (k + 2) (1 / nth (k + 1) (diffs knots) 0)%Qc S1 ltac:(lia) ltac:(unfold m in *; lia)) as (d2 & -> & S2 & G2). cbn [bind].
    destruct (set_entry_spec m n d2 k (k + 1) (- get d2 k k - get d2 k (k + 2))%Qc S2 ltac:(lia) ltac:(unfold m in *; lia)) as (d3 & -> & S3 & G3). cbn [bind].
    exists d3. split; auto. split; auto. intros i j Hi. rewrite G3. rewrite !G2, !G1, !Nat.eqb_refl, !Hh by (auto; unfold m in *; lia).
    destruct (Nat.eqb_spec i k) as [->|Nik]; cbn [andb].
    + destruct (Nat.ltb_spec k (k + 1)); [|lia]. destruct (Nat.ltb_spec k (Datatypes.S k)); [|lia]. destruct (Nat.eqb_spec k (k + 2)); [lia|]. destruct (Nat.eqb_spec j (k + 1)) as [->|]; [destruct (Nat.eqb_spec (k + 1) k); [lia|]; reflexivity|].
      destruct (Nat.eqb_spec j (k + 2)) as [->|]; [destruct (Nat.eqb_spec (k + 2) k); [lia|]; reflexivity|]. destruct (Nat.eqb_spec j k); auto.
      rewrite G by auto. destruct (Nat.ltb_spec k k); [lia|auto].
    + rewrite G by auto. destruct (Nat.ltb_spec i k), (Nat.ltb_spec i (Datatypes.S k)); try lia; auto.
Qed.

Lemma natural_f_ok : exists f, natural_f knots = Ok f /\ forall b : nat -> Qc,
  let g := fun i => qsum (fun c => get f i c * b c)%Qc (seq 0 n) in
  g 0 = 0%Qc /\ g (n - 1) = 0%Qc /\ forall i, i + 2 < n -> balance knots b g i.
Proof.
  destruct natural_d_ok as (d & Ed & Sd & Gd). destruct banded_shape as [B1 B2].
  destruct (np_solve_ok m (banded (natural_banded knots) m) n d B1 B2 (proj1 Sd) banded_regular) as (f & Ef & L1 & L2 & Hf).
  exists (repeat 0%Qc n :: f ++ [repeat 0%Qc n]). split.
  - assert (Eq : forallb (fun r => Nat.eqb (length r) (length (hd [] (natural_banded knots)))) (natural_banded knots) = true).
    { unfold natural_banded. change (map (fun q => q / qz 6)%Qc (tl (removelast (diffs knots)))) with (ul_ (diffs knots)).
      cbn [forallb hd]. rewrite map_length, map2_length, removelast_length, tl_length, Lh, app_length. cbn [length]. rewrite ul_length.
      rewrite !andb_true_iff, !Nat.eqb_eq. unfold m. repeat split; lia. }
    unfold natural_f. cbv zeta. rewrite Eq. cbn [bind]. rewrite Ed. cbn [bind]. fold n m. rewrite Ef. reflexivity.
  - intros b g.
    assert (Z0 : g 0 = 0%Qc).
    { unfold g. apply (rsum_zero _ _ _ _ _ _ Qcrt). intros c _. unfold get. cbn [nth]. rewrite nth_zeros. ring. }
    assert (Zn : g (n - 1) = 0%Qc).
    { unfold g. apply (rsum_zero _ _ _ _ _ _ Qcrt). intros c _. unfold get. replace (n - 1) with (S m) by (unfold m; lia). cbn [nth].
      rewrite app_nth2, L1, Nat.sub_diag by lia. cbn [nth]. rewrite nth_zeros. ring. }
    assert (Gi : forall i, i < m -> g (i + 1) = qsum (fun c => get f i c * b c)%Qc (seq 0 n)).
    { intros i Hi. unfold g. apply qsum_ext. intros c _. unfold get. rewrite Nat.add_1_r. cbn [nth]. rewrite app_nth1 by lia. reflexivity. }
    split; auto. split; auto. intros i Hi. assert (Him : i < m) by (unfold m; lia).
    pose proof (solve_comb m n _ f d b i B2 L1 B1 Him (fun c Hc => Hf i c Him Hc)) as E.
    rewrite (banded_sum i (fun l => qsum (fun c => get f l c * b c)%Qc (seq 0 n)) Him) in E.
    rewrite <- (Gi i) in E by auto.
    assert (D : qsum (fun c => get d i c * b c)%Qc (seq 0 n) = ((- (1 / gap i) - 1 / gap (i + 1)) * b (i + 1)%nat + 1 / gap i * b i + 1 / gap (i + 1) * b (i + 2)%nat)%Qc).
    { rewrite (three_sum (get d i) (i + 1) i (i + 2) n (- (1 / gap i) - 1 / gap (i + 1))%Qc (1 / gap i)%Qc (1 / gap (i + 1))%Qc b) by
        (try lia; intros j Hj; rewrite Gd by auto; destruct (Nat.eqb_spec j i), (Nat.eqb_spec j (i + 1)); auto; lia).
      destruct (Nat.ltb_spec i n); [|lia]. destruct (Nat.ltb_spec (i + 2) n); [|lia]. reflexivity. }
    rewrite D in E. unfold balance. fold gap.
    assert (P1 : (if Nat.eqb i 0 then 0 else gap i / qz 6 * qsum (fun c => get f (i - 1) c * b c) (seq 0 n))%Qc = (gap i / qz 6 * g i)%Qc).
    { destruct (Nat.eqb_spec i 0) as [->|]; [rewrite Z0; ring|]. rewrite <- Gi by lia. now replace (i - 1 + 1) with i by lia. }
    assert (P2 : (if Nat.eqb (i + 1) m then 0 else gap (i + 1) / qz 6 * qsum (fun c => get f (i + 1) c * b c) (seq 0 n))%Qc = (gap (i + 1) / qz 6 * g (i + 2)%nat)%Qc).
    { destruct (Nat.eqb_spec (i + 1) m) as [X|]; [replace (i + 2) with (n - 1) by (unfold m in X; lia); rewrite Zn; ring|]. rewrite <- Gi by lia.
      now replace (i + 1 + 1) with (i + 2) by lia. }
    rewrite P1, P2 in E. transitivity ((gap i + gap (i + 1)) / qz 3 * g (i + 1)%nat + gap i / qz 6 * g i + gap (i + 1) / qz 6 * g (i + 2)%nat)%Qc; [ring|].
    rewrite E. unfold Qcdiv. ring.
Qed.
End Natural.

(** * Cyclic *)
Section Fill.
Variables (m : nat) (A B : nat -> Qc) (C : Qc).
Hypothesis Hm : 3 <= m.
Definition wrap_prev (i : nat) : nat := if Nat.eqb i 0 then m - 1 else i - 1.
Definition wrap_next (i : nat) : nat := if Nat.eqb (i + 1) m then 0 else i + 1.
Definition fill : result mat :=
  let* b := set_entry (zeros m m) 0 0 (A 0) in
  let* b := set_entry b 0 (m - 1) C in
  let* b := set_entry b (m - 1) 0 C in
  foldM (fun b i => let* b := set_entry b i i (A i) in let* b := set_entry b i (i - 1) (B i) in set_entry b (i - 1) i (B i)) (seq 1 (m - 1)) b.
Definition filled (k i j : nat) : Qc :=
  if Nat.eqb i j then if Nat.ltb i k then A i else 0%Qc
  else if Nat.eqb i (j + 1) && Nat.ltb i k then B i
  else if Nat.eqb j (i + 1) && Nat.ltb j k then B j
  else if (Nat.eqb i 0 && Nat.eqb j (m - 1)) || (Nat.eqb j 0 && Nat.eqb i (m - 1)) then C else 0%Qc.
Ltac cases := repeat match goal with
  | |- context [Nat.eqb ?a ?b] => destruct (Nat.eqb_spec a b); cbn [andb orb]
  | |- context [Nat.ltb ?a ?b] => destruct (Nat.ltb_spec a b); cbn [andb orb]
  end; try lia; try reflexivity; try (f_equal; lia).
Lemma fill_ok : exists b, fill = Ok b /\ shape m m b /\ forall i j, i < m -> j < m -> get b i j =
  if Nat.eqb j i then A i else if Nat.eqb j (wrap_prev i) then (if Nat.eqb i 0 then C else B i)
  else if Nat.eqb j (wrap_next i) then (if Nat.eqb (i + 1) m then C else B (i + 1)) else 0%Qc.
Proof.
  unfold fill.
  destruct (set_entry_spec m m (zeros m m) 0 0 (A 0) (shape_zeros m m) ltac:(lia) ltac:(lia)) as (b1 & -> & S1 & G1). cbn [bind].
  destruct (set_entry_spec m m b1 0 (m - 1) C S1 ltac:(lia) ltac:(lia)) as (b2 & -> & S2 & G2). cbn [bind].
  destruct (set_entry_spec m m b2 (m - 1) 0 C S2 ltac:(lia) ltac:(lia)) as (b3 & -> & S3 & G3). cbn [bind].
  enough (K : forall k, k <= m - 1 -> exists b, foldM (fun b i => let* b := set_entry b i i (A i) in let* b := set_entry b i (i - 1) (B i) in set_entry b (i - 1) i (B i)) (seq 1 k) b3 = Ok b /\
     shape m m b /\ forall i j, i < m -> j < m -> get b i j = filled (S k) i j).
  { destruct (K (m - 1) (le_n _)) as (b & E & Sb & G). exists b. split; auto. split; auto. intros i j Hi Hj. rewrite G by auto. unfold filled, wrap_prev, wrap_next.
    replace (S (m - 1)) with m by lia. destruct (Nat.eqb_spec i j) as [->|]; cbn [andb orb].
    - rewrite Nat.eqb_refl. cases.
    - destruct (Nat.eqb_spec j i); [lia|]. destruct (Nat.eqb_spec i 0) as [->|].
      + destruct (Nat.eqb_spec (0 + 1) m); cases.
      + destruct (Nat.eqb_spec (i + 1) m); cases. }
  induction k as [|k IH]; intros Hk.
  - exists b3. split; [reflexivity|]. split; auto. intros i j Hi Hj. rewrite G3, G2, G1, get_zeros. unfold filled. cases.
  - destruct IH as (b & E & Sb & G); [lia|]. rewrite seq_S, foldM_app, E. cbn [bind foldM Nat.add].
    destruct (set_entry_spec m m b (S k) (S k) (A (S k)) Sb ltac:(lia) ltac:(lia)) as (d1 & -> & D1 & X1). cbn [bind].
    destruct (set_entry_spec m m d1 (S k) (S k - 1) (B (S k)) D1 ltac:(lia) ltac:(lia)) as (d2 & -> & D2 & X2). cbn [bind].
    destruct (set_entry_spec m m d2 (S k - 1) (S k) (B (S k)) D2 ltac:(lia) ltac:(lia)) as (d3 & -> & D3 & X3). cbn [bind].
    exists d3. split; auto. split; auto. intros i j Hi Hj. rewrite X3, X2, X1, G by auto. unfold filled.
    destruct (Nat.eqb_spec i (S k - 1)), (Nat.eqb_spec j (S k)); cbn [andb orb]; try (subst i j; cases).
    + destruct (Nat.eqb_spec i (S k)); [lia|]. cbn [andb]. subst i. cases.
    + subst j. destruct (Nat.eqb_spec i (S k)) as [->|]; cbn [andb]; cases.
    + destruct (Nat.eqb_spec i (S k)) as [->|]; cbn [andb]; cases.
Qed.
End Fill.
Lemma foldM_ext {A B} (f f' : B -> A -> result B) l : (forall x s, In x l -> f s x = f' s x) -> forall s, foldM f l s = foldM f' l s.
Proof.
  induction l as [|x l IH]; intros H s; [reflexivity|]. cbn [foldM]. rewrite H by (now left). destruct (f' s x); cbn [bind]; auto.
  apply IH. intros. apply H. now right.
Qed.

Section Cyclic.
Variable knots : list Qc.
Hypothesis Hinc : increasing knots.
Let n := length knots.
Hypothesis Hn : 4 <= n.
Let m := n - 1.
Let gap := gap knots.
Let Hh : forall i, i < m -> nth i (diffs knots) 0%Qc = gap i. Proof. intros i Hi. apply diffs_nth; auto; unfold m, n in *; lia. Qed.
Let Hg : forall i, i < m -> (0 < gap i)%Qc. Proof. intros i Hi. apply gap_pos; auto; unfold m, n in *; lia. Qed.
Let prev := wrap_prev m.
Let next := wrap_next m.
Lemma prev_lt i : i < m -> prev i < m /\ prev i <> i.
Proof. unfold prev, wrap_prev, m. destruct (Nat.eqb_spec i 0); lia. Qed.
Lemma next_lt i : i < m -> next i < m /\ next i <> i /\ prev i <> next i.
Proof. unfold next, prev, wrap_next, wrap_prev, m. destruct (Nat.eqb_spec i 0), (Nat.eqb_spec (i + 1) (n - 1)); lia. Qed.
Lemma cyclic_b_ok : exists b, cyclic_b knots = Ok b /\ shape m m b /\ forall i j, i < m -> j < m -> get b i j =
  if Nat.eqb j i then ((gap (prev i) + gap i) / qz 3)%Qc else if Nat.eqb j (prev i) then (gap (prev i) / qz 6)%Qc
  else if Nat.eqb j (next i) then (gap i / qz 6)%Qc else 0%Qc.
Proof.
  set (h := fun i => nth i (diffs knots) 0%Qc).
  destruct (fill_ok m (fun i => (h (prev i) + h i) / qz 3)%Qc (fun i => h (i - 1)%nat / qz 6)%Qc (h (m - 1)%nat / qz 6)%Qc ltac:(unfold m; lia)) as (b & E & Sb & G).
  exists b. split; [|split; auto].
  - rewrite <- E. unfold cyclic_b, fill. cbv zeta. fold n m.
    destruct (set_entry _ 0 0 _) as [b1|]; cbn [bind]; auto. destruct (set_entry b1 _ _ _) as [b2|]; cbn [bind]; auto. destruct (set_entry b2 _ _ _) as [b3|]; cbn [bind]; auto.
    apply foldM_ext. intros i s Hi. apply in_seq in Hi. unfold prev, wrap_prev. destruct (Nat.eqb_spec i 0); [lia|]. reflexivity.
  - intros i j Hi Hj. rewrite G by auto. unfold h. destruct (prev_lt i Hi). rewrite !Hh by auto. fold (prev i) (next i).
    destruct (Nat.eqb j i); auto. destruct (Nat.eqb_spec j (prev i)).
    + unfold prev, wrap_prev. destruct (Nat.eqb_spec i 0); rewrite Hh by lia; reflexivity.
    + destruct (Nat.eqb_spec j (next i)); auto. destruct (Nat.eqb_spec (i + 1) m); rewrite Hh by lia; do 2 f_equal; lia.
Qed.
Lemma cyclic_d_ok : exists d, cyclic_d knots = Ok d /\ shape m m d /\ forall i j, i < m -> j < m -> get d i j =
  if Nat.eqb j i then (- (1) / gap (prev i) - 1 / gap i)%Qc else if Nat.eqb j (prev i) then (1 / gap (prev i))%Qc
  else if Nat.eqb j (next i) then (1 / gap i)%Qc else 0%Qc.
Proof.
  set (h := fun i => nth i (diffs knots) 0%Qc).
  destruct (fill_ok m (fun i => if Nat.eqb i 0 then - (1) / h 0%nat - 1 / h (m - 1)%nat else - (1) / h (i - 1)%nat - 1 / h i)%Qc (fun i => 1 / h (i - 1)%nat)%Qc (1 / h (m - 1)%nat)%Qc ltac:(unfold m; lia)) as (b & E & Sb & G).
  exists b. split; [|split; auto].
  - rewrite <- E. unfold cyclic_d, fill. cbv zeta. fold n m. cbn [Nat.eqb].
    destruct (set_entry _ 0 0 _) as [b1|]; cbn [bind]; auto. destruct (set_entry b1 _ _ _) as [b2|]; cbn [bind]; auto. destruct (set_entry b2 _ _ _) as [b3|]; cbn [bind]; auto.
    apply foldM_ext. intros i s Hi. apply in_seq in Hi. destruct (Nat.eqb_spec i 0); [lia|]. reflexivity.
  - intros i j Hi Hj. rewrite G by auto. unfold h. fold (prev i) (next i).
    destruct (Nat.eqb j i).
    + unfold prev, wrap_prev. destruct (Nat.eqb_spec i 0) as [->|]; rewrite !Hh by lia; unfold Qcdiv; ring.
    + destruct (Nat.eqb_spec j (prev i)).
      * unfold prev, wrap_prev. destruct (Nat.eqb_spec i 0); rewrite Hh by lia; reflexivity.
      * destruct (Nat.eqb_spec j (next i)); auto. destruct (Nat.eqb_spec (i + 1) m); rewrite Hh by lia; do 2 f_equal; lia.
Qed.
Lemma wrap_sum e i a l u (v : nat -> Qc) : i < m ->
  (forall j, j < m -> e j = if Nat.eqb j i then a else if Nat.eqb j (prev i) then l else if Nat.eqb j (next i) then u else 0%Qc) ->
  qsum (fun j => e j * v j)%Qc (seq 0 m) = (a * v i + l * v (prev i) + u * v (next i))%Qc.
Proof.
  intros Hi He. destruct (prev_lt i Hi), (next_lt i Hi) as (? & ? & ?). rewrite (three_sum e i (prev i) (next i) m a l u v) by auto.
  destruct (Nat.ltb_spec (prev i) m); [|lia]. destruct (Nat.ltb_spec (next i) m); [|lia]. reflexivity.
Qed.
Lemma cyclic_regular b : shape m m b -> (forall i j, i < m -> j < m -> get b i j =
  if Nat.eqb j i then ((gap (prev i) + gap i) / qz 3)%Qc else if Nat.eqb j (prev i) then (gap (prev i) / qz 6)%Qc
  else if Nat.eqb j (next i) then (gap i / qz 6)%Qc else 0%Qc) -> regular m b.
Proof.
  intros [S1 S2] G x Lx Hx. assert (Hm : 0 < m) by (unfold m; lia).
  destruct (max_abs (fun i => nth i x 0%Qc) m Hm) as (i & M & Hi & HM & Hv & Ha). destruct (prev_lt i Hi), (next_lt i Hi) as (? & ? & ?).
  assert (Z : M = 0%Qc).
  { specialize (Hx i Hi). rewrite (row_sum m) in Hx by (auto; lia). rewrite (wrap_sum (get b i) i _ _ _ (fun j => nth j x 0%Qc) Hi (fun j => G i j Hi)) in Hx.
    apply (dominated (gap (prev i) / qz 6) (gap i / qz 6) M (nth i x 0%Qc) (nth (prev i) x 0%Qc) (nth (next i) x 0%Qc)); auto; try (now apply Ha).
    - apply Qcmul_pos; [now apply Hg|reflexivity].
    - apply Qcmul_pos; [now apply Hg|reflexivity].
    - rewrite third in Hx. etransitivity; [|exact Hx]. ring. }
  intros j Hj. destruct (Ha j Hj). subst M. apply Qcle_antisym; auto.
Qed.
Lemma cyclic_f_ok : exists f, cyclic_f knots = Ok f /\ forall b : nat -> Qc,
  let g := fun i => qsum (fun c => get f i c * b c)%Qc (seq 0 m) in
  forall i, i < m -> (gap (prev i) / qz 6 * g (prev i) + (gap (prev i) + gap i) / qz 3 * g i + gap i / qz 6 * g (next i) =
    b (prev i) / gap (prev i) - (1 / gap (prev i) + 1 / gap i) * b i + b (next i) / gap i)%Qc.
Proof.
  destruct cyclic_b_ok as (b & Eb & Sb & Gb). destruct cyclic_d_ok as (d & Ed & Sd & Gd).
  destruct (np_solve_ok m b m d (proj1 Sb) (proj2 Sb) (proj1 Sd) (cyclic_regular b Sb Gb)) as (f & Ef & L1 & L2 & Hf).
  exists f. split; [unfold cyclic_f; rewrite Eb, Ed; exact Ef|]. intros be g i Hi.
  pose proof (solve_comb m m b f d be i (proj2 Sb) L1 (proj1 Sb) Hi (fun c Hc => Hf i c Hi Hc)) as E.
  rewrite (wrap_sum (get b i) i _ _ _ (fun l => qsum (fun c => get f l c * be c)%Qc (seq 0 m)) Hi (fun j => Gb i j Hi)) in E.
  rewrite (wrap_sum (get d i) i _ _ _ be Hi (fun j => Gd i j Hi)) in E. fold (g i) (g (prev i)) (g (next i)) in E.
  etransitivity; [etransitivity; [|exact E]|]; unfold Qcdiv; ring.
Qed.
End Cyclic.
