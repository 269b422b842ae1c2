(** Proofs about the curves that B-splines can draw (C107): Marsden's identity. *)
From Coq Require Import ZArith Sorted Permutation Lqa.
From Verif Require Import Base NumModel RankSpec RankProofs ContrastSpec ContrastProofs BsSpec BsProofs BsCurveSpec.
Open Scope nat_scope.
Open Scope list_scope.
Open Scope Qc_scope.

(** Polynomials in y - s, as coefficients; [lin s tau c] is (y - tau) c. *)
Definition lin (s tau : Qc) (c : nat -> Qc) (k : nat) : Qc := (match k with O => 0 | S j => c j end) - (tau - s) * c k.
Definition unit_poly (k : nat) : Qc := match k with O => 1 | S _ => 0 end.
Definition psi (s : Qc) (l : list Qc) : nat -> Qc := fold_right (lin s) unit_poly l.
Lemma lin_ext s tau c c' k : (forall j, c j = c' j) -> lin s tau c k = lin s tau c' k.
Proof. intros H. unfold lin. destruct k; now rewrite ?H. Qed.
Lemma lin_comm s a b c k : lin s a (lin s b c) k = lin s b (lin s a c) k.
Proof. unfold lin. destruct k as [|[|k]]; ring. Qed.
Lemma psi_last s l a k : psi s (l ++ [a]) k = lin s a (psi s l) k.
Proof.
  revert k. induction l as [|b l IH]; intros k; [reflexivity|]. cbn [app psi fold_right]. fold (psi s l). fold (psi s (l ++ [a])). rewrite lin_comm. apply lin_ext, IH.
Qed.
(** Coefficients of (y - x)^p. *)
Fixpoint bin (p k : nat) : nat := match p, k with _, O => 1 | O, S _ => 0 | S q, S j => bin q j + bin q (S j) end%nat.
Lemma bin_pos p k : (k <= p)%nat -> (0 < bin p k)%nat.
Proof. revert k. induction p as [|p IH]; intros [|k] H; cbn; try lia. specialize (IH k). lia. Qed.
Lemma bin_out p k : (p < k)%nat -> bin p k = 0%nat.
Proof. revert k. induction p as [|p IH]; intros [|k] H; cbn; try lia. rewrite !IH by lia. reflexivity. Qed.
Lemma psi_power s x p : forall k, psi s (repeat x p) k = if (k <=? p)%nat then qn (bin p k) * (s - x) ^ (p - k) else 0.
Proof.
  induction p as [|p IH]; intros k.
  - destruct k; [|reflexivity]. cbn [Nat.leb repeat psi fold_right unit_poly bin Nat.sub Qcpower]. rewrite qn_1. ring.
  - cbn [repeat psi fold_right]. fold (psi s (repeat x p)). unfold lin. destruct k as [|k].
    + rewrite IH. cbn [Nat.leb]. rewrite !Nat.sub_0_r. cbn [Qcpower]. replace (bin (S p) 0) with 1%nat by reflexivity. replace (bin p 0) with 1%nat by (now destruct p). rewrite qn_1. ring.
    + rewrite !IH. change (S k <=? S p)%nat with (k <=? p)%nat. destruct (Nat.leb_spec k p) as [H|H].
      * cbn [bin Nat.sub]. rewrite qn_add. destruct (Nat.leb_spec (S k) p) as [H'|H'].
        -- replace (p - k)%nat with (S (p - S k)) by lia. cbn [Qcpower]. ring.
        -- rewrite (bin_out p (S k)) by lia. rewrite qn_0. ring.
      * destruct (Nat.leb_spec (S k) p) as [H'|H']; [lia|]. ring.
Qed.
(** As many knots at s as the polynomial has factors y - s. *)
Lemma psi_zero s l : forall k, (k < count_occ Qc_eq_dec l s)%nat -> psi s l k = 0.
Proof.
  induction l as [|a l IH]; intros k H; [cbn in H; lia|]. cbn [psi fold_right]. fold (psi s l). cbn [count_occ] in H. unfold lin. destruct (Qc_eq_dec a s) as [->|N].
  - replace (s - s) with 0 by ring. destruct k as [|k]; [ring|]. rewrite (IH k) by lia. ring.
  - rewrite (IH k H). destruct k as [|k]; [ring|]. rewrite (IH k) by lia. ring.
Qed.

Section Marsden.
Variables (t : nat -> Qc) (l last : nat) (x : Qc).
Hypothesis mono : forall i j, (i <= j)%nat -> (j <= last)%nat -> t i <= t j.
Hypothesis gap : t l < t (l + 1)%nat.
Notation bs := (bspline t l).
Definition after (i p : nat) : list Qc := map t (seq (i + 1) p).

Lemma support p : forall i, (l < i \/ i + p < l)%nat -> bs p i x = 0.
Proof.
  induction p as [|p IH]; intros i H; cbn [bspline].
  - destruct (Nat.eqb_spec i l); [lia|reflexivity].
  - rewrite !IH by lia. ring.
Qed.
Lemma qshift (h : nat -> Qc) n : qsum (fun i => h (S i)) (seq 0 n) + h O = qsum h (seq 0 n) + h n.
Proof.
  induction n as [|n IH]; [cbn; ring|]. rewrite !seq_S, !(rsum_app 0 1 Qcplus Qcmult Qcminus Qcopp Qcrt). cbn [rsum Nat.add]. 
  transitivity (qsum (fun i => h (S i)) (seq 0 n) + h O + h (S n)); [ring|]. rewrite IH. ring.
Qed.
Lemma marsden s n : (l < n)%nat -> forall p, (p <= l)%nat -> (l + p <= last)%nat -> forall k,
  qsum (fun i => psi s (after i p) k * bs p i x) (seq 0 n) = psi s (repeat x p) k.
Proof.
  intros Hn. induction p as [|q IH]; intros Hp Hl k.
  - cbn [after seq map repeat psi fold_right]. unfold after. cbn [seq map psi fold_right]. rewrite (rsum_scale 0 1 Qcplus Qcmult Qcminus Qcopp Qcrt).
    cbn [bspline]. assert (E : qsum (fun i => if (i =? l)%nat then 1 else 0) (seq 0 n) = 1).
    { transitivity (qsum (fun i => (fun _ => 1) i * kron 0 1 i l) (seq 0 n)); [|now rewrite (rsum_kron 0 1 Qcplus Qcmult Qcminus Qcopp Qcrt)].
      apply (rsum_ext 0 Qcplus). intros i _. unfold kron. destruct (i =? l)%nat; ring. }
    rewrite E. ring.
  - set (R1 := fun i => ratio (x - t i) (t (i + S q)%nat - t i)).
    set (h := fun i => psi s (after (i - 1) (S q)) k * ratio (t (i - 1 + S q + 1)%nat - x) (t (i - 1 + S q + 1)%nat - t (i - 1 + 1)%nat) * bs q i x).
    transitivity (qsum (fun i => psi s (after i (S q)) k * R1 i * bs q i x) (seq 0 n) + qsum (fun i => h (S i)) (seq 0 n)).
    { rewrite <- (rsum_add 0 1 Qcplus Qcmult Qcminus Qcopp Qcrt). apply (rsum_ext 0 Qcplus). intros i _. cbn [bspline]. fold bs. unfold R1, h. replace (S i - 1)%nat with i by lia. replace (i + 1)%nat with (S i) by lia. ring. }
    assert (Eh : qsum (fun i => h (S i)) (seq 0 n) = qsum h (seq 0 n)).
    { pose proof (qshift h n) as E. assert (h0 : h O = 0) by (unfold h; rewrite (support q 0) by lia; ring). assert (hn : h n = 0) by (unfold h; rewrite (support q n) by lia; ring). rewrite h0, hn in E. rewrite !Qcplus_0_r in E. exact E. }
    rewrite Eh, <- (rsum_add 0 1 Qcplus Qcmult Qcminus Qcopp Qcrt).
    transitivity (qsum (fun i => lin s x (psi s (after i q)) k * bs q i x) (seq 0 n)).
    { apply (rsum_ext 0 Qcplus). intros i _. unfold h.
      destruct (Nat.lt_ge_cases l i) as [O|O]; [rewrite (support q i) by lia; ring|]. destruct (Nat.lt_ge_cases (i + q) l) as [O'|O']; [rewrite (support q i) by lia; ring|].
      assert (E1 : after (i - 1) (S q) = t i :: after i q).
      { unfold after. cbn [seq map]. replace (i - 1 + 1)%nat with i by lia. now replace (i + 1)%nat with (S i) by lia. }
      assert (E2 : after i (S q) = after i q ++ [t (i + S q)%nat]).
      { unfold after. rewrite seq_S, map_app. cbn [map]. now replace (i + 1 + q)%nat with (i + S q)%nat by lia. }
      rewrite E1, E2, psi_last. cbn [psi fold_right]. fold (psi s (after i q)). unfold R1. replace (i - 1 + S q + 1)%nat with (i + S q)%nat by lia. replace (i - 1 + 1)%nat with i by lia.
      assert (G : t i < t (i + S q)%nat).
      { apply (Qcle_lt_trans _ (t l)); [apply mono; lia|]. apply (Qclt_le_trans _ (t (l + 1)%nat)); [exact gap|]. apply mono; lia. }
      assert (G' : t (i + S q)%nat - t i <> 0).
      { intros E. apply (Qclt_not_le _ _ G). assert (X : t (i + S q)%nat = t i) by (transitivity (t (i + S q)%nat - t i + t i); [ring|rewrite E; ring]). rewrite X. apply Qcle_refl. }
      unfold ratio. destruct (Qc_eq_dec (t (i + S q)%nat - t i) 0) as [E|_]; [contradiction|].
      unfold lin. destruct k as [|k]; field; exact G'. }
    cbn [repeat psi fold_right]. fold (psi s (repeat x q)). unfold lin. rewrite <- (IH ltac:(lia) ltac:(lia) k).
    transitivity (qsum (fun i => (match k with O => 0 | S j => psi s (after i q) j * bs q i x end) + (s - x) * (psi s (after i q) k * bs q i x)) (seq 0 n)).
    { apply (rsum_ext 0 Qcplus). intros i _. destruct k; ring. }
    rewrite (rsum_add 0 1 Qcplus Qcmult Qcminus Qcopp Qcrt), (rsum_scale 0 1 Qcplus Qcmult Qcminus Qcopp Qcrt). destruct k as [|k].
    + rewrite (rsum_zero 0 1 Qcplus Qcmult Qcminus Qcopp Qcrt) by reflexivity. ring.
    + rewrite <- (IH ltac:(lia) ltac:(lia) k). ring.
Qed.
End Marsden.

Lemma flip_power s x j : (- (1)) ^ j * (s - x) ^ j = (x - s) ^ j.
Proof. induction j as [|j IH]; [cbn; ring|]. cbn [Qcpower]. rewrite <- IH. ring. Qed.
Lemma first_index {A} (dec : forall a b : A, {a = b} + {a <> b}) (d a : A) l : In a l -> exists j, (j < length l)%nat /\ nth j l d = a /\ forall i, (i < j)%nat -> nth i l d <> a.
Proof.
  induction l as [|b l IH]; intros H; [destruct H|]. destruct (dec b a) as [->|N].
  - exists O. cbn. split; [lia|]. split; [reflexivity|]. intros i Hi. lia.
  - destruct H as [H|H]; [contradiction|]. destruct (IH H) as [j [A1 [A2 A3]]]. exists (S j). cbn. split; [lia|]. split; [exact A2|]. intros [|i] Hi; [exact N|]. apply A3. lia.
Qed.
Lemma map_nth_all {A} (d : A) l : map (fun k => nth k l d) (seq 0 (length l)) = l.
Proof. induction l as [|a l IH]; [reflexivity|]. cbn [length seq map nth]. f_equal. rewrite <- seq_shift, map_map. exact IH. Qed.

Section Curves.
Variables (lo hi : Qc) (p : nat) (inner T : list Qc).
Hypothesis Hlh : lo < hi.
Hypothesis Hp : padded lo hi (S p) inner T.
Hypothesis Hi : forall k, In k inner -> lo <= k /\ k <= hi.
Let t := fun k => nth k T 0.
Let n := (S p + length inner)%nat.
Definition represented (f : Qc -> Qc) : Prop :=
  exists co : nat -> Qc, forall w l, in_interval t p (n - 1) w l -> t l < t (l + 1)%nat -> qsum (fun i => co i * bspline t l p i w) (seq 0 n) = f w.

Lemma knots_length : length T = (n + S p)%nat.
Proof. destruct Hp as (s & P & _ & ->). rewrite !app_length, !repeat_length, <- (Permutation_length P). unfold n. lia. Qed.
Lemma knots_sorted : nondecreasing T.
Proof.
  destruct Hp as (s & P & Hs & ->). assert (Hi' : forall k, In k s -> lo <= k /\ k <= hi) by (intros k Hk; apply Hi; eapply Permutation_in; [symmetry; exact P|exact Hk]).
  apply sorted_app; [apply sorted_repeat| |].
  - apply sorted_app; auto; [apply sorted_repeat|]. intros a b Ha Hb. apply repeat_spec in Hb. subst. now apply Hi'.
  - intros a b Ha Hb. apply repeat_spec in Ha. subst a. apply in_app_or in Hb as [Hb|Hb]; [now apply Hi'|]. apply repeat_spec in Hb. subst. now apply Qclt_le_weak.
Qed.
Lemma knots_mono i j : (i <= j)%nat -> (j <= n + p)%nat -> t i <= t j.
Proof. intros H1 H2. apply sorted_nth; [apply knots_sorted|exact H1|]. rewrite knots_length. lia. Qed.
Lemma knots_count k : (count_occ Qc_eq_dec inner k <= count_occ Qc_eq_dec T k)%nat.
Proof.
  destruct Hp as (s & P & _ & ->). rewrite !count_occ_app. rewrite (proj1 (Permutation_count_occ Qc_eq_dec inner s) P k). lia.
Qed.

Lemma inner_index k : In k inner -> exists q, (q <= n - 1)%nat /\ t q = k.
Proof.
  intros Hk. unfold t. destruct Hp as (s & P & _ & ->). apply (Permutation_in _ P) in Hk. destruct (In_nth s k 0 Hk) as [j [J1 J2]]. exists (S p + j)%nat. split.
  - unfold n. rewrite (Permutation_length P). lia.
  - rewrite app_nth2; rewrite repeat_length; [|lia]. replace (S p + j - S p)%nat with j by lia. rewrite app_nth1 by exact J1. exact J2.
Qed.
Lemma represented_ext f g : (forall x, f x = g x) -> represented f -> represented g.
Proof. intros E [co H]. exists co. intros w l A B. rewrite (H w l A B). apply E. Qed.
Lemma represented_zero : represented (fun _ => 0).
Proof. exists (fun _ => 0). intros w l _ _. apply (rsum_zero 0 1 Qcplus Qcmult Qcminus Qcopp Qcrt). intros i _. ring. Qed.
Lemma represented_add c f g : represented f -> represented g -> represented (fun x => c * f x + g x).
Proof.
  intros [co H] [co' H']. exists (fun i => c * co i + co' i). intros w l A B. rewrite <- (H w l A B), <- (H' w l A B).
  rewrite <- (rsum_scale 0 1 Qcplus Qcmult Qcminus Qcopp Qcrt), <- (rsum_add 0 1 Qcplus Qcmult Qcminus Qcopp Qcrt). apply (rsum_ext 0 Qcplus). intros i _. ring.
Qed.
Lemma represented_sum {A} (c : A -> Qc) (f : A -> Qc -> Qc) js : (forall a, In a js -> represented (f a)) -> represented (fun x => qsum (fun a => c a * f a x) js).
Proof.
  induction js as [|a js IH]; intros H; [apply represented_zero|]. cbn [rsum]. apply (represented_add (c a) (f a) (fun x => qsum (fun a => c a * f a x) js)); [apply H; now left|apply IH]. intros b Hb. apply H. now right.
Qed.
Lemma drawn s j w l : (j <= p)%nat -> in_interval t p (n - 1) w l -> t l < t (l + 1)%nat ->
  qsum (fun i => (- (1)) ^ j / qn (bin p (p - j)) * psi s (after t i p) (p - j) * bspline t l p i w) (seq 0 n) = (w - s) ^ j.
Proof.
  intros Hj [I1 [I2 [I3 I4]]] G.
  transitivity ((- (1)) ^ j / qn (bin p (p - j)) * qsum (fun i => psi s (after t i p) (p - j) * bspline t l p i w) (seq 0 n)).
  { rewrite <- (rsum_scale 0 1 Qcplus Qcmult Qcminus Qcopp Qcrt). apply (rsum_ext 0 Qcplus). intros i _. ring. }
  rewrite (marsden t l (n + p) w knots_mono G s n) by (unfold n in *; lia). rewrite psi_power. destruct (Nat.leb_spec (p - j) p) as [_|X]; [|lia]. replace (p - (p - j))%nat with j by lia.
  rewrite <- (flip_power s w j). assert (N : qn (bin p (p - j)) <> 0) by (apply qn_nz; pose proof (bin_pos p (p - j)); lia). field. exact N.
Qed.
Lemma represented_power j : (j <= p)%nat -> represented (fun x => x ^ j).
Proof.
  intros Hj. apply (represented_ext (fun x => (x - 0) ^ j)); [intros x; f_equal; ring|]. eexists. intros w l A B. apply drawn; assumption.
Qed.
Lemma represented_from k m : (m < count_occ Qc_eq_dec inner k)%nat -> (m <= p)%nat -> represented (power_from k (p - m)).
Proof.
  intros Hm Hmp.
  assert (HT : (m < count_occ Qc_eq_dec T k)%nat) by (pose proof (knots_count k); lia).
  destruct (first_index Qc_eq_dec 0 k T) as [j [J1 [J2 J3]]]; [apply (count_occ_In Qc_eq_dec); lia|].
  exists (fun i => if (j <=? i)%nat then (- (1)) ^ (p - m) / qn (bin p (p - (p - m))) * psi k (after t i p) (p - (p - m)) else 0).
  intros w l I G. pose proof I as [I1 [I2 [I3 I4]]]. unfold power_from. destruct (Qclt_le_dec w k) as [Hw|Hw].
  - apply (rsum_zero 0 1 Qcplus Qcmult Qcminus Qcopp Qcrt). intros i _. destruct (Nat.leb_spec j i) as [H|H]; [|ring].
    assert (l < j)%nat.
    { destruct (Nat.lt_ge_cases l j) as [X|X]; [exact X|]. exfalso. assert (Y : t j <= t l) by (apply knots_mono; unfold n in *; lia). unfold t at 1 in Y. rewrite J2 in Y. apply (Qclt_not_le _ _ Hw). now apply (Qcle_trans _ (t l)). }
    rewrite (support t l w p i) by lia. ring.
  - rewrite <- (drawn k (p - m) w l ltac:(lia) I G). apply (rsum_ext 0 Qcplus). intros i _. destruct (Nat.leb_spec j i) as [H|H]; [reflexivity|].
    destruct (Nat.lt_ge_cases l i) as [O|O]; [rewrite (support t l w p i) by lia; ring|]. destruct (Nat.lt_ge_cases (i + p) l) as [O'|O']; [rewrite (support t l w p i) by lia; ring|].
    rewrite (psi_zero k (after t i p)); [ring|]. replace (p - (p - m))%nat with m by lia.
    assert (Z1 : forall q, (l < q)%nat -> (q < n + S p)%nat -> t q <> k).
    { intros q Q1 Q2 E. assert (Y : t (l + 1)%nat <= k) by (rewrite <- E; apply knots_mono; lia). destruct I4 as [I4|[-> I4]].
      - apply (Qclt_not_le _ _ I4). now apply (Qcle_trans _ k).
      - assert (Hk : In k inner) by (apply (count_occ_In Qc_eq_dec); lia). destruct (inner_index k Hk) as [q' [Q3 Q4]].
        apply (Qclt_not_le _ _ G). apply (Qcle_trans _ k); [exact Y|]. rewrite <- Q4. apply knots_mono; unfold n in *; lia. }
    rewrite <- (map_nth_all 0 T), knots_length in HT. change (fun k => nth k T 0) with t in HT. replace (n + S p)%nat with (S i + (p + (n + S p - (i + 1 + p))))%nat in HT by (unfold n in *; lia).
    rewrite !seq_app, !map_app, !count_occ_app in HT.
    rewrite (proj1 (count_occ_not_In Qc_eq_dec (map t (seq 0 (S i))) k)) in HT by (intros X; apply in_map_iff in X; destruct X as [q [E Hq]]; apply in_seq in Hq; apply (J3 q); [lia|exact E]).
    rewrite (proj1 (count_occ_not_In Qc_eq_dec (map t (seq (0 + S i + p) (n + S p - (i + 1 + p)))) k)) in HT by (intros X; apply in_map_iff in X; destruct X as [q [E Hq]]; apply in_seq in Hq; apply (Z1 q); [lia|lia|exact E]).
    unfold after. replace (i + 1)%nat with (S i) by lia. cbn [Nat.add] in HT. lia.
Qed.
Lemma represented_spline f : spline p inner f -> represented f.
Proof.
  intros [a [js [Ha [Hj E]]]]. apply (represented_ext (fun x => 1 * poly a x + qsum (fun j => snd j * power_from (fst (fst j)) (p - snd (fst j)) x) js)).
  - intros x. rewrite E. rewrite Qcmult_1_l. f_equal. apply (rsum_ext 0 Qcplus). intros [[k m] b] _. reflexivity.
  - apply (represented_add 1 (poly a)).
    + unfold poly. apply (represented_sum (fun j => nth j a 0) (fun j x => x ^ j)). intros j Hjj. apply in_seq in Hjj. apply represented_power. lia.
    + apply (represented_sum snd (fun j => power_from (fst (fst j)) (p - snd (fst j)))). intros [[k m] b] Hb. rewrite Forall_forall in Hj. apply Hj in Hb. cbn. now apply represented_from.
Qed.
End Curves.
