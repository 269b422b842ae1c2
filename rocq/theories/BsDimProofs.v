(** Proofs that B-splines are a basis of the splines (C107): counting dimensions. *)
From Coq Require Import ZArith Sorted Permutation Lqa.
From Verif Require Import Base NumModel RankSpec RankProofs ContrastSpec ContrastProofs StateModel StateProofs LinModel SplineModel SplineSpec SplineNumProofs BsModel BsSpec BsProofs BsCurveSpec BsCurveProofs.
Open Scope nat_scope.
Open Scope list_scope.
Open Scope Qc_scope.

Notation q_ext := (rsum_ext 0 Qcplus).
Notation q_add := (rsum_add 0 1 Qcplus Qcmult Qcminus Qcopp Qcrt).
Notation q_scale := (rsum_scale 0 1 Qcplus Qcmult Qcminus Qcopp Qcrt).
Notation q_zero := (rsum_zero 0 1 Qcplus Qcmult Qcminus Qcopp Qcrt).
Notation q_app := (rsum_app 0 1 Qcplus Qcmult Qcminus Qcopp Qcrt).
Notation q_map := (rsum_map 0 Qcplus).
Notation q_swap := (rsum_swap 0 1 Qcplus Qcmult Qcminus Qcopp Qcrt).

(** * Too many vectors are dependent *)
Definition lc (xs : list Qc) (vs : list (nat -> Qc)) (j : nat) : Qc := qsum (fun xv => fst xv * snd xv j) (combine xs vs).
Lemma lc_app xa xb a b j : length xa = length a -> lc (xa ++ xb) (a ++ b) j = lc xa a j + lc xb b j.
Proof.
  unfold lc. revert a. induction xa as [|x xa IH]; intros [|v a] H; try discriminate; cbn [app combine rsum]; [ring|]. injection H as H. rewrite (IH a H). ring.
Qed.
Lemma lc_minus (c : (nat -> Qc) -> Qc) (v : nat -> Qc) j xs : forall vs, length xs = length vs ->
  lc xs (map (fun u i => u i - c u * v i) vs) j = lc xs vs j - lc xs (map (fun u _ => c u) vs) 0 * v j.
Proof.
  unfold lc. induction xs as [|x xs IH]; intros [|u vs] H; try discriminate; cbn [map combine rsum fst snd]; [ring|]. injection H as H. rewrite (IH vs H). ring.
Qed.
Lemma dependent n : forall vs : list (nat -> Qc), (n < length vs)%nat -> exists xs, length xs = length vs /\ Exists (fun x => x <> 0) xs /\ forall j, (j < n)%nat -> lc xs vs j = 0.
Proof.
  induction n as [|n IH]; intros vs H.
  - exists (map (fun _ => 1) vs). rewrite map_length. split; [reflexivity|]. split; [|intros; lia]. destruct vs; [cbn in H; lia|]. cbn. constructor. discriminate.
  - destruct (Exists_dec (fun v => v n <> 0) vs) as [Y|N].
    { intros v. destruct (Qc_eq_dec (v n) 0) as [E|E]; [right; now intros X|now left]. }
    + apply Exists_exists in Y. destruct Y as [v [Hv Nv]]. apply in_split in Hv. destruct Hv as [a [b ->]].
      set (c := fun u : nat -> Qc => u n / v n). set (vs' := map (fun u i => u i - c u * v i) (a ++ b)).
      destruct (IH vs') as [xs [L [Ex Z]]]; [unfold vs'; rewrite map_length; rewrite app_length in *; cbn in H; lia|].
      unfold vs' in L. rewrite map_length, app_length in L.
      exists (firstn (length a) xs ++ - lc xs (map (fun u _ => c u) (a ++ b)) 0 :: skipn (length a) xs).
      assert (La : length (firstn (length a) xs) = length a) by (rewrite firstn_length; lia). split; [|split].
      * rewrite !app_length. cbn [length]. rewrite La, skipn_length. lia.
      * rewrite <- (firstn_skipn (length a) xs) in Ex. apply Exists_app in Ex. apply Exists_app. destruct Ex as [Ex|Ex]; [now left|right; now constructor].
      * assert (E : forall j, lc (firstn (length a) xs ++ - lc xs (map (fun u _ => c u) (a ++ b)) 0 :: skipn (length a) xs) (a ++ v :: b) j = lc xs vs' j).
        { intros j. rewrite lc_app by exact La. unfold vs'. rewrite lc_minus by (rewrite app_length; lia). rewrite <- (firstn_skipn (length a) xs) at 4. rewrite lc_app by exact La.
          unfold lc at 2. cbn [combine rsum fst snd]. fold (lc (skipn (length a) xs) b j). ring. }
        intros j Hj. rewrite E. destruct (Nat.eq_dec j n) as [->|Hjn]; [|apply Z; lia].
        unfold lc. apply q_zero. intros [x u] Hu. apply in_combine_r in Hu. unfold vs' in Hu. apply in_map_iff in Hu. destruct Hu as [u' [<- _]]. cbn [fst snd]. unfold c. field. exact Nv.
    + destruct (IH vs) as [xs [L [Ex Z]]]; [lia|]. exists xs. split; [exact L|]. split; [exact Ex|]. intros j Hj. destruct (Nat.eq_dec j n) as [->|Hjn]; [|apply Z; lia].
      unfold lc. apply q_zero. intros [x u] Hu. apply in_combine_r in Hu. cbn [fst snd]. destruct (Qc_eq_dec (u n) 0) as [E|E]; [rewrite E; ring|]. exfalso. apply N. apply Exists_exists. now exists u.
Qed.

(** * Polynomials with too many roots are zero *)
Fixpoint hval (a : list Qc) (x : Qc) : Qc := match a with [] => 0 | c :: l => c + x * hval l x end.
Lemma poly_hval a x : poly a x = hval a x.
Proof.
  unfold poly. induction a as [|c a IH]; [reflexivity|]. cbn [length seq rsum nth hval Qcpower]. rewrite <- IH, <- seq_shift, q_map, <- q_scale. f_equal; [ring|]. apply q_ext. intros j _. cbn [nth Qcpower]. ring.
Qed.
Fixpoint synth (r : Qc) (a : list Qc) : list Qc := match a with [] => [] | c :: l => hval (c :: l) r :: synth r l end.
Lemma synth_length r a : length (synth r a) = length a.
Proof. induction a; cbn [synth length]; congruence. Qed.
Lemma synth_val r c a x : hval (c :: a) x - hval (c :: a) r = (x - r) * hval (synth r a) x.
Proof.
  revert c. induction a as [|d l IH]; intros c; [cbn; ring|]. specialize (IH d). cbn [synth]. change (hval (hval (d :: l) r :: synth r l) x) with (hval (d :: l) r + x * hval (synth r l) x).
  change (hval (c :: d :: l) x) with (c + x * hval (d :: l) x). change (hval (c :: d :: l) r) with (c + r * hval (d :: l) r).
  transitivity ((x - r) * hval (d :: l) r + x * (hval (d :: l) x - hval (d :: l) r)); [ring|]. rewrite IH. ring.
Qed.
Lemma hval_zero a x : Forall (fun c => c = 0) a -> hval a x = 0.
Proof. induction 1 as [|c a H1 H2 IH]; cbn; [reflexivity|]. rewrite H1, IH. ring. Qed.
Lemma synth_zero r a : Forall (fun c => c = 0) (synth r a) -> Forall (fun c => c = 0) a.
Proof.
  induction a as [|c l IH]; intros H; [constructor|]. cbn [synth] in H. inversion H as [|? ? H1 H2]; subst. specialize (IH H2). constructor; [|exact IH]. cbn [hval] in H1. rewrite (hval_zero l r IH) in H1. rewrite <- H1. ring.
Qed.
Lemma roots_zero xs : forall a, NoDup xs -> (length a <= length xs)%nat -> (forall x, In x xs -> hval a x = 0) -> Forall (fun c => c = 0) a.
Proof.
  induction xs as [|r xs IH]; intros a N L Z; [destruct a; [constructor|cbn in L; lia]|]. destruct a as [|c a]; [constructor|]. inversion N as [|? ? N1 N2]; subst.
  assert (Za : Forall (fun c => c = 0) a).
  { apply (synth_zero r). apply IH; [exact N2|rewrite synth_length; cbn in L; lia|]. intros x Hx. pose proof (synth_val r c a x) as E. rewrite (Z x (or_intror Hx)), (Z r (or_introl eq_refl)) in E.
    symmetry in E. replace (0 - 0) with 0 in E by ring. apply Qcmult_integral in E. destruct E as [E|E]; [|exact E]. exfalso. apply N1. replace r with x; [exact Hx|]. transitivity (x - r + r); [ring|rewrite E; ring]. }
  constructor; [|exact Za]. pose proof (Z r (or_introl eq_refl)) as E. cbn [hval] in E. rewrite (hval_zero a r Za) in E. rewrite <- E. ring.
Qed.
(** Points of an interval. *)
Lemma many_points u v n : u < v -> exists xs, length xs = n /\ NoDup xs /\ forall x, In x xs -> u <= x /\ x < v.
Proof.
  intros H. revert u H. induction n as [|n IH]; intros u H; [exists []; split; [reflexivity|split; [constructor|intros x []]]|].
  assert (H1 : u < (u + v) / (1 + 1) /\ (u + v) / (1 + 1) < v).
  { assert (E : (u + v) / (1 + 1) * (1 + 1) = u + v) by (field; discriminate). set (m := (u + v) / (1 + 1)) in *. clearbody m.
    split; apply Qcnot_le_lt; intros X; apply (Qclt_not_le _ _ H).
    - assert (Y : m + m <= u + u) by (apply Qcplus_le_compat; assumption). replace (m + m) with (u + v) in Y by (rewrite <- E; ring). 
      apply (Qcplus_le_compat _ _ (- u) (- u) Y) in Y || (pose proof (Qcplus_le_compat _ _ (- u) (- u) Y (Qcle_refl _)) as Y2). replace (u + v + - u) with v in * by ring. replace (u + u + - u) with u in * by ring. assumption.
    - assert (Y : v + v <= m + m) by (apply Qcplus_le_compat; assumption). replace (m + m) with (u + v) in Y by (rewrite <- E; ring).
      pose proof (Qcplus_le_compat _ _ (- v) (- v) Y (Qcle_refl _)) as Y2. replace (v + v + - v) with v in Y2 by ring. replace (u + v + - v) with u in Y2 by ring. exact Y2. }
  destruct H1 as [A B]. destruct (IH _ B) as [xs [L [N R]]]. exists (u :: xs). split; [cbn; congruence|]. split.
  - constructor; [|exact N]. intros X. apply R in X. destruct X as [X _]. apply (Qclt_not_le _ _ A X).
  - intros x [<-|Hx]; [split; [apply Qcle_refl|exact H]|]. destruct (R x Hx) as [X Y]. split; [|exact Y]. apply (Qcle_trans _ ((u + v) / (1 + 1))); [now apply Qclt_le_weak|exact X].
Qed.
Lemma poly_vanishes a s u v : u < v -> (forall x, u <= x -> x < v -> hval a (x - s) = 0) -> Forall (fun c => c = 0) a.
Proof.
  intros H Z. destruct (many_points u v (length a) H) as [xs [L [N R]]]. apply (roots_zero (map (fun x => x - s) xs)).
  - apply FinFun.Injective_map_NoDup; [|exact N]. intros x y E. transitivity (x - s + s); [ring|]. rewrite E. ring.
  - rewrite map_length. lia.
  - intros x Hx. apply in_map_iff in Hx. destruct Hx as [y [<- Hy]]. destruct (R y Hy). now apply Z.
Qed.

(** * Independence of the powers *)
Definition step_val (k : Qc) (c : list Qc) (x : Qc) : Qc := if Qclt_le_dec x k then 0 else hval c (x - k).
Definition pieces (gs : list (Qc * list Qc)) (x : Qc) : Qc := qsum (fun g => step_val (fst g) (snd g) x) gs.
Lemma pieces_before gs x : Forall (fun g => x < fst g) gs -> pieces gs x = 0.
Proof.
  intros H. unfold pieces. apply q_zero. intros g Hg. unfold step_val. rewrite Forall_forall in H. destruct (Qclt_le_dec x (fst g)) as [L|L]; [reflexivity|]. exfalso. apply (Qclt_not_le _ _ (H g Hg) L).
Qed.
Lemma pieces_zero hi gs : forall u s a, u < hi -> StronglySorted (fun g h => fst g < fst h) gs -> Forall (fun g => u < fst g /\ fst g < hi) gs ->
  (forall x, u <= x -> x < hi -> hval a (x - s) + pieces gs x = 0) -> Forall (fun c => c = 0) a /\ Forall (fun g => Forall (fun c => c = 0) (snd g)) gs.
Proof.
  induction gs as [|[k c] gs IH]; intros u s a Hu Hs Hr Z.
  - split; [|constructor]. apply (poly_vanishes a s u hi Hu). intros x X1 X2. rewrite <- (Z x X1 X2). unfold pieces. cbn. ring.
  - inversion Hs as [|? ? S1 S2]; subst. inversion Hr as [|? ? R1 R2]; subst. cbn [fst] in *. destruct R1 as [K1 K2].
    assert (A : Forall (fun c => c = 0) a).
    { apply (poly_vanishes a s u k K1). intros x X1 X2. rewrite <- (Z x X1 (Qclt_trans _ _ _ X2 K2)). rewrite pieces_before; [ring|]. constructor; [exact X2|]. eapply Forall_impl; [|exact S2]. intros g Hg. exact (Qclt_trans _ _ _ X2 Hg). }
    destruct (IH k k c K2 S1) as [C G].
    + rewrite Forall_forall in *. intros g Hg. split; [exact (S2 g Hg)|]. apply (R2 g Hg).
    + intros x X1 X2. assert (X3 : u <= x) by (apply (Qcle_trans _ k); [now apply Qclt_le_weak|exact X1]). specialize (Z x X3 X2). rewrite (hval_zero a _ A) in Z. unfold pieces in Z. cbn [rsum fst snd] in Z. fold (pieces gs x) in Z.
      unfold step_val in Z at 1. destruct (Qclt_le_dec x k) as [L|L]; [exfalso; exact (Qclt_not_le _ _ L X1)|]. rewrite <- Z. ring.
    + split; [exact A|]. constructor; [exact C|exact G].
Qed.
(** A sum of falling powers as a polynomial. *)
Lemma hval_last a b z : hval (a ++ [b]) z = hval a z + b * z ^ length a.
Proof. induction a as [|c a IH]; cbn [app hval length Qcpower]; [ring|]. rewrite IH. ring. Qed.
Lemma hval_pad n a z : hval (repeat 0 n ++ a) z = z ^ n * hval a z.
Proof. induction n as [|n IH]; cbn [repeat app hval Qcpower]; [ring|]. rewrite IH. ring. Qed.
Lemma qpow_add z a b : z ^ (a + b) = z ^ a * z ^ b.
Proof. induction a as [|a IH]; cbn [Nat.add Qcpower]; [ring|]. rewrite IH. ring. Qed.
Fixpoint falling (p s : nat) (ys : list Qc) (z : Qc) : Qc := match ys with [] => 0 | y :: l => y * z ^ (p - s) + falling p (S s) l z end.
Lemma falling_hval p z ys : forall s, (s + length ys <= S p)%nat -> falling p s ys z = z ^ (S p - s - length ys) * hval (rev ys) z.
Proof.
  induction ys as [|y ys IH]; intros s H; cbn [falling rev length]; [cbn; ring|]. cbn [length] in H. rewrite IH by lia. rewrite hval_last, rev_length.
  replace (S p - s - S (length ys))%nat with (S p - S s - length ys)%nat by lia. replace (p - s)%nat with (S p - S s - length ys + length ys)%nat by lia. rewrite qpow_add. ring.
Qed.

(** The powers that make up the splines: one group for each place. *)
Definition tail_powers (p : nat) (c : Qc -> nat) (k : Qc) : list (Qc -> Qc) := map (fun m => power_from k (p - m)) (seq 0 (c k)).
Definition powers (p : nat) (c : Qc -> nat) (ks : list Qc) : list (Qc -> Qc) := map (fun j x => x ^ j) (seq 0 (S p)) ++ flat_map (tail_powers p c) ks.
Definition curve (xs : list Qc) (fs : list (Qc -> Qc)) (x : Qc) : Qc := qsum (fun xf => fst xf * snd xf x) (combine xs fs).
Lemma curve_app xa xb a b x : length xa = length a -> curve (xa ++ xb) (a ++ b) x = curve xa a x + curve xb b x.
Proof.
  unfold curve. revert a. induction xa as [|y xa IH]; intros [|v a] H; try discriminate; cbn [app combine rsum]; [ring|]. injection H as H. rewrite (IH a H). ring.
Qed.
Lemma curve_powers a x : forall s, curve a (map (fun j x => x ^ j) (seq s (length a))) x = x ^ s * hval a x.
Proof.
  unfold curve. induction a as [|c a IH]; intros s; cbn [length seq map combine rsum hval fst snd]; [ring|]. rewrite IH. cbn [Qcpower]. ring.
Qed.
Lemma curve_tail p k x ys : forall s, curve ys (map (fun m => power_from k (p - m)) (seq s (length ys))) x = if Qclt_le_dec x k then 0 else falling p s ys (x - k).
Proof.
  unfold curve. induction ys as [|y ys IH]; intros s; cbn [length seq map combine rsum falling fst snd]; [now destruct (Qclt_le_dec x k)|]. rewrite IH. unfold power_from. destruct (Qclt_le_dec x k); ring.
Qed.
Lemma tails_pieces p c ks : (forall k, In k ks -> (c k <= S p)%nat) -> forall ys, length ys = length (flat_map (tail_powers p c) ks) ->
  exists gs, map fst gs = ks /\ (forall x, curve ys (flat_map (tail_powers p c) ks) x = pieces gs x) /\ (Forall (fun g => Forall (fun c => c = 0) (snd g)) gs -> Forall (fun y => y = 0) ys).
Proof.
  induction ks as [|k ks IH]; intros Hc ys L; cbn [flat_map] in *.
  - exists []. split; [reflexivity|]. destruct ys; [|discriminate]. split; [reflexivity|constructor].
  - rewrite app_length in L. unfold tail_powers in L at 1. rewrite map_length, seq_length in L. set (n := c k) in *. assert (Hn : (n <= S p)%nat) by (apply Hc; now left).
    assert (L1 : length (firstn n ys) = n) by (rewrite firstn_length; lia). destruct (IH (fun q Hq => Hc q (or_intror Hq)) (skipn n ys)) as [gs [G1 [G2 G3]]]; [rewrite skipn_length; lia|].
    exists ((k, repeat 0 (S p - n) ++ rev (firstn n ys)) :: gs). split; [cbn; congruence|]. split.
    + intros x. rewrite <- (firstn_skipn n ys) at 1. unfold tail_powers at 1. fold n. rewrite curve_app by (rewrite map_length, seq_length; exact L1). unfold pieces. cbn [rsum fst snd]. fold (pieces gs x). rewrite G2. f_equal.
      rewrite <- L1 at 2. rewrite curve_tail. unfold step_val. destruct (Qclt_le_dec x k); [reflexivity|]. rewrite falling_hval by lia. rewrite hval_pad, L1, Nat.sub_0_r. reflexivity.
    + intros H. inversion H as [|? ? H1 H2]; subst. cbn [snd] in H1. apply Forall_app in H1. destruct H1 as [_ H1]. rewrite <- (firstn_skipn n ys). apply Forall_app. split; [|now apply G3]. rewrite <- (rev_involutive (firstn n ys)). now apply Forall_rev.
Qed.
Lemma powers_independent p c ks lo hi xs : lo < hi -> StronglySorted Qclt ks -> (forall k, In k ks -> lo < k /\ k < hi /\ (c k <= S p)%nat) -> length xs = length (powers p c ks) ->
  (forall x, lo <= x -> x < hi -> curve xs (powers p c ks) x = 0) -> Forall (fun x => x = 0) xs.
Proof.
  intros Hlh Hs Hk L Z. unfold powers in *. rewrite app_length, map_length, seq_length in L. assert (L1 : length (firstn (S p) xs) = S p) by (rewrite firstn_length; lia).
  destruct (tails_pieces p c ks (fun k H => proj2 (proj2 (Hk k H))) (skipn (S p) xs)) as [gs [G1 [G2 G3]]]; [rewrite skipn_length; lia|].
  rewrite <- (firstn_skipn (S p) xs). destruct (pieces_zero hi gs lo 0 (firstn (S p) xs) Hlh) as [A B].
  - clear - Hs G1. revert ks Hs G1. induction gs as [|g gs IH]; intros ks Hs <-; [constructor|]. cbn [map] in Hs. inversion Hs as [|? ? S1 S2]; subst. constructor; [now apply (IH (map fst gs))|]. rewrite Forall_forall in *. intros h Hh. apply S2, in_map, Hh.
  - apply Forall_forall. intros g Hg. destruct (Hk (fst g)) as [X [Y _]]; [rewrite <- G1; now apply in_map|]. now split.
  - intros x X1 X2. rewrite <- G2. etransitivity; [|exact (Z x X1 X2)]. rewrite <- (firstn_skipn (S p) xs) at 3. rewrite curve_app by (rewrite map_length, seq_length; exact L1). f_equal. pose proof (curve_powers (firstn (S p) xs) x 0) as E. rewrite L1 in E. rewrite E. cbn [Qcpower]. replace (x - 0) with x by ring. ring.
  - apply Forall_app. split; [exact A|now apply G3].
Qed.

(** * The places of the knots *)
Lemma nodup_sorted l : nondecreasing l -> StronglySorted Qclt (nodup Qc_eq_dec l).
Proof.
  induction 1 as [|a l H IH F]; cbn [nodup]; [constructor|]. destruct (in_dec Qc_eq_dec a l) as [I|N]; [exact IH|]. constructor; [exact IH|]. apply Forall_forall. intros b Hb. apply nodup_In in Hb. rewrite Forall_forall in F.
  destruct (Qclt_le_dec a b) as [L|L]; [exact L|]. exfalso. apply N. now rewrite (Qcle_antisym a b (F b Hb) L).
Qed.
Lemma count_groups (c : Qc -> nat) x ks : NoDup ks -> count_occ Qc_eq_dec (flat_map (fun k => repeat k (c k)) ks) x = if in_dec Qc_eq_dec x ks then c x else 0%nat.
Proof.
  induction 1 as [|k ks N1 N2 IH]; [reflexivity|]. cbn [flat_map]. rewrite count_occ_app, IH. destruct (Qc_eq_dec k x) as [->|Nk].
  - rewrite count_occ_repeat_eq by reflexivity. destruct (in_dec Qc_eq_dec x ks) as [I|_]; [contradiction|]. destruct (in_dec Qc_eq_dec x (x :: ks)) as [_|N]; [lia|]. exfalso. apply N. now left.
  - rewrite count_occ_repeat_neq by (intros X; apply Nk; now symmetry). destruct (in_dec Qc_eq_dec x ks) as [I|I], (in_dec Qc_eq_dec x (k :: ks)) as [J|J]; try reflexivity; exfalso.
    + apply J. now right.
    + destruct J as [J|J]; contradiction.
Qed.
Lemma groups_length l : length (flat_map (fun k => repeat k (count_occ Qc_eq_dec l k)) (nodup Qc_eq_dec l)) = length l.
Proof.
  apply Permutation_length. apply (Permutation_count_occ Qc_eq_dec). intros x. rewrite count_groups by apply NoDup_nodup. destruct (in_dec Qc_eq_dec x (nodup Qc_eq_dec l)) as [I|N]; [reflexivity|]. symmetry. apply count_occ_not_In. intros X. apply N. now apply nodup_In.
Qed.
Lemma powers_length p l : length (powers p (count_occ Qc_eq_dec l) (nodup Qc_eq_dec l)) = (S p + length l)%nat.
Proof.
  unfold powers. rewrite app_length, map_length, seq_length. f_equal. transitivity (length (flat_map (fun k => repeat k (count_occ Qc_eq_dec l k)) (nodup Qc_eq_dec l))); [|apply groups_length]. generalize (nodup Qc_eq_dec l). intros ks. induction ks as [|k ks IH]; [reflexivity|]. cbn [flat_map]. rewrite !app_length, IH. unfold tail_powers. now rewrite map_length, seq_length, repeat_length.
Qed.

(** * Splines can be added *)
Lemma poly_longer a x m : (length a <= m)%nat -> poly a x = qsum (fun j => nth j a 0 * x ^ j) (seq 0 m).
Proof.
  intros H. unfold poly. replace m with (length a + (m - length a))%nat by lia. rewrite seq_app, q_app. rewrite (q_zero _ (seq (0 + length a) _)); [ring|]. intros j Hj. apply in_seq in Hj. rewrite nth_overflow by lia. ring.
Qed.
Lemma spline_add p knots c f g : spline p knots f -> spline p knots g -> spline p knots (fun x => c * f x + g x).
Proof.
  intros [a [js [A1 [A2 A3]]]] [b [ks [B1 [B2 B3]]]]. exists (map (fun j => c * nth j a 0 + nth j b 0) (seq 0 (S p))), (map (fun j => (fst j, c * snd j)) js ++ ks). split; [now rewrite map_length, seq_length|]. split.
  - apply Forall_app. split; [|exact B2]. apply Forall_map. eapply Forall_impl; [|exact A2]. intros [[k m] y] H. exact H.
  - intros x. rewrite A3, B3, q_app, q_map. rewrite (poly_longer a x (S p) A1), (poly_longer b x (S p) B1), (poly_longer (map _ _) x (S p)) by (now rewrite map_length, seq_length).
    rewrite (q_ext (fun j => nth j (map _ _) 0 * x ^ j) (fun j => c * (nth j a 0 * x ^ j) + nth j b 0 * x ^ j) (seq 0 (S p))).
    + rewrite q_add, q_scale. rewrite (q_ext (fun j => let '(k, m, y) := (fst j, c * snd j) in y * power_from k (p - m) x) (fun j => c * (let '(k, m, y) := j in y * power_from k (p - m) x)) js).
      * rewrite q_scale. ring.
      * intros [[k m] y] _. cbn [fst snd]. ring.
    + intros j Hj. apply in_seq in Hj. rewrite nth_map_seq by lia. ring.
Qed.
Lemma spline_curve p knots fs : Forall (spline p knots) fs -> forall xs, spline p knots (curve xs fs).
Proof.
  induction 1 as [|f fs H1 H2 IH]; intros xs.
  - exists [], []. split; [cbn; lia|]. split; [constructor|]. intros x. unfold curve. rewrite combine_nil. reflexivity.
  - destruct xs as [|y xs]; [exists [], []; split; [cbn; lia|]; split; [constructor|reflexivity]|]. exact (spline_add p knots y f (curve xs fs) H1 (IH xs)).
Qed.
Lemma spline_power p knots j : (j <= p)%nat -> spline p knots (fun x => x ^ j).
Proof.
  intros H. exists (repeat 0 j ++ [1]), []. split; [rewrite app_length, repeat_length; cbn; lia|]. split; [constructor|]. intros x. rewrite poly_hval, hval_pad. cbn. ring.
Qed.
Lemma spline_from p knots k m : (m < count_occ Qc_eq_dec knots k)%nat -> (m <= p)%nat -> spline p knots (power_from k (p - m)).
Proof.
  intros H1 H2. exists [], [(k, m, 1)]. split; [cbn; lia|]. split; [repeat constructor; assumption|]. intros x. unfold poly. cbn. ring.
Qed.
Lemma choose {A B} (R : A -> B -> Prop) l : (forall b, In b l -> exists a, R a b) -> exists l', Forall2 R l' l.
Proof.
  induction l as [|b l IH]; intros H; [exists []; constructor|]. destruct (H b (or_introl eq_refl)) as [a Ha]. destruct (IH (fun c Hc => H c (or_intror Hc))) as [l' Hl]. exists (a :: l'). now constructor.
Qed.
Lemma lc_scale c xs vs j : lc (map (fun x => c * x) xs) vs j = c * lc xs vs j.
Proof.
  unfold lc. revert vs. induction xs as [|x xs IH]; intros [|v vs]; cbn [map combine rsum fst snd]; try ring. rewrite IH. ring.
Qed.

(** * B-splines are a basis *)
Section Basis.
Variables (lo hi : Qc) (p : nat) (inner T : list Qc).
Hypothesis Hlh : lo < hi.
Hypothesis Hp : padded lo hi (S p) inner T.
Hypothesis Hi : forall k, In k inner -> lo < k /\ k < hi /\ (count_occ Qc_eq_dec inner k <= S p)%nat.
Let t := fun k => nth k T 0.
Let n := (S p + length inner)%nat.
Lemma weak_inner k : In k inner -> lo <= k /\ k <= hi.
Proof. intros H. destruct (Hi k H) as [A [B _]]. split; now apply Qclt_le_weak. Qed.
(** The curve with the coefficients [co] is [f]. *)
Definition draws (co : nat -> Qc) (f : Qc -> Qc) : Prop :=
  forall w l, in_interval t p (n - 1) w l -> t l < t (l + 1)%nat -> qsum (fun i => co i * bspline t l p i w) (seq 0 n) = f w.
Lemma ends : t p = lo /\ t n = hi.
Proof.
  unfold t, n. destruct Hp as (s & P & _ & ->). split.
  - rewrite app_nth1 by (rewrite repeat_length; lia). rewrite (nth_indep _ 0 lo) by (rewrite repeat_length; lia). apply nth_repeat.
  - rewrite app_nth2; rewrite repeat_length; [|lia]. rewrite app_nth2 by (rewrite (Permutation_length P); lia). rewrite (nth_indep _ 0 hi) by (rewrite repeat_length, (Permutation_length P); lia). apply nth_repeat.
Qed.
Lemma interval_at w : lo <= w -> w < hi -> exists l, in_interval t p (n - 1) w l /\ t l < t (l + 1)%nat.
Proof.
  intros W1 W2. assert (G : forall m, (p + m <= n)%nat -> w < t (p + m)%nat -> exists l, (p <= l)%nat /\ (l < p + m)%nat /\ t l <= w /\ w < t (l + 1)%nat).
  { induction m as [|m IH]; intros Hm H.
    - exfalso. rewrite Nat.add_0_r, (proj1 ends) in H. exact (Qclt_not_le _ _ H W1).
    - destruct (Qclt_le_dec w (t (p + m)%nat)) as [L|L].
      + destruct IH as [l [A [B C]]]; [lia|exact L|]. exists l. split; [exact A|]. split; [lia|exact C].
      + exists (p + m)%nat. split; [lia|]. split; [lia|]. split; [exact L|]. replace (p + m + 1)%nat with (p + S m)%nat by lia. exact H. }
  destruct (G (n - p)%nat) as [l [A [B [C D]]]]; [unfold n; lia|replace (p + (n - p))%nat with n by (unfold n; lia); now rewrite (proj2 ends)|].
  exists l. split; [|now apply (Qcle_lt_trans _ w)]. unfold in_interval. split; [exact A|]. split; [unfold n in *; lia|]. split; [exact C|]. now left.
Qed.
Lemma powers_in s f : Permutation inner s -> In f (powers p (count_occ Qc_eq_dec s) (nodup Qc_eq_dec s)) -> spline p inner f.
Proof.
  intros P H. unfold powers in H. apply in_app_or in H. destruct H as [H|H].
  - apply in_map_iff in H. destruct H as [j [<- Hj]]. apply in_seq in Hj. apply spline_power. lia.
  - apply in_flat_map in H. destruct H as [k [Hk H]]. unfold tail_powers in H. apply in_map_iff in H. destruct H as [m [<- Hm]]. apply in_seq in Hm.
    rewrite <- (proj1 (Permutation_count_occ Qc_eq_dec inner s) P k) in Hm. apply nodup_In in Hk. apply (Permutation_in _ (Permutation_sym P)) in Hk. destruct (Hi k Hk) as [_ [_ C]]. apply spline_from; lia.
Qed.
Lemma draws_curve vs fs : Forall2 draws vs fs -> forall xs, draws (lc xs vs) (curve xs fs).
Proof.
  induction 1 as [|v f vs fs H1 H2 IH]; intros xs w l I G.
  - unfold lc, curve. rewrite !combine_nil. cbn [rsum]. apply q_zero. intros i _. ring.
  - destruct xs as [|x xs]; [unfold lc, curve; cbn [combine rsum]; apply q_zero; intros i _; ring|].
    change (curve (x :: xs) (f :: fs) w) with (x * f w + curve xs fs w). rewrite <- (H1 w l I G), <- (IH xs w l I G), <- q_scale, <- q_add. apply q_ext. intros i _. unfold lc. cbn [combine rsum fst snd]. ring.
Qed.
Lemma all_drawn : exists fs vs, length vs = n /\ Forall (spline p inner) fs /\ Forall2 draws vs fs /\
  forall xs, length xs = n -> (forall x, lo <= x -> x < hi -> curve xs fs x = 0) -> Forall (fun x => x = 0) xs.
Proof.
  pose proof Hp as Hp'. destruct Hp' as (s & P & Hs & _). exists (powers p (count_occ Qc_eq_dec s) (nodup Qc_eq_dec s)).
  assert (F : Forall (spline p inner) (powers p (count_occ Qc_eq_dec s) (nodup Qc_eq_dec s))) by (apply Forall_forall; intros f Hf; now apply (powers_in s)).
  destruct (choose draws (powers p (count_occ Qc_eq_dec s) (nodup Qc_eq_dec s))) as [vs Hvs].
  { intros f Hf. apply (represented_spline lo hi p inner T Hlh Hp weak_inner f). rewrite Forall_forall in F. now apply F. }
  exists vs. assert (L : length (powers p (count_occ Qc_eq_dec s) (nodup Qc_eq_dec s)) = n) by (rewrite powers_length, <- (Permutation_length P); reflexivity).
  split; [rewrite <- L; clear - Hvs; induction Hvs; cbn; congruence|]. split; [exact F|]. split; [exact Hvs|]. intros xs Lx Z.
  apply (powers_independent p (count_occ Qc_eq_dec s) (nodup Qc_eq_dec s) lo hi xs Hlh (nodup_sorted s Hs)); [|now rewrite L|exact Z].
  intros k Hk. apply nodup_In in Hk. apply (Permutation_in _ (Permutation_sym P)) in Hk. destruct (Hi k Hk) as [A [B C]]. rewrite (proj1 (Permutation_count_occ Qc_eq_dec inner s) P k) in C. repeat split; assumption.
Qed.
Lemma nonzero xs : Exists (fun x : Qc => x <> 0) xs -> Forall (fun x => x = 0) xs -> False.
Proof. intros E F. apply Exists_exists in E. destruct E as [x [A B]]. rewrite Forall_forall in F. exact (B (F x A)). Qed.
Lemma curves_are_splines co : exists f, spline p inner f /\ draws co f.
Proof.
  destruct all_drawn as [fs [vs [L [F [D Ind]]]]]. destruct (dependent n (co :: vs)) as [xs [Lx [Ex Z]]]; [cbn; lia|]. destruct xs as [|y xs]; [discriminate|]. cbn [length] in Lx. injection Lx as Lx.
  assert (Z' : forall j, (j < n)%nat -> y * co j + lc xs vs j = 0) by (intros j Hj; exact (Z j Hj)). destruct (Qc_eq_dec y 0) as [->|Ny].
  - exfalso. apply (nonzero (0 :: xs) Ex). constructor; [reflexivity|]. apply Ind; [lia|]. intros x X1 X2. destruct (interval_at x X1 X2) as [l [I G]]. rewrite <- (draws_curve vs fs D xs x l I G).
    apply q_zero. intros i Hin. apply in_seq in Hin. specialize (Z' i ltac:(lia)). replace (lc xs vs i) with 0; [ring|]. rewrite <- Z'. ring.
  - exists (curve (map (fun x => - / y * x) xs) fs). split; [now apply spline_curve|]. intros w l I G. rewrite <- (draws_curve vs fs D _ w l I G). apply q_ext. intros i Hin. apply in_seq in Hin. f_equal. rewrite lc_scale.
    specialize (Z' i ltac:(lia)). assert (E : lc xs vs i = - (y * co i)) by (transitivity (y * co i + lc xs vs i - y * co i); [ring|rewrite Z'; ring]). rewrite E. field. exact Ny.
Qed.
Lemma curves_unique co : (forall w l, lo <= w -> w < hi -> in_interval t p (n - 1) w l -> t l < t (l + 1)%nat -> qsum (fun i => co i * bspline t l p i w) (seq 0 n) = 0) -> forall r, (r < n)%nat -> co r = 0.
Proof.
  intros H r Hr. destruct (Qc_eq_dec (co r) 0) as [E|N]; [exact E|exfalso]. destruct all_drawn as [fs [vs [L [_ [D Ind]]]]].
  set (c := fun v : nat -> Qc => v r / co r). set (vs' := map (fun u i => u i - c u * co i) vs). set (skip := fun j : nat => if (j <? r)%nat then j else S j).
  destruct (dependent (n - 1) (map (fun u j => u (skip j)) vs')) as [xs [Lx [Ex Z]]]; [unfold vs'; rewrite !map_length; unfold n in *; lia|]. unfold vs' in Lx. rewrite !map_length in Lx.
  assert (M : forall j, lc xs (map (fun u j => u (skip j)) vs') j = lc xs vs' (skip j)).
  { intros j. clear. unfold lc. revert xs. induction vs' as [|v l IH]; intros [|x xs]; cbn [map combine rsum fst snd]; try reflexivity. now rewrite IH. }
  assert (Z' : forall j, (j < n)%nat -> lc xs vs' j = 0).
  { intros j Hj. destruct (Nat.eq_dec j r) as [->|Nj].
    - unfold lc. apply q_zero. intros [x u] Hu. apply in_combine_r in Hu. unfold vs' in Hu. apply in_map_iff in Hu. destruct Hu as [u' [<- _]]. cbn [fst snd]. unfold c. field. exact N.
    - destruct (Nat.ltb_spec j r) as [J|J].
      + rewrite <- (Z j) by lia. rewrite M. unfold skip. apply Nat.ltb_lt in J. now rewrite J.
      + rewrite <- (Z (j - 1)%nat) by lia. rewrite M. unfold skip. assert (X : (j - 1 <? r)%nat = false) by (apply Nat.ltb_ge; lia). rewrite X. f_equal. lia. }
  apply (nonzero xs Ex). apply Ind; [lia|]. intros x X1 X2. destruct (interval_at x X1 X2) as [l [I G]]. rewrite <- (draws_curve vs fs D xs x l I G).
  set (kappa := lc xs (map (fun u _ => c u) vs) 0). rewrite (q_ext _ (fun i => kappa * (co i * bspline t l p i x)) (seq 0 n)).
  - rewrite q_scale, (H x l X1 X2 I G). ring.
  - intros i Hin. apply in_seq in Hin. assert (E : lc xs vs i = kappa * co i).
    { specialize (Z' i ltac:(lia)). unfold vs' in Z'. rewrite lc_minus in Z' by exact Lx. fold kappa in Z'. transitivity (lc xs vs i - kappa * co i + kappa * co i); [ring|rewrite Z'; ring]. }
    rewrite E. ring.
Qed.
End Basis.

(** * The columns of bs() *)
Section Columns.
Variables (a : bs_args) (st : bs) (lo hi : Qc) (inner : list Qc).
Hypothesis Hlh : lo < hi.
Hypothesis Hp : padded lo hi (S (bs_deg st)) inner (bs_all_knots st).
Hypothesis Hi : forall k, In k inner -> lo < k /\ k < hi /\ (count_occ Qc_eq_dec inner k <= S (bs_deg st))%nat.
Let p := bs_deg st.
Let T := bs_all_knots st.
Let t := fun k => nth k T 0.
Let n := (S p + length inner)%nat.
Let wk := weak_inner lo hi (bs_deg st) inner Hi.
(** The whole basis at [w]. *)
Definition full_row (l : nat) (w : Qc) : list Qc := map (fun i => bspline t l p i w) (seq 0 n).
Lemma row_at w : lo <= w -> w <= hi -> exists l, in_interval t p (n - 1) w l /\ t l < t (l + 1)%nat /\ basis_row w T p = full_row l w /\ qsum (fun i => bspline t l p i w) (seq 0 n) = 1.
Proof.
  intros W1 W2. destruct (basis_row_ok lo hi p inner T w Hlh Hp wk W1 W2) as (_ & L & l & I & B & Sm). fold n in L, I, B. exists l. split; [exact I|].
  destruct Sm as [_ S1]; [right; intros q Hq; apply (Hi q Hq)|]. rewrite qsum_list, L in S1. assert (E : basis_row w T p = full_row l w).
  { apply nth_ext_Qc; unfold full_row; [now rewrite map_length, seq_length|]. intros i Hin. rewrite B, nth_map_seq by lia. reflexivity. }
  split; [|split; [exact E|]].
  - destruct I as [I1 [I2 [I3 I4]]]. destruct (Qclt_le_dec (t l) (t (l + 1)%nat)) as [G|G]; [exact G|exfalso]. destruct (ends lo hi p inner T Hp) as [E1 E2]. fold n in E2. change (nth n T 0) with (t n) in E2.
    destruct I4 as [I4|[-> I4]]; [apply (Qclt_not_le _ _ I4); now apply (Qcle_trans _ (t l))|]. replace (n - 1 + 1)%nat with n in * by (unfold n; lia). rewrite E2 in *. apply (Qcle_not_lt _ _ G).
    unfold t. pose proof Hp as Hp'. destruct Hp' as (s & Ps & _ & Et). fold T in Et. pose proof (Permutation_length Ps) as Ls. destruct s as [|q s].
    + rewrite Et. cbn in Ls. rewrite app_nth1 by (rewrite repeat_length; unfold n, p; lia). rewrite (nth_indep _ 0 lo) by (rewrite repeat_length; unfold n, p; lia). now rewrite nth_repeat.
    + apply Hi. apply (Permutation_in _ (Permutation_sym Ps)). rewrite Et. rewrite app_nth2; rewrite repeat_length; [|unfold n, p; cbn in Ls; lia]. rewrite app_nth1 by (unfold n, p; cbn in *; lia). apply nth_In. unfold n, p. cbn in *; lia.
  - rewrite <- S1. apply q_ext. intros i Hin. apply in_seq in Hin. rewrite B by lia. reflexivity.
Qed.
Lemma columns y k m v : bs_transform a st y = Ok (k, m) -> as_vector y = Ok v ->
  k = (if bs_intercept a then n else n - 1)%nat /\
  Forall2 (fun w row => exists l, in_interval t p (n - 1) w l /\ t l < t (l + 1)%nat /\ row = (if bs_intercept a then full_row l w else tl (full_row l w)) /\ qsum (fun i => bspline t l p i w) (seq 0 n) = 1) v m.
Proof.
  intros Ht Ey. unfold bs_transform in Ht. rewrite Ey in Ht. cbn [bind] in Ht. destruct (eval_basis v (bs_all_knots st) (bs_deg st)) as [[k0 m0]|] eqn:Ev; [|discriminate]. cbn [bind] in Ht.
  destruct (eval_basis_ok v lo hi _ inner _ (Qclt_le_weak _ _ Hlh) wk Hp _ _ Ev) as (_ & _ & Hv & -> & ->). clear Ev Ey.
  destruct (bs_intercept a); injection Ht as <- <-; cbn [fst snd]; (split; [reflexivity|]); induction v as [|w v IH]; cbn [map]; constructor; try (apply IH; intros u Hu; apply Hv; now right);
    destruct (Hv w (or_introl eq_refl)) as [W1 W2]; destruct (row_at w W1 W2) as [l [I [G [E Sm]]]]; exists l; (split; [exact I|]); (split; [exact G|]); (split; [first [exact E|exact (f_equal (@tl Qc) E)]|exact Sm]).
Qed.
Lemma transform_at w : (p <= 5)%nat -> lo <= w -> w < hi -> exists m, bs_transform a st (A1 [w]) = Ok ((if bs_intercept a then n else n - 1)%nat, m).
Proof.
  intros H5 W1 W2. assert (E : exists m, eval_basis [w] (bs_all_knots st) (bs_deg st) = Ok (n, m)).
  { destruct (padded_min lo hi p inner T (Qclt_le_weak _ _ Hlh) wk Hp) as (_ & Mn & Mx & So). unfold eval_basis. fold T. rewrite So, Mn, Mx. replace (np_min [w]) with w by reflexivity. replace (np_max [w]) with w by reflexivity.
    assert (Q1 : qltb w lo = false) by (now apply qltb_not). assert (Q2 : qltb hi w = false) by (apply qltb_not; now apply Qclt_le_weak). rewrite Q1, Q2. cbn [orb].
    assert (Q3 : (5 <? bs_deg st)%nat = false) by (apply Nat.ltb_ge; exact H5). rewrite Q3. eexists. f_equal. f_equal. destruct (basis_row_ok lo hi p inner T w Hlh Hp wk W1 (Qclt_le_weak _ _ W2)) as [X _]. exact X. }
  destruct E as [m E]. unfold bs_transform. cbn [as_vector bind]. rewrite E. cbn [bind]. destruct (bs_intercept a); eexists; reflexivity.
Qed.
(** Coefficients of the whole basis. *)
Definition whole (c0 : Qc) (co : list Qc) (i : nat) : Qc := c0 + if bs_intercept a then nth i co 0 else match i with O => 0 | S j => nth j co 0 end.
Lemma whole_curve c0 co l w : qsum (fun i => bspline t l p i w) (seq 0 n) = 1 ->
  c0 + qsum (fun i => nth i co 0 * nth i (if bs_intercept a then full_row l w else tl (full_row l w)) 0) (seq 0 (if bs_intercept a then n else n - 1)) = qsum (fun i => whole c0 co i * bspline t l p i w) (seq 0 n).
Proof.
  intros S1. transitivity (c0 * qsum (fun i => bspline t l p i w) (seq 0 n) + qsum (fun i => (if bs_intercept a then nth i co 0 else match i with O => 0 | S j => nth j co 0 end) * bspline t l p i w) (seq 0 n)).
  - rewrite S1, Qcmult_1_r. f_equal. unfold full_row. destruct (bs_intercept a).
    + apply q_ext. intros i Hin. apply in_seq in Hin. now rewrite nth_map_seq by lia.
    + replace (seq 0 n) with (0%nat :: map S (seq 0 (n - 1))) by (rewrite seq_shift; unfold n; cbn [Nat.add Nat.sub]; now rewrite Nat.sub_0_r). cbn [map tl rsum]. rewrite q_map, map_map. rewrite Qcmult_0_l, Qcplus_0_l. apply q_ext. intros i Hin. apply in_seq in Hin. now rewrite nth_map_seq by lia.
  - rewrite <- q_scale, <- q_add. apply q_ext. intros i _. unfold whole. ring.
Qed.
Lemma only_splines c0 co : exists f, spline p inner f /\ forall y k m v, bs_transform a st y = Ok (k, m) -> as_vector y = Ok v ->
  Forall2 (fun w row => c0 + qsum (fun i => nth i co 0 * nth i row 0) (seq 0 k) = f w) v m.
Proof.
  destruct (curves_are_splines lo hi p inner T Hlh Hp Hi (whole c0 co)) as [f [Sf D]]. exists f. split; [exact Sf|]. intros y k m v Ht Ey. destruct (columns y k m v Ht Ey) as [-> F].
  clear Ht Ey. induction F as [|w row v m [l [I [G [-> S1]]]] F IH]; constructor; [|exact IH]. rewrite (whole_curve c0 co l w S1). exact (D w l I G).
Qed.
Lemma unique_coefficients c0 co c0' co' : (p <= 5)%nat -> (bs_intercept a = true -> c0 = 0 /\ c0' = 0) -> length co = length co' -> length co = (if bs_intercept a then n else n - 1)%nat ->
  (forall y k m, bs_transform a st y = Ok (k, m) -> Forall (fun row => c0 + qsum (fun i => nth i co 0 * nth i row 0) (seq 0 k) = c0' + qsum (fun i => nth i co' 0 * nth i row 0) (seq 0 k)) m) ->
  c0 = c0' /\ co = co'.
Proof.
  intros H5 Hc L1 L2 H. assert (Z : forall r, (r < n)%nat -> whole c0 co r - whole c0' co' r = 0).
  { apply (curves_unique lo hi p inner T Hlh Hp Hi). intros w l W1 W2 I G. destruct (transform_at w H5 W1 W2) as [m Ht]. destruct (columns (A1 [w]) _ m [w] Ht eq_refl) as [_ F]. specialize (H _ _ _ Ht).
    inversion F as [|? row ? ? [l' [I' [G' [Er S1]]]] F']; subst. inversion H as [|? ? Hr _]; subst. rewrite !(whole_curve _ _ l' w S1) in Hr.
    assert (El : l = l').
    { destruct (Nat.lt_trichotomy l l') as [X|[X|X]]; [|exact X|]; exfalso.
      - destruct I as [_ [I2 [_ I4]]], I' as [_ [J2 [J3 _]]]. pose proof (knots_mono lo hi p inner T Hlh Hp wk (l + 1) l' ltac:(lia) ltac:(fold n; lia)) as M. change (t (l + 1)%nat <= t l') in M.
        destruct I4 as [I4|[-> _]]; [|lia]. apply (Qclt_not_le _ _ I4). now apply (Qcle_trans _ (t l')).
      - destruct I as [_ [I2 [I3 _]]], I' as [_ [J2 [_ J4]]]. pose proof (knots_mono lo hi p inner T Hlh Hp wk (l' + 1) l ltac:(lia) ltac:(fold n; lia)) as M. change (t (l' + 1)%nat <= t l) in M.
        destruct J4 as [J4|[-> _]]; [|lia]. apply (Qclt_not_le _ _ J4). now apply (Qcle_trans _ (t l)). }
    subst l'. transitivity (qsum (fun i => whole c0 co i * bspline t l p i w) (seq 0 n) - qsum (fun i => whole c0' co' i * bspline t l p i w) (seq 0 n)).
    - rewrite <- qsum_sub. apply q_ext. intros i _. unfold t. ring.
    - rewrite Hr. ring. }
  assert (Z' : forall r, (r < n)%nat -> whole c0 co r = whole c0' co' r) by (intros r Hr; transitivity (whole c0 co r - whole c0' co' r + whole c0' co' r); [ring|rewrite (Z r Hr); ring]).
  unfold whole in Z'. assert (E0 : c0 = c0').
  { destruct (bs_intercept a); [destruct (Hc eq_refl); congruence|]. specialize (Z' O ltac:(unfold n; lia)). cbn in Z'. rewrite !Qcplus_0_r in Z'. exact Z'. }
  split; [exact E0|]. subst c0'. apply nth_ext_Qc; [exact L1|]. intros i Hin.
  assert (C : forall u v, c0 + u = c0 + v -> u = v) by (intros u v E; transitivity (c0 + u - c0); [ring|rewrite E; ring]). destruct (bs_intercept a).
  - apply C. apply Z'. lia.
  - apply C. exact (Z' (S i) ltac:(lia)).
Qed.
End Columns.
