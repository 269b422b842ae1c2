From Coq Require Import ZArith Lqa Sorted Permutation.
From Verif Require Import Base NumModel PySort RankSpec ContrastSpec ContrastProofs StateModel StateProofs LinModel LinProofs SplineModel SplineSpec SplineNumProofs SplineProofs BsModel BsSpec.
Open Scope nat_scope.
Open Scope list_scope.

(** * Minimum, maximum, sorting *)
Lemma fold_min l : forall a, In (fold_left qmin2 l a) (a :: l) /\ forall v, In v (a :: l) -> (fold_left qmin2 l a <= v)%Qc.
Proof.
  induction l as [|b l IH]; intros a; cbn [fold_left].
  - split; [now left|]. intros v [->|[]]. apply Qcle_refl.
  - destruct (IH (qmin2 a b)) as [I1 I2]. unfold qmin2 in *. destruct (qltb b a) eqn:E.
    + apply qltb_iff in E. split; [destruct I1; cbn; auto|]. intros v [->|[->|Hv]]; [|apply I2; now left|apply I2; now right].
      apply Qclt_le_weak. eapply Qcle_lt_trans; [|exact E]. apply I2. now left.
    + apply qltb_not in E. split; [destruct I1; cbn; auto|]. intros v [->|[->|Hv]]; [apply I2; now left| |apply I2; now right].
      eapply Qcle_trans; [|exact E]. apply I2. now left.
Qed.
Lemma fold_max l : forall a, In (fold_left qmax2 l a) (a :: l) /\ forall v, In v (a :: l) -> (v <= fold_left qmax2 l a)%Qc.
Proof.
  induction l as [|b l IH]; intros a; cbn [fold_left].
  - split; [now left|]. intros v [->|[]]. apply Qcle_refl.
  - destruct (IH (qmax2 a b)) as [I1 I2]. unfold qmax2 in *. destruct (qltb a b) eqn:E.
    + apply qltb_iff in E. split; [destruct I1; cbn; auto|]. intros v [->|[->|Hv]]; [|apply I2; now left|apply I2; now right].
      apply Qclt_le_weak. eapply Qclt_le_trans; [exact E|]. apply I2. now left.
    + apply qltb_not in E. split; [destruct I1; cbn; auto|]. intros v [->|[->|Hv]]; [apply I2; now left| |apply I2; now right].
      eapply Qcle_trans; [exact E|]. apply I2. now left.
Qed.
Lemma np_min_least l : l <> [] -> least l (np_min l).
Proof. destruct l as [|a l]; [easy|]. intros _. apply fold_min. Qed.
Lemma np_max_greatest l : l <> [] -> greatest l (np_max l).
Proof. destruct l as [|a l]; [easy|]. intros _. apply fold_max. Qed.
Lemma least_unique l a b : least l a -> least l b -> a = b.
Proof. intros [A1 A2] [B1 B2]. apply Qcle_antisym; auto. Qed.
Lemma greatest_unique l a b : greatest l a -> greatest l b -> a = b.
Proof. intros [A1 A2] [B1 B2]. apply Qcle_antisym; auto. Qed.

Lemma np_sort_sorted l : nondecreasing (np_sort l).
Proof.
  assert (S : StronglySorted (le qltb) (np_sort l)).
  { apply py_sort_sorted.
    - intros a b H. apply qltb_iff in H. apply qltb_not. now apply Qclt_le_weak.
    - unfold le. intros a b c H1 H2. apply qltb_not in H1, H2. apply qltb_not. eapply Qcle_trans; eauto. }
  unfold nondecreasing. induction S as [|a s S IH F]; constructor; auto.
  eapply Forall_impl; [|exact F]. intros b H. now apply qltb_not in H.
Qed.
Lemma sorted_unique l : forall m, nondecreasing l -> nondecreasing m -> Permutation l m -> l = m.
Proof.
  induction l as [|a l IH]; intros m Hl Hm P.
  - apply Permutation_nil in P. now subst.
  - destruct m as [|b m]; [now apply Permutation_sym, Permutation_nil in P|].
    inversion Hl as [|? ? Hl' Fa]; inversion Hm as [|? ? Hm' Fb]; subst. rewrite Forall_forall in Fa, Fb.
    assert (a = b).
    { apply Qcle_antisym.
      - assert (In b (a :: l)) as [->|H] by (eapply Permutation_in; [symmetry; exact P|now left]); [apply Qcle_refl|auto].
      - assert (In a (b :: m)) as [->|H] by (eapply Permutation_in; [exact P|now left]); [apply Qcle_refl|auto]. }
    subst b. f_equal. apply IH; auto. now apply Permutation_cons_inv in P.
Qed.
Lemma np_sort_id l : nondecreasing l -> np_sort l = l.
Proof. intros H. symmetry. apply sorted_unique; auto; [apply np_sort_sorted|apply py_sort_perm]. Qed.
Lemma sorted_app l m : nondecreasing l -> nondecreasing m -> (forall a b, In a l -> In b m -> (a <= b)%Qc) -> nondecreasing (l ++ m).
Proof.
  intros Hl Hm H. induction Hl as [|a l Hl IH F]; cbn; auto. constructor.
  - apply IH. intros; apply H; auto. now right.
  - apply Forall_app. split; auto. apply Forall_forall. intros b Hb. apply H; auto. now left.
Qed.
Lemma sorted_repeat a n : nondecreasing (repeat a n).
Proof.
  induction n as [|n IH]; cbn; constructor; auto. apply Forall_forall. intros b H. apply repeat_spec in H. subst. apply Qcle_refl.
Qed.
Lemma repeat_pair_perm a b n : Permutation (repeat_pair a b n) (repeat a n ++ repeat b n).
Proof.
  induction n as [|n IH]; cbn; [constructor|]. constructor. rewrite <- Permutation_middle. now constructor.
Qed.
Lemma sort_padded lo hi order inner : (lo <= hi)%Qc -> (forall k, In k inner -> (lo <= k)%Qc /\ (k <= hi)%Qc) ->
  np_sort (repeat_pair lo hi order ++ inner) = repeat lo order ++ np_sort inner ++ repeat hi order.
Proof.
  intros H Hi. apply sorted_unique; [apply np_sort_sorted| |].
  - apply sorted_app; [apply sorted_repeat| |].
    + apply sorted_app; [apply np_sort_sorted|apply sorted_repeat|]. intros a b Ha Hb. apply repeat_spec in Hb. subst.
      apply (proj1 (py_sort_in qltb inner a)) in Ha. now apply Hi.
    + intros a b Ha Hb. apply repeat_spec in Ha. subst. apply in_app_or in Hb as [Hb|Hb].
      * apply (proj1 (py_sort_in qltb inner b)) in Hb. now apply Hi.
      * apply repeat_spec in Hb. now subst.
  - unfold np_sort at 1. rewrite <- py_sort_perm, repeat_pair_perm, <- app_assoc. apply Permutation_app_head.
    rewrite Permutation_app_comm. apply Permutation_app_tail, py_sort_perm.
Qed.

(** * The recursion *)
Lemma ratio_eq a b c : (ratio a b * c = (if Qc_eq_bool b 0 then 0 else c / b) * a)%Qc.
Proof.
  unfold ratio, Qc_eq_bool. destruct (Qc_eq_dec b 0); [ring|]. field. auto.
Qed.
Lemma bspline_support t l p : forall i x, l < i \/ i + p < l -> bspline t l p i x = 0%Qc.
Proof.
  induction p as [|p IH]; intros i x H; cbn [bspline].
  - destruct (Nat.eqb_spec i l); [lia|reflexivity].
  - rewrite !IH by lia. ring.
Qed.
Lemma bspl_S knots x l p : bspl knots x l (S p) = bspl_step knots x l (S p) (bspl knots x l p).
Proof. unfold bspl. rewrite seq_S, fold_left_app. reflexivity. Qed.
Lemma bspl_step_length knots x l j h : length (bspl_step knots x l j h) = S j.
Proof. unfold bspl_step, vadd. rewrite map2_length, app_length. cbn [length]. rewrite !map_length, seq_length. lia. Qed.
Lemma bspl_length knots x l p : length (bspl knots x l p) = S p.
Proof. destruct p; [reflexivity|]. rewrite bspl_S. apply bspl_step_length. Qed.
Lemma nth_map_seq {B} (f : nat -> B) n i d : i < n -> nth i (map f (seq 0 n)) d = f i.
Proof. intros H. rewrite (nth_map_lt f (seq 0 n) i d 0) by (now rewrite seq_length). now rewrite seq_nth. Qed.
Definition weight (knots : list Qc) (l j : nat) (h : list Qc) (i : nat) : Qc :=
  let hi := nth (l + i + 1) knots 0%Qc in let lo := nth (l + i + 1 - j) knots 0%Qc in
  if Qc_eq_bool hi lo then 0%Qc else (nth i h 0 / (hi - lo))%Qc.
Lemma bspl_step_nth knots x l j h i : i <= j -> nth i (bspl_step knots x l j h) 0%Qc =
  ((if i <? j then weight knots l j h i * (nth (l + i + 1) knots 0 - x) else 0)
   + (if i =? 0 then 0 else weight knots l j h (i - 1) * (x - nth (l + i - j) knots 0)))%Qc.
Proof.
  intros Hi. unfold bspl_step, vadd. rewrite (nth_map2 _ _ _ i 0%Qc 0%Qc).
  2:{ rewrite app_length, map_length, seq_length. cbn. lia. }
  2:{ cbn. rewrite map_length, seq_length. lia. }
  f_equal.
  - destruct (Nat.ltb_spec i j) as [L|L].
    + rewrite app_nth1 by (now rewrite map_length, seq_length). rewrite nth_map_seq by auto. now rewrite nth_map_seq by auto.
    + assert (i = j) by lia. subst. rewrite app_nth2; rewrite map_length, seq_length; [|lia]. now rewrite Nat.sub_diag.
  - destruct i as [|i]; [reflexivity|]. cbn [nth Nat.eqb]. rewrite nth_map_seq by lia. rewrite nth_map_seq by lia.
    replace (l + S i - j) with (l + i + 1 - j) by lia. replace (S i - 1) with i by lia. reflexivity.
Qed.
Lemma Qc_sub_eqb a b : Qc_eq_bool (a - b) 0 = Qc_eq_bool a b.
Proof.
  destruct (Qc_eq_bool a b) eqn:E.
  - apply Qc_eqb_spec in E. subst. apply Qc_eqb_spec. ring.
  - apply not_true_iff_false. intros X. apply Qc_eqb_spec in X. apply not_true_iff_false in E. apply E, Qc_eqb_spec.
    replace a with (a - b + b)%Qc by ring. rewrite X. ring.
Qed.
Lemma bspl_bspline knots x l p : p <= l -> forall i, i <= p ->
  nth i (bspl knots x l p) 0%Qc = bspline (fun k => nth k knots 0%Qc) l p (l - p + i) x.
Proof.
  induction p as [|p IH]; intros Hl i Hi.
  - assert (i = 0) by lia. subst. cbn. replace (l - 0 + 0) with l by lia. now rewrite Nat.eqb_refl.
  - rewrite bspl_S, bspl_step_nth by auto. cbn [bspline]. rewrite !ratio_eq, !Qc_sub_eqb. set (N := bspline _ l p) in *.
    rewrite Qcplus_comm. f_equal.
    + destruct (Nat.eqb_spec i 0) as [->|Ni].
      * unfold N. rewrite bspline_support by lia. destruct (Qc_eq_bool _ _); [ring|]. unfold Qcdiv. ring.
      * unfold weight. replace (l + (i - 1) + 1) with (l + i) by lia. replace (l - S p + i + S p) with (l + i) by lia.
        replace (l + i - S p) with (l - S p + i) by lia. rewrite IH by lia. replace (l - p + (i - 1)) with (l - S p + i) by lia. reflexivity.
    + replace (l - S p + i + S p + 1) with (l + i + 1) by lia. replace (l - S p + i + 1) with (l - p + i) by lia.
      destruct (Nat.ltb_spec i (S p)) as [L|L].
      * unfold weight. replace (l + i + 1 - S p) with (l - p + i) by lia. rewrite IH by lia. reflexivity.
      * unfold N. rewrite bspline_support by lia. destruct (Qc_eq_bool _ _); [ring|]. unfold Qcdiv. ring.
Qed.

(** * Nonnegative and summing to one *)
Lemma qsum_list l : qsum (fun q => q) l = qsum (fun i => nth i l 0%Qc) (seq 0 (length l)).
Proof.
  induction l as [|a l IH]; [reflexivity|]. cbn [rsum length seq nth]. f_equal. rewrite IH, <- seq_shift.
  clear. induction (seq 0 (length l)); cbn; congruence.
Qed.
Lemma step_sum knots x l j h : length h = j ->
  (forall i, i < j -> nth (l + i + 1) knots 0%Qc <> nth (l + i + 1 - j) knots 0%Qc) ->
  qsum (fun q => q) (bspl_step knots x l j h) = qsum (fun q => q) h.
Proof.
  intros Hh Hne. rewrite !qsum_list, bspl_step_length, Hh.
  rewrite (qsum_ext _ (fun i => ((if i <? j then weight knots l j h i * (nth (l + i + 1) knots 0 - x) else 0)
   + (if i =? 0 then 0 else weight knots l j h (i - 1) * (x - nth (l + i - j) knots 0)))%Qc)).
  2:{ intros i Hi. apply in_seq in Hi. apply bspl_step_nth. lia. }
  rewrite qsum_add. rewrite seq_S at 1. rewrite qsum_app. cbn [seq rsum Nat.add]. rewrite Nat.ltb_irrefl. cbn [Nat.eqb].
  rewrite (qsum_ext (fun i => if i <? j then _ else _) (fun i => weight knots l j h i * (nth (l + i + 1) knots 0 - x))%Qc (seq 0 j)).
  2:{ intros i Hi. apply in_seq in Hi. destruct (Nat.ltb_spec i j); [reflexivity|lia]. }
  rewrite <- seq_shift.
  assert (M : forall (g : nat -> Qc) s, qsum g (map S s) = qsum (fun i => g (S i)) s) by (intros g s; induction s; cbn; congruence).
  rewrite M. cbn [Nat.eqb].
  transitivity (qsum (fun i => weight knots l j h i * (nth (l + i + 1) knots 0 - x)
                    + weight knots l j h i * (x - nth (l + i + 1 - j) knots 0))%Qc (seq 0 j)).
  { rewrite qsum_add. replace (qsum (fun i => weight knots l j h (S i - 1) * (x - nth (l + S i - j) knots 0))%Qc (seq 0 j))
      with (qsum (fun i => weight knots l j h i * (x - nth (l + i + 1 - j) knots 0))%Qc (seq 0 j)); [ring|].
    apply qsum_ext. intros i _. replace (S i - 1) with i by lia. replace (l + S i - j) with (l + i + 1 - j) by lia. reflexivity. }
  apply qsum_ext. intros i Hi. apply in_seq in Hi. specialize (Hne i ltac:(lia)). unfold weight.
  destruct (Qc_eq_bool _ _) eqn:E; [apply Qc_eqb_spec in E; contradiction|]. field.
  intros X. apply Hne. revert X. generalize (nth (l + i + 1) knots 0%Qc), (nth (l + i + 1 - j) knots 0%Qc). intros u v X.
  replace u with (u - v + v)%Qc by ring. rewrite X. ring.
Qed.
Lemma Qcinv_pos a : (0 < a)%Qc -> (0 < / a)%Qc.
Proof. intros H. unfold Qclt in *. rewrite this_inv. now apply Qinv_lt_0_compat. Qed.
Lemma Qcmul_nonneg a b : (0 <= a)%Qc -> (0 <= b)%Qc -> (0 <= a * b)%Qc.
Proof. intros. qq. now apply Qmult_le_0_compat. Qed.
Lemma Qcdiv_nonneg a b : (0 <= a)%Qc -> (0 < b)%Qc -> (0 <= a / b)%Qc.
Proof. intros. unfold Qcdiv. apply Qcmul_nonneg; auto. now apply Qclt_le_weak, Qcinv_pos. Qed.
Lemma step_nonneg knots x l j h : length h = j -> Forall (fun q => (0 <= q)%Qc) h ->
  (forall i, i < j -> (nth (l + i + 1 - j) knots 0 <= x)%Qc /\ (x <= nth (l + i + 1) knots 0)%Qc) ->
  Forall (fun q => (0 <= q)%Qc) (bspl_step knots x l j h).
Proof.
  intros Hh Hp Hx. apply Forall_nth. intros i d Hi. rewrite bspl_step_length in Hi. rewrite (nth_indep _ d 0%Qc) by (now rewrite bspl_step_length).
  rewrite bspl_step_nth by lia.
  assert (W : forall i, i < j -> (0 <= weight knots l j h i)%Qc).
  { intros k Hk. unfold weight. destruct (Qc_eq_bool _ _) eqn:E; [apply Qcle_refl|]. apply Qcdiv_nonneg.
    - rewrite Forall_nth in Hp. apply Hp. lia.
    - destruct (Hx k Hk) as [X1 X2]. destruct (Qclt_le_dec (nth (l + k + 1 - j) knots 0%Qc) (nth (l + k + 1) knots 0%Qc)) as [L|L].
      + qq. lra.
      + exfalso. apply not_true_iff_false in E. apply E, Qc_eqb_spec, Qcle_antisym; auto. eapply Qcle_trans; eauto. }
  assert (P : forall a b, (0 <= a)%Qc -> (0 <= b)%Qc -> (0 <= a + b)%Qc) by (intros; qq; lra).
  apply P.
  - destruct (Nat.ltb_spec i j); [|apply Qcle_refl]. apply Qcmul_nonneg; [now apply W|]. destruct (Hx i) as [_ X]; auto. qq. lra.
  - destruct (Nat.eqb_spec i 0); [apply Qcle_refl|]. apply Qcmul_nonneg; [apply W; lia|]. destruct (Hx (i - 1)) as [X _]; [lia|].
    replace (l + (i - 1) + 1 - j) with (l + i - j) in X by lia. qq. lra.
Qed.
Lemma sorted_nth t i j : nondecreasing t -> i <= j -> j < length t -> (nth i t 0 <= nth j t 0)%Qc.
Proof.
  intros H. revert i j. induction H as [|a t H IH F]; intros i j Hij Hj; cbn in Hj; [lia|].
  destruct j as [|j]; [assert (i = 0) by lia; subst; apply Qcle_refl|]. destruct i as [|i]; cbn [nth].
  - rewrite Forall_forall in F. apply F, nth_In. lia.
  - apply IH; lia.
Qed.
Lemma bspl_partition knots x l p : nondecreasing knots -> p <= l -> l + p + 1 < length knots + 0 ->
  (nth l knots 0 <= x)%Qc -> (x <= nth (l + 1) knots 0)%Qc -> (nth l knots 0 < nth (l + 1) knots 0)%Qc ->
  Forall (fun q => (0 <= q)%Qc) (bspl knots x l p) /\ qsum (fun q => q) (bspl knots x l p) = 1%Qc.
Proof.
  intros Hs. induction p as [|p IH]; intros Hl Hn H1 H2 H3.
  - cbn. split; [constructor; [discriminate|constructor]|ring].
  - rewrite bspl_S. destruct IH as [I1 I2]; auto; try lia.
    assert (B : forall i, i < S p -> (nth (l + i + 1 - S p) knots 0 <= nth l knots 0)%Qc /\ (nth (l + 1) knots 0 <= nth (l + i + 1) knots 0)%Qc).
    { intros i Hi. split; apply sorted_nth; auto; lia. }
    split.
    + apply step_nonneg; auto; [apply bspl_length|]. intros i Hi. destruct (B i Hi). split; eapply Qcle_trans; eauto.
    + rewrite step_sum; auto; [apply bspl_length|]. intros i Hi E. destruct (B i Hi) as [B1 B2]. rewrite E in B2. qq. lra.
Qed.

(** * The interval *)
Lemma find_interval_spec knots x steps : forall l, let r := find_interval steps knots x l in
  l <= r /\ r <= l + steps /\ (r = l + steps \/ (x < nth (r + 1) knots 0)%Qc) /\ (r = l \/ (nth r knots 0 <= x)%Qc).
Proof.
  induction steps as [|steps IH]; intros l; cbn zeta; cbn [find_interval].
  - repeat split; auto; lia.
  - destruct (qleb (nth (l + 1) knots 0%Qc) x) eqn:E.
    + apply qleb_iff in E. destruct (IH (l + 1)) as (A & B & C & D). repeat split; try lia.
      * destruct C as [C|C]; [left; lia|now right].
      * right. destruct D as [D|D]; [rewrite D; exact E|exact D].
    + apply qleb_not in E. repeat split; auto; lia.
Qed.

(** * The rows *)
Lemma dot_unit v : forall h c, (forall j, j < length v -> nth j v 0%Qc = if j =? c then 1%Qc else 0%Qc) -> c < length v -> dot h v = nth c h 0%Qc.
Proof.
  assert (Z : forall v h, (forall j, j < length v -> nth j v 0%Qc = 0%Qc) -> dot h v = 0%Qc).
  { clear. induction v as [|a v IH]; intros h H; [apply dot_nil_r|]. destruct h as [|b h]; [reflexivity|]. cbn.
    rewrite (IH h); [|intros j Hj; apply (H (S j)); cbn; lia]. pose proof (H 0 ltac:(cbn; lia)) as H0. cbn in H0. rewrite H0. ring. }
  induction v as [|a v IH]; intros h c H Hc; cbn in Hc; [lia|]. destruct h as [|b h]; [now destruct c|]. cbn [dot].
  pose proof (H 0 ltac:(cbn; lia)) as H0. cbn [nth] in H0. destruct c as [|c].
  - cbn in H0. rewrite H0, Z; [cbn; ring|]. intros j Hj. apply (H (S j)). cbn. lia.
  - cbn in H0. rewrite H0, (IH h c); [cbn; ring| |lia]. intros j Hj. apply (H (S j)). cbn. lia.
Qed.
Lemma dot_zero v : forall h, (forall j, j < length v -> nth j v 0%Qc = 0%Qc) -> dot h v = 0%Qc.
Proof.
  induction v as [|a v IH]; intros h H; [apply dot_nil_r|]. destruct h as [|b h]; [reflexivity|]. cbn.
  rewrite (IH h); [|intros j Hj; apply (H (S j)); cbn; lia]. pose proof (H 0 ltac:(cbn; lia)) as H0. cbn in H0. rewrite H0. ring.
Qed.
Lemma nth_skipn_Qc (l : list Qc) s j : nth j (skipn s l) 0%Qc = nth (s + j) l 0%Qc.
Proof. revert l. induction s as [|s IH]; intros [|a l]; cbn; auto. now destruct j. Qed.
Lemma splev_unit x knots p b l : let n := length knots - (p + 1) in
  l = find_interval (n - 1 - p) knots x p -> b < n -> p <= l ->
  splev x knots (unit_vec n b) p = if l - p <=? b then nth (b - (l - p)) (bspl knots x l p) 0%Qc else 0%Qc.
Proof.
  intros n El Hb Hl. unfold splev. fold n. rewrite <- El.
  assert (U : forall j, j < n -> nth j (unit_vec n b) 0%Qc = if b =? j then 1%Qc else 0%Qc).
  { intros j Hj. unfold unit_vec. now rewrite nth_map_seq. }
  assert (Lu : length (unit_vec n b) = n) by (unfold unit_vec; now rewrite map_length, seq_length).
  destruct (Nat.leb_spec (l - p) b) as [L|L].
  - apply dot_unit.
    + intros j Hj. rewrite skipn_length, Lu in Hj. rewrite nth_skipn_Qc, U by lia.
      destruct (Nat.eqb_spec b (l - p + j)), (Nat.eqb_spec j (b - (l - p))); auto; lia.
    + rewrite skipn_length, Lu. lia.
  - apply dot_zero. intros j Hj. rewrite skipn_length, Lu in Hj. rewrite nth_skipn_Qc, U by lia.
    destruct (Nat.eqb_spec b (l - p + j)); [lia|reflexivity].
Qed.
Definition basis_row (x : Qc) (knots : list Qc) (p : nat) : list Qc :=
  let n := length knots - (p + 1) in map (fun i => splev x knots (unit_vec n i) p) (seq 0 n).
Lemma basis_row_padded x knots p l : let n := length knots - (p + 1) in
  l = find_interval (n - 1 - p) knots x p -> p <= l -> l < n ->
  basis_row x knots p = repeat 0%Qc (l - p) ++ bspl knots x l p ++ repeat 0%Qc (n - 1 - l).
Proof.
  intros n El Hl Hn. unfold basis_row. fold n. apply nth_ext_Qc.
  - rewrite map_length, seq_length, !app_length, !repeat_length, bspl_length. lia.
  - rewrite map_length, seq_length. intros b Hb. rewrite nth_map_seq by auto.
    pose proof (splev_unit x knots p b l El Hb Hl) as Sp. cbn zeta in Sp. fold n in Sp. rewrite Sp. clear Sp.
    destruct (Nat.leb_spec (l - p) b) as [L|L].
    + rewrite app_nth2; rewrite repeat_length; auto. destruct (Nat.lt_ge_cases (b - (l - p)) (S p)) as [M|M].
      * rewrite app_nth1 by (now rewrite bspl_length). reflexivity.
      * rewrite app_nth2; rewrite bspl_length; auto. rewrite nth_zeros. apply nth_overflow. rewrite bspl_length. lia.
    + rewrite app_nth1 by (now rewrite repeat_length). now rewrite nth_zeros.
Qed.
Lemma qsum_zeros n : qsum (fun q => q) (repeat 0%Qc n) = 0%Qc.
Proof. induction n as [|n IH]; cbn; [reflexivity|]. rewrite IH. ring. Qed.

Lemma basis_row_ok lo hi p inner t x : (lo < hi)%Qc -> padded lo hi (S p) inner t -> (forall k, In k inner -> (lo <= k)%Qc /\ (k <= hi)%Qc) ->
  (lo <= x)%Qc -> (x <= hi)%Qc ->
  let n := S p + length inner in
  length t - (p + 1) = n /\ length (basis_row x t p) = n /\
  exists l, in_interval (fun k => nth k t 0%Qc) p (n - 1) x l /\
    (forall i, i < n -> nth i (basis_row x t p) 0%Qc = bspline (fun k => nth k t 0%Qc) l p i x) /\
    ((x < hi)%Qc \/ (forall k, In k inner -> (k < hi)%Qc) -> Forall (fun q => (0 <= q)%Qc) (basis_row x t p) /\ qsum (fun q => q) (basis_row x t p) = 1%Qc).
Proof.
  intros Hlh (s & P & Hs & Et) Hi Hx1 Hx2 n.
  pose proof (Permutation_length P) as Lp.
  assert (Lt : length t = n + S p) by (rewrite Et, !app_length, !repeat_length; unfold n; lia).
  assert (Hi' : forall k, In k s -> (lo <= k)%Qc /\ (k <= hi)%Qc) by (intros k Hk; apply Hi; eapply Permutation_in; [symmetry; exact P|exact Hk]).
  assert (St : nondecreasing t).
  { rewrite Et. apply sorted_app; [apply sorted_repeat| |].
    - apply sorted_app; auto; [apply sorted_repeat|]. intros a b Ha Hb. apply repeat_spec in Hb. subst. now apply Hi'.
    - intros a b Ha Hb. apply repeat_spec in Ha. subst a. apply in_app_or in Hb as [Hb|Hb]; [now apply Hi'|].
      apply repeat_spec in Hb. subst. now apply Qclt_le_weak. }
  assert (T1 : nth p t 0%Qc = lo).
  { rewrite Et, app_nth1 by (rewrite repeat_length; lia). rewrite (nth_indep _ 0%Qc lo) by (rewrite repeat_length; lia). apply nth_repeat. }
  assert (T2 : nth n t 0%Qc = hi).
  { rewrite Et, app_nth2; rewrite repeat_length; [|unfold n; lia]. rewrite app_nth2 by (unfold n; lia).
    rewrite (nth_indep _ 0%Qc hi) by (rewrite repeat_length; unfold n; lia). apply nth_repeat. }
  assert (Hn : length t - (p + 1) = n) by lia. split; auto. split; [unfold basis_row; rewrite map_length, seq_length; auto|].
  pose proof (find_interval_spec t x (n - 1 - p) p) as F. cbn zeta in F. set (l := find_interval (n - 1 - p) t x p) in *.
  destruct F as (F1 & F2 & F3 & F4). assert (Hl : l <= n - 1) by (unfold n in *; lia).
  assert (A1 : (nth l t 0 <= x)%Qc) by (destruct F4 as [F4|F4]; auto; rewrite F4, T1; auto).
  assert (A2 : (x < nth (l + 1) t 0)%Qc \/ (l = n - 1 /\ nth (l + 1) t 0%Qc = hi)).
  { destruct F3 as [F3|F3]; auto. right. assert (El : l = n - 1) by (unfold n in *; lia). split; auto. rewrite El. replace (n - 1 + 1) with n by (unfold n; lia). exact T2. }
  exists l. split; [|split].
  - unfold in_interval. repeat split; auto. destruct A2 as [A2|[A2 A3]]; auto. right. rewrite A3. auto.
  - intros i Hin. rewrite (basis_row_padded x t p l) by (rewrite ?Hn; auto; unfold n in *; lia). rewrite Hn.
    destruct (Nat.lt_ge_cases i (l - p)) as [L|L].
    + rewrite app_nth1 by (now rewrite repeat_length). rewrite nth_zeros, bspline_support by lia. reflexivity.
    + rewrite app_nth2; rewrite repeat_length; auto. destruct (Nat.le_gt_cases (i - (l - p)) p) as [M|M].
      * rewrite app_nth1 by (rewrite bspl_length; lia). rewrite bspl_bspline by lia. f_equal. lia.
      * rewrite app_nth2; rewrite bspl_length; [|lia]. rewrite nth_zeros, bspline_support by lia. reflexivity.
  - intros Hstrict. rewrite (basis_row_padded x t p l) by (rewrite ?Hn; auto; unfold n in *; lia). rewrite Hn.
    assert (Hle : (x <= nth (l + 1) t 0)%Qc) by (destruct A2 as [A2|[_ ->]]; auto; now apply Qclt_le_weak).
    assert (Hgap : (nth l t 0 < nth (l + 1) t 0)%Qc).
    { destruct A2 as [A2|[A2 ->]]; [eapply Qcle_lt_trans; eauto|]. destruct Hstrict as [Hs'|Hs']; [eapply Qcle_lt_trans; eauto|].
      rewrite Et. destruct (Nat.lt_ge_cases l (S p)) as [L|L].
      - rewrite app_nth1 by (now rewrite repeat_length). rewrite (nth_indep _ 0%Qc lo) by (now rewrite repeat_length). now rewrite nth_repeat.
      - rewrite app_nth2; rewrite repeat_length; auto. rewrite app_nth1 by (unfold n in *; lia). apply Hs'.
        eapply Permutation_in; [symmetry; exact P|]. apply nth_In. unfold n in *; lia. }
    destruct (bspl_partition t x l p) as [B1 B2]; auto; [unfold n in *; lia|]. split.
    + apply Forall_app. split; [|apply Forall_app; split; auto]; apply Forall_forall; intros q Hq; apply repeat_spec in Hq; subst; apply Qcle_refl.
    + rewrite !qsum_app, !qsum_zeros, B2. ring.
Qed.

(** * bs() *)
Lemma qltb_existsb_false f (l : list Qc) : existsb f l = false <-> forall k, In k l -> f k = false.
Proof.
  split.
  - intros H k Hk. destruct (f k) eqn:E; auto. rewrite <- H. symmetry. apply existsb_exists. eauto.
  - intros H. apply not_true_iff_false. intros X. apply existsb_exists in X as (k & Hk & E). rewrite H in E; auto. discriminate.
Qed.
Lemma quantile_length x n ks : quantile_knots x n = Ok ks -> length ks = n.
Proof.
  unfold quantile_knots. intros E. assert (H : forall (f : Qc -> Qc), Ok (map f (linspace_inner 0%Qc 1%Qc n)) = Ok ks -> length ks = n).
  { intros f [= <-]. unfold linspace_inner. now rewrite !map_length, seq_length. }
  destruct x, n; try discriminate; eapply H; exact E.
Qed.
Lemma lower_ok given x lo : match given with Some l => Ok l | None => match x with [] => Err (ValueError "zero-size array") | _ => Ok (np_min x) end end = Ok lo ->
  lower_is given x lo.
Proof.
  destruct given as [l|]; [now intros [= ->]|]. destruct x as [|a x]; [discriminate|]. intros E. assert (lo = np_min (a :: x)) by congruence. subst. now apply np_min_least.
Qed.
Lemma upper_ok given x hi : match given with Some l => Ok l | None => match x with [] => Err (ValueError "zero-size array") | _ => Ok (np_max x) end end = Ok hi ->
  upper_is given x hi.
Proof.
  destruct given as [l|]; [now intros [= ->]|]. destruct x as [|a x]; [discriminate|]. intros E. assert (hi = np_max (a :: x)) by congruence. subst. now apply np_max_greatest.
Qed.
Lemma bs_finish_spec a x st : bs_finish a x = Ok st ->
  (0 <= bs_degree a)%Z /\ bs_deg st = Z.to_nat (bs_degree a) /\
  exists lo hi inner, lower_is (bs_lower a) x lo /\ upper_is (bs_upper a) x hi /\ (lo <= hi)%Qc /\
    (forall k, In k inner -> (lo <= k)%Qc /\ (k <= hi)%Qc) /\ padded lo hi (S (bs_deg st)) inner (bs_all_knots st) /\
    (forall ks, bs_knots a = Some ks -> inner = ks) /\
    (forall df, bs_df a = Some df -> df = bs_degree a + Z.of_nat (length inner) + if bs_intercept a then 1 else 0)%Z.
Proof.
  unfold bs_finish. intros E. destruct (Z.ltb_spec (bs_degree a) 0); [discriminate|]. split; auto.
  match type of E with bind ?m _ = _ => destruct m as [inner|] eqn:Ei; [|discriminate] end. cbn [bind] in E.
  match type of E with bind ?m _ = _ => destruct m as [lo|] eqn:El; [|discriminate] end. cbn [bind] in E.
  match type of E with bind ?m _ = _ => destruct m as [hi|] eqn:Eu; [|discriminate] end. cbn [bind] in E.
  destruct (qltb hi lo) eqn:E1; [discriminate|]. destruct (existsb (fun k => qltb k lo) inner) eqn:E2; [discriminate|].
  destruct (existsb (fun k => qltb hi k) inner) eqn:E3; [discriminate|]. injection E as <-. cbn [bs_deg bs_all_knots].
  split; auto. apply qltb_not in E1.
  assert (Hin : forall k, In k inner -> (lo <= k)%Qc /\ (k <= hi)%Qc).
  { intros k Hk. split; apply qltb_not; [exact (proj1 (qltb_existsb_false _ _) E2 k Hk)|exact (proj1 (qltb_existsb_false _ _) E3 k Hk)]. }
  exists lo, hi, inner. split; [now apply lower_ok|]. split; [now apply upper_ok|]. split; auto. split; auto.
  split; [|].
  { exists (np_sort inner). split; [apply py_sort_perm|]. split; [apply np_sort_sorted|].
    replace (Z.to_nat (bs_degree a + 1)) with (S (Z.to_nat (bs_degree a))) by lia. now apply sort_padded. }
  split.
  - intros ks Ek. rewrite Ek in Ei. destruct (bs_df a); [|now injection Ei].
    destruct (_ <? 0)%Z; [discriminate|]. destruct (_ =? _)%Z; [now injection Ei|discriminate].
  - intros df Ed. rewrite Ed in Ei. set (n := (if bs_intercept a then df - (bs_degree a + 1) else df - (bs_degree a + 1) + 1)%Z) in *.
    destruct (Z.ltb_spec n 0); [discriminate|]. assert (Z.of_nat (length inner) = n).
    { destruct (bs_knots a) as [ks|].
      - destruct (Z.eqb_spec (Z.of_nat (length ks)) n); [|discriminate]. injection Ei as <-. auto.
      - apply quantile_length in Ei. lia. }
    unfold n in *. destruct (bs_intercept a); lia.
Qed.
Lemma padded_min lo hi order inner t : (lo <= hi)%Qc -> (forall k, In k inner -> (lo <= k)%Qc /\ (k <= hi)%Qc) -> padded lo hi (S order) inner t ->
  t <> [] /\ np_min t = lo /\ np_max t = hi /\ np_sort t = t.
Proof.
  intros Hlh Hi (s & P & Hs & ->).
  assert (Hi' : forall k, In k s -> (lo <= k)%Qc /\ (k <= hi)%Qc) by (intros k Hk; apply Hi; eapply Permutation_in; [symmetry; exact P|exact Hk]).
  assert (Hall : forall v, In v (repeat lo (S order) ++ s ++ repeat hi (S order)) -> (lo <= v)%Qc /\ (v <= hi)%Qc).
  { intros v Hv. apply in_app_or in Hv as [Hv|Hv]; [apply repeat_spec in Hv; subst; split; auto; apply Qcle_refl|].
    apply in_app_or in Hv as [Hv|Hv]; auto. apply repeat_spec in Hv; subst; split; auto; apply Qcle_refl. }
  assert (Ne : repeat lo (S order) ++ s ++ repeat hi (S order) <> []) by easy. split; auto.
  split; [|split].
  - apply (least_unique (repeat lo (S order) ++ s ++ repeat hi (S order))); [now apply np_min_least|]. split; [now left|]. intros v Hv. now apply Hall.
  - apply (greatest_unique (repeat lo (S order) ++ s ++ repeat hi (S order))); [now apply np_max_greatest|]. split; [|intros v Hv; now apply Hall].
    apply in_or_app. right. apply in_or_app. right. now left.
  - apply np_sort_id. apply sorted_app; [apply sorted_repeat| |].
    + apply sorted_app; auto; [apply sorted_repeat|]. intros a b Ha Hb. apply repeat_spec in Hb. subst. now apply Hi'.
    + intros a b Ha Hb. apply repeat_spec in Ha. subst a. now apply (Hall b), in_or_app; right.
Qed.
Lemma eval_basis_ok x lo hi p inner t : (lo <= hi)%Qc -> (forall k, In k inner -> (lo <= k)%Qc /\ (k <= hi)%Qc) -> padded lo hi (S p) inner t ->
  forall k m, eval_basis x t p = Ok (k, m) ->
  x <> [] /\ p <= 5 /\ (forall v, In v x -> (lo <= v)%Qc /\ (v <= hi)%Qc) /\ k = S p + length inner /\ m = map (fun v => basis_row v t p) x.
Proof.
  intros Hlh Hi Hp k m. destruct (padded_min lo hi p inner t Hlh Hi Hp) as (Nt & Mn & Mx & So). unfold eval_basis. rewrite So, Mn, Mx.
  destruct x as [|w0 y0] eqn:Ex; [discriminate|]. rewrite <- Ex in *. assert (Nx : x <> []) by (rewrite Ex; easy).
  destruct (qltb (np_min x) lo || qltb hi (np_max x)) eqn:E; [discriminate|]. apply orb_false_iff in E as [E1 E2]. apply qltb_not in E1, E2.
  destruct (Nat.ltb_spec 5 p); [discriminate|]. intros [= <- <-]. split; auto. split; [lia|]. split.
  - intros w Hw. destruct (np_min_least x Nx) as [_ A]. destruct (np_max_greatest x Nx) as [_ B].
    split; eapply Qcle_trans; eauto.
  - split; [|reflexivity]. destruct Hp as (s & P & _ & ->). rewrite !app_length, !repeat_length, <- (Permutation_length P). lia.
Qed.
Lemma eval_basis_outside x lo hi p inner t : (lo <= hi)%Qc -> (forall k, In k inner -> (lo <= k)%Qc /\ (k <= hi)%Qc) -> padded lo hi (S p) inner t ->
  (exists v, In v x /\ ((v < lo)%Qc \/ (hi < v)%Qc)) -> eval_basis x t p = Err NotImplementedError.
Proof.
  intros Hlh Hi Hp (v & Hv & Ho). destruct (padded_min lo hi p inner t Hlh Hi Hp) as (Nt & Mn & Mx & So). unfold eval_basis. rewrite So, Mn, Mx.
  destruct x as [|w0 y0] eqn:Ex; [easy|]. rewrite <- Ex in *. assert (Nx : x <> []) by (rewrite Ex; easy).
  replace (qltb (np_min x) lo || qltb hi (np_max x)) with true; auto. symmetry. apply orb_true_iff.
  destruct Ho as [Ho|Ho]; [left|right]; apply qltb_iff.
  - eapply Qcle_lt_trans; [|exact Ho]. now apply np_min_least.
  - eapply Qclt_le_trans; [exact Ho|]. now apply np_max_greatest.
Qed.
Lemma eval_basis_inside x lo hi p inner t : (lo <= hi)%Qc -> (forall k, In k inner -> (lo <= k)%Qc /\ (k <= hi)%Qc) -> padded lo hi (S p) inner t ->
  x <> [] -> p <= 5 -> (forall v, In v x -> (lo <= v)%Qc /\ (v <= hi)%Qc) -> exists m, eval_basis x t p = Ok (S p + length inner, m).
Proof.
  intros Hlh Hi Hp Nx H5 Hx. destruct (padded_min lo hi p inner t Hlh Hi Hp) as (Nt & Mn & Mx & So). unfold eval_basis. rewrite So, Mn, Mx.
  destruct x as [|w0 y0] eqn:Ex; [easy|]. rewrite <- Ex in *.
  assert (E1 : qltb (np_min x) lo = false) by (apply qltb_not, Hx, np_min_least; auto).
  assert (E2 : qltb hi (np_max x) = false) by (apply qltb_not, Hx, np_max_greatest; auto). rewrite E1, E2. cbn [orb].
  destruct (Nat.ltb_spec 5 p); [lia|]. eexists. f_equal. f_equal.
  destruct Hp as (s & P & _ & ->). rewrite !app_length, !repeat_length, <- (Permutation_length P). lia.
Qed.
