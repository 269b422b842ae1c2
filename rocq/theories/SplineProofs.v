From Coq Require Import ZArith Qround Lqa Sorted.
From Verif Require Import Base NumModel RankSpec ContrastSpec ContrastProofs SplineModel SplineSpec SplineNumProofs.
Open Scope nat_scope.
Open Scope list_scope.

(** * Cyclic mapping *)
Lemma map_cyclic_ok x lb ub : (lb < ub)%Qc -> exists y, map_cyclic x lb ub = Ok y /\
  Forall2 (fun v w => (lb <= w)%Qc /\ (w <= ub)%Qc /\ (exists k, v = w + qz k * (ub - lb))%Qc /\ ((lb <= v)%Qc -> (v <= ub)%Qc -> w = v)) x y.
Proof.
  intros H. unfold map_cyclic. assert (E : qleb ub lb = false) by now apply qleb_not. rewrite E.
  eexists. split; [reflexivity|]. rewrite map_map. induction x as [|v x IH]; cbn [map]; constructor; auto.
  assert (Hp : (0 < ub - lb)%Qc) by (qq; lra).
  destruct (qltb ub v) eqn:E1.
  - apply qltb_iff in E1. destruct (qmod_spec (v - ub) _ Hp) as (M1 & M2 & k & Mk). set (r := qmod (v - ub) (ub - lb)) in *.
    clearbody r. assert (E2 : qltb (lb + r) lb = false) by (apply qltb_not; qq; lra). rewrite E2. repeat split; try (qq; lra).
    + exists (k + 1)%Z. rewrite qz_add, qz_1. replace v with ((v - ub) + ub)%Qc by ring. rewrite Mk. ring.
  - apply qltb_not in E1. destruct (qltb v lb) eqn:E2.
    + apply qltb_iff in E2. destruct (qmod_spec (lb - v) _ Hp) as (M1 & M2 & k & Mk). set (r := qmod (lb - v) (ub - lb)) in *.
      clearbody r. repeat split; try (qq; lra).
      * exists (- k - 1)%Z. rewrite qz_sub, qz_opp, qz_1. replace v with (lb - (lb - v))%Qc by ring. rewrite Mk. ring.
    + apply qltb_not in E2. repeat split; auto. exists 0%Z. rewrite qz_0. ring.
Qed.
Lemma map_cyclic_bad x lb ub : (ub <= lb)%Qc -> exists msg, map_cyclic x lb ub = Err (ValueError msg).
Proof. intros H. unfold map_cyclic. apply qleb_iff in H. rewrite H. eexists. reflexivity. Qed.

(** * Intervals *)
Lemma inc_nth knots i j : increasing knots -> i < j -> j < length knots -> (nth i knots 0 < nth j knots 0)%Qc.
Proof.
  intros H. revert i j. induction H as [|k l H IH F]; intros i j Hij Hj; cbn in Hj; [lia|].
  destruct j as [|j]; [lia|]. destruct i as [|i]; cbn [nth].
  - rewrite Forall_forall in F. apply F, nth_In. lia.
  - apply IH; lia.
Qed.
Lemma inc_nth_le knots i j : increasing knots -> i <= j -> j < length knots -> (nth i knots 0 <= nth j knots 0)%Qc.
Proof.
  intros H Hij Hj. destruct (Nat.eq_dec i j) as [->|Hn]; [apply Qcle_refl|]. apply Qclt_le_weak, inc_nth; auto; lia.
Qed.
Lemma searchsorted_spec knots x : increasing knots -> let p := searchsorted knots x in p <= length knots /\
  (forall i, i < p -> (nth i knots 0 < x)%Qc) /\ (forall i, p <= i -> i < length knots -> (x <= nth i knots 0)%Qc).
Proof.
  intros H. induction H as [|k l H IH F]; cbn zeta in *; cbn [searchsorted].
  - split; [reflexivity|]. split; intros i Hi; cbn in *; lia.
  - destruct (qltb k x) eqn:E.
    + apply qltb_iff in E. destruct IH as (I1 & I2 & I3). cbn [length]. split; [lia|]. split.
      * intros [|i] Hi; cbn [nth]; auto. apply I2. lia.
      * intros [|i] Hi Hl; [lia|]. cbn [nth]. apply I3; lia.
    + apply qltb_not in E. split; [lia|]. split; [lia|]. intros [|i] _ Hl; cbn [nth]; auto.
      cbn in Hl. rewrite Forall_forall in F. assert (k < nth i l 0)%Qc by (apply F, nth_In; lia). qq. lra.
Qed.
Lemma find_lower_spec x knots : increasing knots -> 2 <= length knots -> exists j, find_lower x knots = Z.of_nat j /\ j <= length knots - 2 /\
  ((x <= first_knot knots)%Qc -> j = 0) /\ ((last_knot knots < x)%Qc -> j = length knots - 2) /\
  ((first_knot knots < x)%Qc -> (x <= last_knot knots)%Qc -> (nth j knots 0 < x)%Qc /\ (x <= nth (j + 1) knots 0)%Qc).
Proof.
  intros H Hl. destruct (searchsorted_spec knots x H) as (P1 & P2 & P3). set (p := searchsorted knots x) in *.
  unfold find_lower. fold p. unfold first_knot, last_knot.
  destruct p as [|p'] eqn:Ep.
  - exists 0. change (Z.of_nat 0 - 1 =? -1)%Z with true. cbv beta iota zeta. destruct (Z.eqb_spec 0 (Z.of_nat (length knots) - 1)); [lia|]. split; [reflexivity|]. split; [lia|].
    split; auto. assert (Hx : (x <= nth 0 knots 0)%Qc) by (apply P3; lia). split.
    + intros X. exfalso. pose proof (inc_nth_le knots 0 (length knots - 1) H ltac:(lia) ltac:(lia)). qq. lra.
    + intros X. exfalso. qq. lra.
  - destruct (Z.eqb_spec (Z.of_nat (S p') - 1) (-1)); [lia|].
    destruct (Z.eqb_spec (Z.of_nat (S p') - 1) (Z.of_nat (length knots) - 1)).
    + exists (length knots - 2). split; [lia|]. split; [lia|]. assert (p' = length knots - 1) by lia.
      assert (X : (nth (length knots - 1) knots 0 < x)%Qc) by (apply P2; lia). split; [|split; auto].
      * intros Y. exfalso. pose proof (inc_nth_le knots 0 (length knots - 1) H ltac:(lia) ltac:(lia)). qq. lra.
      * intros _ Y. exfalso. qq. lra.
    + exists p'. split; [lia|]. split; [lia|]. assert (A : (nth p' knots 0 < x)%Qc) by (apply P2; lia).
      assert (B : (x <= nth (S p') knots 0)%Qc) by (apply P3; lia). split; [|split].
      * intros Y. exfalso. pose proof (inc_nth_le knots 0 p' H ltac:(lia) ltac:(lia)). qq. lra.
      * intros Y. exfalso. pose proof (inc_nth_le knots (S p') (length knots - 1) H ltac:(lia) ltac:(lia)). qq. lra.
      * intros _ _. rewrite Nat.add_1_r. auto.
Qed.

(** * Tensor product *)
Lemma set_nth_app {A} (l : list A) x y r : set_nth (l ++ x :: r) (length l) y = l ++ y :: r.
Proof. induction l; cbn; congruence. Qed.
Lemma tp_get_app A y B : tp_get (A ++ y :: B) (S (length B)) = y.
Proof.
  unfold tp_get. rewrite app_length. cbn [length]. replace (length A + S (length B) - S (length B)) with (length A) by lia.
  now rewrite app_nth2, Nat.sub_diag by lia.
Qed.
Lemma tp_set_app A y B v : tp_set (A ++ y :: B) (S (length B)) v = A ++ v :: B.
Proof.
  unfold tp_set. rewrite app_length. cbn [length]. replace (length A + S (length B) - S (length B)) with (length A) by lia.
  apply set_nth_app.
Qed.
Lemma rev_seq_S n : rev (seq 1 (S n)) = S n :: rev (seq 1 n).
Proof. rewrite seq_S, rev_app_distr. reflexivity. Qed.
Lemma block_copy P2 xj : forall A P1 B C, length B = length P2 ->
  fold_left (fun st t => (tp_set (fst st) (snd st) (tp_get (fst st) t * xj)%Qc, snd st - 1)) (rev (seq 1 (length P2)))
    (A ++ B ++ C ++ P1 ++ P2, length (B ++ C ++ P1 ++ P2))
  = (A ++ map (fun b => b * xj)%Qc P2 ++ C ++ P1 ++ P2, length (C ++ P1 ++ P2)).
Proof.
  induction P2 as [|y P2 IH]; intros A P1 B C HB.
  - destruct B; [reflexivity|discriminate].
  - destruct B as [|b B]; [discriminate|]. injection HB as HB. cbn [length]. rewrite rev_seq_S. cbn [fold_left fst snd].
    replace (tp_get (A ++ (b :: B) ++ C ++ P1 ++ y :: P2) (S (length P2))) with y.
    2:{ rewrite !app_assoc. symmetry. apply tp_get_app. }
    cbn [app length]. rewrite tp_set_app. cbn [Nat.sub]. rewrite Nat.sub_0_r.
    specialize (IH (A ++ [(y * xj)%Qc]) (P1 ++ [y]) B C HB). rewrite <- !app_assoc in IH. cbn [app] in IH.
    rewrite IH. cbn [map]. reflexivity.
Qed.
Lemma block_scale P2 xj : forall A,
  fold_left (fun st t => (tp_set (fst st) (snd st) (tp_get (fst st) t * xj)%Qc, snd st - 1)) (rev (seq 1 (length P2)))
    (A ++ P2, length P2) = (A ++ map (fun b => b * xj)%Qc P2, 0).
Proof.
  induction P2 as [|y P2 IH]; intros A; [reflexivity|]. cbn [length]. rewrite rev_seq_S. cbn [fold_left fst snd].
  rewrite tp_get_app, tp_set_app. cbn [Nat.sub]. rewrite Nat.sub_0_r.
  specialize (IH (A ++ [(y * xj)%Qc])). rewrite <- app_assoc in IH. cbn [app] in IH. rewrite IH. rewrite <- app_assoc. reflexivity.
Qed.
Lemma marginal_loop row P : forall A Z, P <> [] -> row <> [] -> length Z = length P * (length row - 1) ->
  fst (fold_left (fun st xj => tp_block (length P) xj st) row (A ++ Z ++ P, length (Z ++ P)))
  = A ++ flat_map (fun a => map (fun b => b * a)%Qc P) row.
Proof.
  induction row as [|a row IH]; intros A Z HP Hr HZ; [easy|]. cbn [fold_left flat_map]. destruct row as [|a' row].
  - cbn in HZ. rewrite Nat.mul_0_r in HZ. destruct Z; [|discriminate]. cbn [app fold_left flat_map]. unfold tp_block.
    rewrite block_scale. cbn. now rewrite app_nil_r.
  - rewrite <- (firstn_skipn (length P) Z). set (Z1 := firstn (length P) Z). set (Z2 := skipn (length P) Z).
    assert (L1 : length Z1 = length P) by (unfold Z1; rewrite firstn_length; cbn [length] in HZ; lia).
    assert (L2 : length Z2 = length P * (length (a' :: row) - 1)) by (unfold Z2; rewrite skipn_length; cbn [length] in *; lia).
    unfold tp_block at 2. pose proof (block_copy P a A [] Z1 Z2 L1) as BC. cbn [app] in BC. rewrite <- app_assoc. rewrite BC.
    rewrite app_assoc. rewrite IH; auto; [|easy]. now rewrite <- app_assoc.
Qed.
Lemma all_products_length rows : length (all_products rows) = fold_right Nat.mul 1 (map (@length Qc) rows).
Proof.
  induction rows as [|r rows IH]; cbn; auto. rewrite <- IH. clear IH. induction r as [|a r IHr]; cbn; auto.
  rewrite app_length, map_length, IHr. reflexivity.
Qed.
Lemma fold_mul l : forall a, fold_left Nat.mul l a = a * fold_right Nat.mul 1 l.
Proof. induction l as [|x l IH]; intros a; cbn; [lia|]. rewrite IH. lia. Qed.
Lemma all_products_ne rows : Forall (fun r => r <> []) rows -> all_products rows <> [].
Proof.
  intros H. induction H as [|r rows Hr H IH]; cbn; [easy|]. destruct r as [|a r]; [easy|]. cbn.
  destruct (all_products rows); easy.
Qed.
Lemma marginals_loop rows : forall done A Z, Forall (fun r => r <> []) rows -> all_products done <> [] ->
  length Z = length (all_products (rev rows ++ done)) - length (all_products done) ->
  fst (fold_left tp_marginal rows (A ++ Z ++ all_products done, length (all_products done))) = A ++ all_products (rev rows ++ done).
Proof.
  induction rows as [|r rows IH]; intros done A Z Hne Hd HZ.
  - cbn in *. rewrite Nat.sub_diag in HZ. destruct Z; [reflexivity|discriminate].
  - inversion Hne as [|? ? Hr Hrs]; subst. cbn [fold_left]. set (P := all_products done) in *.
    assert (LP : length (all_products (r :: done)) = length r * length P) by (unfold P; rewrite !all_products_length; reflexivity).
    cbn [rev] in HZ |- *. rewrite <- app_assoc in HZ |- *. cbn [app] in HZ |- *.
    assert (GE : length (all_products (r :: done)) <= length (all_products (rev rows ++ r :: done))).
    { rewrite !all_products_length, map_app, fold_right_app. 
      assert (forall l a, Forall (fun n => 1 <= n) l -> a <= fold_right Nat.mul a l) as G.
      { intros l a F. induction F; cbn; [lia|]. nia. }
      apply G. apply Forall_map, Forall_rev. eapply Forall_impl; [|exact Hrs]. intros q Hq. destruct q; [easy|cbn; lia]. }
    assert (1 <= length r) by (destruct r; [easy|cbn; lia]).
    assert (1 <= length P) by (destruct P; [easy|cbn; lia]).
    set (m := length Z - length P * (length r - 1)).
    assert (HZ' : length P * (length r - 1) <= length Z) by (rewrite HZ; nia).
    unfold tp_marginal at 2. rewrite <- (firstn_skipn m Z). set (Z1 := firstn m Z). set (Z2 := skipn m Z).
    assert (L1 : length Z1 = m) by (unfold Z1; rewrite firstn_length; apply Nat.min_l; unfold m; apply Nat.le_sub_l).
    assert (L2 : length Z2 = length P * (length r - 1)) by (unfold Z2; rewrite skipn_length; unfold m; revert HZ'; generalize (length P * (length r - 1)); lia).
    replace (A ++ (Z1 ++ Z2) ++ P) with ((A ++ Z1) ++ Z2 ++ P) by (rewrite <- !app_assoc; reflexivity).
    replace (length P * length r) with (length (Z2 ++ P)) at 1 by (rewrite app_length; nia).
    rewrite marginal_loop by auto.
    assert (EP : flat_map (fun a => map (fun b => b * a)%Qc P) r = all_products (r :: done)).
    { cbn [all_products]. apply flat_map_ext. intros a. apply map_ext. intros b. ring. }
    rewrite EP, <- app_assoc. replace (length P * length r) with (length (all_products (r :: done))) by lia.
    apply IH; auto.
    + rewrite <- EP. destruct r as [|a r]; [easy|]. cbn. destruct P; [easy|]. easy.
    + rewrite L1. unfold m. nia.
Qed.
Lemma tp_row_products rows : rows <> [] -> Forall (fun r => r <> []) rows -> tp_row rows = all_products rows.
Proof.
  intros Hne H. destruct (exists_last Hne) as (init & last & ->). unfold tp_row.
  rewrite removelast_last, last_last. apply Forall_app in H as [H1 H2]. inversion H2; subst.
  assert (E : all_products [last] = last). { cbn. clear. induction last as [|a l IH]; cbn; auto. rewrite IH. f_equal. ring. }
  pose proof (marginals_loop (rev init) [last] [] (repeat 0%Qc (fold_left Nat.mul (map (@length Qc) (init ++ [last])) 1 - length last))) as M.
  rewrite rev_involutive, E in M. cbn [app] in M. apply M; auto.
  - apply Forall_rev. exact H1.
  - rewrite repeat_length, fold_mul, all_products_length. lia.
Qed.
Lemma nth_products a r rest p : p < length (all_products rest) -> a < length r ->
  nth (a * length (all_products rest) + p) (flat_map (fun a => map (fun b => a * b)%Qc (all_products rest)) r) 0%Qc
  = (nth a r 0 * nth p (all_products rest) 0)%Qc.
Proof.
  intros Hp. revert a. induction r as [|x r IH]; intros a Ha; cbn in Ha; [lia|]. cbn [flat_map].
  destruct a as [|a]; cbn [nth].
  - cbn. rewrite app_nth1 by (now rewrite map_length). rewrite (nth_indep _ 0%Qc (x * 0)%Qc) by (now rewrite map_length).
    apply map_nth.
  - rewrite app_nth2; rewrite map_length; [|nia]. replace (S a * length (all_products rest) + p - length (all_products rest))
      with (a * length (all_products rest) + p) by nia. apply IH. lia.
Qed.
Lemma all_products_nth rows js : choice rows js -> row_major rows js < length (all_products rows) /\
  nth (row_major rows js) (all_products rows) 0%Qc = choice_product rows js.
Proof.
  intros H. induction H as [|r j rows js Hj H [IH1 IH2]]; [split; [cbn; lia|reflexivity]|]. cbn [row_major choice_product all_products].
  rewrite <- all_products_length. rewrite nth_products by auto. rewrite IH2. split; auto.
  change (flat_map _ r) with (all_products (r :: rows)). rewrite (all_products_length (r :: rows)). cbn [map fold_right]. rewrite <- all_products_length. nia.
Qed.
Lemma row_major_inj rows : forall js ks, choice rows js -> choice rows ks -> row_major rows js = row_major rows ks -> js = ks.
Proof.
  induction rows as [|r rows IH]; intros js ks Hj Hk E; inversion Hj; inversion Hk; subst; auto.
  cbn [row_major] in E. rewrite <- all_products_length in E.
  destruct (all_products_nth _ _ H3) as [A _]. destruct (all_products_nth _ _ H8) as [B _].
  set (n := length (all_products rows)) in *. assert (y = y0).
  { destruct (Nat.lt_trichotomy y y0) as [L|[L|L]]; auto; exfalso; nia. }
  subst. f_equal. apply IH; auto. lia.
Qed.
Lemma row_major_onto rows : forall p, p < length (all_products rows) -> exists js, choice rows js /\ row_major rows js = p.
Proof.
  induction rows as [|r rows IH]; intros p Hp.
  - exists []. split; [constructor|]. cbn in *. lia.
  - rewrite all_products_length in Hp. cbn [map fold_right] in Hp. rewrite <- all_products_length in Hp.
    set (n := length (all_products rows)) in *. assert (Hn : n <> 0) by (intros E; rewrite E in Hp; lia).
    destruct (IH (p mod n)) as (js & C & E); [apply Nat.mod_upper_bound; auto|]. exists (p / n :: js). split.
    + constructor; auto. apply Nat.div_lt_upper_bound; auto. lia.
    + cbn [row_major]. rewrite <- all_products_length, E. fold n. rewrite (Nat.div_mod p n Hn) at 3. lia.
Qed.
Lemma row_tensor_ok nrows dms : dms <> [] -> Forall (fun dm => 0 < fst dm /\ has_shape nrows (fst dm) (snd dm)) dms ->
  exists tp, row_tensor_product dms = Ok (fold_right Nat.mul 1 (map fst dms), tp) /\
    has_shape nrows (fold_right Nat.mul 1 (map fst dms)) tp /\
    forall i, i < nrows -> nth i tp [] = all_products (map (fun dm => nth i (snd dm) []) dms).
Proof.
  intros Hne H. destruct dms as [|[c0 d0] rest] eqn:Ed; [easy|]. unfold row_tensor_product. rewrite <- Ed in *.
  assert (Hd0 : length d0 = nrows) by (rewrite Ed in H; inversion H; subst; apply H2). rewrite Hd0.
  replace (forallb _ dms) with true.
  2:{ symmetry. apply forallb_forall. intros dm Hin. rewrite Forall_forall in H. apply Nat.eqb_eq. now apply H. }
  assert (R : forall i, i < nrows -> tp_row (map (fun dm => nth i (snd dm) []) dms) = all_products (map (fun dm => nth i (snd dm) []) dms)
     /\ map (@length Qc) (map (fun dm => nth i (snd dm) []) dms) = map fst dms).
  { intros i Hi. assert (L : forall dm, In dm dms -> length (nth i (snd dm) []) = fst dm /\ 0 < fst dm).
    { intros dm Hin. rewrite Forall_forall in H. destruct (H dm Hin) as (P & L & F). split; auto.
      rewrite Forall_forall in F. apply F, nth_In. lia. }
    split.
    - apply tp_row_products; [rewrite Ed; easy|]. apply Forall_map, Forall_forall. intros dm Hin X. destruct (L dm Hin) as [E P].
      apply (f_equal (@length Qc)) in X. cbn in X. unfold mat in *. rewrite E in X. lia.
    - rewrite map_map. apply map_ext_in. intros dm Hin. now apply L. }
  eexists. split; [rewrite fold_mul, Nat.mul_1_l; reflexivity|]. split; [split|].
  - now rewrite map_length, seq_length.
  - apply Forall_map, Forall_forall. intros i Hi. apply in_seq in Hi. destruct (R i) as [E1 E2]; [lia|].
    rewrite E1, all_products_length, E2. reflexivity.
  - intros i Hi. rewrite (nth_indep _ [] (tp_row (map (fun dm => nth 0 (snd dm) []) dms))) by (now rewrite map_length, seq_length).
    rewrite (map_nth (fun i => tp_row (map (fun dm => nth i (snd dm) []) dms))), seq_nth by auto. apply R. lia.
Qed.
Lemma row_tensor_bad dms : dms = [] \/ (exists a b, In a dms /\ In b dms /\ length (snd a) <> length (snd b)) ->
  exists msg, row_tensor_product dms = Err (ValueError msg).
Proof.
  intros H. unfold row_tensor_product. destruct dms as [|[c0 d0] rest] eqn:Ed; [eauto|]. rewrite <- Ed in *.
  destruct H as [H|(a & b & Ha & Hb & Hn)]; [now rewrite Ed in H|].
  destruct (forallb _ dms) eqn:F; [|eauto]. exfalso. rewrite forallb_forall in F. apply Hn.
  pose proof (F a Ha) as Fa. pose proof (F b Hb) as Fb. apply Nat.eqb_eq in Fa, Fb. congruence.
Qed.
