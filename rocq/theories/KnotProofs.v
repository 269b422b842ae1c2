From Coq Require Import ZArith Lqa Sorted Permutation Qround.
From Verif Require Import Base NumModel PySort RankSpec ContrastSpec ContrastProofs StateModel StateProofs LinModel LinProofs SplineModel SplineSpec SplineNumProofs SplineProofs BsModel BsSpec BsProofs CrsProofs SplitProofs KnotSpec.
Open Scope nat_scope.
Open Scope list_scope.

Lemma qn_lt a b : (qn a < qn b)%Qc <-> a < b.
Proof. unfold qn, Qclt. rewrite !this_qz, <- Zlt_Qlt. lia. Qed.
Lemma qn_le a b : (qn a <= qn b)%Qc <-> a <= b.
Proof. unfold qn, Qcle. rewrite !this_qz, <- Zle_Qle. lia. Qed.
Lemma qn_S n : qn (n + 1) = (qn n + 1)%Qc.
Proof. unfold qn. apply qc_eq. rewrite this_add, !this_qz, this_1, Nat2Z.inj_add, inject_Z_plus. reflexivity. Qed.
Lemma percentile_place x p : x <> [] -> (0 <= p)%Qc -> (p <= 1)%Qc -> quantile x p (percentile x (qz 100 * p)%Qc).
Proof.
  intros Nx P0 P1. unfold percentile. assert (Ll : length (np_sort x) = length x) by (unfold np_sort; now rewrite py_sort_length). rewrite Ll.
  assert (Ls : 1 <= length x) by (destruct x; [easy|cbn; lia]).
  replace (qz 100 * p / qz 100)%Qc with p by (field; discriminate).
  set (n := length x - 1) in *. set (pos := (p * qn n)%Qc).
  assert (Hn : (0 <= qn n)%Qc) by (unfold Qcle; apply this_pos_qn).
  assert (Q0 : (0 <= pos)%Qc) by (now apply Qcmul_nonneg).
  assert (Q1 : (pos <= qn n)%Qc).
  { assert (0 <= (1 - p) * qn n)%Qc by (apply Qcmul_nonneg; auto; qq; lra).
    unfold pos. replace (p * qn n)%Qc with (qn n - (1 - p) * qn n)%Qc by ring. generalize dependent ((1 - p) * qn n)%Qc. intros. qq. lra. }
  destruct (qfloor_spec pos) as [F1 F2]. set (f := qfloor pos) in *.
  assert (F0 : (0 <= f)%Z).
  { assert (this (qz (-1)) < this (qz f))%Q as X. { assert (this (qz (-1)) == -1)%Q by reflexivity. qq. lra. }
    rewrite !this_qz in X. rewrite <- Zlt_Qlt in X. lia. }
  assert (Ef : qz f = qn (Z.to_nat f)) by (unfold qn; now rewrite Z2Nat.id). rewrite Ef in *. set (i := Z.to_nat f) in *.
  assert (Fn : i <= n) by (apply qn_le; eapply Qcle_trans; eassumption).
  exists (np_sort x). split; [apply py_sort_perm|]. split; [apply np_sort_sorted|]. fold n pos.
  assert (D : pos = qn i \/ (qn i < pos)%Qc).
  { destruct (Qclt_le_dec (qn i) pos) as [L|L]; [now right|left; now apply Qcle_antisym]. }
  destruct D as [D|D].
  - match goal with |- at_place _ _ ?e => replace e with (nth i (np_sort x) 0%Qc) by (rewrite D; ring) end. apply at_value; [lia|exact D].
  - assert (i < n) by (apply qn_lt; eapply Qclt_le_trans; eassumption). replace (Nat.min (i + 1) n) with (i + 1) by lia.
    match goal with |- at_place _ _ ?e => replace e with (nth i (np_sort x) 0 * (qn (i + 1) - pos) + nth (i + 1) (np_sort x) 0 * (pos - qn i))%Qc by (rewrite qn_S; ring) end.
    apply at_between; [lia|exact D|rewrite qn_S; exact F2].
Qed.

(** Probabilities between 0 and 1. *)
Lemma share_ok j m : j < m -> (0 <= qn (j + 1) / qn (m + 1))%Qc /\ (qn (j + 1) / qn (m + 1) <= 1)%Qc.
Proof.
  intros H. assert (P : (0 < qn (m + 1))%Qc) by (apply (qn_lt 0); lia). split.
  - apply Qcdiv_nonneg; [apply (qn_le 0); lia|exact P].
  - assert (E : (1 - qn (j + 1) / qn (m + 1) = (qn (m + 1) - qn (j + 1)) / qn (m + 1))%Qc).
    { field. intros X. rewrite X in P. now apply Qclt_not_eq in P. }
    assert (0 <= 1 - qn (j + 1) / qn (m + 1))%Qc.
    { rewrite E. apply Qcdiv_nonneg; [|exact P]. assert (qn (j + 1) <= qn (m + 1))%Qc by (apply qn_le; lia). qq. lra. }
    generalize dependent (qn (j + 1) / qn (m + 1))%Qc. intros. qq. lra.
Qed.
Lemma linspace_nth a b m j : j < m -> nth j (linspace_inner a b m) 0%Qc = (a + (b - a) * qn (j + 1) / qn (m + 1))%Qc.
Proof.
  intros H. unfold linspace_inner. set (g := fun i : nat => (a + (b - a) * qn i / qn (m + 1))%Qc).
  rewrite (nth_indep _ _ (g 0)) by (now rewrite map_length, seq_length). rewrite (map_nth g (seq 1 m) 0 j), seq_nth by lia. unfold g. now rewrite Nat.add_comm.
Qed.
Lemma linspace_length a b m : length (linspace_inner a b m) = m.
Proof. unfold linspace_inner. now rewrite map_length, seq_length. Qed.
Lemma nth_map_lt {A B} (f : A -> B) l d d' i : i < length l -> nth i (map f l) d = f (nth i l d').
Proof. intros H. rewrite (nth_indep _ _ (f d')) by now rewrite map_length. apply map_nth. Qed.
Lemma quantile_knots_ok x n ks : quantile_knots x n = Ok ks -> length ks = n /\ quantiles x ks.
Proof.
  intros E. split; [now apply (quantile_length x)|]. intros j Hj. assert (L := quantile_length _ _ _ E).
  assert (Nx : x <> []) by (destruct x; [destruct n; [|discriminate]; rewrite L in Hj; lia|discriminate]).
  assert (E' : ks = map (fun q => percentile x (qz 100 * q)%Qc) (linspace_inner 0%Qc 1%Qc n)) by (unfold quantile_knots in E; destruct x, n; congruence).
  rewrite E', (nth_map_lt _ _ _ 0%Qc) by (rewrite linspace_length; lia). rewrite linspace_nth by lia. rewrite map_length, linspace_length.
  replace (0 + (1 - 0) * qn (j + 1) / qn (n + 1))%Qc with (qn (j + 1) / qn (n + 1))%Qc by (unfold Qcdiv; ring).
  destruct (share_ok j n ltac:(lia)). now apply percentile_place.
Qed.
Lemma bs_quantiles a x st : bs_finish a x = Ok st -> bs_knots a = None ->
  exists lo hi inner, lower_is (bs_lower a) x lo /\ upper_is (bs_upper a) x hi /\ padded lo hi (S (Z.to_nat (bs_degree a))) inner (bs_all_knots st) /\ quantiles x inner /\
    forall df, bs_df a = Some df -> (Z.of_nat (length inner) = df - bs_degree a - if bs_intercept a then 1 else 0)%Z.
Proof.
  unfold bs_finish. intros E Ek. destruct (Z.ltb_spec (bs_degree a) 0); [discriminate|].
  match type of E with bind ?m _ = _ => destruct m as [inner|] eqn:Ei; [|discriminate] end. cbn [bind] in E.
  match type of E with bind ?m _ = _ => destruct m as [lo|] eqn:El; [|discriminate] end. cbn [bind] in E.
  match type of E with bind ?m _ = _ => destruct m as [hi|] eqn:Eu; [|discriminate] end. cbn [bind] in E.
  destruct (qltb hi lo) eqn:E1; [discriminate|]. destruct (existsb (fun k => qltb k lo) inner) eqn:E2; [discriminate|].
  destruct (existsb (fun k => qltb hi k) inner) eqn:E3; [discriminate|]. injection E as <-. cbn [bs_deg bs_all_knots].
  apply qltb_not in E1.
  assert (Hin : forall k, In k inner -> (lo <= k)%Qc /\ (k <= hi)%Qc).
  { intros k Hk. split; apply qltb_not; [exact (proj1 (qltb_existsb_false _ _) E2 k Hk)|exact (proj1 (qltb_existsb_false _ _) E3 k Hk)]. }
  exists lo, hi, inner. split; [now apply lower_ok|]. split; [now apply upper_ok|].
  split.
  { exists (np_sort inner). split; [apply py_sort_perm|]. split; [apply np_sort_sorted|].
    replace (Z.to_nat (bs_degree a + 1)) with (S (Z.to_nat (bs_degree a))) by lia. now apply sort_padded. }
  rewrite Ek in Ei. destruct (bs_df a) as [df|]; [|discriminate].
  set (n := (if bs_intercept a then df - (bs_degree a + 1) else df - (bs_degree a + 1) + 1)%Z) in *.
  destruct (Z.ltb_spec n 0); [discriminate|]. destruct (quantile_knots_ok _ _ _ Ei) as [L Q]. split; [exact Q|].
  intros df' [= <-]. rewrite L. unfold n in *. destruct (bs_intercept a); lia.
Qed.
Lemma crs_quantiles cyclic a x st : crs_finish cyclic a x = Ok st -> crs_knots a = None ->
  exists lo hi u inner, lower_is (crs_lower a) x lo /\ upper_is (crs_upper a) x hi /\ values_between lo hi x u /\ quantiles u inner /\
    (forall k, In k (crs_all_knots st) <-> k = lo \/ k = hi \/ In k inner) /\ length (crs_all_knots st) = length inner + 2.
Proof.
  intros H Ek. destruct (crs_finish_spec _ _ _ _ H) as (n_inner & E & _). rewrite Ek in E. clear H. generalize dependent (crs_all_knots st). intros knots E.
  unfold all_sorted_knots in E.
  match type of E with bind ?m _ = _ => destruct m as [lo|] eqn:El; [|discriminate] end. cbn [bind] in E.
  match type of E with bind ?m _ = _ => destruct m as [hi|] eqn:Eu; [|discriminate] end. cbn [bind] in E.
  destruct (qltb hi lo) eqn:Elh; [discriminate|].
  match type of E with bind ?m _ = _ => destruct m as [[ks n]|] eqn:Ep; [|discriminate] end. cbn [bind fst snd] in E.
  destruct (Z.eqb_spec (Z.of_nat (length (np_unique (lo :: hi :: ks)))) (n + 2)) as [En|]; [|discriminate].
  assert (knots = np_unique (lo :: hi :: ks)) by congruence. subst knots. clear E.
  assert (Hlo : lower_is (crs_lower a) x lo).
  { destruct (crs_lower a); [now injection El|]. destruct x as [|v x]; [discriminate|]. assert (lo = np_min (v :: x)) by congruence. subst. now apply np_min_least. }
  assert (Hhi : upper_is (crs_upper a) x hi).
  { destruct (crs_upper a); [now injection Eu|]. destruct x as [|v x]; [discriminate|]. assert (hi = np_max (v :: x)) by congruence. subst. now apply np_max_greatest. }
  destruct n_inner as [m|]; [|discriminate]. destruct (Z.ltb_spec m 0); [discriminate|]. cbv zeta in Ep.
  set (u := np_unique (filter (fun v => qleb lo v && qleb v hi) x)) in *.
  exists lo, hi, u, ks. split; [exact Hlo|]. split; [exact Hhi|]. split.
  { split; [apply np_unique_increasing|]. intros v. unfold u. rewrite np_unique_in, filter_In, andb_true_iff, !qleb_iff. tauto. }
  assert (K : quantiles u ks /\ n = Z.of_nat (length ks)).
  { assert (M : u <> [] -> quantiles u (map (percentile u) (linspace_inner 0%Qc (qz 100) (Z.to_nat m)))).
    { intros Nu j Hj. rewrite map_length, linspace_length in *. rewrite (nth_map_lt _ _ _ 0%Qc) by (now rewrite linspace_length). rewrite linspace_nth by exact Hj.
      replace (0 + (qz 100 - 0) * qn (j + 1) / qn (Z.to_nat m + 1))%Qc with (qz 100 * (qn (j + 1) / qn (Z.to_nat m + 1)))%Qc by (unfold Qcdiv; ring).
      destruct (share_ok j _ Hj). now apply percentile_place. }
    destruct u as [|v u'].
    - destruct (Z.eqb_spec m 0); [|discriminate]. injection Ep as <- <-. split; [intros j Hj; cbn in Hj; lia|cbn; lia].
    - injection Ep as <- <-. split; [now apply M|]. rewrite map_length, linspace_length. lia. }
  destruct K as [K1 K2]. split; [exact K1|]. split; [|rewrite K2 in En; lia].
  intros k. rewrite np_unique_in. cbn [In]. intuition congruence.
Qed.

(** * Quantiles are determined, and divide the data *)
Lemma at_place_fun s pos q q' : at_place s pos q -> at_place s pos q' -> q = q'.
Proof.
  intros [i Hi Ei|i Hi L1 L2] [j Hj Ej|j Hj L3 L4].
  - assert (i = j); [|now subst]. assert (E : qn i = qn j) by congruence. apply Nat.le_antisymm; apply qn_le; rewrite E; apply Qcle_refl.
  - exfalso. rewrite Ei in *. apply qn_lt in L3, L4. lia.
  - exfalso. rewrite Ej in *. apply qn_lt in L1, L2. lia.
  - assert (i = j); [|now subst]. assert (qn i < qn (j + 1))%Qc by (eapply Qclt_trans; eassumption). assert (qn j < qn (i + 1))%Qc by (eapply Qclt_trans; eassumption).
    rewrite qn_lt in *. lia.
Qed.
Lemma quantile_fun x p q q' : quantile x p q -> quantile x p q' -> q = q'.
Proof.
  intros (s & P & S & A) (s' & P' & S' & A'). assert (s = s') by (apply sorted_unique; auto; now rewrite <- P, <- P'). subst s'. exact (at_place_fun _ _ _ _ A A').
Qed.
(** How many values satisfy a condition. *)
Lemma count_perm (c : Qc -> bool) l m : Permutation l m -> length (filter c l) = length (filter c m).
Proof. intros H. induction H; cbn; auto; [destruct (c x); cbn; auto|destruct (c x), (c y); reflexivity|congruence]. Qed.
Lemma sorted_nth s i j : nondecreasing s -> i <= j -> j < length s -> (nth i s 0 <= nth j s 0)%Qc.
Proof.
  intros H. revert i j. induction H as [|v s H IH F]; intros i j Hij Hj; [cbn in Hj; lia|]. destruct j as [|j]; [assert (i = 0) by lia; subst; apply Qcle_refl|].
  cbn [length] in Hj. destruct i as [|i]; cbn [nth].
  - rewrite Forall_forall in F. apply F, nth_In. lia.
  - apply IH; lia.
Qed.
Lemma count_firstn (c : Qc -> bool) s k : k <= length s -> (forall i, i < k -> c (nth i s 0%Qc) = true) -> k <= length (filter c s).
Proof.
  revert k. induction s as [|v s IH]; intros k Hk Hc; [cbn in Hk; lia|]. destruct k as [|k]; [lia|]. cbn [filter]. rewrite (Hc 0 ltac:(lia) : c v = true). cbn [length] in *.
  apply le_n_S, IH; [lia|]. intros i Hi. apply (Hc (S i)). lia.
Qed.
Lemma count_skipn (c : Qc -> bool) s k : k <= length s -> (forall i, k <= i -> i < length s -> c (nth i s 0%Qc) = true) -> length s - k <= length (filter c s).
Proof.
  revert k. induction s as [|v s IH]; intros k Hk Hc; [cbn; lia|]. cbn [filter length] in *. destruct k as [|k].
  - assert (c v = true) as -> by (apply (Hc 0); lia). cbn [length]. specialize (IH 0 ltac:(lia)). rewrite Nat.sub_0_r in *. apply le_n_S, IH. intros i _ Hi. apply (Hc (S i)); lia.
  - assert (length s - k <= length (filter c s)) by (apply IH; [lia|]; intros i Hi Hl; apply (Hc (S i)); lia). destruct (c v); cbn [length]; lia.
Qed.
Lemma between_le (a b t : Qc) : (a <= b)%Qc -> (0 <= t)%Qc -> (0 <= 1 - t)%Qc -> (a <= a * (1 - t) + b * t)%Qc /\ (a * (1 - t) + b * t <= b)%Qc.
Proof.
  intros H T0 T1. assert (C1 : (0 <= t * (b - a))%Qc) by (apply Qcmul_nonneg; auto; qq; lra). assert (C2 : (0 <= (1 - t) * (b - a))%Qc) by (apply Qcmul_nonneg; auto; qq; lra).
  replace (a * (1 - t) + b * t)%Qc with (a + t * (b - a))%Qc by ring. split.
  - generalize dependent (t * (b - a))%Qc. intros. qq. lra.
  - replace (a + t * (b - a))%Qc with (b - (1 - t) * (b - a))%Qc by ring. generalize dependent ((1 - t) * (b - a))%Qc. intros. qq. lra.
Qed.
Lemma quantile_shares x p q : quantile x p q ->
  (p * qn (length x - 1) < qn (length (filter (fun v => qleb v q) x)))%Qc /\
  ((1 - p) * qn (length x - 1) < qn (length (filter (fun v => qleb q v) x)))%Qc.
Proof.
  intros (s & P & S & A). rewrite (count_perm _ _ _ P), (count_perm (fun v => qleb q v) _ _ P). rewrite (Permutation_length P) in *.
  replace ((1 - p) * qn (length s - 1))%Qc with (qn (length s - 1) - p * qn (length s - 1))%Qc by ring. set (pos := (p * qn (length s - 1))%Qc) in *. clearbody pos.
  assert (K : exists i, i < length s /\ (qn i <= pos)%Qc /\ (pos < qn (i + 1))%Qc /\ (forall j, j <= i -> (nth j s 0 <= q)%Qc) /\
             exists k, (qn (length s - 1) - pos < qn (length s - k))%Qc /\ k <= length s /\ forall j, k <= j -> j < length s -> (q <= nth j s 0)%Qc).
  { destruct A as [i Hi Ei|i Hi L1 L2].
    - exists i. split; [exact Hi|]. subst pos. split; [apply Qcle_refl|]. split; [apply qn_lt; lia|]. split; [intros j Hj; apply sorted_nth; auto|].
      exists i. split; [|split; [lia|intros j Hj Hl; now apply sorted_nth]]. replace (length s - i) with (length s - 1 - i + 1) by lia.
      rewrite qn_S. replace (qn (length s - 1) - qn i)%Qc with (qn (length s - 1 - i)); [qq; lra|].
      apply qc_eq. rewrite this_sub. unfold qn. rewrite !this_qz. unfold Qminus. rewrite <- inject_Z_opp, <- inject_Z_plus. apply inject_Z_injective. lia.
    - exists i. split; [lia|]. split; [now apply Qclt_le_weak|]. split; [exact L2|].
      assert (T0 : (0 <= pos - qn i)%Qc) by (qq; lra). assert (T1 : (0 <= 1 - (pos - qn i))%Qc) by (rewrite qn_S in L2; qq; lra).
      destruct (between_le (nth i s 0%Qc) (nth (i + 1) s 0%Qc) (pos - qn i)%Qc (sorted_nth s i (i + 1) S ltac:(lia) ltac:(lia)) T0 T1) as [B1 B2].
      assert (Eq : (nth i s 0 * (qn (i + 1) - pos) + nth (i + 1) s 0 * (pos - qn i) = nth i s 0 * (1 - (pos - qn i)) + nth (i + 1) s 0 * (pos - qn i))%Qc) by (rewrite qn_S; ring).
      rewrite Eq. split; [intros j Hj; eapply Qcle_trans; [apply (sorted_nth s j i); auto; lia|exact B1]|].
      exists (i + 1). split; [|split; [lia|intros j Hj Hl; eapply Qcle_trans; [exact B2|apply sorted_nth; auto]]].
      replace (qn (length s - (i + 1))) with (qn (length s - 1) - qn i)%Qc; [qq; lra|].
      apply qc_eq. rewrite this_sub. unfold qn. rewrite !this_qz. unfold Qminus. rewrite <- inject_Z_opp, <- inject_Z_plus. apply inject_Z_injective. lia. }
  destruct K as (i & Hi & L1 & L2 & Hb & k & Hk1 & Hk2 & Hk3). split.
  - eapply Qclt_le_trans; [exact L2|]. apply qn_le. apply count_firstn; [lia|]. intros j Hj. apply qleb_iff, Hb. lia.
  - eapply Qclt_le_trans; [exact Hk1|]. apply qn_le. apply count_skipn; [exact Hk2|]. intros j Hj Hl. now apply qleb_iff, Hk3.
Qed.
