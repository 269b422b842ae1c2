(** Proofs for WidthProps.v: data with another number of columns than memorised. *)
From Coq Require Import Field.
From Verif Require Import Base NumModel RankSpec RankProofs ContrastSpec ContrastProofs StateModel StateSpec StateProofs SplineModel BsModel SplitSpec SplitProofs.
Open Scope nat_scope.

Lemma broadcast_one k q : broadcast k [q] = Ok (repeat q k).
Proof. unfold broadcast. destruct k as [|[|k]]; reflexivity. Qed.
Lemma broadcast_other k v : length v <> 1 -> length v <> k -> broadcast k v = Err (ValueError "operands could not be broadcast together").
Proof.
  intros H1 Hk. unfold broadcast. apply Nat.eqb_neq in Hk. rewrite Hk. destruct v as [|a [|b v]]; auto. cbn in H1. lia.
Qed.
Lemma nth_repeat_in (q : Qc) k j : j < k -> nth j (repeat q k) 0%Qc = q.
Proof. revert j. induction k; intros [|j] H; cbn; try lia; auto. apply IHk. lia. Qed.
Lemma one_long (v : list Qc) : length v = 1 -> v = [nth 0 v 0%Qc].
Proof. destruct v as [|a [|b v]]; cbn; intros; try lia. reflexivity. Qed.

Lemma center_one_column k xs x : rows_of xs <> [] -> Forall (has_cols 1) xs -> has_cols k x ->
  exists st y, center_memorize xs = Ok st /\ center_transform st x = Ok y /\
    by_column (fun _ q => (q - col_mean (rows_of xs) 0)%Qc) x y.
Proof.
  intros Hne Hxs Hx.
  destruct (center_memorized 1 xs) as (st & Est & Hc & s & Es & Hl & Hs); auto. { now intros ->. }
  exists st. unfold center_transform. rewrite Es, Hc.
  assert (Hn : length (rows_of xs) <> 0) by (destruct (rows_of xs); cbn; congruence).
  apply Nat.eqb_neq in Hn as Hn'. rewrite Hn'. clear Hn'.
  rewrite (one_long s Hl), (Hs 0) by lia. cbn [map].
  change (col_sum (rows_of xs) 0 / qn (length (rows_of xs)))%Qc with (col_mean (rows_of xs) 0).
  destruct (reshape_by k x (fun r => vsub r (repeat (col_mean (rows_of xs) 0) k))
    (fun _ q => (q - col_mean (rows_of xs) 0)%Qc) Hx) as (y & Ey & Hy).
  { intros r Hr. unfold vsub. rewrite map2_length, repeat_length. split; [lia|]. intros j Hj.
    rewrite (nth_map2 _ _ _ _ 0%Qc 0%Qc) by (rewrite ?repeat_length; lia). now rewrite nth_repeat_in. }
  exists y. split; auto. split; auto. destruct Hx as [Hk Hx]. destruct (to_2d x) as [k' rows]. cbn [fst snd] in *. subst k'.
  rewrite broadcast_one. exact Ey.
Qed.
Lemma center_wrong_width k k' xs x : rows_of xs <> [] -> Forall (has_cols k) xs -> has_cols k' x -> k <> 1 -> k <> k' ->
  exists st msg, center_memorize xs = Ok st /\ center_transform st x = Err (ValueError msg).
Proof.
  intros Hne Hxs Hx H1 Hk.
  destruct (center_memorized k xs) as (st & Est & Hc & s & Es & Hl & Hs); auto. { now intros ->. }
  exists st, "operands could not be broadcast together"%string. split; auto. unfold center_transform. rewrite Es, Hc.
  assert (Hn : length (rows_of xs) <> 0) by (destruct (rows_of xs); cbn; congruence).
  apply Nat.eqb_neq in Hn as Hn'. rewrite Hn'. destruct Hx as [Hk' Hx]. destruct (to_2d x) as [k0 rows]. cbn [fst snd] in *. subst k0.
  rewrite broadcast_other by (rewrite map_length; lia). reflexivity.
Qed.

Lemma std_one_column sqrt k xs x center rescale ddof : rows_of xs <> [] -> Forall (has_cols 1) xs -> has_cols k x -> 0 < k ->
  (rescale = true -> ddof < length (rows_of xs) /\ sqrt (col_dev (rows_of xs) 0 / qn (length (rows_of xs) - ddof))%Qc <> 0%Qc) ->
  exists st y, std_memorize xs = Ok st /\ std_transform sqrt st x center rescale ddof = Ok y /\
    by_column (fun _ q => std_entry sqrt (rows_of xs) center rescale ddof 0 q) x y.
Proof.
  intros Hne Hxs Hx Hk0 Hs.
  destruct (std_memorized 1 xs Hne Hxs) as (st & mean & E & Hn & Em & L1 & L2 & Hj).
  destruct (Hj 0 Nat.lt_0_1) as [Hm H2]. exists st. unfold std_transform. rewrite Em, Hn. set (m := rows_of xs) in *.
  rewrite (one_long mean L1), (one_long _ L2), Hm, H2. cbn [map].
  set (d := sqrt (col_dev m 0 / qn (length m - ddof))%Qc) in *.
  set (g := fun r : list Qc => let r := if center then vsub r (repeat (col_mean m 0) k) else r in if rescale then map2 Qcdiv r (repeat d k) else r).
  destruct (reshape_by k x g (fun _ q => std_entry sqrt m center rescale ddof 0 q) Hx) as (y & Ey & Hy).
  { intros r Hr. unfold g. assert (L : length (if center then vsub r (repeat (col_mean m 0) k) else r) = k).
    { destruct center; auto. unfold vsub. rewrite map2_length, repeat_length. lia. }
    split. { destruct rescale; cbn zeta; auto. rewrite map2_length, repeat_length. lia. }
    intros j Hj'. unfold std_entry. cbn zeta.
    assert (N : nth j (if center then vsub r (repeat (col_mean m 0) k) else r) 0%Qc = if center then (nth j r 0 - col_mean m 0)%Qc else nth j r 0%Qc).
    { destruct center; auto. unfold vsub. rewrite (nth_map2 _ _ _ _ 0%Qc 0%Qc) by (rewrite ?repeat_length; lia). now rewrite nth_repeat_in. }
    destruct rescale; auto. rewrite (nth_map2 _ _ _ _ 0%Qc 0%Qc) by (rewrite ?repeat_length; lia). rewrite N. f_equal.
    now rewrite nth_repeat_in. }
  exists y. split; auto. split; auto. destruct Hx as [Hk Hx]. destruct (to_2d x) as [k' rows]. cbn [fst snd] in *. subst k'.
  rewrite <- Ey. clear Ey. rewrite !broadcast_one. cbn [bind].
  assert (D : rescale = true -> (length m <=? ddof) = false /\ existsb (fun q => Qc_eq_bool q 0%Qc) (repeat d k) = false).
  { intros Hr. destruct (Hs Hr) as [H1 Hd]. split; [apply Nat.leb_gt; lia|].
    destruct (existsb _ _) eqn:X; auto. apply existsb_exists in X as (q & Hq & Hz). apply repeat_spec in Hq. subst q.
    apply Qc_eq_bool_correct in Hz. contradiction. }
  unfold g. destruct center, rescale; cbn [bind]; cbn zeta.
  1,3: destruct (D eq_refl) as [D1 D2]; rewrite D1; cbn [bind]; rewrite D2; cbn [bind]; rewrite ?map_map; reflexivity.
  - reflexivity.
  - now rewrite map_id.
Qed.
Lemma std_wrong_width sqrt k k' xs x center rescale ddof : rows_of xs <> [] -> Forall (has_cols k) xs -> has_cols k' x -> k <> 1 -> k <> k' ->
  center = true \/ rescale = true ->
  exists st msg, std_memorize xs = Ok st /\ std_transform sqrt st x center rescale ddof = Err (ValueError msg).
Proof.
  intros Hne Hxs [Hk' Hx] H1 Hk Hcr.
  destruct (std_memorized k xs Hne Hxs) as (st & mean & E & Hn & Em & L1 & L2 & Hj).
  exists st. unfold std_transform. rewrite Em. destruct (to_2d x) as [k0 rows]. cbn [fst snd] in *. subst k0.
  destruct center.
  - rewrite broadcast_other by lia. eexists. split; [exact E|reflexivity].
  - destruct Hcr as [|Hr]; [discriminate|]. subst rescale. cbn [bind]. destruct (s_n st <=? ddof).
    + eexists. split; [exact E|reflexivity].
    + rewrite broadcast_other by (rewrite map_length; lia). eexists. split; [exact E|reflexivity].
Qed.

(** Data of which every row has its number of columns. *)
Lemma vector_values x k v : has_cols k x -> as_vector x = Ok v <-> piece_values x v.
Proof.
  intros [Hk Hx]. split; [|apply piece_vector]. destruct x as [q|l|k' rows]; cbn [as_vector to_2d fst snd] in *.
  - intros H. injection H as <-. constructor.
  - intros H. injection H as <-. constructor.
  - destruct (Nat.eqb k' 1) eqn:E1; [|discriminate]. apply Nat.eqb_eq in E1. subst k'. subst k. intros H. injection H as <-. constructor.
    clear -Hx. induction Hx as [|r rows Hr H IH]; auto. cbn. f_equal; auto. destruct r as [|a [|b r]]; cbn in *; try lia. reflexivity.
Qed.
Lemma vector_columns k rows : k <> 1 -> exists msg, as_vector (A2 k rows) = Err (ValueError msg).
Proof. intros H. cbn. apply Nat.eqb_neq in H. rewrite H. eauto. Qed.
