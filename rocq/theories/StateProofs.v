From Coq Require Import Field.
From Verif Require Import Base NumModel RankSpec RankProofs ContrastSpec ContrastProofs StateModel StateSpec.
Open Scope nat_scope.

Lemma map2_length {A B C} (f : A -> B -> C) l m : length (map2 f l m) = Nat.min (length l) (length m).
Proof. revert m. induction l as [|x l IH]; intros [|y m]; cbn; auto. Qed.
Lemma nth_map2 {A B C} (f : A -> B -> C) l m j d1 d2 d :
  j < length l -> j < length m -> nth j (map2 f l m) d = f (nth j l d1) (nth j m d2).
Proof.
  revert m j. induction l as [|x l IH]; intros [|y m] [|j] H1 H2; cbn in *; try lia; auto. apply IH; lia.
Qed.
Lemma nth_map_lt {A B} (f : A -> B) l j d d' : j < length l -> nth j (map f l) d = f (nth j l d').
Proof. revert j. induction l as [|x l IH]; intros [|j] H; cbn in *; try lia; auto. apply IH; lia. Qed.
Lemma broadcast_same k v : length v = k -> broadcast k v = Ok v.
Proof. intros H. unfold broadcast. now rewrite H, Nat.eqb_refl. Qed.
Lemma nth_zeros k j : nth j (repeat 0%Qc k) 0%Qc = 0%Qc.
Proof. revert j. induction k; destruct j; cbn; auto. Qed.

Definition sized (k : nat) (m : mat) : Prop := Forall (fun r => length r = k) m.
Lemma sized_app k m m' : sized k m -> sized k m' -> sized k (m ++ m').
Proof. intros. apply Forall_app. auto. Qed.
Lemma col_sum_app m m' j : col_sum (m ++ m') j = (col_sum m j + col_sum m' j)%Qc.
Proof. apply qsum_app. Qed.

Lemma col_sums_length k s m : length s = k -> sized k m -> length (fold_left vadd m s) = k.
Proof.
  intros Hs H. revert s Hs. induction H as [|r m Hr H IH]; intros s Hs; cbn; auto.
  apply IH. unfold vadd. rewrite map2_length. lia.
Qed.
Lemma col_sums_nth k s m j : length s = k -> sized k m -> j < k ->
  nth j (fold_left vadd m s) 0%Qc = (nth j s 0 + col_sum m j)%Qc.
Proof.
  intros Hs H Hj. revert s Hs. induction H as [|r m Hr H IH]; intros s Hs; cbn [fold_left].
  - unfold col_sum. cbn. ring.
  - rewrite IH by (unfold vadd; rewrite map2_length; lia). unfold vadd.
    rewrite (nth_map2 _ _ _ _ 0%Qc 0%Qc) by lia. unfold col_sum. cbn [rsum]. ring.
Qed.

(** * Center *)
Definition center_inv (k : nat) (m : mat) (st : center) : Prop :=
  c_count st = length m /\ exists s, c_sum st = Some s /\ length s = k /\ forall j, j < k -> nth j s 0%Qc = col_sum m j.
Lemma center_step k m st x : center_inv k m st -> has_cols k x ->
  exists st', center_chunk st x = Ok st' /\ center_inv k (m ++ snd (to_2d x)) st'.
Proof.
  intros (Hc & s & Es & Hl & Hs) [Hk Hx]. unfold center_chunk. destruct (to_2d x) as [k' rows] eqn:E.
  cbn [fst snd] in *. subst k'. rewrite Es.
  assert (L : length (col_sums k rows) = k) by (apply col_sums_length; [apply repeat_length|exact Hx]).
  rewrite broadcast_same by lia. cbn [bind]. eexists. split; [reflexivity|]. split; cbn [c_count c_sum].
  - rewrite app_length. lia.
  - eexists. split; [reflexivity|]. split; [unfold vadd; rewrite map2_length; lia|].
    intros j Hj. unfold vadd. rewrite (nth_map2 _ _ _ _ 0%Qc 0%Qc) by lia.
    unfold col_sums. rewrite (col_sums_nth k) by (auto; apply repeat_length).
    rewrite nth_zeros, col_sum_app, Hs by exact Hj. ring.
Qed.
Lemma center_first k x : has_cols k x ->
  exists st', center_chunk center_init x = Ok st' /\ center_inv k (snd (to_2d x)) st'.
Proof.
  intros [Hk Hx]. unfold center_chunk. destruct (to_2d x) as [k' rows] eqn:E. cbn [fst snd c_sum center_init] in *. subst k'.
  eexists. split; [reflexivity|]. split; [reflexivity|]. eexists. split; [reflexivity|].
  split; [apply col_sums_length; [apply repeat_length|exact Hx]|].
  intros j Hj. unfold col_sums. rewrite (col_sums_nth k) by (auto; apply repeat_length). rewrite nth_zeros. ring.
Qed.
Lemma center_fold k xs st m : center_inv k m st -> Forall (has_cols k) xs ->
  exists st', foldM center_chunk xs st = Ok st' /\ center_inv k (m ++ rows_of xs) st'.
Proof.
  intros Hi H. revert st m Hi. induction H as [|x xs Hx H IH]; intros st m Hi; cbn [foldM].
  - exists st. split; auto. cbn. now rewrite app_nil_r.
  - destruct (center_step _ _ _ _ Hi Hx) as (st1 & E1 & H1). rewrite E1. cbn [bind].
    destruct (IH _ _ H1) as (st2 & E2 & H2). exists st2. split; auto. cbn. now rewrite app_assoc.
Qed.
Lemma center_memorized k xs : xs <> [] -> Forall (has_cols k) xs ->
  exists st, center_memorize xs = Ok st /\ center_inv k (rows_of xs) st.
Proof.
  intros Hne H. destruct H as [|x xs Hx H]; [easy|]. unfold center_memorize. cbn [foldM].
  destruct (center_first k x Hx) as (st1 & E1 & H1). rewrite E1. cbn [bind]. exact (center_fold k xs st1 _ H1 H).
Qed.

(** * Applying a function to each column. *)
Lemma concat_singles {A} (l : list A) : concat (map (fun q => [q]) l) = l.
Proof. induction l; cbn; congruence. Qed.
Lemma reshape_by k x (g : list Qc -> list Qc) f : has_cols k x ->
  (forall r, length r = k -> length (g r) = k /\ forall j, j < k -> nth j (g r) 0%Qc = f j (nth j r 0%Qc)) ->
  exists y, reshape_like x (map g (snd (to_2d x))) = Ok y /\ by_column f x y.
Proof.
  intros [Hk Hx] Hg. destruct x as [q|l|k' m]; cbn [to_2d fst snd] in *.
  - subst k. destruct (Hg [q] eq_refl) as [L N]. specialize (N 0 (Nat.lt_0_1)). cbn [map reshape_like].
    destruct (g [q]) as [|a [|b t]]; cbn in L, N; try lia. subst a. eexists. split; [reflexivity|]. constructor.
  - subst k. assert (E : concat (map g (map (fun q => [q]) l)) = map (f 0) l).
    { clear Hx. induction l as [|q l IH]; cbn; auto. rewrite IH. destruct (Hg [q] eq_refl) as [L N].
      specialize (N 0 (Nat.lt_0_1)). destruct (g [q]) as [|a [|b t]]; cbn in L, N; try lia. now subst a. }
    cbn [reshape_like]. rewrite E, map_length, Nat.eqb_refl. eexists. split; [reflexivity|]. constructor.
  - subst k'. cbn [reshape_like]. eexists. split; [reflexivity|]. constructor.
    + apply map_length.
    + apply Forall_forall. intros r Hr. apply in_map_iff in Hr as (r0 & <- & Hr0). apply Hg.
      rewrite Forall_forall in Hx. now apply Hx.
    + intros i j Hi Hj. unfold get. rewrite (nth_map_lt g _ _ _ []) by exact Hi. apply Hg; [|exact Hj].
      rewrite Forall_forall in Hx. apply Hx. now apply nth_In.
Qed.
Lemma by_column_rows f k x y : has_cols k x -> by_column f x y ->
  has_cols k y /\ length (snd (to_2d y)) = length (snd (to_2d x)) /\
  forall i j, i < length (snd (to_2d x)) -> j < k -> get (snd (to_2d y)) i j = f j (get (snd (to_2d x)) i j).
Proof.
  intros Hx H. destruct H as [q|l|k' m m' L S G]; destruct Hx as [Hk Hx]; cbn [to_2d fst snd] in *; subst k.
  - split; [split; auto; repeat constructor|]. split; [reflexivity|]. intros i j Hi Hj. cbn in Hi.
    assert (i = 0) by lia. assert (j = 0) by lia. subst. reflexivity.
  - split; [split; [reflexivity|]|].
    + apply Forall_forall. intros r Hr. apply in_map_iff in Hr as (? & <- & _). reflexivity.
    + split; [now rewrite !map_length|]. intros i j Hi Hj. rewrite map_length in Hi. assert (j = 0) by lia. subst j.
      unfold get. rewrite map_map. rewrite !(nth_map_lt _ l _ _ 0%Qc) by lia. reflexivity.
  - split; [split; auto|]. split; auto.
Qed.
Lemma sum_get (h : Qc -> Qc) m j : qsum (fun r => h (nth j r 0%Qc)) m = qsum (fun i => h (get m i j)) (seq 0 (length m)).
Proof.
  unfold get. induction m as [|r m IH]; cbn [rsum length seq]; auto. rewrite IH. f_equal.
  rewrite (rsum_seq_shift 0%Qc Qcplus). reflexivity.
Qed.
(** A sum over column [j] of the transformed data. *)
Lemma by_column_sum f k x y j (h : Qc -> Qc) : has_cols k x -> by_column f x y -> j < k ->
  qsum (fun r => h (nth j r 0%Qc)) (snd (to_2d y)) = qsum (fun r => h (f j (nth j r 0%Qc))) (snd (to_2d x)).
Proof.
  intros Hx H Hj. destruct (by_column_rows _ _ _ _ Hx H) as (Hy & L & G).
  rewrite sum_get, (sum_get (fun q => h (f j q))), L. apply qsum_ext. intros i Hi. apply in_seq in Hi. rewrite G by lia. reflexivity.
Qed.

Lemma center_transform_by k xs x : rows_of xs <> [] -> Forall (has_cols k) xs -> has_cols k x ->
  exists st y, center_memorize xs = Ok st /\ center_transform st x = Ok y /\
    by_column (fun j q => (q - col_mean (rows_of xs) j)%Qc) x y.
Proof.
  intros Hne Hxs Hx.
  destruct (center_memorized k xs) as (st & Est & Hc & s & Es & Hl & Hs); auto. { now intros ->. }
  exists st. unfold center_transform. rewrite Es, Hc.
  assert (Hn : length (rows_of xs) <> 0) by (destruct (rows_of xs); cbn; congruence).
  apply Nat.eqb_neq in Hn as Hn'. rewrite Hn'. clear Hn'.
  pose proof (reshape_by k x (fun r => vsub r (map (fun q => q / qn (length (rows_of xs)))%Qc s))
    (fun j q => (q - col_mean (rows_of xs) j)%Qc) Hx) as R.
  destruct R as (y & Ey & Hy).
  { intros r Hr. unfold vsub. rewrite map2_length, map_length. split; [lia|]. intros j Hj.
    rewrite (nth_map2 _ _ _ _ 0%Qc 0%Qc) by (rewrite ?map_length; lia).
    rewrite (nth_map_lt _ _ _ _ 0%Qc) by lia. unfold col_mean. now rewrite Hs. }
  exists y. split; auto. destruct Hx as [Hk Hx]. destruct (to_2d x) as [k' rows] eqn:E. cbn [fst snd] in *. subst k'.
  rewrite broadcast_same by (rewrite map_length; lia). cbn [bind]. auto.
Qed.
Lemma mean_times m j : m <> [] -> (qn (length m) * col_mean m j = col_sum m j)%Qc.
Proof. intros H. unfold col_mean. field. apply qn_nz. destruct m; cbn; congruence. Qed.
Lemma sum_dev_zero m j : m <> [] -> qsum (fun r => nth j r 0 - col_mean m j)%Qc m = 0%Qc.
Proof. intros H. rewrite qsum_sub, qsum_const, mean_times by exact H. unfold col_sum. ring. Qed.

(** * Standardize *)
Definition col_sq (m : mat) (j : nat) : Qc := qsum (fun r => nth j r 0 * nth j r 0)%Qc m.
Lemma col_dev_sq m j : m <> [] -> col_dev m j = (col_sq m j - col_mean m j * col_sum m j)%Qc.
Proof.
  intros H. unfold col_dev.
  rewrite (qsum_ext _ (fun r => (nth j r 0 * nth j r 0 - (col_mean m j + col_mean m j) * nth j r 0) + col_mean m j * col_mean m j)%Qc)
    by (intros; ring).
  rewrite qsum_add, qsum_sub, qsum_scale, qsum_const.
  change (qsum (fun x => nth j x 0%Qc) m) with (col_sum m j). fold (col_sq m j).
  rewrite <- (mean_times m j H). ring.
Qed.

Definition std_inv (k : nat) (m : mat) (st : nat * (list Qc * list Qc)) : Prop :=
  let '(n, (mean, M2)) := st in
  n = length m /\ length mean = k /\ length M2 = k /\
  forall j, j < k -> (qn n * nth j mean 0 = col_sum m j)%Qc /\ (nth j M2 0 = col_sq m j - nth j mean 0 * col_sum m j)%Qc.
Lemma std_row_step k m st r : std_inv k m st -> length r = k ->
  exists st', std_row st r = Ok st' /\ std_inv k (m ++ [r]) st'.
Proof.
  destruct st as [n [mean M2]]. intros (Hn & Lm & L2 & H) Hr. unfold std_row.
  rewrite broadcast_same by lia. cbn [bind]. eexists. split; [reflexivity|].
  unfold std_inv, vadd, vsub. rewrite app_length. cbn [length].
  split; [lia|]. split; [rewrite map2_length, map_length, map2_length; lia|].
  split; [repeat rewrite ?map2_length, ?map_length; lia|].
  intros j Hj. destruct (H j Hj) as [H1 H2].
  assert (N : nth j (map2 Qcplus mean (map (fun d => (d / qn (S n))%Qc) (map2 Qcminus r mean))) 0%Qc
              = (nth j mean 0 + (nth j r 0 - nth j mean 0) / qn (S n))%Qc).
  { rewrite (nth_map2 _ _ _ _ 0%Qc 0%Qc) by (rewrite ?map_length, ?map2_length; lia).
    rewrite (nth_map_lt _ _ _ _ 0%Qc) by (rewrite map2_length; lia).
    rewrite (nth_map2 _ _ _ _ 0%Qc 0%Qc) by lia. reflexivity. }
  rewrite col_sum_app. unfold col_sq at 1. rewrite qsum_app. fold (col_sq m j).
  unfold col_sum at 2. unfold col_sum at 3. cbn [rsum]. rewrite <- H1 at 1.
  assert (Z : qn (S n) <> 0%Qc) by (apply qn_nz; lia). rewrite N.
  rewrite (nth_map2 _ _ _ _ 0%Qc 0%Qc) by (repeat rewrite ?map_length, ?map2_length; lia).
  rewrite (nth_map2 _ _ _ _ 0%Qc 0%Qc) by (repeat rewrite ?map_length, ?map2_length; lia).
  rewrite (nth_map2 _ _ _ _ 0%Qc 0%Qc) by (repeat rewrite ?map_length, ?map2_length; lia).
  rewrite (nth_map2 _ r _ _ 0%Qc 0%Qc) by (repeat rewrite ?map_length, ?map2_length; lia).
  rewrite N, H2, <- H1. rewrite qn_S in *. split; field; exact Z.
Qed.
Lemma std_rows k rows m st : std_inv k m st -> sized k rows ->
  exists st', foldM std_row rows st = Ok st' /\ std_inv k (m ++ rows) st'.
Proof.
  intros Hi H. revert st m Hi. induction H as [|r rows Hr H IH]; intros st m Hi; cbn [foldM].
  - exists st. now rewrite app_nil_r.
  - destruct (std_row_step _ _ _ _ Hi Hr) as (st1 & E1 & H1). rewrite E1. cbn [bind].
    destruct (IH _ _ H1) as (st2 & E2 & H2). exists st2. split; auto. rewrite <- app_assoc in H2. exact H2.
Qed.
Definition stz_inv (k : nat) (m : mat) (st : standardize) : Prop :=
  exists mean, s_mean st = Some mean /\ std_inv k m (s_n st, (mean, s_M2 st)).
Lemma std_step k m st x : stz_inv k m st -> has_cols k x ->
  exists st', std_chunk st x = Ok st' /\ stz_inv k (m ++ snd (to_2d x)) st'.
Proof.
  intros (mean & Em & Hi) [Hk Hx]. unfold std_chunk. destruct (to_2d x) as [k' rows]. cbn [fst snd] in *. subst k'.
  rewrite Em. destruct (std_rows k rows m _ Hi Hx) as ([n [m1 m2]] & E & H). rewrite E. cbn [bind fst snd].
  eexists. split; [reflexivity|]. exists m1. split; auto.
Qed.
Lemma std_first k x : has_cols k x ->
  exists st', std_chunk std_init x = Ok st' /\ stz_inv k (snd (to_2d x)) st'.
Proof.
  intros [Hk Hx]. unfold std_chunk. destruct (to_2d x) as [k' rows]. cbn [fst snd std_init s_mean s_n] in *. subst k'.
  destruct (std_rows k rows [] (0, (repeat 0%Qc k, repeat 0%Qc k))) as ([n [m1 m2]] & E & H); auto.
  { split; [reflexivity|]. rewrite !repeat_length. split; auto. split; auto. intros j Hj. rewrite !nth_zeros.
    unfold col_sum, col_sq. cbn. split; ring. }
  rewrite E. cbn [bind fst snd]. eexists. split; [reflexivity|]. exists m1. split; auto.
Qed.
Lemma std_fold k xs st m : stz_inv k m st -> Forall (has_cols k) xs ->
  exists st', foldM std_chunk xs st = Ok st' /\ stz_inv k (m ++ rows_of xs) st'.
Proof.
  intros Hi H. revert st m Hi. induction H as [|x xs Hx H IH]; intros st m Hi; cbn [foldM].
  - exists st. split; auto. cbn. now rewrite app_nil_r.
  - destruct (std_step _ _ _ _ Hi Hx) as (st1 & E1 & H1). rewrite E1. cbn [bind].
    destruct (IH _ _ H1) as (st2 & E2 & H2). exists st2. split; auto. cbn. now rewrite app_assoc.
Qed.
Lemma std_memorized k xs : rows_of xs <> [] -> Forall (has_cols k) xs ->
  exists st mean, std_memorize xs = Ok st /\ s_n st = length (rows_of xs) /\ s_mean st = Some mean /\
    length mean = k /\ length (s_M2 st) = k /\
    forall j, j < k -> nth j mean 0%Qc = col_mean (rows_of xs) j /\ nth j (s_M2 st) 0%Qc = col_dev (rows_of xs) j.
Proof.
  intros Hne H. destruct xs as [|x xs]; [easy|]. inversion H as [|? ? Hx Hxs]; subst. unfold std_memorize. cbn [foldM].
  destruct (std_first k x Hx) as (st1 & E1 & H1). rewrite E1. cbn [bind].
  destruct (std_fold k xs st1 _ H1 Hxs) as (st & E & mean & Em & Hn & L1 & L2 & Hj).
  exists st, mean. rewrite E. change (rows_of (x :: xs)) with (snd (to_2d x) ++ rows_of xs).
  repeat (split; auto). 1,2: destruct (Hj j H0) as [A B].
  all: assert (M : nth j mean 0%Qc = col_mean (snd (to_2d x) ++ rows_of xs) j).
  1,3: unfold col_mean; rewrite <- A, Hn; field; apply qn_nz; change (rows_of (x :: xs)) with (snd (to_2d x) ++ rows_of xs) in Hne;
       destruct (snd (to_2d x) ++ rows_of xs); cbn; congruence.
  - exact M.
  - rewrite B, M. symmetry. apply col_dev_sq. exact Hne.
Qed.

Lemma map_id_rows (m : mat) : map (fun r => r) m = m. Proof. apply map_id. Qed.
Lemma Qc_eq_bool_false a b : a <> b -> Qc_eq_bool a b = false.
Proof. intros H. unfold Qc_eq_bool. destruct (Qc_eq_dec a b); congruence. Qed.

Lemma std_transform_by sqrt k xs x center rescale ddof : rows_of xs <> [] -> Forall (has_cols k) xs -> has_cols k x ->
  (rescale = true -> ddof < length (rows_of xs) /\
     forall j, j < k -> sqrt (col_dev (rows_of xs) j / qn (length (rows_of xs) - ddof))%Qc <> 0%Qc) ->
  exists st y, std_memorize xs = Ok st /\ std_transform sqrt st x center rescale ddof = Ok y /\
    by_column (std_entry sqrt (rows_of xs) center rescale ddof) x y.
Proof.
  intros Hne Hxs Hx Hs.
  destruct (std_memorized k xs Hne Hxs) as (st & mean & E & Hn & Em & L1 & L2 & Hj).
  exists st. unfold std_transform. rewrite Em, Hn. set (m := rows_of xs) in *.
  set (d := map (fun q => sqrt (q / qn (length m - ddof))%Qc) (s_M2 st)).
  set (g := fun r : list Qc => let r := if center then vsub r mean else r in if rescale then map2 Qcdiv r d else r).
  assert (Ld : length d = k) by (unfold d; now rewrite map_length).
  destruct (reshape_by k x g (std_entry sqrt m center rescale ddof) Hx) as (y & Ey & Hy).
  { intros r Hr. unfold g. assert (L : length (if center then vsub r mean else r) = k).
    { destruct center; auto. unfold vsub. rewrite map2_length. lia. }
    split. { destruct rescale; cbn zeta; auto. rewrite map2_length. lia. }
    intros j Hj'. unfold std_entry. cbn zeta. destruct (Hj j Hj') as [A B].
    assert (N : nth j (if center then vsub r mean else r) 0%Qc = if center then (nth j r 0 - col_mean m j)%Qc else nth j r 0%Qc).
    { destruct center; auto. unfold vsub. rewrite (nth_map2 _ _ _ _ 0%Qc 0%Qc) by lia. now rewrite A. }
    destruct rescale; auto. rewrite (nth_map2 _ _ _ _ 0%Qc 0%Qc) by lia. rewrite N. f_equal.
    unfold d. rewrite (nth_map_lt _ _ _ _ 0%Qc) by lia. now rewrite B. }
  exists y. split; auto. split; auto. destruct Hx as [Hk Hx]. destruct (to_2d x) as [k' rows]. cbn [fst snd] in *. subst k'.
  rewrite <- Ey. clear Ey. rewrite (broadcast_same k mean L1). cbn [bind].
  assert (D : rescale = true -> (length m <=? ddof) = false /\ existsb (fun q => Qc_eq_bool q 0%Qc) d = false).
  { intros Hr. destruct (Hs Hr) as [H1 H2]. split; [apply Nat.leb_gt; lia|].
    destruct (existsb _ d) eqn:X; auto. apply existsb_exists in X as (q & Hq & Hz).
    destruct (In_nth _ _ 0%Qc Hq) as (j & Hjl & Hjq). exfalso. rewrite Ld in Hjl. apply (H2 j Hjl).
    unfold d in Hjq. rewrite (nth_map_lt _ _ _ _ 0%Qc) in Hjq by lia. rewrite (proj2 (Hj j Hjl)) in Hjq.
    rewrite Hjq. now apply Qc_eq_bool_correct. }
  unfold g. destruct center, rescale; cbn [bind]; cbn zeta.
  1,3: destruct (D eq_refl) as [D1 D2]; rewrite D1; fold d; rewrite (broadcast_same k d Ld); cbn [bind]; rewrite D2; cbn [bind];
       rewrite ?map_map; reflexivity.
  - reflexivity.
  - now rewrite map_id.
Qed.

(** * The training data itself *)
Lemma rows_of_sum f k xs ys j h : Forall (has_cols k) xs -> Forall2 (by_column f) xs ys -> j < k ->
  qsum (fun r => h (nth j r 0%Qc)) (rows_of ys) = qsum (fun r => h (f j (nth j r 0%Qc))) (rows_of xs).
Proof.
  intros Hx H Hj. induction H as [|x y xs ys Hxy H IH]; auto. inversion Hx; subst. unfold rows_of. cbn [flat_map].
  rewrite !qsum_app. f_equal; [|now apply IH]. eapply by_column_sum; eauto.
Qed.
Lemma rows_of_length f k xs ys : Forall (has_cols k) xs -> Forall2 (by_column f) xs ys -> length (rows_of ys) = length (rows_of xs).
Proof.
  intros Hx H. induction H as [|x y xs ys Hxy H IH]; auto. inversion Hx; subst. unfold rows_of. cbn [flat_map].
  rewrite !app_length. f_equal; [|now apply IH]. eapply by_column_rows; eauto.
Qed.
Lemma mapM_by (t : arr -> result arr) f k xs : Forall (has_cols k) xs ->
  (forall x, has_cols k x -> exists y, t x = Ok y /\ by_column f x y) ->
  exists ys, mapM t xs = Ok ys /\ Forall2 (by_column f) xs ys.
Proof.
  intros Hx H. induction Hx as [|x xs Hx Hxs IH]; [exists []; split; [reflexivity|constructor]|].
  destruct (H x Hx) as (y & E & B). destruct IH as (ys & Es & Bs). exists (y :: ys). cbn [mapM]. rewrite E. cbn [bind].
  rewrite Es. split; [reflexivity|now constructor].
Qed.
Lemma nth_ext_Qc (l m : list Qc) : length l = length m -> (forall j, j < length l -> nth j l 0%Qc = nth j m 0%Qc) -> l = m.
Proof. intros H1 H2. eapply nth_ext; eauto. Qed.
Lemma by_column_unique k f x y y' : has_cols k x -> by_column f x y -> by_column f x y' -> y = y'.
Proof.
  intros [Hk Hx] H H'. destruct H as [q|l|k' m m' L S G]; inversion H'; subst; auto. f_equal.
  apply (nth_ext _ _ [] []); [congruence|]. intros i Hi.
  match goal with S' : Forall _ ?m0, L' : length ?m0 = length m |- _ => assert (i < length m0) by congruence end.
  rewrite Forall_forall in *. assert (length (nth i m' []) = k') by (apply S; now apply nth_In).
  assert (length (nth i m'0 []) = k') by (match goal with S' : forall r, In r m'0 -> _ |- _ => apply S' end; now apply nth_In).
  apply nth_ext_Qc; [congruence|]. intros j Hj. rewrite L in Hi.
  transitivity (f j (get m i j)); [apply G; congruence|symmetry]. match goal with G' : forall i j, _ -> _ -> get m'0 i j = _ |- _ => apply G' end; congruence.
Qed.
