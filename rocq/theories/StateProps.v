(** C48, C49: center() and standardize(). *)
From Verif Require Import Base NumModel RankSpec RankProofs ContrastSpec ContrastProofs StateModel StateSpec StateProofs.
Open Scope nat_scope.

(** C48 (same training mean, for any data): for every split of the training rows into pieces, however
    shaped, some possibly empty, center() keeps the shape of whatever it transforms and subtracts from each
    column the mean of that column over all the training rows. *)
Theorem center_subtracts_mean : forall k xs, rows_of xs <> [] -> Forall (has_cols k) xs ->
  exists st, center_memorize xs = Ok st /\
    forall x, has_cols k x -> exists y, center_transform st x = Ok y /\
      by_column (fun j q => (q - col_mean (rows_of xs) j)%Qc) x y.
Proof.
  intros k xs Hne Hxs. destruct (center_transform_by k xs (A2 k []) Hne Hxs) as (st & _ & E & _).
  { split; [reflexivity|constructor]. }
  exists st. split; auto. intros x Hx. destruct (center_transform_by k xs x Hne Hxs Hx) as (st' & y & E' & T).
  assert (st' = st) by congruence. subst. eauto.
Qed.
Print Assumptions center_subtracts_mean.

(** C48 (training data): every column of the centered training data sums to zero. *)
Theorem center_sums_to_zero : forall k xs, rows_of xs <> [] -> Forall (has_cols k) xs ->
  exists st ys, center_memorize xs = Ok st /\ mapM (center_transform st) xs = Ok ys /\
    forall j, j < k -> col_sum (rows_of ys) j = 0%Qc.
Proof.
  intros k xs Hne Hxs. destruct (center_subtracts_mean k xs Hne Hxs) as (st & E & T).
  destruct (mapM_by _ _ k xs Hxs T) as (ys & Es & B). exists st, ys. split; auto. split; auto. intros j Hj.
  unfold col_sum. rewrite (rows_of_sum _ k xs ys j (fun q => q) Hxs B Hj). now apply sum_dev_zero.
Qed.
Print Assumptions center_sums_to_zero.

(** C49 (any data): for every split of the training rows, standardize() remembers the exact mean and sum of
    squared deviations of every column, and applies them to whatever it transforms.  [sqrt] stands for the
    square root function. *)
Theorem standardize_exact : forall sqrt k xs center rescale ddof, rows_of xs <> [] -> Forall (has_cols k) xs ->
  (rescale = true -> ddof < length (rows_of xs) /\
     forall j, j < k -> sqrt (col_dev (rows_of xs) j / qn (length (rows_of xs) - ddof))%Qc <> 0%Qc) ->
  exists st, std_memorize xs = Ok st /\
    forall x, has_cols k x -> exists y, std_transform sqrt st x center rescale ddof = Ok y /\
      by_column (std_entry sqrt (rows_of xs) center rescale ddof) x y.
Proof.
  intros sqrt k xs center rescale ddof Hne Hxs Hs.
  destruct (std_memorized k xs Hne Hxs) as (st & _ & E & _). exists st. split; auto. intros x Hx.
  destruct (std_transform_by sqrt k xs x center rescale ddof Hne Hxs Hx Hs) as (st' & y & E' & T).
  assert (st' = st) by congruence. subst. eauto.
Qed.
Print Assumptions standardize_exact.

(** C49 (training data): after standardizing, the training data has mean 0 and variance 1 in every column
    (dividing by the number of rows minus ddof), when the square root of each variance exists and is not 0. *)
Theorem standardize_unit : forall sqrt k xs ddof, rows_of xs <> [] -> Forall (has_cols k) xs ->
  ddof < length (rows_of xs) ->
  (forall j, j < k -> let v := (col_dev (rows_of xs) j / qn (length (rows_of xs) - ddof))%Qc in
     v <> 0%Qc /\ (sqrt v * sqrt v = v)%Qc) ->
  exists st ys, std_memorize xs = Ok st /\ mapM (fun x => std_transform sqrt st x true true ddof) xs = Ok ys /\
    forall j, j < k -> col_mean (rows_of ys) j = 0%Qc /\ (col_dev (rows_of ys) j / qn (length (rows_of ys) - ddof) = 1)%Qc.
Proof.
  intros sqrt k xs ddof Hne Hxs Hd Hs.
  destruct (standardize_exact sqrt k xs true true ddof Hne Hxs) as (st & E & T).
  { intros _. split; auto. intros j Hj Z. destruct (Hs j Hj) as [V S]. apply V. rewrite <- S, Z. ring. }
  destruct (mapM_by _ _ k xs Hxs T) as (ys & Es & B). exists st, ys. split; auto. split; auto. intros j Hj.
  destruct (Hs j Hj) as [V S]. cbn zeta in V, S.
  assert (L : length (rows_of ys) = length (rows_of xs)) by (eapply rows_of_length; eauto).
  set (m := rows_of xs) in *. set (v := (col_dev m j / qn (length m - ddof))%Qc) in *.
  assert (Nz : sqrt v <> 0%Qc) by (intros Z; apply V; rewrite <- S, Z; ring).
  assert (M : col_mean (rows_of ys) j = 0%Qc).
  { unfold col_mean, col_sum. rewrite (rows_of_sum _ k xs ys j (fun q => q) Hxs B Hj). fold m. unfold std_entry.
    fold v. rewrite (qsum_ext _ (fun r => (/ sqrt v) * (nth j r 0 - col_mean m j))%Qc) by (intros; unfold Qcdiv; ring).
    rewrite qsum_scale, sum_dev_zero by exact Hne. unfold Qcdiv. ring. }
  split; auto. unfold col_dev. rewrite M.
  rewrite (rows_of_sum _ k xs ys j (fun q => (q - 0) * (q - 0))%Qc Hxs B Hj). fold m. unfold std_entry. fold v.
  rewrite (qsum_ext _ (fun r => (/ (sqrt v * sqrt v)) * ((nth j r 0 - col_mean m j) * (nth j r 0 - col_mean m j)))%Qc)
    by (intros; field; exact Nz).
  rewrite qsum_scale. fold (col_dev m j). rewrite S, L. unfold v in *.
  assert (Nn : qn (length m - ddof) <> 0%Qc) by (apply qn_nz; lia).
  assert (Nd : col_dev m j <> 0%Qc). { intros Z. apply V. rewrite Z. unfold Qcdiv. ring. }
  field. auto.
Qed.
Print Assumptions standardize_unit.

(** C48/C49: if there was nothing at all to memorize, there is nothing to center or scale by, and transforming is an
    error, unless neither was asked for. *)
Theorem nothing_memorized : forall sqrt c s x center rescale ddof, center_memorize [] = Ok c -> std_memorize [] = Ok s ->
  (exists m, center_transform c x = Err (TypeError m)) /\
  (center = true \/ rescale = true -> exists m, std_transform sqrt s x center rescale ddof = Err (TypeError m)) /\
  (center = false -> rescale = false -> std_transform sqrt s x center rescale ddof = Ok x).
Proof.
  intros sqrt c s x center rescale ddof [= <-] [= <-]. split; [|split].
  - eexists. reflexivity.
  - intros [-> | ->]; unfold std_transform; destruct (to_2d x); cbn [s_mean std_init]; rewrite ?orb_true_r; eexists; reflexivity.
  - intros -> ->. destruct x as [q|l|k rows]; cbn; try reflexivity.
    assert (E : concat (map (fun q => [q]) l) = l) by (induction l as [|a l IH]; cbn; [|rewrite IH]; reflexivity). rewrite E, Nat.eqb_refl. reflexivity.
Qed.
Print Assumptions nothing_memorized.

(** C48/C49: center(x) is standardize(x, rescale=False). *)
Theorem center_is_standardize : forall sqrt k xs x ddof, rows_of xs <> [] -> Forall (has_cols k) xs -> has_cols k x ->
  exists c s y, center_memorize xs = Ok c /\ std_memorize xs = Ok s /\
    center_transform c x = Ok y /\ std_transform sqrt s x true false ddof = Ok y.
Proof.
  intros sqrt k xs x ddof Hne Hxs Hx. destruct (center_subtracts_mean k xs Hne Hxs) as (c & Ec & Tc).
  destruct (standardize_exact sqrt k xs true false ddof Hne Hxs) as (s & Es & Ts); [easy|].
  destruct (Tc x Hx) as (y & Ey & By). destruct (Ts x Hx) as (y' & Ey' & By'). exists c, s, y. repeat split; auto.
  rewrite Ey'. f_equal. eapply by_column_unique; eauto.
Qed.
Print Assumptions center_is_standardize.

(** Two pieces and an empty one, two columns. *)
Definition show (x : arr) : list (list Q) := map (map this) (snd (to_2d x)).
Example center_ex :
  let xs := [A2 2 [[qz 1; qz 4]; [qz 2; qz 8]]; A2 2 []; A2 2 [[qz 6; qz 0]]] in
  (let* st := center_memorize xs in let* y := center_transform st (A2 2 [[qz 10; qz 10]]) in Ok (show y)) = Ok [[7; 6]]%Q /\
  rows_of xs <> [] /\ Forall (has_cols 2) xs.
Proof. split; [vm_compute; reflexivity|]. split; [discriminate|]. repeat constructor. Qed.
(** 1, 1, 5, 5: mean 3, variance 4. *)
Example standardize_ex :
  let sqrt := fun v => if Qc_eq_bool v (qz 4) then qz 2 else v in
  let xs := [A1 [qz 1; qz 1]; A1 []; A1 [qz 5; qz 5]] in
  (let* st := std_memorize xs in let* ys := mapM (fun x => std_transform sqrt st x true true 0) xs in Ok (map show ys))
  = Ok [[[-1]; [-1]]; []; [[1]; [1]]]%Q /\
  (let v := (col_dev (rows_of xs) 0 / qn (length (rows_of xs) - 0))%Qc in v <> 0%Qc /\ (sqrt v * sqrt v = v)%Qc).
Proof.
  split; [vm_compute; reflexivity|].
  split; [intros H; apply (f_equal this) in H; vm_compute in H; discriminate H|apply Qc_is_canon; vm_compute; reflexivity].
Qed.
