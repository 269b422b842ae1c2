(** Properties C48, C49, C64, C65: data with another number of columns than memorised. *)
From Verif Require Import Base NumModel RankSpec ContrastSpec StateModel StateSpec StateProofs SplineModel BsModel SplitSpec SplitProofs WidthProofs.
Open Scope nat_scope.

(** After memorising one column, that column's mean is taken from every column of later data. *)
Theorem center_one_for_all : forall k xs x, rows_of xs <> [] -> Forall (has_cols 1) xs -> has_cols k x ->
  exists st y, center_memorize xs = Ok st /\ center_transform st x = Ok y /\
    by_column (fun _ q => (q - col_mean (rows_of xs) 0)%Qc) x y.
Proof. exact center_one_column. Qed.
Print Assumptions center_one_for_all.
(** After memorising several columns (or none), data with another number of columns is refused. *)
Theorem center_width_refused : forall k k' xs x, rows_of xs <> [] -> Forall (has_cols k) xs ->
  has_cols k' x -> snd (to_2d x) <> [] -> k <> 1 -> k <> k' ->
  exists st msg, center_memorize xs = Ok st /\ center_transform st x = Err (ValueError msg).
Proof. intros k k' xs x Hr Hxs Hx _. exact (center_wrong_width k k' xs x Hr Hxs Hx). Qed.
Print Assumptions center_width_refused.
Theorem standardize_one_for_all : forall sqrt k xs x center rescale ddof,
  rows_of xs <> [] -> Forall (has_cols 1) xs -> has_cols k x -> 0 < k ->
  (rescale = true -> ddof < length (rows_of xs) /\ sqrt (col_dev (rows_of xs) 0 / qn (length (rows_of xs) - ddof))%Qc <> 0%Qc) ->
  exists st y, std_memorize xs = Ok st /\ std_transform sqrt st x center rescale ddof = Ok y /\
    by_column (fun _ q => std_entry sqrt (rows_of xs) center rescale ddof 0 q) x y.
Proof. exact std_one_column. Qed.
Print Assumptions standardize_one_for_all.
Theorem standardize_width_refused : forall sqrt k k' xs x center rescale ddof,
  rows_of xs <> [] -> Forall (has_cols k) xs -> has_cols k' x -> snd (to_2d x) <> [] -> k <> 1 -> k <> k' ->
  center = true \/ rescale = true ->
  exists st msg, std_memorize xs = Ok st /\ std_transform sqrt st x center rescale ddof = Err (ValueError msg).
Proof. intros sqrt k k' xs x c r d Hr Hxs Hx _. exact (std_wrong_width sqrt k k' xs x c r d Hr Hxs Hx). Qed.
Print Assumptions standardize_width_refused.

(** cr(), cc() and bs() use exactly the values of a number, a vector or a matrix with one column ... *)
Theorem spline_values : forall k x v, has_cols k x -> as_vector x = Ok v <-> piece_values x v.
Proof. intros k x v. apply vector_values. Qed.
Print Assumptions spline_values.
(** ... and refuse a matrix with another number of columns, when memorising any piece and when
    transforming. *)
Theorem spline_columns_refused : forall qr cyclic a st ba bst k rows, k <> 1 ->
  (exists msg, crs_transform qr cyclic st (A2 k rows) = Err (ValueError msg)) /\
  bs_transform ba bst (A2 k rows) = Err AssertionError /\
  forall before after vs, Forall2 piece_values before vs ->
    (exists msg, crs_memorize cyclic a (before ++ A2 k rows :: after) = Err (ValueError msg)) /\
    (exists msg, bs_memorize ba (before ++ A2 k rows :: after) = Err (ValueError msg)).
Proof.
  intros qr cyclic a st ba bst k rows Hk. destruct (vector_columns k rows Hk) as [msg Hm]. split; [|split].
  - exists msg. unfold crs_transform. now rewrite Hm.
  - unfold bs_transform. now rewrite Hm.
  - intros before after vs Hb.
    assert (M : mapM as_vector (before ++ A2 k rows :: after) = Err (ValueError msg)).
    { induction Hb as [|x v before vs Hx Hb IH]; cbn [app mapM]; [now rewrite Hm|].
      rewrite (piece_vector _ _ Hx). cbn [bind]. now rewrite IH. }
    assert (N : before ++ A2 k rows :: after <> []) by (destruct before; discriminate).
    split; exists msg; [rewrite crs_memorize_concat by exact N|rewrite bs_memorize_concat by exact N]; now rewrite M.
Qed.
Print Assumptions spline_columns_refused.

Definition qi (z : Z) : Qc := Q2Qc (inject_Z z).
(** center() trained on 1, 3 and applied to two columns; trained on two columns and applied to one. *)
Example ex_one_for_all : exists st y, center_memorize [A1 [qi 1; qi 3]] = Ok st /\
  center_transform st (A2 2 [[qi 5; qi 7]]) = Ok y /\ y = A2 2 [[qi 3; qi 5]].
Proof. eexists _, _. split; [reflexivity|]. split; reflexivity. Qed.
Example ex_width_refused : exists st msg, center_memorize [A2 2 [[qi 1; qi 3]]] = Ok st /\
  center_transform st (A1 [qi 5]) = Err (ValueError msg).
Proof. eapply (center_width_refused 2 1); try discriminate; repeat constructor. Qed.
Example ex_std_one : exists st y, std_memorize [A1 [qi 1; qi 3]] = Ok st /\
  std_transform (fun q => q) st (A2 2 [[qi 5; qi 7]]) true true 0 = Ok y /\
  by_column (fun _ q => std_entry (fun q => q) [[qi 1]; [qi 3]] true true 0 0 q) (A2 2 [[qi 5; qi 7]]) y.
Proof.
  apply (standardize_one_for_all (fun q => q) 2 [A1 [qi 1; qi 3]]); try discriminate; try (repeat constructor).
  cbn. intros Hz. vm_compute in Hz. discriminate Hz.
Qed.
Example ex_spline_refused : exists msg, bs_memorize (mkBsArgs (Some 4%Z) None 3 false None None) [A1 [qi 1]; A2 2 [[qi 1; qi 2]]] = Err (ValueError msg).
Proof.
  refine (proj2 (proj2 (proj2 (spline_columns_refused (fun _ _ => Err OutOfFuel) false (mkCrsArgs None None None None NoConstraint) (mkCrs [] None) _ (mkBs 0 []) 2 _ _)) [A1 [qi 1]] [] [[qi 1]] _)).
  - discriminate.
  - repeat constructor.
Qed.
