(** What centering and standardizing mean. *)
From Verif Require Import Base NumModel RankSpec ContrastSpec StateModel.
Open Scope nat_scope.

(** Data with [k] columns. *)
Definition has_cols (k : nat) (x : arr) : Prop :=
  fst (to_2d x) = k /\ Forall (fun r => length r = k) (snd (to_2d x)).
(** The rows of several pieces of data, one after the other. *)
Definition rows_of (xs : list arr) : mat := flat_map (fun x => snd (to_2d x)) xs.
(** Sum, mean, and sum of squared deviations of column [j]. *)
Definition col_sum (m : mat) (j : nat) : Qc := qsum (fun r => nth j r 0%Qc) m.
Definition col_mean (m : mat) (j : nat) : Qc := (col_sum m j / qn (length m))%Qc.
Definition col_dev (m : mat) (j : nat) : Qc :=
  qsum (fun r => (nth j r 0 - col_mean m j) * (nth j r 0 - col_mean m j))%Qc m.
(** [y] has the shape of [x], with [f j] applied to each entry of column [j]. *)
Inductive by_column (f : nat -> Qc -> Qc) : arr -> arr -> Prop :=
| by_0 : forall q, by_column f (A0 q) (A0 (f 0 q))
| by_1 : forall l, by_column f (A1 l) (A1 (map (f 0) l))
| by_2 : forall k m m', length m' = length m -> Forall (fun r => length r = k) m' ->
    (forall i j, i < length m -> j < k -> get m' i j = f j (get m i j)) -> by_column f (A2 k m) (A2 k m').

(** The standardized value of an entry of column [j], given the training rows [m]. *)
Definition std_entry (sqrt : Qc -> Qc) (m : mat) (center rescale : bool) (ddof : nat) (j : nat) (q : Qc) : Qc :=
  let c := if center then (q - col_mean m j)%Qc else q in
  if rescale then (c / sqrt (col_dev m j / qn (length m - ddof)))%Qc else c.

(** Memorizing the training data piece by piece. *)
Definition center_memorize (xs : list arr) : result center := foldM center_chunk xs center_init.
Definition std_memorize (xs : list arr) : result standardize := foldM std_chunk xs std_init.
