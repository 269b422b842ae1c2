(** What the rows of a matrix built from fewer variables are. *)
From Coq Require Import Sorting.Sorted.
From Verif Require Import Base BuildModel BuildSpec.

(** The rows [ps] of a matrix, in their order. *)
Definition rows_at {V} (m : @dmat V) (ps : list nat) : @dmat V :=
  mkMat (length ps) (map (fun col => pick col ps) (m_cols m)).
(** Some rows of a matrix of [n] rows, in their order. *)
Definition some_rows (n : nat) (ps : list nat) : Prop :=
  StronglySorted lt ps /\ Forall (fun i => i < n) ps.
