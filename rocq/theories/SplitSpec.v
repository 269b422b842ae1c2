(** Splitting of data into pieces. *)
From Coq Require Import Permutation.
From Verif Require Import Base NumModel ContrastSpec StateModel.
Open Scope list_scope.

(** The values of a piece of one-dimensional data: a number, a vector, or a matrix with one column. *)
Inductive piece_values : arr -> list Qc -> Prop :=
| pv_number : forall q, piece_values (A0 q) [q]
| pv_vector : forall l, piece_values (A1 l) l
| pv_column : forall rows l, rows = map (fun q => [q]) l -> piece_values (A2 1 rows) l.
(** Two non-empty lists of pieces have the same values, in any order. *)
Definition same_values (xs ys : list arr) : Prop := xs <> [] /\ ys <> [] /\
  exists vs ws, Forall2 piece_values xs vs /\ Forall2 piece_values ys ws /\ Permutation (concat vs) (concat ws).
