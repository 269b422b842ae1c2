(** Values with a row of numbers for each row of the data. *)
From Verif Require Import Base NumModel ContrastSpec StateModel StateSpec.
Open Scope nat_scope.
Open Scope list_scope.

(** A number, a vector or a matrix, read as a matrix; all its rows have as many entries as it has columns. *)
Definition row_cells (v : arr) (cells : mat) : Prop := snd (to_2d v) = cells /\ has_cols (fst (to_2d v)) v.
(** The row of a matrix with one row. *)
Definition one_row (r : result (nat * mat)) : list Qc := match r with Ok (_, [row]) => row | _ => [] end.
(** A row with [f j] applied to entry [j]. *)
Definition entrywise (k : nat) (f : nat -> Qc -> Qc) (r : list Qc) : list Qc := map (fun j => f j (nth j r 0%Qc)) (seq 0 k).
(** Matrices with these cells, as arguments of te(): each has a number of columns and a row of cells for each
    row of the data. *)
Definition margins {row} (gs : list (nat * (row -> list Qc))) (rows : list row) : list arr :=
  map (fun kg => A2 (fst kg) (map (snd kg) rows)) gs.
(** Some values are arrays; their cells are rows of numbers. *)
Definition arrays_among {val cell} (as_arr : val -> result arr) (of_arr : arr -> val) (holds : val -> list cell -> Prop) (embed : list Qc -> cell) : Prop :=
  (forall x, as_arr (of_arr x) = Ok x) /\
  forall v rows, rows <> [] -> (holds v (map embed rows) <-> exists x, as_arr v = Ok x /\ row_cells x rows).
