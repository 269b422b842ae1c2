(** What the spline transforms compute. *)
From Coq Require Import ZArith Sorted.
From Verif Require Import Base NumModel RankSpec ContrastSpec SplineModel.
Open Scope nat_scope.
Open Scope list_scope.

Definition increasing (knots : list Qc) : Prop := StronglySorted Qclt knots.
Definition first_knot (knots : list Qc) : Qc := nth 0 knots 0%Qc.
Definition last_knot (knots : list Qc) : Qc := nth (length knots - 1) knots 0%Qc.

(** All the products of one entry from each row, the entry of the last row changing fastest. *)
Fixpoint all_products (rows : list (list Qc)) : list Qc :=
  match rows with
  | [] => [1%Qc]
  | r :: rest => flat_map (fun a => map (fun b => a * b)%Qc (all_products rest)) r
  end.

Definition has_shape (nrows ncols : nat) (m : mat) : Prop := length m = nrows /\ Forall (fun r => length r = ncols) m.

(** Choosing entry [j] of each row: the product, and its position in row-major order. *)
Fixpoint choice_product (rows : list (list Qc)) (js : list nat) : Qc :=
  match rows, js with r :: rows, j :: js => (nth j r 0 * choice_product rows js)%Qc | _, _ => 1%Qc end.
Fixpoint row_major (rows : list (list Qc)) (js : list nat) : nat :=
  match rows, js with
  | r :: rows, j :: js => j * fold_right Nat.mul 1 (map (@length Qc) rows) + row_major rows js
  | _, _ => 0
  end.
Definition choice (rows : list (list Qc)) (js : list nat) : Prop := Forall2 (fun r j => j < length r) rows js.
