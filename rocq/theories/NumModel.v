(** The numpy operations the modelled code uses, on exact rationals.  Trusted base: these
    definitions follow the numpy documentation; floating point is idealised to [Qc]. *)
From Coq Require Export QArith Qcanon.
From Verif Require Import Base.
Open Scope nat_scope.

(** A 2-d array: the list of its rows. *)
Definition mat := list (list Qc).
Definition get (m : mat) (i j : nat) : Qc := nth j (nth i m []) 0%Qc.

(** An integer converted to float. *)
Definition qz (z : Z) : Qc := Q2Qc (inject_Z z).
Definition qn (n : nat) : Qc := qz (Z.of_nat n).

(** np.zeros((n, m)), np.eye(n), np.ones(n) as first column (np.column_stack). *)
Definition zeros (n m : nat) : mat := repeat (repeat 0%Qc m) n.
Definition eye (n : nat) : mat := map (fun i => map (fun j => if Nat.eqb i j then 1%Qc else 0%Qc) (seq 0 n)) (seq 0 n).
Definition with_ones (m : mat) : mat := map (cons 1%Qc) m.
(** np.triu_indices(n), np.tril_indices(n), np.diag_indices(n): in row-major order. *)
Definition triu_indices (n : nat) : list (nat * nat) := flat_map (fun i => map (pair i) (seq i (n - i))) (seq 0 n).
Definition tril_indices (n : nat) : list (nat * nat) := flat_map (fun i => map (pair i) (seq 0 (S i))) (seq 0 n).
Definition diag_indices (n : nat) : list (nat * nat) := map (fun i => (i, i)) (seq 0 n).
(** np.arange(a, b) *)
Definition arange (a b : nat) : list nat := seq a (b - a).
(** np.repeat(xs, counts) *)
Definition np_repeat (xs counts : list nat) : list nat :=
  flat_map (fun p => repeat (fst p) (snd p)) (List.combine xs counts).

Fixpoint set_nth {A} (l : list A) (i : nat) (x : A) : list A :=
  match l, i with
  | [], _ => []
  | _ :: l, 0 => x :: l
  | y :: l, S i => y :: set_nth l i x
  end.
(** m[i, j] = v *)
Definition set_entry (m : mat) (i j : nat) (v : Qc) : result mat :=
  if Nat.ltb i (length m) && Nat.ltb j (length (nth i m []))
  then Ok (set_nth m i (set_nth (nth i m []) j v))
  else Err IndexError.
(** m[rows, cols] = vals: element by element, in order. *)
Definition assign (m : mat) (idx : list (nat * nat)) (vals : list Qc) : result mat :=
  if Nat.eqb (length idx) (length vals)
  then foldM (fun m p => set_entry m (fst (fst p)) (snd (fst p)) (snd p)) (List.combine idx vals) m
  else Err (ValueError "shape mismatch").
Definition assign_scalar (m : mat) (idx : list (nat * nat)) (v : Qc) : result mat :=
  assign m idx (repeat v (length idx)).
