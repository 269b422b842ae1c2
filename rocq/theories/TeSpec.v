(** Surfaces made of several margins (C108). *)
From Coq Require Import ZArith.
From Verif Require Import Base NumModel RankSpec ContrastSpec StateModel LinModel SplineModel SplineSpec CrsSpec.
Open Scope nat_scope.
Open Scope list_scope.

(** A surface has a weight for each choice of one column from every margin, in row-major order.  Its value where the
    margins have the rows [rows]: *)
Definition surface (theta : list Qc) (rows : list (list Qc)) : Qc := inner (all_products rows) theta.
Definition n_choices (ks : list nat) : nat := fold_right Nat.mul 1 ks.
(** Arguments of te() with [ks] columns each and [nrows] rows; row [i] of each. *)
Definition margins (ks : list nat) (nrows : nat) (args : list arr) : Prop :=
  Forall2 (fun k a => fst (to_2d a) = k /\ has_shape nrows k (snd (to_2d a))) ks args.
Definition rows_at (args : list arr) (i : nat) : list (list Qc) := map (fun a => nth i (snd (to_2d a)) []) args.
Definition n_rows (args : list arr) : nat := match args with [] => 0 | a :: _ => length (snd (to_2d a)) end.
(** Constraints on the weights. *)
Definition n_constraints (cn : option (nat * mat)) : nat := match cn with None => 0 | Some c => length (snd c) end.
Definition constraint_for (cn : option (nat * mat)) (n : nat) : Prop := match cn with None => True | Some c => fst c = n /\ Forall (fun row => length row = n) (snd c) end.
Definition satisfies (cn : option (nat * mat)) (theta : list Qc) : Prop := match cn with None => True | Some c => Forall (fun row => inner row theta = 0%Qc) (snd c) end.
Definition independent_constraints (cn : option (nat * mat)) : Prop := match cn with None => True | Some c => independent_rows (fst c) (snd c) end.
(** With the coefficients [gam] the columns of te(), for any arguments with [ks] columns, add up to the surface. *)
Definition te_draws (qr : nat -> mat -> result (mat * mat)) (cn : option (nat * mat)) (ks : list nat) (gam theta : list Qc) : Prop :=
  forall nrows args k dm, margins ks nrows args -> te_transform qr cn args = Ok (k, dm) ->
    length gam = k /\ forall i, i < nrows -> inner (nth i dm []) gam = surface theta (rows_at args i).
(** Rows that tell apart all coefficients: only zeros give zero everywhere. *)
Definition telling (k : nat) (R : list Qc -> Prop) : Prop :=
  (forall r, R r -> length r = k) /\ forall c : list Qc, length c = k -> (forall r, R r -> inner r c = 0%Qc) -> c = repeat 0%Qc k.
