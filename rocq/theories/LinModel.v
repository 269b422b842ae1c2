(** Linear algebra of numpy and scipy used by the spline code, in exact arithmetic. *)
From Verif Require Import Base NumModel.
Open Scope nat_scope.
Open Scope list_scope.

(** np.dot of two vectors. *)
Fixpoint dot (r x : list Qc) : Qc :=
  match r, x with a :: r, b :: x => (a * b + dot r x)%Qc | _, _ => 0%Qc end.
(** [m[:, c]] *)
Definition column (m : mat) (c : nat) : list Qc := map (fun r => nth c r 0%Qc) m.
(** np.transpose of a matrix with [ncols] columns. *)
Definition transpose (ncols : nat) (m : mat) : mat := map (column m) (seq 0 ncols).
(** np.dot(a, b), [b] with [ncols] columns. *)
Definition matmul (a : mat) (ncols : nat) (b : mat) : mat := map (fun r => map (fun c => dot r (column b c)) (seq 0 ncols)) a.

(** Gaussian elimination.  A row: its coefficients and its right-hand side. *)
Definition eqn := (list Qc * Qc)%type.
(** The first row with a nonzero first coefficient, and the other rows. *)
Fixpoint pick (rows : list eqn) : option (Qc * list Qc * Qc * list eqn) :=
  match rows with
  | [] => None
  | (r, b) :: rest =>
      let a := hd 0%Qc r in
      if Qc_eq_bool a 0%Qc
      then match pick rest with Some (a', p, b', others) => Some (a', p, b', (r, b) :: others) | None => None end
      else Some (a, tl r, b, rest)
  end.
(** [r - t p] for vectors of the same length. *)
Fixpoint axpy (r : list Qc) (t : Qc) (p : list Qc) : list Qc :=
  match r, p with x :: r, y :: p => (x - t * y)%Qc :: axpy r t p | _, _ => [] end.
Definition eliminate (a : Qc) (p : list Qc) (b : Qc) (e : eqn) : eqn :=
  let t := (hd 0%Qc (fst e) / a)%Qc in (axpy (tl (fst e)) t p, snd e - t * b)%Qc.
Fixpoint gauss (n : nat) (rows : list eqn) : option (list Qc) :=
  match n with
  | 0 => Some []
  | S n =>
      match pick rows with
      | None => None
      | Some (a, p, b, others) =>
          match gauss n (map (eliminate a p b) others) with
          | None => None
          | Some x => Some (((b - dot p x) / a)%Qc :: x)
          end
      end
  end.
(** np.linalg.solve(b, d) and scipy.linalg.solve_banded, for a square [b] and [d] with [m] columns: the [f]
    with [b f = d], or LinAlgError for a singular [b]. *)
Definition np_solve (b : mat) (m : nat) (d : mat) : result mat :=
  let n := List.length b in
  let* xs := mapM (fun c => match gauss n (combine b (column d c)) with
                            | Some x => Ok x
                            | None => Err (ValueError "Singular matrix") end) (seq 0 m) in
  Ok (transpose n xs).
