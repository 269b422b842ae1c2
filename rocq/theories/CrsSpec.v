(** Piecewise polynomials: cubic splines. *)
From Coq Require Import ZArith.
From Verif Require Import Base NumModel RankSpec ContrastSpec StateModel LinModel SplineModel SplineSpec.
Open Scope nat_scope.
Open Scope list_scope.

(** Polynomials by their coefficients, the constant one first. *)
Fixpoint peval (p : list Qc) (x : Qc) : Qc := match p with [] => 0%Qc | c :: p => (c + x * peval p x)%Qc end.
Fixpoint pderiv_from (k : nat) (p : list Qc) : list Qc := match p with [] => [] | c :: p => (qn k * c)%Qc :: pderiv_from (S k) p end.
Definition pderiv (p : list Qc) : list Qc := pderiv_from 1 (tl p).
(** [p] at [x] and [q] at [y] have the same value, slope and curvature. *)
Definition meet (p : list Qc) (x : Qc) (q : list Qc) (y : Qc) : Prop :=
  peval p x = peval q y /\ peval (pderiv p) x = peval (pderiv q) y /\ peval (pderiv (pderiv p)) x = peval (pderiv (pderiv q)) y.

(** A natural cubic spline: a cubic polynomial between any two knots, linear outside, twice continuously
    differentiable. *)
Definition natural_spline (knots : list Qc) (left : list Qc) (pieces : list (list Qc)) (right : list Qc) : Prop :=
  length pieces = length knots - 1 /\ Forall (fun p => length p <= 4) pieces /\ length left <= 2 /\ length right <= 2 /\
  forall i, i < length knots -> let all := left :: pieces ++ [right] in meet (nth i all []) (nth i knots 0%Qc) (nth (i + 1) all []) (nth i knots 0%Qc).
Definition on_line (knots : list Qc) (left : list Qc) (pieces : list (list Qc)) (right : list Qc) (s : Qc -> Qc) : Prop :=
  (forall x, (x <= first_knot knots)%Qc -> s x = peval left x) /\ (forall x, (last_knot knots <= x)%Qc -> s x = peval right x) /\
  forall i x, i + 1 < length knots -> (nth i knots 0 <= x)%Qc -> (x <= nth (i + 1) knots 0)%Qc -> s x = peval (nth i pieces []) x.
Definition is_natural_spline (knots : list Qc) (s : Qc -> Qc) : Prop :=
  exists left pieces right, natural_spline knots left pieces right /\ on_line knots left pieces right s.

(** A cyclic cubic spline: a cubic polynomial between any two knots, twice continuously differentiable also
    where the last piece meets the first, repeated with the distance of the outer knots as its period. *)
Definition cyclic_spline (knots : list Qc) (pieces : list (list Qc)) : Prop :=
  length pieces = length knots - 1 /\ Forall (fun p => length p <= 4) pieces /\
  (forall i, i + 2 < length knots -> meet (nth i pieces []) (nth (i + 1) knots 0%Qc) (nth (i + 1) pieces []) (nth (i + 1) knots 0%Qc)) /\
  meet (nth (length knots - 2) pieces []) (last_knot knots) (nth 0 pieces []) (first_knot knots).
Definition on_circle (knots : list Qc) (pieces : list (list Qc)) (s : Qc -> Qc) : Prop :=
  (forall i x, i + 1 < length knots -> (nth i knots 0 <= x)%Qc -> (x <= nth (i + 1) knots 0)%Qc -> s x = peval (nth i pieces []) x) /\
  forall x z, s (x + qz z * (last_knot knots - first_knot knots))%Qc = s x.
Definition is_cyclic_spline (knots : list Qc) (s : Qc -> Qc) : Prop :=
  exists pieces, cyclic_spline knots pieces /\ on_circle knots pieces s.

(** * Constraints *)
(** A QR decomposition of a matrix [a] with [n] rows and [k] columns: the columns of [q] are orthogonal, [r] is
    upper triangular and [a = q r].  (Those of scipy's [q] also have length 1, for which rational numbers do not
    suffice; nothing here depends on their lengths.) *)
Definition is_qr (n k : nat) (a q r : mat) : Prop :=
  has_shape n n q /\ has_shape n k r /\
  (forall i j, i < n -> j < n -> i <> j -> qsum (fun l => get q l i * get q l j)%Qc (seq 0 n) = 0%Qc) /\
  (forall i, i < n -> qsum (fun l => get q l i * get q l i)%Qc (seq 0 n) <> 0%Qc) /\
  (forall i j, j < i -> get r i j = 0%Qc) /\
  forall i j, i < n -> j < k -> get a i j = qsum (fun l => get q i l * get r l j)%Qc (seq 0 n).
Definition qr_sound (qr : nat -> mat -> result (mat * mat)) : Prop :=
  forall n k a q r, has_shape n k a -> qr n a = Ok (q, r) -> is_qr n k a q r.
(** No combination of the rows is zero. *)
Definition independent_rows (k : nat) (rows : mat) : Prop :=
  forall w : nat -> Qc, (forall l, l < k -> qsum (fun i => get rows i l * w i)%Qc (seq 0 (length rows)) = 0%Qc) -> forall i, i < length rows -> w i = 0%Qc.
Definition inner (a b : list Qc) : Qc := qsum (fun i => nth i a 0 * nth i b 0)%Qc (seq 0 (length a)).

(** * The curves of cr() and cc() *)
Definition is_spline (cyclic : bool) (knots : list Qc) (s : Qc -> Qc) : Prop :=
  if cyclic then is_cyclic_spline knots s else is_natural_spline knots s.
(** Fewer knots are no good: see [cr_two_knots_fail] and [cc_few_knots_refuted]. *)
Definition enough_knots (cyclic : bool) (knots : list Qc) : Prop := (if cyclic then 4 else 3) <= length knots.
(** The knots where the curve takes the values of the coefficients. *)
Definition free_knots (cyclic : bool) (knots : list Qc) : list Qc := if cyclic then removelast knots else knots.
(** What a constraint demands of a curve; [x] is the training data. *)
Definition meets_constraint (c : constr) (knots x : list Qc) (s : Qc -> Qc) : Prop :=
  match c with
  | NoConstraint => True
  | Centering => qsum s x = 0%Qc
  | Constraint _ rows => Forall (fun row => inner row (map s knots) = 0%Qc) rows
  end.
Definition well_formed (c : constr) : Prop := match c with Constraint k rows => Forall (fun r => length r = k) rows | _ => True end.
Definition independent (c : constr) : Prop := match c with Constraint k rows => independent_rows k rows | _ => True end.
(** With coefficients [gam], the columns for any data add up to the values of the curve. *)
Definition draws (qr : nat -> mat -> result (mat * mat)) (cyclic : bool) (st : crs) (k : nat) (gam : list Qc) (s : Qc -> Qc) : Prop :=
  forall y v, as_vector y = Ok v -> exists dm, crs_transform qr cyclic st y = Ok (k, dm) /\ map (fun row => inner row gam) dm = map s v.

(** A piece of data for te(): arguments with the same number of rows, whose columns multiply to [k]. *)
Definition te_piece (k : nat) (args : list arr) : Prop :=
  args <> [] /\ (exists nrows, Forall (fun a => 0 < fst (to_2d a) /\ has_shape nrows (fst (to_2d a)) (snd (to_2d a))) args) /\
  fold_right Nat.mul 1 (map (fun a => fst (to_2d a)) args) = k.
