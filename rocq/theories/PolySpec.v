(** Ordered fields with square roots, polynomials, and orthogonal polynomials. *)
From Coq Require Import Field_theory.
From Verif Require Import Base RankSpec.
Open Scope nat_scope.

(** The laws of an ordered field with square roots; the order is given by the function np.sign. *)
Record euclidean {K : Type} (kO kI : K) (kadd kmul ksub : K -> K -> K) (kopp : K -> K) (kdiv : K -> K -> K) (kinv : K -> K)
    (keqb : K -> K -> bool) (sqrt sgn : K -> K) : Prop := {
  e_field : field_theory kO kI kadd kmul ksub kopp kdiv kinv (@eq K);
  e_eqb : forall x y, keqb x y = true <-> x = y;
  e_sgn0 : sgn kO = kO;
  e_sgn : forall x, x <> kO -> sgn x = kI \/ sgn x = kopp kI;
  e_sgn_opp : forall x, sgn (kopp x) = kopp (sgn x);
  e_sgn_mul : forall x y, sgn (kmul x y) = kmul (sgn x) (sgn y);
  e_sgn_add : forall x y, sgn x = kI -> sgn y = kI -> sgn (kadd x y) = kI;
  e_sqrt : forall x, sgn x <> kopp kI -> kmul (sqrt x) (sqrt x) = x /\ sgn (sqrt x) <> kopp kI }.

Section Spec.
Context {K : Type} (kO kI : K) (kadd kmul : K -> K -> K) (sgn : K -> K).
Local Notation sum := (rsum kO kadd).

(** Polynomials of degree [j] with leading coefficient [c], as functions. *)
Inductive polynomial : nat -> K -> (K -> K) -> Prop :=
  | poly_const c f : (forall x, f x = c) -> polynomial 0 c f
  | poly_step j c a f g : polynomial j c g -> (forall x, f x = kadd a (kmul x (g x))) -> polynomial (S j) c f.

(** The orthogonal polynomials on the points [s 0], ..., [s (n-1)]: column [j] of [m] holds the values of a
    polynomial of degree [j] that increases in the end; different columns are orthogonal; column 0 is
    constant 1 and the others have length 1. *)
Definition orthogonal_polynomials (n : nat) (s : nat -> K) (m : nat -> nat -> K) : Prop :=
  (forall i, i < n -> m i 0 = kI) /\
  (forall j, 0 < j < n -> exists c f, polynomial j c f /\ sgn c = kI /\ forall i, i < n -> m i j = f (s i)) /\
  (forall j k, j < n -> k < j -> sum (fun i => kmul (m i j) (m i k)) (seq 0 n) = kO) /\
  (forall j, 0 < j < n -> sum (fun i => kmul (m i j) (m i j)) (seq 0 n) = kI).

(** A matrix by its rows. *)
Definition shaped (n p : nat) (m : list (list K)) : Prop := length m = n /\ Forall (fun row => length row = p) m.
(** A QR decomposition of a square matrix: [q] has orthogonal columns of length 1, [r] is upper triangular. *)
Definition unit_qr (n : nat) (a q r : nat -> nat -> K) : Prop :=
  (forall i j, i < n -> j < n -> sum (fun l => kmul (q l i) (q l j)) (seq 0 n) = kron kO kI i j) /\
  (forall i j, i < n -> j < i -> r i j = kO) /\
  forall i j, i < n -> j < n -> a i j = sum (fun l => kmul (q i l) (r l j)) (seq 0 n).
End Spec.
