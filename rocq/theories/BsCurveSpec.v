(** What a spline is (C107). *)
From Coq Require Import ZArith.
From Verif Require Import Base NumModel RankSpec ContrastSpec.
Open Scope nat_scope.
Open Scope list_scope.

(** The polynomial with the coefficients [a], the constant one first. *)
Definition poly (a : list Qc) (x : Qc) : Qc := qsum (fun j => (nth j a 0 * x ^ j)%Qc) (seq 0 (length a)).
(** A power that starts at [k]: zero to the left of it. *)
Definition power_from (k : Qc) (n : nat) (x : Qc) : Qc := if Qclt_le_dec x k then 0%Qc else ((x - k) ^ n)%Qc.
(** A spline of degree [p] with the knots [knots]: a polynomial of degree [p] at most, which at each knot may change by
    a multiple of the [p]-th power from there on, and, where there are several knots in one place, of as many lower ones. *)
Definition spline (p : nat) (knots : list Qc) (f : Qc -> Qc) : Prop :=
  exists (a : list Qc) (js : list (Qc * nat * Qc)), length a <= S p /\
    Forall (fun j => let '(k, m, _) := j in m < count_occ Qc_eq_dec knots k /\ m <= p) js /\
    forall x, f x = (poly a x + qsum (fun j => let '(k, m, b) := j in (b * power_from k (p - m) x)%Qc) js)%Qc.
