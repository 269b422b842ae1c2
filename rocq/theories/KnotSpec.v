(** Quantiles, and which knots stand for a number of degrees of freedom. *)
From Coq Require Import ZArith Permutation.
From Verif Require Import Base NumModel SplineSpec BsSpec StateModel.
Open Scope nat_scope.

(** The values in order, at the places 0, 1, ...; in between on a straight line. *)
Inductive at_place (s : list Qc) (pos : Qc) : Qc -> Prop :=
| at_value i : i < length s -> pos = qn i -> at_place s pos (nth i s 0%Qc)
| at_between i : i + 1 < length s -> (qn i < pos)%Qc -> (pos < qn (i + 1))%Qc ->
    at_place s pos (nth i s 0 * (qn (i + 1) - pos) + nth (i + 1) s 0 * (pos - qn i))%Qc.
(** The [p]-quantile of [x], from the least value ([p] = 0) to the greatest ([p] = 1). *)
Definition quantile (x : list Qc) (p q : Qc) : Prop :=
  exists s, Permutation x s /\ nondecreasing s /\ at_place s (p * qn (length x - 1))%Qc q.
(** [ks] divides the data into [length ks + 1] equal shares. *)
Definition quantiles (x ks : list Qc) : Prop :=
  forall j, j < length ks -> quantile x (qn (j + 1) / qn (length ks + 1))%Qc (nth j ks 0%Qc).
(** [u] has the different values of [x] between the bounds. *)
Definition values_between (lo hi : Qc) (x u : list Qc) : Prop :=
  increasing u /\ forall v, In v u <-> In v x /\ (lo <= v)%Qc /\ (v <= hi)%Qc.
