(** What a B-spline basis is. *)
From Coq Require Import ZArith Sorted Permutation.
From Verif Require Import Base NumModel RankSpec ContrastSpec.
Open Scope nat_scope.
Open Scope list_scope.

(** Division, 0/0 being 0. *)
Definition ratio (a b : Qc) : Qc := if Qc_eq_dec b 0%Qc then 0%Qc else (a / b)%Qc.
(** The Cox-de Boor recursion: the [i]-th B-spline of degree [p] on the knots [t], at an [x] in interval [l]. *)
Fixpoint bspline (t : nat -> Qc) (l p i : nat) (x : Qc) : Qc :=
  match p with
  | 0 => if i =? l then 1%Qc else 0%Qc
  | S q => (ratio (x - t i) (t (i + p)%nat - t i) * bspline t l q i x
            + ratio (t (i + p + 1)%nat - x) (t (i + p + 1)%nat - t (i + 1)%nat) * bspline t l q (i + 1) x)%Qc
  end.
(** [x] is in interval number [l] of the intervals [from .. last]: closed on the left and open on the right,
    except that the last one is closed. *)
Definition in_interval (t : nat -> Qc) (from last : nat) (x : Qc) (l : nat) : Prop :=
  from <= l /\ l <= last /\ (t l <= x)%Qc /\ ((x < t (l + 1)%nat)%Qc \/ l = last /\ (x <= t (l + 1)%nat)%Qc).

(** The least and greatest of some values. *)
Definition least (l : list Qc) (m : Qc) : Prop := In m l /\ forall v, In v l -> (m <= v)%Qc.
Definition greatest (l : list Qc) (m : Qc) : Prop := In m l /\ forall v, In v l -> (v <= m)%Qc.
(** A bound: as given, or from the data. *)
Definition lower_is (given : option Qc) (x : list Qc) (lo : Qc) : Prop :=
  match given with Some l => lo = l | None => least x lo end.
Definition upper_is (given : option Qc) (x : list Qc) (hi : Qc) : Prop :=
  match given with Some u => hi = u | None => greatest x hi end.
Definition nondecreasing (l : list Qc) : Prop := StronglySorted Qcle l.
(** The knots: [lo] and [hi] as often as the degree plus one, around the sorted inner knots. *)
Definition padded (lo hi : Qc) (order : nat) (inner t : list Qc) : Prop :=
  exists s, Permutation inner s /\ nondecreasing s /\ t = repeat lo order ++ s ++ repeat hi order.
