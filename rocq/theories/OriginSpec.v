(** Specification of origin combination. *)
From Verif Require Import Base.

(** [o] contains [i]. *)
Definition contains (o i : origin) : Prop :=
  o_code o = o_code i /\ o_start o <= o_start i /\ o_end i <= o_end o.

(** [o] is the smallest origin containing all the given ones. *)
Definition hull (l : list (option origin)) (o : origin) : Prop :=
  (forall i, In (Some i) l -> contains o i) /\
  (forall o', (forall i, In (Some i) l -> contains o' i) -> contains o' o).

(** All given origins are in the same code string. *)
Definition same_code (l : list (option origin)) : Prop :=
  forall i j, In (Some i) l -> In (Some j) l -> o_code i = o_code j.
