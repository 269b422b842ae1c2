(** Property C05 of patsy/origin.py. *)
From Verif Require Import Base OriginModel OriginSpec OriginProofs.

(** C05.  [combine] is [None] exactly when there is no origin at all. *)
Theorem origin_combine_none : forall l, combine l = Ok None <-> forall i, ~ In (Some i) l.
Proof. exact combine_none_iff. Qed.
Print Assumptions origin_combine_none.

(** C05.  Otherwise it is the smallest origin containing all of them (all origins
    must be in the same code string). *)
Theorem origin_combine_hull : forall l o, combine l = Ok (Some o) <->
  (exists i, In (Some i) l) /\ same_code l /\ hull l o.
Proof. exact combine_some_iff. Qed.
Print Assumptions origin_combine_hull.

(** C05.  Order and repetition of the arguments are irrelevant. *)
Theorem origin_combine_order : forall l1 l2,
  (forall x, In x l1 <-> In x l2) -> combine l1 = combine l2.
Proof. exact combine_order. Qed.
Print Assumptions origin_combine_order.

Example origin_combine_ex :
  combine [Some (mkOrigin "012345" 4 5); None; Some (mkOrigin "012345" 2 4)]
  = Ok (Some (mkOrigin "012345" 2 5)).
Proof. reflexivity. Qed.
