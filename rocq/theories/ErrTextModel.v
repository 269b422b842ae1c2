(** Model of the rest of patsy/origin.py: equality, hash and text of origins. *)
From Coq Require Import Ascii.
From Verif Require Import Base OriginModel BuildModel.
Open Scope string_scope.

(** origin.py:79-88 [Origin.__eq__] of two origins; [Origin.__ne__] is its negation. *)
Definition origin_eq (a b : origin) : bool :=
  String.eqb (o_code a) (o_code b) && Nat.eqb (o_start a) (o_start b) && Nat.eqb (o_end a) (o_end b).
Definition origin_ne (a b : origin) : bool := negb (origin_eq a b).
(** origin.py:90-91 [Origin.__hash__]: the tuple that is hashed. *)
Definition origin_hash_key (o : origin) : string * nat * nat := (o_code o, o_start o, o_end o).
(** origin.py:112-119 [Origin.__repr__] *)
Definition origin_repr (o : origin) : string :=
  "<Origin " ++ String.substring 0 (o_start o) (o_code o) ++ "->" ++ relevant_code o ++ "<-" ++
  String.substring (o_end o) (String.length (o_code o) - o_end o) (o_code o) ++
  " (" ++ nat_str (o_start o) ++ "-" ++ nat_str (o_end o) ++ ")>".
