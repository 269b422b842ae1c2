(** Constraints on the columns of a design. *)
From Verif Require Import Base NumModel BuildModel ConstraintModel.

(** design_info.py:506-555 [DesignInfo.linear_constraint]; [linear_constraint] is constraint.py:375-437. *)
Definition design_constraint {V} (d : @design_info V) (like : constraint_like) : result lcon := linear_constraint like (column_names d).
