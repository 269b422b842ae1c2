(** A change of units: every number that is measured in the units of the variable becomes [c] times itself plus
    [d] (C109). *)
From Coq Require Import ZArith.
From Verif Require Import Base NumModel StateModel SplineModel BsModel.
Open Scope nat_scope.
Open Scope list_scope.

Section Units.
Variables c d : Qc.
Definition conv (x : Qc) : Qc := (c * x + d)%Qc.
(** Data. *)
Definition conv_arr (x : arr) : arr :=
  match x with A0 q => A0 (conv q) | A1 l => A1 (map conv l) | A2 k rows => A2 k (map (map conv) rows) end.
(** The arguments of bs(), cr() and cc(): the knots and the bounds are in the units of the variable. *)
Definition conv_bs (a : bs_args) : bs_args :=
  mkBsArgs (bs_df a) (option_map (map conv) (bs_knots a)) (bs_degree a) (bs_intercept a) (option_map conv (bs_lower a)) (option_map conv (bs_upper a)).
Definition conv_crs (a : crs_args) : crs_args :=
  mkCrsArgs (crs_df a) (option_map (map conv) (crs_knots a)) (option_map conv (crs_lower a)) (option_map conv (crs_upper a)) (crs_constr a).
End Units.
(** A 2-d array has as many entries in each row as it has columns. *)
Definition proper (x : arr) : Prop := match x with A2 k rows => Forall (fun r => length r = k) rows | _ => True end.
