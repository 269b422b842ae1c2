(** Model of [DesignInfo.describe] (design_info.py). *)
From Verif Require Import Base UtilModel DescModel BuildModel.
Open Scope string_scope.

Section Describe.
Context {V : Type}.
(** design_info.py:426-429 [term_names]. *)
Definition di_term_names (d : @design_info V) : list string := map fst (di_name_slices d).
(** design_info.py:557-588 [DesignInfo.describe]. *)
Definition di_describe (d : @design_info V) : string :=
  let names := map (fun name => if String.eqb name "Intercept" then "1" else name) (di_term_names d) in
  String.concat " + " names.
End Describe.
