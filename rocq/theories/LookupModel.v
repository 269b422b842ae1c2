(** Model of [LookupFactor] (user_util.py:172-258); its equality and hash are in EvalModel. *)
From Coq Require Import ZArith.
From Verif Require Import Base UtilModel DescModel BuildModel CategoricalModel PipeModel.
Open Scope string_scope.
Open Scope nat_scope.

Section Lookup.
Context {V I C val : Type}.
(** What the pipeline reads off a value. *)
Variable as_obj : val -> @fobj V I C.

(** user_util.py:203-207: the attributes. *)
Record lookup_factor := mkLookup { lk_varname : string; lk_force : bool; lk_contrast : option C; lk_levels : option (list pval); lk_origin : option origin }.
(** user_util.py:200-212 [LookupFactor.__init__]. *)
Definition lookup_init (varname : string) (force : bool) (contrast : option C) (levels : option (list pval)) (origin : option origin) : result lookup_factor :=
  if negb force && is_some contrast then Err (ValueError "contrast= requires force_categorical=True")
  else if negb force && is_some levels then Err (ValueError "levels= requires force_categorical=True")
  else Ok (mkLookup varname force contrast levels origin).
(** user_util.py:214-215 [name]. *)
Definition lookup_name (f : lookup_factor) : string := lk_varname f.

(** Data: a dictionary from names to what is stored there. *)
Definition lookup_data := list (string * val).
(** user_util.py:243-250 [memorize_passes_needed], [memorize_chunk], [memorize_finish]; the state is not used. *)
Definition lookup_passes (f : lookup_factor) : result (unit * Z) := Ok (tt, 0%Z).
Definition lookup_chunk (f : lookup_factor) (s : unit) (pass : nat) (d : lookup_data) : result unit := Err AssertionError.
Definition lookup_finish (f : lookup_factor) (s : unit) (pass : nat) : result unit := Err AssertionError.
(** [C(value, contrast, levels)] (categorical.py:69-111) on what the pipeline looks at. *)
Definition C_obj (o : @fobj V I C) (contrast : option C) (levels : option (list pval)) : @fobj V I C :=
  mkObj (C_box (o_value o) contrast levels) (o_ndim o) (o_ncols o) (o_isnum o) (o_rows o) (o_index o).
(** user_util.py:252-256 [eval]. *)
Definition lookup_eval (f : lookup_factor) (s : unit) (d : lookup_data) : result (@fobj V I C) :=
  match dget String.eqb (lk_varname f) d with
  | None => Err KeyError
  | Some v => Ok (if lk_force f then C_obj (as_obj v) (lk_contrast f) (lk_levels f) else as_obj v)
  end.
End Lookup.
