(** When two data objects, and two environments, are the same for a formula: what it mentions has the same values. *)
From Verif Require Import Base TokensModel EvalModel DescModel CodeModel CodeSpec.

Section Spec.
Context {val op D1 D2 : Type}.
(** What is found under a name, in data of one kind and in data of the other. *)
Variable look1 : D1 -> @namespace val.
Variable look2 : D2 -> @namespace val.
Variable pybuiltins : @namespace val.
Variable stateful : val -> bool.
Variable builtins : @namespace val.
Variable e : @env val.
Variable tree : factor -> @cx op.
(** What a name stands for: the first of data, environment, patsy's builtins and Python's builtins that has it. *)
Definition stands {D} (look : D -> @namespace val) (d : D) (s : string) : option val :=
  match look d s with
  | Some v => Some v
  | None => match vlookup (List.app e (builtins :: nil)) s with Some v => Some v | None => pybuiltins s end
  end.
(** The names in the text of the factors stand for the same values, or none, with both (so a variable may be in one
    and not in the other, if it is in the environment); and none has a variable named like the objects made for
    stateful transforms. *)
Record same_variables (fs : list factor) (d1 : D1) (d2 : D2) : Prop := mkSame {
  same_values : forall f s, List.In f fs -> List.In s (tree_names (tree f)) -> stands look1 d1 s = stands look2 d2 s;
  no_objects_1 : forall f, List.In f fs -> no_object_columns look1 stateful builtins e (tree f) d1;
  no_objects_2 : forall f, List.In f fs -> no_object_columns look2 stateful builtins e (tree f) d2 }.
(** The names in the text of the factors have the same values, or none, in two environments (with patsy's
    builtins). *)
Definition same_environment (e' : @env val) (fs : list factor) : Prop :=
  forall f s, List.In f fs -> List.In s (tree_names (tree f)) -> vlookup (List.app e (builtins :: nil)) s = vlookup (List.app e' (builtins :: nil)) s.
End Spec.
