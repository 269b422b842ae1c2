(** Model of how terms, model descriptions and patsy's other objects are shown by [repr]: patsy/util.py:475-548
    (_MiniPPrinter, _mini_pretty, repr_pretty_delegate, repr_pretty_impl) and the [__repr__]s and
    [_repr_pretty_]s that use them.  IPython is taken not to be loaded (util.py:522-525).

    Strings are sequences of one-byte characters.  [printable] says which characters beyond ASCII Python's
    [repr] shows as they are; it is arbitrary.  The recursion of [repr] through the printer is bounded by a
    depth, [Err OutOfFuel] is Python's RecursionError. *)
From Coq Require Import Ascii.
From Verif Require Import Base BuildModel DescModel OriginModel.
Open Scope string_scope.
Open Scope list_scope.

(** What [repr] and the printer see of an object. *)
Inductive pyobj :=
| OStr (s : string)                                  (* a str *)
| OText (s : string)                                 (* an object of Python or numpy, whose repr is s *)
| OList (l : list pyobj)                             (* a list *)
| OPercent (cls : string) (args : list pyobj)        (* [__repr__] is "%s(%r, ...)" % (class name, args...) *)
| OPretty (cls : string) (args : list pyobj) (kwargs : list (string * pyobj))
                                                     (* [_repr_pretty_] is repr_pretty_impl(p, self, args, kwargs) *)
| ODelegate (cls : string).                          (* [__repr__] is repr_pretty_delegate, but no [_repr_pretty_] *)

Section Repr.
Variable printable : ascii -> bool.

(** Python's [repr] of a str: the quotes, and the escapes. *)
Definition hex_char (n : nat) : ascii := ascii_of_nat (if Nat.ltb n 10 then 48 + n else 87 + n).
Definition escape (q c : ascii) : string :=
  if Ascii.eqb c q || Ascii.eqb c "\" then String "\" (String c "")
  else if Ascii.eqb c "009" then "\t" else if Ascii.eqb c "010" then "\n" else if Ascii.eqb c "013" then "\r"
  else let n := nat_of_ascii c in
    if Nat.ltb n 32 || Nat.eqb n 127 || (Nat.leb 128 n && negb (printable c))
    then String "\" (String "x" (String (hex_char (n / 16)) (String (hex_char (n mod 16)) "")))
    else String c "".
Fixpoint has_char (c : ascii) (s : string) : bool :=
  match s with "" => false | String d r => Ascii.eqb d c || has_char c r end.
Definition quote_for (s : string) : ascii := if has_char "'" s && negb (has_char """" s) then """" else "'".
Fixpoint escaped (q : ascii) (s : string) : string := match s with "" => "" | String c r => (escape q c ++ escaped q r)%string end.
Definition str_repr (s : string) : string := let q := quote_for s in String q (escaped q s ++ String q "")%string.

(** util.py:532-536 [new_item]: the printer's text, and [started]. *)
Definition new_item (st : bool * string) : bool * string := (true, if fst st then (snd st ++ "," ++ " ")%string else snd st).
(** util.py:528-548 [repr_pretty_impl]; [pretty] is [p.pretty], and [out] what [p] has been given so far. *)
Definition repr_pretty_impl (pretty : pyobj -> string -> result string) (name : string) (args : list pyobj) (kwargs : list (string * pyobj)) (out : string) : result string :=
  let* st := foldM (fun st arg => let st := new_item st in let* out := pretty arg (snd st) in Ok (fst st, out))
               args (false, out ++ name ++ "(")%string in
  let* st := foldM (fun st lv => let st := new_item st in let* out := pretty (snd lv) (snd st ++ fst lv ++ "=")%string in Ok (fst st, out))
               kwargs st in
  Ok (snd st ++ ")")%string.

(** [repr(obj)].  A list shows the [repr] of its elements; patsy's classes are either shown by their own format
    (eval.py:75-76, 485-486, user_util.py:217-218, infix_parser.py:47-48, 103-109) or by util.py:508-525
    [repr_pretty_delegate], which is util.py:502-505 [_mini_pretty]: a new printer, [pretty], and its text. *)
Fixpoint py_repr (depth : nat) (o : pyobj) : result string :=
  match depth with
  | 0 => Err OutOfFuel
  | S n =>
      match o with
      | OStr s => Ok (str_repr s)
      | OText s => Ok s
      | OList l => let* ts := mapM (py_repr n) l in Ok ("[" ++ String.concat ", " ts ++ "]")%string
      | OPercent cls args => let* ts := mapM (py_repr n) args in Ok (cls ++ "(" ++ String.concat ", " ts ++ ")")%string
      | OPretty _ _ _ | ODelegate _ => pp_pretty n o ""
      end
  end
(** util.py:492-496 [_MiniPPrinter.pretty]: [_repr_pretty_] if the object has one, else its [repr]. *)
with pp_pretty (depth : nat) (o : pyobj) (out : string) : result string :=
  match depth with
  | 0 => Err OutOfFuel
  | S n =>
      match o with
      | OPretty cls args kwargs => repr_pretty_impl (pp_pretty n) cls args kwargs out
      | _ => let* t := py_repr n o in Ok (out ++ t)%string
      end
  end.
End Repr.

(** eval.py:485-486 [EvalFactor.__repr__] *)
Definition show_factor (f : factor) : pyobj := OPercent "EvalFactor" [OStr f].
(** user_util.py:217-218 [LookupFactor.__repr__]: whatever else it was told, it shows its variable. *)
Definition show_lookup (varname : string) : pyobj := OPercent "LookupFactor" [OStr varname].
(** desc.py:56-60 [Term._repr_pretty_] *)
Definition show_term (t : term) : pyobj := OPretty "Term" [OList (map show_factor t)] [].
(** desc.py:119-128 [ModelDesc._repr_pretty_] *)
Definition show_desc (d : model_desc) : pyobj :=
  OPretty "ModelDesc" [] [("lhs_termlist", OList (map show_term (lhs_termlist d))); ("rhs_termlist", OList (map show_term (rhs_termlist d)))].
(** desc.py:222-230 [IntermediateExpr]: its method is called [_pretty_repr_], which no one looks for. *)
Definition show_intermediate (e : inter_expr) : pyobj := ODelegate "IntermediateExpr".
(** design_info.py:229-242 [SubtermInfo._repr_pretty_]; [contrasts] is the repr of the dict. *)
Definition show_subterm (factors : list factor) (contrasts : string) (num_columns : nat) : pyobj :=
  OPretty "SubtermInfo" [] [("factors", OList (map show_factor factors)); ("contrast_matrices", OText contrasts); ("num_columns", OText (nat_str num_columns))].
(** design_info.py:103-126 [FactorInfo._repr_pretty_]; [categories] is the repr of the tuple, for a categorical factor. *)
Definition show_factor_info (f : factor) (kind : nat + string) : pyobj :=
  OPretty "FactorInfo" []
    ([("factor", show_factor f); ("type", OStr (match kind with inl _ => "numerical" | inr _ => "categorical" end)); ("state", OText "<factor state>")]
     ++ [match kind with inl n => ("num_columns", OText (nat_str n)) | inr cats => ("categories", OText cats) end]).
(** design_info.py:403-412 [DesignInfo._repr_pretty_]; [infos] and [codings] are the reprs of the two dicts. *)
Definition show_design (column_names : list string) (infos codings : string) : pyobj :=
  OPretty "DesignInfo" [OList (map OStr column_names)] [("factor_infos", OText infos); ("term_codings", OText codings)].
(** constraint.py:69-75 [LinearConstraint._repr_pretty_] *)
Definition show_constraint (names : list string) (coefs constants : string) : pyobj :=
  OPretty "LinearConstraint" [OList (map OStr names); OText coefs; OText constants] [].
(** contrasts.py:48-51 [ContrastMatrix._repr_pretty_] *)
Definition show_contrast (matrix : string) (suffixes : list string) : pyobj :=
  OPretty "ContrastMatrix" [OText matrix; OList (map OStr suffixes)] [].
(** origin.py:112-119 [Origin.__repr__] *)
Definition origin_repr (o : origin) : string :=
  ("<Origin " ++ substring 0 (o_start o) (o_code o) ++ "->" ++ substring (o_start o) (o_end o - o_start o) (o_code o) ++ "<-"
   ++ substring (o_end o) (String.length (o_code o) - o_end o) (o_code o) ++ " (" ++ nat_str (o_start o) ++ "-" ++ nat_str (o_end o) ++ ")>")%string.
(** eval.py:75-76 [VarLookupDict.__repr__]; [dicts] are the reprs of its dicts. *)
Definition show_lookup_dict (dicts : list string) : pyobj := OPercent "VarLookupDict" [OList (map OText dicts)].
