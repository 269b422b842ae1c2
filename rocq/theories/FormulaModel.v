(** Model of [ModelDesc.from_formula] on formula text (given as Python tokens) and of
    [ModelDesc.describe] (patsy/desc.py). *)
From Verif Require Import Base OriginModel InfixModel UtilModel DescModel TokensModel ParseFormulaModel.

Section FromFormula.
(** [normalize_token_spacing] and "does [float] accept it", see DescModel and
    ParseFormulaModel. *)
Variable norm : string -> string.
Variable is_float : string -> bool.

(** desc.py:164-181 [ModelDesc.from_formula] on a string whose Python tokens are [it]. *)
Definition from_formula (it : list pytok) (tail : option exn) : result model_desc :=
  let* tree := parse_formula is_float it tail [] in from_tree norm tree.
End FromFormula.

(** desc.py:62-67 [Term.name]; the name of a factor is its code (eval.py:485-486). *)
Definition term_name (t : term) : string :=
  match t with [] => "Intercept"%string | _ => String.concat ":" t end.

(** desc.py:142-146 [term_code]. *)
Definition term_code (t : term) : string :=
  if term_eqb t INTERCEPT then "1"%string else term_name t.

(** desc.py:153 [self.rhs_termlist == [INTERCEPT]]: Python list equality. *)
Definition termlist_eqb (a b : list term) : bool :=
  Nat.eqb (List.length a) (List.length b) && forallb (fun p => term_eqb (fst p) (snd p)) (List.combine a b).

(** desc.py:130-162 [ModelDesc.describe]. *)
Definition describe (md : model_desc) : string :=
  let result := String.concat " + " (map term_code (lhs_termlist md)) in
  let result := if String.eqb result "" then "~ "%string else (result ++ " ~ ")%string in
  if termlist_eqb (rhs_termlist md) [INTERCEPT] then (result ++ term_code INTERCEPT)%string
  else
    let term_names := if term_in INTERCEPT (rhs_termlist md) then [] else ["0"%string] in
    let term_names := term_names ++
      map term_code (filter (fun t => negb (term_eqb t INTERCEPT)) (rhs_termlist md)) in
    (result ++ String.concat " + " term_names)%string.
