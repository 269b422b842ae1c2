(** Model of patsy/parse_formula.py.

    The Python tokenizer is external: the model starts from the list of Python
    tokens (type, string, origin) that [python_tokenize(code)] yields, together
    with the exception it ends with, if any (tokens.py:25-64). *)
From Verif Require Import Base OriginModel UtilModel TokensModel InfixModel DescModel.

Record pytok := mkPyTok { pt_type : pytype; pt_string : string; pt_origin : origin }.

(** parse_formula.py:24 [_atomic_token_types]. *)
Definition atomic_token_types : list ttype :=
  [TName "PYTHON_EXPR"; TName "ZERO"; TName "ONE"; TName "NUMBER"].

(** parse_formula.py:125-137 [_default_ops]. *)
Definition default_ops : list operator :=
  [mkOp (TName "~") 1 (-100);
   mkOp (TName "~") 2 (-100);
   mkOp (TName "+") 2 100;
   mkOp (TName "-") 2 100;
   mkOp (TName "*") 2 200;
   mkOp (TName "/") 2 200;
   mkOp (TName ":") 2 300;
   mkOp (TName "**") 2 500;
   mkOp (TName "+") 1 100;
   mkOp (TName "-") 1 100].

Section Tok.
(** [_is_a(float, s)] (parse_formula.py:27-33, 65): does Python's [float] accept
    the text?  External. *)
Variable is_float : string -> bool.

(** parse_formula.py:61-68: classification of an embedded expression. *)
Definition expr_type (text : string) : string :=
  if String.eqb text "0" then "ZERO"
  else if String.eqb text "1" then "ONE"
  else if is_some (py_int text) || is_float text then "NUMBER"
  else "PYTHON_EXPR".

(** parse_formula.py:44-57: the reading loop.  [acc] is the list of tokens read so
    far, latest first.  The iterator is a PushbackAdapter whose pending elements
    are, after the push-back of line 47, simply the rest of the list (C08).
    Result: bracket level, tokens, rest. *)
Fixpoint read_expr_loop (it : list pytok) (end_tokens : list string)
    (level : nat) (acc : list pytok) : result (nat * list pytok * list pytok) :=
  match it with
  | [] => Ok (level, rev acc, [])
  | t :: r =>
      if Nat.eqb level 0 && str_in (pt_string t) end_tokens then Ok (level, rev acc, it)
      else
        let level1 := if opens (pt_string t) then S level else level in
        if closes (pt_string t) then
          match level1 with
          | 0 => Err (PatsyError "unmatched close bracket" (Some (pt_origin t)))
          | S l => read_expr_loop r end_tokens l (t :: acc)
          end
        else read_expr_loop r end_tokens level1 (t :: acc)
  end.

(** parse_formula.py:37-73 [_read_python_expr].  [tail] is the exception with which
    the Python tokenizer ends; it surfaces when the loop runs into the end. *)
Definition read_python_expr (it : list pytok) (tail : option exn) (end_tokens : list string)
  : result (token * list pytok) :=
  let* (level, toks, rest) := read_expr_loop it end_tokens 0 [] in
  match rest, tail with
  | [], Some e => Err e
  | _, _ =>
    let* org := combine (map (fun t => Some (pt_origin t)) toks) in
    if Nat.eqb level 0 then
      let* text := pretty_untokenize (map (fun t => (pt_type t, pt_string t)) toks) in
      match org with
      | Some o => Ok (mkToken (TName (expr_type text)) o (Some text), rest)
      | None => Err AssertionError   (* no token read: cannot happen, see proofs *)
      end
    else Err (PatsyError "unclosed bracket in embedded Python expression" org)
  end.

(** parse_formula.py:79-84 [magic_token_types]. *)
Definition magic_type (operator_strings : list string) (s : string) : option ttype :=
  if str_in s operator_strings then Some (TName s)
  else if String.eqb s "(" then Some TLParen
  else if String.eqb s ")" then Some TRParen
  else None.

(** parse_formula.py:87-88 [end_tokens]: all magic strings but the open paren. *)
Definition end_tokens (operator_strings : list string) : list string :=
  operator_strings ++ [")"%string].

(** parse_formula.py:90-96: the generator, as the list of tokens it yields and the
    exception that ends it.  Each iteration consumes at least one Python token
    (proved), so [fuel] = number of tokens + 1 suffices. *)
Fixpoint tokenize_loop (fuel : nat) (ops : list string) (it : list pytok) (tail : option exn)
  : list token * option exn :=
  match fuel with
  | 0 => ([], Some OutOfFuel)
  | S fuel =>
    match it with
    | [] => ([], tail)
    | t :: r =>
        match magic_type ops (pt_string t) with
        | Some ty =>
            let '(l, e) := tokenize_loop fuel ops r tail in
            (mkToken ty (pt_origin t) None :: l, e)
        | None =>
            match read_python_expr it tail (end_tokens ops) with
            | Err e => ([], Some e)
            | Ok (tok, rest) =>
                let '(l, e) := tokenize_loop fuel ops rest tail in (tok :: l, e)
            end
        end
    end
  end.

(** parse_formula.py:76-96 [_tokenize_formula] (the assertions of lines 77-78 are
    a precondition on [ops]). *)
Definition tokenize_formula (it : list pytok) (tail : option exn) (ops : list string)
  : list token * option exn :=
  if str_in "(" ops || str_in ")" ops then ([], Some AssertionError)
  else tokenize_loop (S (List.length it)) ops it tail.

Definition op_string (o : operator) : list string :=
  match op_type o with TName s => [s] | _ => [] end.

(** parse_formula.py:144-146: check of user-supplied operators. *)
Fixpoint check_extra (extra : list operator) : result unit :=
  match extra with
  | [] => Ok tt
  | o :: r => if Z.ltb (op_prec o) 0 then Err (ValueError "all operators must have precedence >= 0")
              else check_extra r
  end.

(** parse_formula.py:153-155: wrap anything that is not a [~] node. *)
Definition wrap_tilde (tree : node) : node :=
  if is_type "~" tree then tree else Node (TName "~") None [tree] (n_origin tree).

(** parse_formula.py:140-155 [parse_formula], from the Python tokens of the code
    (for blank code these are the tokens of ["~ 1"], lines 141-142). *)
Definition parse_formula (it : list pytok) (tail : option exn) (extra : list operator)
  : result node :=
  let* _ := check_extra extra in
  let operators := default_ops ++ extra in
  let '(toks, e) := tokenize_formula it tail (flat_map op_string operators) in
  let* tree := infix_parse_stream toks e operators atomic_token_types in
  Ok (wrap_tilde tree).
End Tok.
