(** Model of patsy/infix_parser.py. *)
From Verif Require Import Base OriginModel.

(** infix_parser.py:53-79: token types are arbitrary hashable objects; the two
    sentinels LPAREN and RPAREN (lines 62-63) are distinct from all others. *)
Inductive ttype := TLParen | TRParen | TName (s : string).

Definition ttype_eqb (a b : ttype) : bool :=
  match a, b with
  | TLParen, TLParen => true
  | TRParen, TRParen => true
  | TName s, TName s' => String.eqb s s'
  | _, _ => false
  end.

(** infix_parser.py:65-68 [Token].  "Each Token is required to have a valid
    Origin attached" (lines 18-19), so the origin is not optional. *)
Record token := mkToken { tk_type : ttype; tk_origin : origin; tk_extra : option string }.

(** infix_parser.py:82-87 [ParseNode].  The token is optional because
    parse_formula.py:154 builds a node with token None. *)
Inductive node :=
  Node (n_type : ttype) (n_token : option token) (n_args : list node) (n_origin : option origin).

Definition n_type (n : node) := let 'Node t _ _ _ := n in t.
Definition n_token (n : node) := let 'Node _ k _ _ := n in k.
Definition n_args (n : node) := let 'Node _ _ a _ := n in a.
Definition n_origin (n : node) := let 'Node _ _ _ o := n in o.

(** infix_parser.py:97-101 [Operator].  Precedences are integers here. *)
Record operator := mkOp { op_type : ttype; op_arity : Z; op_prec : Z }.

(** infix_parser.py:122 [_open_paren]. *)
Definition open_paren : operator := mkOp TLParen (-1) (-9999999).

(** infix_parser.py:114-117 [_StackOperator]. *)
Record stackop := mkStackOp { so_op : operator; so_token : token }.

(** infix_parser.py:125-132 [_ParseContext] (without [trace]); both stacks have
    their top at the head of the list. *)
Record context := mkCtx {
  op_stack : list stackop;
  noun_stack : list node }.

(** infix_parser.py:212-221: dict built by successive assignment, so the last
    operator with a given token type wins. *)
Definition lookup_op (ops : list operator) (arity : Z) (ty : ttype) : option operator :=
  find (fun o => Z.eqb (op_arity o) arity && ttype_eqb (op_type o) ty) (rev ops).

(** [token.type in c.atomic_types] *)
Definition in_types (l : list ttype) (ty : ttype) : bool := existsb (ttype_eqb ty) l.

(** infix_parser.py:137-156 [_read_noun_context]; the Boolean is the returned
    [want_noun]. *)
Definition read_noun_context (ops : list operator) (atoms : list ttype)
    (tok : token) (c : context) : result (bool * context) :=
  if ttype_eqb (tk_type tok) TLParen then
    Ok (true, mkCtx (mkStackOp open_paren tok :: op_stack c) (noun_stack c))
  else match lookup_op ops 1 (tk_type tok) with
  | Some o => Ok (true, mkCtx (mkStackOp o tok :: op_stack c) (noun_stack c))
  | None =>
      if in_types atoms (tk_type tok) then
        Ok (false, mkCtx (op_stack c)
                     (Node (tk_type tok) (Some tok) [] (Some (tk_origin tok)) :: noun_stack c))
      else Err (PatsyError "expected a noun" (Some (tk_origin tok)))
  end.

(** infix_parser.py:162-165: [args.append(c.noun_stack.pop())], [arity] times. *)
Fixpoint pop_n (n : nat) (l : list node) : result (list node * list node) :=
  match n with
  | 0 => Ok ([], l)
  | S n => match l with
           | [] => Err IndexError
           | x :: r => let* (xs, r') := pop_n n r in Ok (x :: xs, r')
           end
  end.

(** infix_parser.py:159-174 [_run_op]. *)
Definition run_op (c : context) : result context :=
  match op_stack c with
  | [] => Err AssertionError
  | so :: rest =>
      let* (popped, nouns) := pop_n (Z.to_nat (op_arity (so_op so))) (noun_stack c) in
      let args := rev popped in
      let* org := combine (Some (tk_origin (so_token so)) :: map n_origin args) in
      Ok (mkCtx rest (Node (op_type (so_op so)) (Some (so_token so)) args org :: nouns))
  end.

(** The loops [while c.op_stack and <cond on top>: _run_op(c)] of
    infix_parser.py:181-182 and 197-198.  Each [_run_op] pops exactly one
    operator, so the loop is structural on the operator stack. *)
Fixpoint reduce_while (cond : stackop -> bool) (ops : list stackop) (nouns : list node)
  : result context :=
  match ops with
  | [] => Ok (mkCtx [] nouns)
  | so :: rest =>
      if cond so then
        let* c := run_op (mkCtx ops nouns) in
        reduce_while cond rest (noun_stack c)
      else Ok (mkCtx ops nouns)
  end.

Definition set_origin (n : node) (o : option origin) : node :=
  let 'Node t k a _ := n in Node t k a o.

(** infix_parser.py:177-206 [_read_op_context]. *)
Definition read_op_context (ops : list operator) (tok : token) (c : context)
  : result (bool * context) :=
  if ttype_eqb (tk_type tok) TRParen then
    let* c := reduce_while (fun so => negb (ttype_eqb (op_type (so_op so)) TLParen))
                (op_stack c) (noun_stack c) in
    match op_stack c with
    | [] => Err (PatsyError "missing '(' or extra ')'" (Some (tk_origin tok)))
    | so :: rest =>
        assert (ttype_eqb (op_type (so_op so)) TLParen)
        match noun_stack c with
        | [] => Err IndexError
        | n :: nouns =>
            let* combined := combine [Some (tk_origin (so_token so));
                                      option_map tk_origin (n_token n);
                                      Some (tk_origin tok)] in
            Ok (false, mkCtx rest (set_origin n combined :: nouns))
        end
    end
  else match lookup_op ops 2 (tk_type tok) with
  | Some o =>
      let* c := reduce_while (fun so => Z.leb (op_prec o) (op_prec (so_op so)))
                  (op_stack c) (noun_stack c) in
      Ok (true, mkCtx (mkStackOp o tok :: op_stack c) (noun_stack c))
  | None => Err (PatsyError "expected an operator" (Some (tk_origin tok)))
  end.

(** infix_parser.py:229-236: the token loop. *)
Definition read_token (ops : list operator) (atoms : list ttype)
    (st : bool * context) (tok : token) : result (bool * context) :=
  let '(want_noun, c) := st in
  if want_noun then read_noun_context ops atoms tok c else read_op_context ops tok c.

(** infix_parser.py:246-249: the final reduction loop. *)
Fixpoint finish_loop (ops : list stackop) (nouns : list node) : result (list node) :=
  match ops with
  | [] => Ok nouns
  | so :: rest =>
      if ttype_eqb (op_type (so_op so)) TLParen then
        Err (PatsyError "Unmatched '('" (Some (tk_origin (so_token so))))
      else
        let* c := run_op (mkCtx ops nouns) in
        finish_loop rest (noun_stack c)
  end.

(** infix_parser.py:214-221: operator validation. *)
Fixpoint check_operators (ops : list operator) : result unit :=
  match ops with
  | [] => Ok tt
  | o :: r =>
      assert (Z.ltb (op_prec open_paren) (op_prec o))
        (if Z.eqb (op_arity o) 1 || Z.eqb (op_arity o) 2 then check_operators r
         else Err (ValueError "operators must be unary or binary"))
  end.

(** infix_parser.py:209-252 [infix_parse].  The token source is an iterator that
    yields [toks] and then either stops ([tail = None]) or raises. *)
Definition infix_parse_stream (toks : list token) (tail : option exn)
    (ops : list operator) (atoms : list ttype) : result node :=
  let* _ := check_operators ops in
  let* (want_noun, c) := foldM (read_token ops atoms) toks (true, mkCtx [] []) in
  match tail with
  | Some e => Err e
  | None =>
    if want_noun then
      match op_stack c with
      | [] => Err IndexError
      | so :: _ => Err (PatsyError "expected a noun, but instead the expression ended"
                          (Some (tk_origin (so_token so))))
      end
    else
      let* nouns := finish_loop (op_stack c) (noun_stack c) in
      match nouns with
      | [n] => Ok n
      | _ => Err AssertionError
      end
  end.

Definition infix_parse (toks : list token) (ops : list operator) (atoms : list ttype)
  : result node := infix_parse_stream toks None ops atoms.
