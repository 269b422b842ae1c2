(** Specification of the splitting of a formula into operators, parens and embedded
    Python expressions. *)
From Verif Require Import Base OriginSpec TokensModel InfixModel ParseFormulaModel IntSpec.

Definition open_bracket (s : string) : Prop := s = "("%string \/ s = "["%string \/ s = "{"%string.
Definition close_bracket (s : string) : Prop := s = ")"%string \/ s = "]"%string \/ s = "}"%string.

(** [nest d l d']: reading [l] starting [d] brackets deep ends [d'] deep and never
    closes more than was open.  (Kinds of brackets are not compared, as in patsy.) *)
Inductive nest : nat -> list string -> nat -> Prop :=
| nest_nil d : nest d [] d
| nest_open d s l d' : open_bracket s -> nest (S d) l d' -> nest d (s :: l) d'
| nest_close d s l d' : close_bracket s -> nest d l d' -> nest (S d) (s :: l) d'
| nest_other d s l d' : ~ open_bracket s -> ~ close_bracket s -> nest d l d' -> nest d (s :: l) d'.

Section Seg.
Variable ops : list string.

Definition magic (s : string) : Prop := In s ops \/ s = "("%string \/ s = ")"%string.
(** Ends an embedded expression when outside its brackets. *)
Definition stop (s : string) : Prop := In s ops \/ s = ")"%string.

(** [l] has no operator or closing paren outside brackets. *)
Definition quiet (l : list string) : Prop :=
  forall p s q, l = p ++ s :: q -> nest 0 p 0 -> ~ stop s.

Inductive group := GMagic (t : pytok) | GExpr (ts : list pytok).
Definition flatten (gs : list group) : list pytok :=
  flat_map (fun g => match g with GMagic t => [t] | GExpr ts => ts end) gs.
Definition strings (ts : list pytok) : list string := map pt_string ts.

(** [ts] can be an embedded expression. *)
Definition embedded (ts : list pytok) : Prop :=
  nest 0 (strings ts) 0 /\ quiet (strings ts) /\
  exists t r, ts = t :: r /\ ~ magic (pt_string t).

Definition legal (g : group) : Prop :=
  match g with GMagic t => magic (pt_string t) | GExpr ts => embedded ts end.

(** Groups are legal, and an embedded expression extends as far as possible: what
    follows it, if anything, is an operator or a closing paren. *)
Definition segmentation (gs : list group) : Prop :=
  Forall legal gs /\
  forall p ts g q, gs = p ++ GExpr ts :: g :: q -> exists t, g = GMagic t /\ stop (pt_string t).

(** The last group, if any, is not an expression (so another one may start). *)
Definition open_ended (gs : list group) : Prop := forall p ts, gs <> p ++ [GExpr ts].

(** [r] is the beginning of an embedded expression that may still go on. *)
Definition unfinished (r : list pytok) : Prop :=
  r = [] \/ exists x l d, r = x :: l /\ ~ magic (pt_string x) /\
             nest 0 (strings r) d /\ quiet (strings r).

(** [r] starts like an embedded expression but has a bracket error: it closes a
    bracket that was not opened, or ends inside a bracket. *)
Inductive bracket_error : list pytok -> exn -> Prop :=
| be_unmatched p t q x l :
    p ++ [t] = x :: l -> ~ magic (pt_string x) ->
    nest 0 (strings p) 0 -> quiet (strings p) ->
    close_bracket (pt_string t) -> ~ stop (pt_string t) ->
    bracket_error (p ++ t :: q) (PatsyError "unmatched close bracket" (Some (pt_origin t)))
| be_unclosed x l d o :
    ~ magic (pt_string x) -> nest 0 (strings (x :: l)) (S d) -> quiet (strings (x :: l)) ->
    hull (map (fun t => Some (pt_origin t)) (x :: l)) o ->
    bracket_error (x :: l) (PatsyError "unclosed bracket in embedded Python expression" (Some o)).

Variable is_float : string -> bool.

(** The kind of an expression, by its text. *)
Definition expr_kind (text ty : string) : Prop :=
  let integer := exists k, int_text text k in
  (text = "0"%string -> ty = "ZERO"%string) /\ (text = "1"%string -> ty = "ONE"%string) /\
  (text <> "0"%string -> text <> "1"%string ->
   ((integer \/ is_float text = true) -> ty = "NUMBER"%string) /\ (~ integer -> is_float text = false -> ty = "PYTHON_EXPR"%string)).
(** The formula token of a group: operators keep their text as type; an expression is
    ZERO, ONE, NUMBER or PYTHON_EXPR according to its normalised text. *)
Inductive token_for : group -> token -> Prop :=
| tf_op t : In (pt_string t) ops ->
    token_for (GMagic t) (mkToken (TName (pt_string t)) (pt_origin t) None)
| tf_lparen t : pt_string t = "("%string ->
    token_for (GMagic t) (mkToken TLParen (pt_origin t) None)
| tf_rparen t : pt_string t = ")"%string ->
    token_for (GMagic t) (mkToken TRParen (pt_origin t) None)
| tf_expr ts o text ty : expr_kind text ty ->
    hull (map (fun t => Some (pt_origin t)) ts) o ->
    pretty_untokenize (map (fun t => (pt_type t, pt_string t)) ts) = Ok text ->
    token_for (GExpr ts) (mkToken (TName ty) o (Some text)).
End Seg.

(** What [python_tokenize] yields: all from one code string, no layout tokens. *)
Definition from_tokenizer (code : string) (it : list pytok) : Prop :=
  Forall (fun t => o_code (pt_origin t) = code /\
    pt_type t <> PINDENT /\ pt_type t <> PDEDENT /\ pt_type t <> PNL) it.

(** Extra operators a caller of [parse_formula] may add. *)
Definition good_extra (extra : list operator) : Prop :=
  Forall (fun o => (0 <= op_prec o)%Z /\ (op_arity o = 1 \/ op_arity o = 2)%Z /\
    exists s, op_type o = TName s /\ s <> "("%string /\ s <> ")"%string) extra.

(** The documented operator table (doc/formulas.rst, "Operators", and the precedence
    table of parse_formula.py): [~] binds weakest, then [+ -] (binary and unary), [* /],
    [:], and [**] strongest. *)
Definition documented_ops : list operator :=
  let op s arity prec := mkOp (TName s) arity prec in
  [op "~" 1 (-100); op "~" 2 (-100); op "+" 2 100; op "-" 2 100; op "*" 2 200; op "/" 2 200;
   op ":" 2 300; op "**" 2 500; op "+" 1 100; op "-" 1 100]%string%Z.
Definition documented_atoms : list ttype := map TName ["PYTHON_EXPR"; "ZERO"; "ONE"; "NUMBER"]%string.
