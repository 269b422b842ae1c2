(** Specification of an infix expression language with prefix operators,
    left-associative binary operators and parentheses.  It only uses the
    vocabulary of tokens, operators and parse nodes of [InfixModel], none of the
    parser's functions. *)
From Verif Require Import Base InfixModel.

(** Concrete expressions: what a reader sees, parentheses included. *)
Inductive cst :=
| CAtom (t : token)
| CUn (t : token) (c : cst)
| CBin (l : cst) (t : token) (r : cst)
| CParen (lp : token) (c : cst) (rp : token).

(** The token sequence of a concrete expression, left to right. *)
Fixpoint yield (c : cst) : list token :=
  match c with
  | CAtom t => [t]
  | CUn t c => t :: yield c
  | CBin l t r => yield l ++ t :: yield r
  | CParen lp c rp => lp :: yield c ++ [rp]
  end.

(** [declares ops a ty p]: the operator table gives [ty], used with arity [a],
    precedence [p] (the last declaration counts). *)
Definition declares (ops : list operator) (a : Z) (ty : ttype) (p : Z) : Prop :=
  exists before after,
    ops = before ++ mkOp ty a p :: after /\
    (forall o, In o after -> ~ (op_arity o = a /\ op_type o = ty)).

Section Table.
Variable ops : list operator.
Variable atoms : list ttype.

(** Operators still open at the right end of [c] (they would capture text
    appended on the right): all satisfy [P]. *)
Inductive right_open (P : Z -> Prop) : cst -> Prop :=
| ro_atom t : right_open P (CAtom t)
| ro_paren lp c rp : right_open P (CParen lp c rp)
| ro_un t c p : declares ops 1 (tk_type t) p -> P p -> right_open P c -> right_open P (CUn t c)
| ro_bin l t r p : declares ops 2 (tk_type t) p -> P p -> right_open P r ->
                   right_open P (CBin l t r).

(** Binary operators still open at the left end of [c] (they would capture text
    prepended on the left): all satisfy [P]. *)
Inductive left_open (P : Z -> Prop) : cst -> Prop :=
| lo_atom t : left_open P (CAtom t)
| lo_paren lp c rp : left_open P (CParen lp c rp)
| lo_un t c : left_open P (CUn t c)
| lo_bin l t r p : declares ops 2 (tk_type t) p -> P p -> left_open P l ->
                   left_open P (CBin l t r).

(** Well-bracketed reading with respect to the operator table:
    - every operator open at the right end of a left operand binds at least as
      tightly as the operator (so equal precedence associates to the left);
    - every binary operator open at the left end of a right operand binds
      strictly tighter. *)
Inductive valid : cst -> Prop :=
| v_atom t :
    tk_type t <> TLParen -> (forall p, ~ declares ops 1 (tk_type t) p) ->
    In (tk_type t) atoms -> valid (CAtom t)
| v_un t c p :
    tk_type t <> TLParen -> declares ops 1 (tk_type t) p ->
    valid c -> left_open (fun q => (p < q)%Z) c -> valid (CUn t c)
| v_bin l t r p :
    tk_type t <> TRParen -> declares ops 2 (tk_type t) p ->
    valid l -> valid r ->
    right_open (fun q => (p <= q)%Z) l ->
    left_open (fun q => (p < q)%Z) r ->
    valid (CBin l t r)
| v_paren lp c rp :
    tk_type lp = TLParen -> tk_type rp = TRParen -> valid c -> valid (CParen lp c rp).

(** [l] can be continued to a well-bracketed expression. *)
Definition viable (l : list token) : Prop :=
  exists suffix c, valid c /\ yield c = l ++ suffix.
End Table.

(** The abstract tree of a concrete expression: parentheses disappear. *)
Inductive tree := TNode (ty : ttype) (tok : token) (args : list tree).

Fixpoint tree_of (c : cst) : tree :=
  match c with
  | CAtom t => TNode (tk_type t) t []
  | CUn t c => TNode (tk_type t) t [tree_of c]
  | CBin l t r => TNode (tk_type t) t [tree_of l; tree_of r]
  | CParen _ c _ => tree_of c
  end.

(** A parse node represents a tree (origins ignored). *)
Inductive represents : node -> tree -> Prop :=
| rep ty tok args org ts :
    Forall2 represents args ts ->
    represents (Node ty (Some tok) args org) (TNode ty tok ts).

(** Tables accepted by the parser's own preconditions. *)
Definition good_table (ops : list operator) : Prop :=
  Forall (fun o => (op_prec o > -9999999)%Z /\ (op_arity o = 1 \/ op_arity o = 2)%Z /\
                   op_type o <> TLParen) ops.

(** All tokens come from the same source string. *)
Definition one_source (code : string) (toks : list token) : Prop :=
  Forall (fun t => o_code (tk_origin t) = code) toks.

(** Tokens are in increasing order, each ending before the next starts. *)
Inductive in_order : list token -> Prop :=
| io_nil : in_order []
| io_one t : (o_start (tk_origin t) <= o_end (tk_origin t))%nat -> in_order [t]
| io_cons t u l : (o_start (tk_origin t) <= o_end (tk_origin t))%nat ->
    (o_end (tk_origin t) <= o_start (tk_origin u))%nat -> in_order (u :: l) ->
    in_order (t :: u :: l).

(** From the first character of the first token to the last of the last one. *)
Definition extent (toks : list token) : option origin :=
  match toks with
  | [] => None
  | t :: _ => Some (mkOrigin (o_code (tk_origin t)) (o_start (tk_origin t))
                      (o_end (tk_origin (last toks t))))
  end.

(** The tree decorated with source extents.  [text] is the token sequence of the
    sub-expression with its enclosing parentheses. *)
Fixpoint located (text : list token) (c : cst) : node :=
  match c with
  | CAtom t => Node (tk_type t) (Some t) [] (extent text)
  | CUn t c => Node (tk_type t) (Some t) [located (yield c) c] (extent text)
  | CBin l t r =>
      Node (tk_type t) (Some t) [located (yield l) l; located (yield r) r] (extent text)
  | CParen _ c _ => located text c
  end.
