(** What the text of a factor means, in terms of Python's syntax tree of it. *)
From Verif Require Import Base TokensModel EvalModel EvalSpec PyLexModel PyLexSpec FitModel CodeModel.
Open Scope string_scope.
Open Scope list_scope.

(** Brackets are closed in the order in which they were opened. *)
Definition balanced (l : list ptok) : Prop := depth l = 0%Z /\ forall a b, l = a ++ b -> (0 <= depth a)%Z.
(** The tokens between the parentheses of a call. *)
Definition parts_toks {op} (parts : list (ptok + @cx op)) : list ptok := flat_map (fun p => match p with inl k => [k] | inr x => toks_of x end) parts.
(** What is around the arguments: commas, names of keyword arguments; [None] stands for an argument. *)
Fixpoint around {op} (parts : list (ptok + @cx op)) : list (option ptok) :=
  match parts with [] => [] | inl tok :: r => Some tok :: around r | inr _ :: r => None :: around r end.

Section Spec.
Context {val op St D : Type}.
Local Notation cx := (@cx op).
Local Notation part := (ptok + cx)%type.
Variable look : D -> @namespace val.
Variable pybuiltins : @namespace val.
Variable apply : op -> list val -> result val.
Variable truth : val -> result bool.
Variable call : val -> list (option ptok) -> list val -> result val.
Variable call_method : val -> string -> list (option ptok) -> list val -> result val.
Variable stateful : val -> bool.
Variable t_new : val -> St.
Variable t_chunk : val -> list (option ptok) -> St -> list val -> result St.
Variable t_finish : val -> St -> result St.
Variable t_transform : val -> list (option ptok) -> St -> list val -> result val.
Variable builtins : @namespace val.
Variable e : @env val.

(** The stateful transform that a name stands for in the environment (or else among patsy's builtins). *)
Definition transform_of (s : string) : option val :=
  match vlookup (e ++ [builtins]) s with Some v => if stateful v then Some v else None | None => None end.

(** The number of calls of stateful transforms. *)
Fixpoint ncalls (t : cx) : nat :=
  let in_parts := fix in_parts (l : list part) : nat := match l with [] => 0 | inl _ :: r => in_parts r | inr x :: r => ncalls x + in_parts r end in
  match t with
  | CName _ => 0
  | CNode _ parts => in_parts parts
  | CIf b c f => ncalls b + (ncalls c + ncalls f)
  | CCall s parts => (match transform_of s with Some _ => 1 | None => 0 end) + in_parts parts
  | CMeth _ _ parts => in_parts parts
  end.
(** The calls of stateful transforms, from left to right in the text: the place of the name among the tokens,
    the number of the call, the name, and what is in the parentheses.  The first token has the place [i], the
    first call the number [k]. *)
Definition node := (nat * (nat * (string * list part)))%type.
Fixpoint nodes (i k : nat) (t : cx) : list node :=
  let in_parts := fix in_parts (i k : nat) (l : list part) : list node :=
    match l with
    | [] => []
    | inl _ :: r => in_parts (S i) k r
    | inr x :: r => nodes i k x ++ in_parts (i + List.length (toks_of x)) (k + ncalls x) r
    end in
  match t with
  | CName _ => []
  | CNode _ parts => in_parts i k parts
  | CIf b c f =>
      nodes i k b ++ nodes (i + List.length (toks_of b) + 1) (k + ncalls b) c ++
      nodes (i + List.length (toks_of b) + 1 + List.length (toks_of c) + 1) (k + ncalls b + ncalls c) f
  | CCall s parts =>
      match transform_of s with
      | Some _ => (i, (k, (s, parts))) :: in_parts (i + 2) (S k) parts
      | None => in_parts (i + 2) k parts
      end
  | CMeth _ _ parts => in_parts (i + 4) k parts
  end.
Definition places (t : cx) : list (nat * string) := map (fun n => (fst n, fst (snd (snd n)))) (nodes 0 0 t).

(** The tree in which the [k]-th call and so on are calls of the method [transform] of the objects. *)
Fixpoint with_objects (k : nat) (t : cx) : cx :=
  let in_parts := fix in_parts (k : nat) (l : list part) : list part :=
    match l with [] => [] | inl tok :: r => inl tok :: in_parts k r | inr x :: r => inr (with_objects k x) :: in_parts (k + ncalls x) r end in
  match t with
  | CName s => CName s
  | CNode o parts => CNode o (in_parts k parts)
  | CIf b c f => CIf (with_objects k b) (with_objects (k + ncalls b) c) (with_objects (k + ncalls b + ncalls c) f)
  | CCall s parts =>
      match transform_of s with
      | Some _ => CMeth (obj_name k s) "transform" (in_parts (S k) parts)
      | None => CCall s (in_parts k parts)
      end
  | CMeth o m parts => CMeth o m (in_parts k parts)
  end.
Fixpoint parts_with_objects (k : nat) (l : list part) : list part :=
  match l with [] => [] | inl tok :: r => inl tok :: parts_with_objects k r | inr x :: r => inr (with_objects k x) :: parts_with_objects (k + ncalls x) r end.

(** The expression of FitModel: names are looked up in the data, the environment, patsy's builtins and
    Python's; calls of stateful transforms get objects of their own. *)
Definition name_value (s : string) (d : D) : result val :=
  match vlookup (look d :: e ++ [builtins]) s with
  | Some v => Ok v
  | None => match pybuiltins s with Some v => Ok v | None => Err NameError end
  end.
Definition on_first (f : val -> list val -> result val) (l : list val) : result val :=
  match l with v :: vs => f v vs | [] => Err AssertionError end.
Definition class_of (v : val) (sh : list (option ptok)) : @tclass val St := mkClass (t_new v) (t_chunk v sh) (t_finish v) (t_transform v sh).
Fixpoint meaning (k : nat) (t : cx) : @texpr val D St :=
  let in_parts := fix in_parts (k : nat) (l : list part) : list texpr :=
    match l with [] => [] | inl _ :: r => in_parts k r | inr x :: r => meaning k x :: in_parts (k + ncalls x) r end in
  match t with
  | CName s => TLeaf (name_value s)
  | CNode o parts => TOp (apply o) (in_parts k parts)
  | CIf b c f => TIf truth (meaning (k + ncalls b) c) (meaning k b) (meaning (k + ncalls b + ncalls c) f)
  | CCall s parts =>
      match transform_of s with
      | Some v => TCall (obj_name k s) (class_of v (around parts)) (in_parts (S k) parts)
      | None => TOp (on_first (fun v => call v (around parts))) (TLeaf (name_value s) :: in_parts k parts)
      end
  | CMeth o m parts => TOp (on_first (fun v => call_method v m (around parts))) (TLeaf (name_value o) :: in_parts k parts)
  end.

(** What Python computes from the expression on its own, stateful transforms being called like any function. *)
Fixpoint python_value (d : D) (t : cx) : result val :=
  let args := fix args (l : list part) : result (list val) :=
    match l with [] => Ok [] | inl _ :: r => args r | inr x :: r => let* v := python_value d x in let* vs := args r in Ok (v :: vs) end in
  match t with
  | CName s => name_value s d
  | CNode o parts => let* vs := args parts in apply o vs
  | CIf b c f => let* v := python_value d c in let* q := truth v in if q then python_value d b else python_value d f
  | CCall s parts => let* v := name_value s d in let* vs := args parts in call v (around parts) vs
  | CMeth o m parts => let* v := name_value o d in let* vs := args parts in call_method v m (around parts) vs
  end.
(** state.py:48-61: called directly, a stateful transform sees its arguments as all of the data. *)
Definition transforms_direct : Prop := forall v sh vs, stateful v = true -> call v sh vs = direct_call (class_of v sh) vs.
(** The data has no variables with the names of stateful transforms that the code calls. *)
Definition transforms_visible (t : cx) (d : D) : Prop := forall s, In s (tree_names t) -> transform_of s <> None -> look d s = None.

(** The arguments of calls of transforms are balanced. *)
Definition brackets_fine (t : cx) : Prop := forall i k s parts, In (i, (k, (s, parts))) (nodes 0 0 t) -> balanced (parts_toks parts).

(** Python's parser reads the tokens of [t] as [t].  Stateful transforms are called where a call is seen in the
    tokens, brackets are balanced, and the parser also reads the code as it should if calls of names are
    replaced by calls of methods of names. *)
Record reads (parse : list ptok -> result cx) (t : cx) : Prop := mkReads {
  rd_code : parse (toks_of t) = Ok t;
  rd_calls : transform_calls (toks_of t) (is_transform stateful builtins e (tree_names t)) (places t);
  rd_brackets : brackets_fine t;
  rd_eval : parse (toks_of (with_objects 0 t)) = Ok (with_objects 0 t);
  rd_memorize : forall i k s parts, In (i, (k, (s, parts))) (nodes 0 0 t) ->
    let call := CMeth (obj_name k s) "memorize_chunk" (parts_with_objects (S k) parts) in parse (toks_of call) = Ok call }.
(** The names of the objects are used by nothing else in the code. *)
Definition names_free (t : cx) : Prop := forall o, In o (objects (places t)) -> ~ In (PNAME, o) (toks_of t).
(** The text [code] is plain and is read as [t]. *)
Definition text_reads (parse : list ptok -> result cx) (code : string) (t : cx) : Prop :=
  py_lex code = Ok (toks_of t) /\ neighbours_fit (toks_of t) = true /\ reads parse t /\ names_free t.
(** The data has no variables with the names of the objects. *)
Definition no_object_columns (t : cx) (d : D) : Prop := forall o, In o (objects (places t)) -> look d o = None.
End Spec.
