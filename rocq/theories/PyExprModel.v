(** Python expressions as far as variable lookup is concerned, [ast_names] (patsy/eval.py:100-117) and
    [EvalEnvironment.eval] (eval.py:169-179).

    Python's compiler and evaluator are not part of /repo; this file is a model of the part of Python
    that matters for C46 and C47.  Everything that is not about names is arbitrary: [apply] gives the
    effect of every operation (calls, attributes, arithmetic, ...) on its evaluated operands and on the
    [world] (all mutable state).  Of the functions that look into the local variables of the expression
    calling them, patsy's own [Q] (builtins.py:57-98) is modelled, called with a literal string and not
    redefined by the environment or the data; other functions are assumed not to do this (such as the
    builtins [locals] and [eval] do). *)
From Verif Require Import Base TokensModel BuildModel EvalModel.
Open Scope string_scope.
Open Scope list_scope.

Section PyExpr.
Context {val world op : Type}.
Variable apply : op -> list val -> world -> result val * world.
(** [bool(v)] *)
Variable truth : val -> world -> result bool * world.
(** Python's builtins, looked up last. *)
Variable pybuiltins : @namespace val.

Inductive pyexpr :=
  | PName (s : string)
  | PConst (v : val)
  | PNode (o : op) (args : list pyexpr)                   (* all operands are evaluated, left to right *)
  | PIf (test body orelse : pyexpr)
  | PAnd (a b : pyexpr)
  | POr (a b : pyexpr)
  | PCompare (left : pyexpr) (rest : list (op * pyexpr))  (* chained, short-circuiting *)
  | PWalrus (s : string) (e : pyexpr)
  | PQuote (s : string)                                   (* Q("s") *)
  | PScope (parts : list pyexpr).                         (* lambda or comprehension *)

(** eval.py:100-117 [ast_names]; in another order than [ast.walk]'s, which only affects the order of a
    dict that is never iterated. *)
Fixpoint names (e : pyexpr) : result (list string) :=
  match e with
  | PName s => Ok [s]
  | PConst _ => Ok []
  | PNode _ args =>
      (fix go (l : list pyexpr) : result (list string) :=
         match l with
         | [] => Ok []
         | a :: r => let* x := names a in let* xs := go r in Ok (x ++ xs)
         end) args
  | PIf a b c => let* x := names a in let* y := names b in let* z := names c in Ok (x ++ y ++ z)
  | PAnd a b | POr a b => let* x := names a in let* y := names b in Ok (x ++ y)
  | PCompare a rest =>
      let* x := names a in
      let* l := (fix go (l : list (op * pyexpr)) : result (list string) :=
                   match l with
                   | [] => Ok []
                   | (_, b) :: r => let* y := names b in let* ys := go r in Ok (y ++ ys)
                   end) rest in
      Ok (x ++ l)
  | PWalrus s e => let* x := names e in Ok (s :: x)
  | PQuote _ => Ok ["Q"]
  | PScope _ => Err (PatsyError "Lambda, list/dict/set comprehension, generator expression in patsy formula not currently supported." None)
  end.
Definition ast_names_of (parse : string -> result pyexpr) (code : string) : result (list string) :=
  let* e := parse code in names e.

(** The local variables and the world. *)
Local Notation state := (list (@namespace val) * world)%type.
(** LOAD_NAME: locals, then globals (an empty dict, eval.py:179), then builtins. *)
Definition load (s : string) (st : state) : result val * state :=
  (match vlookup (fst st) s with
   | Some v => Ok v
   | None => match pybuiltins s with Some v => Ok v | None => Err NameError end
   end, st).
Definition on_world {A} (f : world -> result A * world) (st : state) : result A * state :=
  let (r, w) := f (snd st) in (r, (fst st, w)).
Definition andthen {A B} (m : result A * state) (k : A -> state -> result B * state) : result B * state :=
  match m with (Ok a, st) => k a st | (Err e, st) => (Err e, st) end.

Fixpoint sem (e : pyexpr) (st : state) : result val * state :=
  match e with
  | PName s => load s st
  | PConst v => (Ok v, st)
  | PNode o args =>
      andthen ((fix go (l : list pyexpr) (st : state) : result (list val) * state :=
                  match l with
                  | [] => (Ok [], st)
                  | a :: r => andthen (sem a st) (fun v st => andthen (go r st) (fun vs st => (Ok (v :: vs), st)))
                  end) args st)
              (fun vs => on_world (apply o vs))
  | PIf a b c => andthen (sem a st) (fun v st => andthen (on_world (truth v) st) (fun t st => if t then sem b st else sem c st))
  | PAnd a b => andthen (sem a st) (fun v st => andthen (on_world (truth v) st) (fun t st => if t then sem b st else (Ok v, st)))
  | POr a b => andthen (sem a st) (fun v st => andthen (on_world (truth v) st) (fun t st => if t then (Ok v, st) else sem b st))
  | PCompare a rest =>
      andthen (sem a st)
        ((fix go (l : list (op * pyexpr)) (v : val) (st : state) : result val * state :=
            match l with
            | [] => (Ok v, st)
            | (o, b) :: r =>
                andthen (sem b st) (fun w st => andthen (on_world (apply o [v; w]) st) (fun c st =>
                  match r with
                  | [] => (Ok c, st)
                  | _ => andthen (on_world (truth c) st) (fun t st => if t then go r w st else (Ok c, st))
                  end))
            end) rest)
  | PWalrus s e => andthen (sem e st) (fun v st => (Ok v, (vset (fst st) s v, snd st)))   (* STORE_NAME into the locals *)
  | PQuote s => andthen (load "Q" st) (fun _ st => (match vlookup (fst st) s with Some v => Ok v | None => Err NameError end, st))   (* builtins.py:92-98, see FrameModel *)
  | PScope _ => (Err NotImplementedError, st)             (* never evaluated: refused by [names] *)
  end.

(** eval.py:169-179 [EvalEnvironment.eval] of already parsed code: the value and the world after it. *)
Definition env_eval (e : env) (inner : namespace) (code : pyexpr) (w : world) : result val * world :=
  let (r, st) := sem code (eval_locals e inner, w) in (r, snd st).
End PyExpr.
