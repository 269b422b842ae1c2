(** The methods of [EvalFactor] (patsy/eval.py:497-599) on the text of the code: preparing the factor
    (EvalModel), evaluating the prepared texts, and the effect of this on the transform objects.

    Python's parser and evaluator are not part of /repo.  [parse] stands for the parser; its trees keep the
    tokens, so that the text of a tree is known.  The evaluator is modelled for names, calls, methods and
    conditional expressions; everything else evaluates its operands from left to right and is then an
    arbitrary function of their values ([apply], [call], [call_method]) that changes nothing.  (So [and] and
    [or] evaluate both operands here; assignments, lambda and comprehensions are left out.) *)
From Verif Require Import Base TokensModel BuildModel DescModel CategoricalModel PipeModel EvalModel FitModel EntryModel.
Open Scope string_scope.
Open Scope list_scope.

Section Tree.
Context {op : Type}.
(** Python expressions, with all of their tokens. *)
Inductive cx :=
  | CName (s : string)                                        (* a variable *)
  | CNode (o : op) (parts : list (ptok + cx))                 (* any other syntax: tokens and operands *)
  | CIf (body test orelse : cx)                               (* body if test else orelse *)
  | CCall (s : string) (parts : list (ptok + cx))             (* s(...), where s is a name; commas, names of
                                                                 keyword arguments and so on are in the parts *)
  | CMeth (o m : string) (parts : list (ptok + cx)).          (* o.m(...), where o is a name *)

(** The tokens of an expression. *)
Fixpoint toks_of (t : cx) : list ptok :=
  let parts_toks := flat_map (fun p : ptok + cx => match p with inl k => [k] | inr x => toks_of x end) in
  match t with
  | CName s => [(PNAME, s)]
  | CNode _ parts => parts_toks parts
  | CIf b c d => toks_of b ++ (PNAME, "if") :: toks_of c ++ (PNAME, "else") :: toks_of d
  | CCall s parts => (PNAME, s) :: (POTHER, "(") :: parts_toks parts ++ [(POTHER, ")")]
  | CMeth o m parts => (PNAME, o) :: (POTHER, ".") :: (PNAME, m) :: (POTHER, "(") :: parts_toks parts ++ [(POTHER, ")")]
  end.
(** The syntax around the arguments of a call, such as commas and the names of keyword arguments. *)
Definition shape (parts : list (ptok + cx)) : list (option ptok) :=
  map (fun p => match p with inl k => Some k | inr _ => None end) parts.

(** eval.py:100-117 [ast_names]: the names in a tree. *)
Fixpoint tree_names (t : cx) : list string :=
  let parts_names := flat_map (fun p : ptok + cx => match p with inl _ => [] | inr x => tree_names x end) in
  match t with
  | CName s => [s]
  | CNode _ parts => parts_names parts
  | CIf b c d => tree_names b ++ tree_names c ++ tree_names d
  | CCall s parts => s :: parts_names parts
  | CMeth o _ parts => o :: parts_names parts
  end.
End Tree.

Section Code.
Context {val op St D : Type}.
Local Notation cx := (@cx op).
Local Notation store := (@store St).
(** Python's tokenizer and parser. *)
Variable lex : string -> result (list ptok).
Variable parse : list ptok -> result cx.
(** The variables of a data object, and Python's builtins, which are looked up last. *)
Variable look : D -> @namespace val.
Variable pybuiltins : @namespace val.
(** Operations, calls and method calls, on evaluated operands. *)
Variable apply : op -> list val -> result val.
Variable truth : val -> result bool.
Variable call : val -> list (option ptok) -> list val -> result val.
Variable call_method : val -> string -> list (option ptok) -> list val -> result val.
(** [hasattr(value, "__patsy_stateful_transform__")], and the class this attribute gives: [__init__],
    [memorize_chunk], [memorize_finish] and [transform]. *)
Variable stateful : val -> bool.
Variable t_new : val -> St.
Variable t_chunk : val -> list (option ptok) -> St -> list val -> result St.
Variable t_finish : val -> St -> result St.
Variable t_transform : val -> list (option ptok) -> St -> list val -> result val.
(** A transform object as a value; what [memorize_chunk] returns. *)
Variable objval : string -> val.
Variable vnone : val.
(** eval.py:449 [_builtins_dict], and the environment of the formula. *)
Variable builtins : @namespace val.
Variable e : @env val.

Definition andthen {A B} (m : result A * store) (k : A -> store -> result B * store) : result B * store :=
  match m with (Ok a, st) => k a st | (Err x, st) => (Err x, st) end.

Section Sem.
Variable fs : @factor_state val.
Variable d : D.
(** LOAD_NAME: the local variables (eval.py:580-588), an empty dict of globals (eval.py:179), builtins. *)
Definition load (st : store) (s : string) : result val :=
  match vlookup (factor_locals fs (look d) (fun k => option_map (fun _ => objval k) (st k))) s with
  | Some v => Ok v
  | None => match pybuiltins s with Some v => Ok v | None => Err NameError end
  end.
(** The transform object that the name stands for: data comes first. *)
Definition object (st : store) (o : string) : option val :=
  match look d o, st o with
  | None, Some _ => dget String.eqb o (fs_transforms fs)
  | _, _ => None
  end.
(** A method call on the transform object [o] made from [v]. *)
Definition object_method (v : val) (o m : string) (sh : list (option ptok)) (vs : list val) (st : store) : result val * store :=
  match st o with
  | None => (Err NameError, st)
  | Some s =>
      if String.eqb m "transform" then (t_transform v sh s vs, st)
      else if String.eqb m "memorize_chunk" then
        match t_chunk v sh s vs with
        | Ok s' => (Ok vnone, put st o s')
        | Err x => (Err x, st)
        end
      else (Err AttributeError, st)
  end.
(** eval.py:179: [eval(code, {}, VarLookupDict(...))]. *)
Fixpoint psem (t : cx) (st : store) : result val * store :=
  let args := fix args (l : list (ptok + cx)) (st : store) : result (list val) * store :=
    match l with
    | [] => (Ok [], st)
    | inl _ :: r => args r st
    | inr x :: r => andthen (psem x st) (fun v st => andthen (args r st) (fun vs st => (Ok (v :: vs), st)))
    end in
  match t with
  | CName s => (load st s, st)
  | CNode o parts => andthen (args parts st) (fun vs st => (apply o vs, st))
  | CIf b c f => andthen (psem c st) (fun v st => match truth v with Ok true => psem b st | Ok false => psem f st | Err x => (Err x, st) end)
  | CCall s parts => andthen (load st s, st) (fun v st => andthen (args parts st) (fun vs st => (call v (shape parts) vs, st)))
  | CMeth o m parts =>
      match object st o with
      | Some v => andthen (args parts st) (object_method v o m (shape parts))
      | None => andthen (load st o, st) (fun v st => andthen (args parts st) (fun vs st => (call_method v m (shape parts) vs, st)))
      end
  end.
(** Evaluating a text. *)
Definition eval_text (code : string) (st : store) : result val * store :=
  match (let* toks := lex code in parse toks) with
  | Ok t => psem t st
  | Err x => (Err x, st)
  end.
End Sem.

(** eval.py:100-117 [ast_names] on text. *)
Definition text_names (code : string) : result (list string) :=
  let* toks := lex code in let* t := parse toks in Ok (tree_names t).

(** The order in which the set of objects of a pass is gone through. *)
Variable bin_order : list string -> list string.
Variable origin_of : factor -> option origin.
(** The dict that patsy calls the state of the factor, and the objects in it. *)
Definition tstate := (@factor_state val * store)%type.
(** eval.py:497-578 [memorize_passes_needed]. *)
Definition tf_passes (f : factor) : result (tstate * Z) :=
  let* fs := memorize_passes_needed lex text_names stateful builtins f e in
  Ok ((fs, fun o => option_map t_new (dget String.eqb o (fs_transforms fs))), Z.of_nat (List.length (fs_pass_bins fs))).
(** eval.py:590-592 [memorize_chunk], with [_eval] (580-588). *)
Definition tf_chunk (f : factor) (s : tstate) (p : nat) (d : D) : result tstate :=
  let (fs, st) := s in
  match nth_error (fs_pass_bins fs) p with
  | None => Err IndexError
  | Some bin =>
      let* st := foldM (fun st o =>
          let* code := lookup (dget String.eqb o (fs_memorize_code fs)) in
          wrap_exc "Error evaluating factor" (origin_of f)
            (match eval_text fs d code st with (Ok _, st) => Ok st | (Err x, _) => Err x end)) (bin_order bin) st in
      Ok (fs, st)
  end.
(** eval.py:594-596 [memorize_finish]. *)
Definition tf_finish (f : factor) (s : tstate) (p : nat) : result tstate :=
  let (fs, st) := s in
  match nth_error (fs_pass_bins fs) p with
  | None => Err IndexError
  | Some bin =>
      let* st := foldM (fun st o =>
          match st o, dget String.eqb o (fs_transforms fs) with
          | Some s, Some v => let* s' := t_finish v s in Ok (put st o s')
          | _, _ => Err KeyError
          end) (bin_order bin) st in
      Ok (fs, st)
  end.
Context {V I C : Type}.
(** What the code that follows makes of a value (see [fobj]). *)
Variable as_obj : val -> @fobj V I C.
(** eval.py:598-599 [eval]. *)
Definition tf_eval (f : factor) (s : tstate) (d : D) : result (@fobj V I C) :=
  let (fs, st) := s in
  let* v := wrap_exc "Error evaluating factor" (origin_of f) (fst (eval_text fs d (fs_eval_code fs) st)) in Ok (as_obj v).
End Code.
