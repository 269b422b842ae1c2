(** Fitting the stateful transforms in a factor's code and evaluating it: patsy/eval.py:580-599
    ([EvalFactor._eval], [memorize_chunk], [memorize_finish], [eval]), the loop over passes and chunks of
    patsy/build.py:386-413 for one factor, and [stateful_transform] (patsy/state.py:48-61).

    The code is an expression tree here, in which the calls of stateful transforms carry the names of
    their objects; EvalModel has the rewriting of the text (C30).  Operations other than stateful
    transforms are functions of their operands that change nothing, and errors of all kinds stop the
    evaluation. *)
From Verif Require Import Base.
Open Scope string_scope.
Open Scope list_scope.

Section Fit.
Context {val data St : Type}.
(** A class that fulfills the stateful transform protocol: [__init__], [memorize_chunk],
    [memorize_finish], [transform].  [St] are the states of objects. *)
Record tclass := mkClass {
  c_new : St;
  c_chunk : St -> list val -> result St;
  c_finish : St -> result St;
  c_transform : St -> list val -> result val }.

Inductive texpr :=
  | TLeaf (f : data -> result val)                        (* a variable or constant *)
  | TOp (f : list val -> result val) (args : list texpr)  (* any other operation on evaluated operands *)
  | TIf (truth : val -> result bool) (test body orelse : texpr)
  | TCall (o : string) (c : tclass) (args : list texpr).  (* eval.py:511-523: a call of a stateful transform, and its object *)

(** [state["transforms"]]: the objects. *)
Definition store := string -> option St.
Definition put (st : store) (o : string) (s : St) : store := fun k => if String.eqb k o then Some s else st k.

(** eval.py:598-599 [eval]: [eval_code], in which calls are calls of the method [transform]. *)
Fixpoint teval (st : store) (e : texpr) (d : data) : result val :=
  let evals := fix evals (l : list texpr) : result (list val) :=
    match l with [] => Ok [] | a :: r => let* v := teval st a d in let* vs := evals r in Ok (v :: vs) end in
  match e with
  | TLeaf f => f d
  | TOp f args => let* vs := evals args in f vs
  | TIf truth a b c => let* v := teval st a d in let* t := truth v in if t then teval st b d else teval st c d
  | TCall o c args =>
      match st o with
      | None => Err NameError
      | Some s => let* vs := evals args in c_transform c s vs
      end
  end.
Definition tevals (st : store) (l : list texpr) (d : data) : result (list val) := mapM (fun a => teval st a d) l.

(** The transform calls of an expression. *)
Fixpoint calls (e : texpr) : list (string * (tclass * list texpr)) :=
  match e with
  | TLeaf _ => []
  | TOp _ args => flat_map calls args
  | TIf _ a b c => calls a ++ calls b ++ calls c
  | TCall o c args => (o, (c, args)) :: flat_map calls args
  end.
Definition find_call (e : texpr) (o : string) : option (tclass * list texpr) :=
  match find (fun p => String.eqb (fst p) o) (calls e) with Some p => Some (snd p) | None => None end.

(** eval.py:590-592 [memorize_chunk], for one object: evaluating [memorize_code], a call of the method
    [memorize_chunk] with the arguments of the call. *)
Definition memorize_object (e : texpr) (d : data) (st : store) (o : string) : result store :=
  match st o, find_call e o with
  | Some s, Some (c, args) =>
      let* vs := tevals st args d in
      let* s' := c_chunk c s vs in Ok (put st o s')
  | _, _ => Err NameError
  end.
(** eval.py:594-596 [memorize_finish], for one object. *)
Definition finish_object (e : texpr) (st : store) (o : string) : result store :=
  match st o, find_call e o with
  | Some s, Some (c, _) => let* s' := c_finish c s in Ok (put st o s')
  | _, _ => Err NameError
  end.
(** build.py:403-412: one pass. [bin] are the objects of the pass, in the order in which the set is
    iterated over; [chunks] is the data given by [data_iter_maker()]. *)
Definition run_pass (e : texpr) (chunks : list data) (st : store) (bin : list string) : result store :=
  let* st := foldM (fun st d => foldM (memorize_object e d) bin st) chunks st in
  foldM (finish_object e) bin st.
(** eval.py:509-523: all objects new. *)
Definition new_objects (e : texpr) : store := fun o => match find_call e o with Some (c, _) => Some (c_new c) | None => None end.
Definition fit_factor (e : texpr) (bins : list (list string)) (chunks : list data) : result store :=
  foldM (run_pass e chunks) bins (new_objects e).

(** state.py:52-58: the function made by [stateful_transform], called directly. *)
Definition direct_call (c : tclass) (args : list val) : result val :=
  let* s := c_chunk c (c_new c) args in
  let* s := c_finish c s in
  c_transform c s args.
End Fit.
