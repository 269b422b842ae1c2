(** The methods of [EvalFactor] (patsy/eval.py:497-599) as PipeModel wants them, from the evaluation of
    code with stateful transforms (FitModel).  The code is an expression tree and the passes are given
    (EvalModel has the text and how the passes are found, C30). *)
From Verif Require Import Base DescModel CategoricalModel PipeModel FitModel.
Open Scope nat_scope.
Open Scope string_scope.

(** compat.py:38-43 [call_and_wrap_exc]. *)
Definition wrap_exc {A} (msg : string) (org : option origin) (r : result A) : result A :=
  match r with Ok a => Ok a | Err _ => Err (PatsyError msg org) end.

Section EvalFactor.
Context {val data St V I C : Type}.
Variable code : factor -> @texpr val data St.
Variable bins : factor -> list (list string).
Variable origin_of : factor -> option origin.
(** What the code that follows makes of a value (see [fobj]). *)
Variable as_obj : val -> @fobj V I C.

(** eval.py:497-578 [memorize_passes_needed]: the new objects and the number of passes. *)
Definition ef_passes (f : factor) : result (@store St * Z) := Ok (new_objects (code f), Z.of_nat (List.length (bins f))).
(** eval.py:580-592 [_eval] and [memorize_chunk]. *)
Definition ef_chunk (f : factor) (st : @store St) (p : nat) (d : data) : result (@store St) :=
  match nth_error (bins f) p with
  | Some bin => foldM (fun st o => wrap_exc "Error evaluating factor" (origin_of f) (memorize_object (code f) d st o)) bin st
  | None => Err IndexError
  end.
(** eval.py:594-596 [memorize_finish]. *)
Definition ef_finish (f : factor) (st : @store St) (p : nat) : result (@store St) :=
  match nth_error (bins f) p with
  | Some bin => foldM (finish_object (code f)) bin st
  | None => Err IndexError
  end.
(** eval.py:598-599 [eval]. *)
Definition ef_eval (f : factor) (st : @store St) (d : data) : result (@fobj V I C) :=
  let* v := wrap_exc "Error evaluating factor" (origin_of f) (teval st (code f) d) in Ok (as_obj v).
End EvalFactor.
