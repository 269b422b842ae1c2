(** Model of the parts of patsy/util.py used by the rest. *)
From Verif Require Import Base.

Section Uniqueify.
Context {A : Type} (eqb : A -> A -> bool).

(** util.py:343-350 [uniqueify_list]: [seen] is a Python set, membership is [==]. *)
Fixpoint uniqueify_loop (seq : list A) (seen : list A) : list A :=
  match seq with
  | [] => []
  | obj :: r =>
      if existsb (eqb obj) seen then uniqueify_loop r seen
      else obj :: uniqueify_loop r (obj :: seen)
  end.
Definition uniqueify_list (seq : list A) : list A := uniqueify_loop seq [].
End Uniqueify.

Section Pushback.
Context {A : Type}.

(** util.py:400-403 [PushbackAdapter.__init__].  [pb_pushed] has the end of the
    Python list [_pushed] (where append/pop act) at its head; the wrapped
    iterator is the finite list of what it has still to yield. *)
Record pushback := mkPB { pb_it : list A; pb_pushed : list A }.

Definition pb_make (it : list A) : pushback := mkPB it [].

(** util.py:408-409 [push_back]. *)
Definition pb_push (p : pushback) (x : A) : pushback := mkPB (pb_it p) (x :: pb_pushed p).

(** util.py:411-418 [next]: [Err StopIteration] when exhausted.  The adapter state
    is returned in both cases. *)
Definition pb_next (p : pushback) : result A * pushback :=
  match pb_pushed p with
  | x :: r => (Ok x, mkPB (pb_it p) r)
  | [] => match pb_it p with
          | x :: r => (Ok x, mkPB r [])
          | [] => (Err StopIteration, p)
          end
  end.

(** util.py:420-426 [peek]. *)
Definition pb_peek (p : pushback) : result A * pushback :=
  match pb_next p with
  | (Ok x, p') => (Ok x, pb_push p' x)
  | (Err StopIteration, p') => (Err (ValueError "no more data"), p')
  | (Err e, p') => (Err e, p')
  end.

(** util.py:428-434 [has_more]. *)
Definition pb_has_more (p : pushback) : result bool * pushback :=
  match pb_peek p with
  | (Ok _, p') => (Ok true, p')
  | (Err (ValueError _), p') => (Ok false, p')
  | (Err e, p') => (Err e, p')
  end.
End Pushback.
Arguments pushback : clear implicits.
