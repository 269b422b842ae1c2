(** Shared vocabulary of the model: Python exceptions as values, origins. *)
From Coq Require Export String List Arith ZArith Lia Bool.
Export ListNotations.
Open Scope list_scope.

(** patsy/origin.py:14-39 [Origin.__init__]: a half-open character interval
    [start, end) of a code string. *)
Record origin := mkOrigin { o_code : string; o_start : nat; o_end : nat }.

(** Exceptions.  [PatsyError] is patsy/__init__.py:30-69 (message, origin); the
    message keeps only the fixed part of the Python text.  The others are
    the Python built-in exceptions the modelled code can raise. *)
Inductive exn :=
| PatsyError (msg : string) (o : option origin)
| AssertionError
| IndexError
| ValueError (msg : string)
| TypeError (msg : string)
| KeyError
| NameError
| AttributeError
| NotImplementedError
| StopIteration
| OverflowError
| OutOfFuel.           (* model only: excluded by theorems *)

Inductive result (A : Type) :=
| Ok (a : A)
| Err (e : exn).
Arguments Ok {A} a.
Arguments Err {A} e.

Definition bind {A B} (r : result A) (k : A -> result B) : result B :=
  match r with Ok a => k a | Err e => Err e end.

Notation "'let*' p ':=' r 'in' k" :=
  (bind r (fun p => k)) (at level 200, p pattern, r at level 100, k at level 200).

(** A Python [for] loop that may raise, collecting results: [[f(x) for x in l]]. *)
Fixpoint mapM {A B} (f : A -> result B) (l : list A) : result (list B) :=
  match l with
  | [] => Ok []
  | x :: r => let* y := f x in let* ys := mapM f r in Ok (y :: ys)
  end.

(** A Python [for] loop that updates a local state and may raise. *)
Fixpoint foldM {A S} (f : S -> A -> result S) (l : list A) (s : S) : result S :=
  match l with
  | [] => Ok s
  | x :: r => let* s' := f s x in foldM f r s'
  end.

Definition assert {A} (b : bool) (k : result A) : result A :=
  if b then k else Err AssertionError.

Definition is_patsy_error (e : exn) : bool :=
  match e with PatsyError _ _ => true | _ => false end.

Definition string_eqb := String.eqb.

Lemma mapM_ok_length {A B} (f : A -> result B) l ys :
  mapM f l = Ok ys -> length ys = length l.
Proof.
  revert ys; induction l as [|x l IH]; cbn; intros ys H.
  - injection H as <-; reflexivity.
  - destruct (f x) as [y|]; cbn in H; [|discriminate].
    destruct (mapM f l) as [zs|]; cbn in H; [|discriminate].
    injection H as <-; cbn; f_equal; auto.
Qed.

Lemma mapM_ok_Forall2 {A B} (f : A -> result B) l ys :
  mapM f l = Ok ys <-> Forall2 (fun x y => f x = Ok y) l ys.
Proof.
  revert ys; induction l as [|x l IH]; cbn; intros ys.
  - split; intros H; [injection H as <-; constructor|inversion H; reflexivity].
  - split; intros H.
    + destruct (f x) as [y|] eqn:E; cbn in H; [|discriminate].
      destruct (mapM f l) as [zs|] eqn:E2; cbn in H; [|discriminate].
      injection H as <-. constructor; [exact E|]. apply IH; reflexivity.
    + inversion H as [|? y ? zs E HF]; subst. rewrite E; cbn.
      apply IH in HF. rewrite HF; reflexivity.
Qed.

Lemma foldM_app {A S} (f : S -> A -> result S) l1 l2 s :
  foldM f (l1 ++ l2) s = let* s' := foldM f l1 s in foldM f l2 s'.
Proof.
  revert s; induction l1 as [|x l IH]; cbn; intros s; [reflexivity|].
  destruct (f s x); cbn; auto.
Qed.
