(** Specifications for util.py. *)
From Verif Require Import Base UtilModel.

Section Nub.
Context {A : Type} (eqb : A -> A -> bool).

(** [first_occurrences l l']: [l'] is what is left of [l] after deleting every
    element that is equal to an earlier one. *)
Inductive first_occurrences : list A -> list A -> list A -> Prop :=
| fo_nil before : first_occurrences before [] []
| fo_drop before x l l' :
    (exists y, In y before /\ eqb x y = true) ->
    first_occurrences (before ++ [x]) l l' -> first_occurrences before (x :: l) l'
| fo_keep before x l l' :
    (forall y, In y before -> eqb x y = false) ->
    first_occurrences (before ++ [x]) l l' -> first_occurrences before (x :: l) (x :: l').

(** No two positions hold equal elements. *)
Definition distinct (l : list A) : Prop :=
  ForallOrdPairs (fun x y => eqb x y = false) l.
End Nub.

(** A push-back stream, seen from outside, is just the list of what is to come. *)
Inductive pb_op (A : Type) := OpNext | OpPeek | OpHasMore | OpPush (x : A).
Arguments OpNext {A}. Arguments OpPeek {A}. Arguments OpHasMore {A}. Arguments OpPush {A} x.
Inductive pb_out (A : Type) := OutVal (x : A) | OutBool (b : bool) | OutStop | OutNoData | OutUnit.
Arguments OutVal {A} x. Arguments OutBool {A} b. Arguments OutStop {A}.
Arguments OutNoData {A}. Arguments OutUnit {A}.

Definition stream_step {A} (l : list A) (o : pb_op A) : pb_out A * list A :=
  match o, l with
  | OpNext, x :: r => (OutVal x, r)
  | OpNext, [] => (OutStop, [])
  | OpPeek, x :: r => (OutVal x, l)
  | OpPeek, [] => (OutNoData, [])
  | OpHasMore, _ :: _ => (OutBool true, l)
  | OpHasMore, [] => (OutBool false, [])
  | OpPush x, _ => (OutUnit, x :: l)
  end.

Fixpoint stream_run {A} (l : list A) (os : list (pb_op A)) : list (pb_out A) :=
  match os with
  | [] => []
  | o :: r => let '(out, l') := stream_step l o in out :: stream_run l' r
  end.

(** Running the adapter on the same history (observing results and exceptions). *)
Definition adapter_step {A} (p : pushback A) (o : pb_op A) : pb_out A * pushback A :=
  match o with
  | OpNext => match pb_next p with
              | (Ok x, p') => (OutVal x, p') | (Err _, p') => (OutStop, p') end
  | OpPeek => match pb_peek p with
              | (Ok x, p') => (OutVal x, p') | (Err _, p') => (OutNoData, p') end
  | OpHasMore => match pb_has_more p with
                 | (Ok b, p') => (OutBool b, p') | (Err _, p') => (OutNoData, p') end
  | OpPush x => (OutUnit, pb_push p x)
  end.
Fixpoint adapter_run {A} (p : pushback A) (os : list (pb_op A)) : list (pb_out A) :=
  match os with
  | [] => []
  | o :: r => let '(out, p') := adapter_step p o in out :: adapter_run p' r
  end.
