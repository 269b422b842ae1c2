(** What memorization should do. *)
From Verif Require Import Base MemorizeModel.
Open Scope nat_scope.

Section Spec.
Context {F S D : Type} (feqb : F -> F -> bool).
Variable chunk : F -> S -> nat -> D -> result S.
Variable finish : F -> S -> nat -> result S.
Variable data : nat -> list D.
Local Notation event := (@event F D).

(** The calls a factor asking for [k] passes should get: for every pass all chunks in order, then the
    end of the pass. *)
Definition calls_for (k : nat) (f : F) : list event :=
  flat_map (fun p => map (EChunk f p) (data p) ++ [EFinish f p]) (seq 0 k).
(** The calls made on factor [f]. *)
Definition concerns (f : F) (e : event) : bool :=
  match e with EIter _ => false | EChunk g _ _ => feqb g f | EFinish g _ => feqb g f end.
Definition is_iter (e : event) : bool := match e with EIter _ => true | _ => false end.

(** The effect of one call, and of a sequence of calls, on the state of the factor. *)
Definition effect (s : S) (e : event) : result S :=
  match e with
  | EIter _ => Ok s
  | EChunk f p d => chunk f s p d
  | EFinish f p => finish f s p
  end.
Definition run (s : S) (es : list event) : result S := foldM effect es s.
End Spec.
