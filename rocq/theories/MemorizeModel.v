(** Model of [_factors_memorize] (patsy/build.py:386-413).

    A factor is an object with three methods.  Their effects on the factor's state dict are arbitrary
    functions that may fail; what is modelled is which calls are made, with which arguments and in which
    order.  (State shared between factors behind the dicts is not modelled.)  [data n] are the chunks
    given by the [n]-th call of [data_iter_maker].  Python iterates over a set in an arbitrary order, so
    the order in which pass [p] goes through the set is an arbitrary function [order p]. *)
From Verif Require Import Base BuildModel.
Open Scope nat_scope.

Section Memorize.
Context {F S D : Type} (feqb : F -> F -> bool).
(** [factor.memorize_passes_needed(state, eval_env)] on an empty state: the state afterwards and the
    number returned. *)
Variable passes : F -> result (S * Z).
Variable chunk : F -> S -> nat -> D -> result S.
Variable finish : F -> S -> nat -> result S.
Variable data : nat -> list D.
Variable order : nat -> list F -> list F.

(** The calls made, in order. *)
Inductive event := EIter (n : nat) | EChunk (f : F) (p : nat) (d : D) | EFinish (f : F) (p : nat).

Local Notation fstates := (list (F * S)).

(** build.py:389-396 *)
Definition start (st : fstates * list (F * Z)) (f : F) : result (fstates * list (F * Z)) :=
  let* r := passes f in
  Ok (dset feqb f (fst r) (fst st), dset feqb f (snd r) (snd st)).

(** build.py:406-408: one factor gets one chunk. *)
Definition one_chunk (p : nat) (d : D) (st : fstates * list event) (f : F) : result (fstates * list event) :=
  let* s := lookup (dget feqb f (fst st)) in
  let* s' := chunk f s p d in
  Ok (dset feqb f s' (fst st), snd st ++ [EChunk f p d]).
(** build.py:405-408 *)
Definition pass_chunks (p : nat) (needed : list F) (st : fstates * list event) : result (fstates * list event) :=
  foldM (fun st d => foldM (one_chunk p d) (order p needed) st) (data p) (fst st, snd st ++ [EIter p]).

(** build.py:409-412; the set [memorize_needed] as a list without repetitions. *)
Definition one_finish (passes_needed : list (F * Z)) (p : nat) (st : fstates * list event * list F) (f : F)
  : result (fstates * list event * list F) :=
  let '(states, log, needed) := st in
  let* s := lookup (dget feqb f states) in
  let* s' := finish f s p in
  let* k := lookup (dget feqb f passes_needed) in
  Ok (dset feqb f s' states, log ++ [EFinish f p],
      if Z.eqb (Z.of_nat p) (k - 1) then filter (fun g => negb (feqb g f)) needed else needed).

(** build.py:404-413, the while loop. *)
Fixpoint passes_loop (fuel : nat) (passes_needed : list (F * Z)) (p : nat) (needed : list F) (st : fstates * list event)
  : result (fstates * list event) :=
  match needed with
  | [] => Ok st
  | _ =>
      match fuel with
      | 0 => Err OutOfFuel
      | Datatypes.S fuel =>
          let* st1 := pass_chunks p needed st in
          let* r := foldM (one_finish passes_needed p) (order p needed) (fst st1, snd st1, needed) in
          let '(states, log, needed') := r in
          passes_loop fuel passes_needed (Datatypes.S p) needed' (states, log)
      end
  end.

(** build.py:386-414.  Result: the states and the calls made.  [fuel] bounds the number of passes;
    MemorizeProps shows that the largest number of passes asked for is always enough. *)
Definition factors_memorize (fuel : nat) (factors : list F) : result (fstates * list event) :=
  let* r := foldM start factors ([], []) in
  let '(states, passes_needed) := r in
  let needed := map fst (filter (fun q => Z.ltb 0 (snd q)) passes_needed) in
  passes_loop fuel passes_needed 0 needed (states, []).
End Memorize.
