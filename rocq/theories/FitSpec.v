(** What fitted transforms and their values should be. *)
From Verif Require Import Base FitModel.
From Coq Require Import Permutation.
Open Scope string_scope.
Open Scope list_scope.

Section S.
Context {val data St : Type}.
Local Notation texpr := (@texpr val data St).
Local Notation tclass := (@tclass val St).
Variable chunks : list data.

(** The value of an expression on [d] after fitting on [chunks]: a transform is fitted on the values of
    its arguments on all the chunks, whatever transforms these contain. *)
Fixpoint fitted_value (e : texpr) (d : data) : result val :=
  let values := fix values (l : list texpr) (d : data) : result (list val) :=
    match l with [] => Ok [] | a :: r => let* v := fitted_value a d in let* vs := values r d in Ok (v :: vs) end in
  match e with
  | TLeaf f => f d
  | TOp f args => let* vs := values args d in f vs
  | TIf truth a b c => let* v := fitted_value a d in let* t := truth v in if t then fitted_value b d else fitted_value c d
  | TCall _ c args =>
      let* s := foldM (fun s d => let* vs := values args d in c_chunk c s vs) chunks (c_new c) in
      let* s := c_finish c s in
      let* vs := values args d in c_transform c s vs
  end.
Definition fitted_values (l : list texpr) (d : data) : result (list val) := mapM (fun a => fitted_value a d) l.
Definition fitted_state (c : tclass) (args : list texpr) : result St :=
  let* s := foldM (fun s d => let* vs := fitted_values args d in c_chunk c s vs) chunks (c_new c) in
  c_finish c s.

(** Plain evaluation in Python, with transforms called directly. *)
Fixpoint plain_value (e : texpr) (d : data) : result val :=
  let values := fix values (l : list texpr) : result (list val) :=
    match l with [] => Ok [] | a :: r => let* v := plain_value a d in let* vs := values r in Ok (v :: vs) end in
  match e with
  | TLeaf f => f d
  | TOp f args => let* vs := values args in f vs
  | TIf truth a b c => let* v := plain_value a d in let* t := truth v in if t then plain_value b d else plain_value c d
  | TCall _ c args => let* vs := values args in direct_call c vs
  end.

(** Every call is in one pass, and the calls in the arguments of a call are in earlier passes (C30). *)
Definition inner_first (e : texpr) (bins : list (list string)) : Prop :=
  Permutation (concat bins) (map fst (calls e)) /\
  forall o c args o' p q bin bin', In (o, (c, args)) (calls e) -> In o' (map fst (flat_map calls args)) ->
    nth_error bins p = Some bin -> In o bin -> nth_error bins q = Some bin' -> In o' bin' -> q < p.
End S.
