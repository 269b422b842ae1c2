(** The variables an expression asks for by [Q("...")], and expressions with [Q("x")] in place of [x]. *)
From Verif Require Import Base BuildModel EvalModel PyExprModel.
Open Scope string_scope.
Open Scope list_scope.

Section S.
Context {val op : Type}.
Local Notation pyexpr := (@pyexpr val op).
Fixpoint quoted (e : pyexpr) : list string :=
  match e with
  | PName _ | PConst _ | PScope _ => []
  | PNode _ args => flat_map quoted args
  | PIf a b c => quoted a ++ quoted b ++ quoted c
  | PAnd a b | POr a b => quoted a ++ quoted b
  | PCompare a rest => quoted a ++ flat_map (fun p => quoted (snd p)) rest
  | PWalrus _ e => quoted e
  | PQuote s => [s]
  end.

(** [p] is [e] or stands somewhere in it. *)
Inductive part (p : pyexpr) : pyexpr -> Prop :=
  | part_self : part p p
  | part_node o l a : In a l -> part p a -> part p (PNode o l)
  | part_if a b c x : In x [a; b; c] -> part p x -> part p (PIf a b c)
  | part_and a b x : In x [a; b] -> part p x -> part p (PAnd a b)
  | part_or a b x : In x [a; b] -> part p x -> part p (POr a b)
  | part_left a l : part p a -> part p (PCompare a l)
  | part_right a l o b : In (o, b) l -> part p b -> part p (PCompare a l)
  | part_walrus s e : part p e -> part p (PWalrus s e).
(** The name stands somewhere in the expression, read or assigned to. *)
Definition mentions (s : string) (e : pyexpr) : Prop :=
  part (PName s) e \/ (exists v, part (PWalrus s v) e) \/ (s = "Q" /\ exists t, part (PQuote t) e).

(** [e'] is [e] with some of the variables in [D] written as [Q("...")]. *)
Inductive requoted (D : string -> Prop) : pyexpr -> pyexpr -> Prop :=
  | RqQuote s : D s -> requoted D (PName s) (PQuote s)
  | RqName s : requoted D (PName s) (PName s)
  | RqConst v : requoted D (PConst v) (PConst v)
  | RqNode o l l' : Forall2 (requoted D) l l' -> requoted D (PNode o l) (PNode o l')
  | RqIf a b c a' b' c' : requoted D a a' -> requoted D b b' -> requoted D c c' -> requoted D (PIf a b c) (PIf a' b' c')
  | RqAnd a b a' b' : requoted D a a' -> requoted D b b' -> requoted D (PAnd a b) (PAnd a' b')
  | RqOr a b a' b' : requoted D a a' -> requoted D b b' -> requoted D (POr a b) (POr a' b')
  | RqCompare a l a' l' : requoted D a a' -> Forall2 (fun p q => fst p = fst q /\ requoted D (snd p) (snd q)) l l' -> requoted D (PCompare a l) (PCompare a' l')
  | RqWalrus s e e' : s <> "Q" -> requoted D e e' -> requoted D (PWalrus s e) (PWalrus s e')
  | RqOldQuote s : requoted D (PQuote s) (PQuote s).
End S.
