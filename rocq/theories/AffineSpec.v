(** Models over numeric variables that are shifted, scaled or combined (C106). *)
From Coq Require Import Permutation Ring_theory.
From Verif Require Import Base RankSpec DescModel BuildModel BuildSpec RankMatSpec.
Open Scope list_scope.

Section Affine.
Context {R : Type} (rO rI : R) (radd rmul : R -> R -> R).
(** The numeric factors of one model are made of those of another: the columns of [f] are combinations, [scale f],
    of the columns of [other f], and may have something, [shift f], added. *)
Variables (other : factor -> factor) (scale : factor -> nat -> nat -> R) (shift : factor -> option (nat -> R)).
Variables (num1 num2 : factor -> option nat).

Definition shift_by (f : factor) (k : nat) : R := match shift f with Some b => b k | None => rO end.
Definition affine {P : Type} (ok : P -> Prop) (number1 number2 : P -> factor -> nat -> R) (fs : list factor) : Prop :=
  forall f n, In f fs -> num1 f = Some n -> exists n', num2 (other f) = Some n' /\
    forall p k, ok p -> k < n -> number1 p f k = radd (rsum rO radd (fun j => rmul (scale f k j) (number2 p (other f) j)) (seq 0 n')) (shift_by f k).

(** Some of the factors that have something added, left out. *)
Inductive left_out : list factor -> list factor -> Prop :=
| lo_nil : left_out [] []
| lo_keep f l s : left_out l s -> left_out (f :: l) (f :: s)
| lo_leave f l s : shift f <> None -> left_out l s -> left_out (f :: l) s.
(** Each term of the one model, with any of these left out, is in a term of the other. *)
Definition contained (tl1 tl2 : list term) : Prop :=
  forall t s, In t tl1 -> left_out (numerics num1 t) s -> exists u, In u tl2 /\
    Permutation (map other s) (numerics num2 u) /\ incl (categoricals num1 t) (categoricals num2 u).
End Affine.

(** Whenever a term has a factor that something is added to, the rest of the term is in a term too. *)
Definition hierarchical (shifted : factor -> Prop) (num : factor -> option nat) (tl : list term) : Prop :=
  forall t f a b, In t tl -> shifted f -> numerics num t = a ++ f :: b -> exists u, In u tl /\
    Permutation (a ++ b) (numerics num u) /\ incl (categoricals num t) (categoricals num u).

(** The same model over other variables: the terms [map (map other) tl]; the columns of the numeric factor [f] and
    those of [other f] are combinations of each other, up to [shift f]; categorical factors stay as they are. *)
Definition same_model_over {R : Type} (rO rI : R) (radd rmul : R -> R -> R) (other back : factor -> factor) (scale unscale : factor -> nat -> nat -> R) (shift : factor -> option (nat -> R))
    (num1 num2 : factor -> option nat) {P : Type} (ok : P -> Prop) (level1 level2 : P -> factor -> nat) (number1 number2 : P -> factor -> nat -> R) (tl : list term) : Prop :=
  forall f, In f (concat tl) -> num2 (other f) = num1 f /\ back (other f) = f /\
    match num1 f with
    | Some n => is_inverse rO rI radd rmul n (scale f) (unscale f) /\
        forall p k, ok p -> k < n -> number1 p f k = radd (rsum rO radd (fun j => rmul (scale f k j) (number2 p (other f) j)) (seq 0 n)) (shift_by rO shift f k)
    | None => other f = f /\ forall p, ok p -> level1 p f = level2 p f
    end.
