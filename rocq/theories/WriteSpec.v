(** Writing linear constraints as text. *)
From Coq Require Import Ascii.
From Verif Require Import Base NumModel BuildModel ConstraintModel ConstraintSpec.
Open Scope nat_scope.

(** Arithmetic with parameters and whole numbers. *)
Inductive expr :=
| EVar (n : string) | ENum (k : nat) | ENeg (a : expr)
| EAdd (a b : expr) | ESub (a b : expr) | EMul (a b : expr) | EDiv (a b : expr).

(** Its value, if there is one, where [beta] gives the parameters values. *)
Fixpoint value (beta : string -> Qc) (e : expr) : option Qc :=
  match e with
  | EVar n => Some (beta n)
  | ENum k => Some (qz (Z.of_nat k))
  | ENeg a => option_map Qcopp (value beta a)
  | EAdd a b => lift2 (fun x y => Some (x + y)%Qc) (value beta a) (value beta b)
  | ESub a b => lift2 (fun x y => Some (x - y)%Qc) (value beta a) (value beta b)
  | EMul a b => lift2 (fun x y => Some (x * y)%Qc) (value beta a) (value beta b)
  | EDiv a b => lift2 (fun x y => if Qc_eq_bool y 0%Qc then None else Some (x / y)%Qc) (value beta a) (value beta b)
  end.

(** The text, with parentheses everywhere. *)
Fixpoint written (e : expr) : string :=
  ("(" ++ match e with
          | EVar n => n
          | ENum k => nat_str k
          | ENeg a => "-" ++ written a
          | EAdd a b => written a ++ "+" ++ written b
          | ESub a b => written a ++ "-" ++ written b
          | EMul a b => written a ++ "*" ++ written b
          | EDiv a b => written a ++ "/" ++ written b
          end ++ ")")%string.
Definition written_equation (q : expr * expr) : string := (written (fst q) ++ "=" ++ written (snd q))%string.
Definition written_system (first : expr * expr) (more : list (expr * expr)) : string :=
  fold_left (fun s q => s ++ "," ++ written_equation q)%string more (written_equation first).

(** Which columns can be written down: their names do not start with a digit, an operator or a parenthesis, and
    no name is another one followed by a closing parenthesis. *)
Definition readable_start (n : string) : Prop :=
  match n with EmptyString => False | String c _ => is_digit c = false /\ ~ is_punct (String c "") end.
Definition readable_names (names : list string) : Prop :=
  Forall readable_start names /\ forall n m, In n names -> In m names -> ~ starts_with (n ++ ")") m.

Fixpoint about (names : list string) (e : expr) : Prop :=
  match e with
  | EVar n => In n names
  | ENum _ => True
  | ENeg a => about names a
  | EAdd a b | ESub a b | EMul a b | EDiv a b => about names a /\ about names b
  end.
(** Independent of the parameters. *)
Definition fixed (e : expr) : Prop := forall b1 b2, value b1 e = value b2 e.
(** Products have a fixed factor, divisors are fixed and not zero. *)
Fixpoint is_linear (e : expr) : Prop :=
  match e with
  | EVar _ | ENum _ => True
  | ENeg a => is_linear a
  | EAdd a b | ESub a b => is_linear a /\ is_linear b
  | EMul a b => is_linear a /\ is_linear b /\ (fixed a \/ fixed b)
  | EDiv a b => is_linear a /\ is_linear b /\ fixed b /\ ~ (forall beta, value beta b = Some 0%Qc)
  end.
(** An equation between such expressions, whose sides do not differ by a constant. *)
Definition proper_equation (names : list string) (q : expr * expr) : Prop :=
  about names (fst q) /\ about names (snd q) /\ is_linear (fst q) /\ is_linear (snd q) /\ ~ fixed (ESub (fst q) (snd q)).
Definition solves (beta : string -> Qc) (q : expr * expr) : Prop :=
  exists v, value beta (fst q) = Some v /\ value beta (snd q) = Some v.

(** * Matrices as text *)
Definition fraction (q : Qc) : expr :=
  let n := ENum (Z.to_nat (Z.abs (Qnum (this q)))) in
  EDiv (if (Qnum (this q) <? 0)%Z then ENeg n else n) (ENum (Pos.to_nat (Qden (this q)))).
Fixpoint combination (names : list string) (row : list Qc) : expr :=
  match names, row with
  | n :: names, q :: row => EAdd (EMul (fraction q) (EVar n)) (combination names row)
  | _, _ => ENum 0
  end.
Definition row_equation (names : list string) (row : list Qc) (k : Qc) : expr * expr := (combination names row, fraction k).
