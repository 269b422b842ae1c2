(** Specification: which texts Python's int() reads, and as which number (ASCII only). *)
From Coq Require Import Ascii ZArith.
From Verif Require Import Base.

(** What int() skips at both ends. *)
Definition blank_char (c : ascii) : Prop := In (nat_of_ascii c) [9; 10; 11; 12; 13; 28; 29; 30; 31; 32].
Definition digit_is (c : ascii) (d : Z) : Prop := exists n, n < 10 /\ c = ascii_of_nat (48 + n) /\ d = Z.of_nat n.
(** Digits, possibly with single underscores between them. *)
Inductive digits_are : list ascii -> list Z -> Prop :=
| da_one c d : digit_is c d -> digits_are [c] [d]
| da_next c d r ds : digit_is c d -> digits_are r ds -> digits_are (c :: r) (d :: ds)
| da_under c d r ds : digit_is c d -> digits_are r ds -> digits_are (c :: "_"%char :: r) (d :: ds).
Fixpoint positional (ds : list Z) : Z :=
  match ds with [] => 0%Z | d :: r => (d * 10 ^ Z.of_nat (List.length r) + positional r)%Z end.
Definition int_text (s : string) (k : Z) : Prop :=
  exists pre sign body post ds, list_ascii_of_string s = pre ++ sign ++ body ++ post /\
    Forall blank_char pre /\ Forall blank_char post /\ digits_are body ds /\
    ((sign = [] \/ sign = ["+"%char]) /\ k = positional ds \/ sign = ["-"%char] /\ k = (- positional ds)%Z).
