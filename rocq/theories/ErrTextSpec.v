(** What the text of an error looks like. *)
From Coq Require Import Ascii.
From Verif Require Import Base.
Open Scope string_scope.
Open Scope list_scope.

(** A text as lines. *)
Fixpoint lines (s : string) : list string :=
  match s with
  | EmptyString => [""]
  | String c r =>
      if Ascii.eqb c (ascii_of_nat 10) then "" :: lines r
      else match lines r with h :: t => String c h :: t | [] => [String c ""] end
  end.

(** Blanks before position [a], carets from [a] up to [b], nothing from [b] on. *)
Definition carets (a b : nat) (line : string) : Prop :=
  forall j, String.get j line = if Nat.ltb j a then Some " "%char else if Nat.ltb j b then Some "^"%char else None.
(** The text moved [k] places to the right. *)
Definition indented (k : nat) (text line : string) : Prop :=
  (forall j, j < k -> String.get j line = Some " "%char) /\ (forall i, String.get (k + i) line = String.get i text).
