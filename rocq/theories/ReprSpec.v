(** Specification of the shown form of design matrices. *)
From Coq Require Import ZArith Ascii QArith.
From Verif Require Import Base BuildModel MiscSpec.
Open Scope string_scope.
Open Scope list_scope.
Open Scope nat_scope.

Definition newline : string := String (ascii_of_nat 10) "".
(** Lines put together. *)
Fixpoint text (lines : list string) : string :=
  match lines with [] => "" | [l] => l | l :: r => (l ++ newline ++ text r)%string end.

(** [x] is [s] pushed to the right end of a field of [w] places. *)
Definition in_field (w : nat) (s x : string) : Prop :=
  String.length x = w /\ exists pad, x = (pad ++ s)%string /\ forall c, In c (list_ascii_of_string pad) -> c = " "%char.
(** A line of fields with two spaces between them. *)
Inductive table_line : list nat -> list string -> string -> Prop :=
| tl_none : table_line [] [] ""
| tl_one w s x : in_field w s x -> table_line [w] [s] x
| tl_more w s x w' ws ss line : in_field w s x -> table_line (w' :: ws) ss line ->
    table_line (w :: w' :: ws) (s :: ss) (x ++ "  " ++ line).
(** [w] is the least width for the texts. *)
Definition least_width (texts : list string) (w : nat) : Prop :=
  (forall s, In s texts -> String.length s <= w) /\ (exists s, In s texts /\ String.length s = w).
(** The places of a line: the fields and what stands between them, and two for an indentation. *)
Definition places (widths : list nat) : nat := 2 + 2 * (List.length widths - 1) + list_sum widths.

(** The columns of a term in words. *)
Definition span_text (repr_str : string -> string) (ns : string * (nat * nat)) : string :=
  let '(name, (a, b)) := ns in
  if Nat.eqb b (a + 1) then (repr_str name ++ " (column " ++ nat_str a ++ ")")%string
  else (repr_str name ++ " (columns " ++ nat_str a ++ ":" ++ nat_str b ++ ")")%string.
Fixpoint listing (l : list string) : string := match l with [] => "" | [s] => s | s :: r => (s ++ ", " ++ listing r)%string end.

Section Shown.
Context {V : Type}.
Variable fmt : V -> string.
(** [shown col texts]: the first thirty entries of a column, as texts that stand for the same numbers; what is no
    number is unchanged. *)
Definition shown (col : list V) (texts : list string) : Prop :=
  Forall2 (fun v s => same_number (number s) (number (fmt v)) /\ (~ plain_number (fmt v) -> s = fmt v)) (firstn 30 col) texts.
Definition rectangular (m : @dmat V) : Prop := forall col, In col (m_cols m) -> List.length col = m_rows m.
(** How many rows of numbers a table has. *)
Definition rows_shown (m : @dmat V) : nat := match m_cols m with [] => 0 | _ => Nat.min 30 (m_rows m) end.

(** The lines of a table. *)
Definition table_shown (names : list string) (texts : list (list string)) (widths : list nat) (m : @dmat V) (lines : list string) : Prop :=
  exists header body, table_line widths names header /\ List.length body = rows_shown m /\
    (forall i line, nth_error body i = Some line -> table_line widths (map (fun t => nth i t "") texts) line) /\
    lines = header :: body ++ (if Nat.ltb 30 (m_rows m) then ["[" ++ nat_str (m_rows m - 30) ++ " rows omitted]"]%string else []).
Definition list_shown (repr_str : string -> string) (names : list string) : list string :=
  ["Columns:"; ("[" ++ listing (map repr_str names) ++ "]")%string].
End Shown.
