(** Where the pretty printer of Python code puts spaces: a rule in terms of the tokens before. *)
From Verif Require Import Base TokensModel TokensSpec.
Open Scope string_scope.
Open Scope list_scope.

Definition ptoken := (pytype * string)%type.
Definition one_of_texts (l : list string) (t : ptoken) : bool := existsb (String.eqb (snd t)) l.
Definition is_word (t : ptoken) : bool := match fst t with PNAME | PNUMBER | PSTRING => true | _ => false end.

(** The last token of those read so far. *)
Definition previous (pre : list ptoken) : option ptoken := match rev pre with t :: _ => Some t | [] => None end.
Definition previous_is (f : ptoken -> bool) (pre : list ptoken) : bool := match previous pre with Some t => f t | None => false end.
(** The brackets still open after [l], innermost first. *)
Fixpoint open_after (st : list string) (l : list ptoken) : list string :=
  match l with
  | [] => st
  | t :: r => open_after (if is_word t then st else if one_of_texts ["("; "["; "{"] t then snd t :: st
                          else if one_of_texts [")"; "]"; "}"] t then tl st else st) r
  end.
Definition inside_brackets (pre : list ptoken) : bool := match open_after [] pre with [] => false | _ => true end.
Definition inside_index (pre : list ptoken) : bool := match open_after [] pre with b :: _ => String.eqb b "[" | [] => false end.

(** Operators written between operands. *)
Definition between : list string :=
  ["+"; "-"; "*"; "/"; "%"; "&"; "^"; "|"; "<"; ">"; "=="; "<>"; "!="; "<="; ">="; "<<"; ">>"; "**"; "//"].

(** [pre] are the tokens before [t]. *)
Section At.
Variables (pre : list ptoken) (t : ptoken).
(** A sign: plus or minus not after a name, number, string or closing paren. *)
Definition sign : bool := one_of_texts ["+"; "-"] t && negb (previous_is (fun x => is_word x || one_of_texts [")"] x) pre).
(** The star of an argument list. *)
Definition star : bool := one_of_texts ["*"; "**"] t && previous_is (one_of_texts ["("; ","]) pre.
(** An assignment, outside any brackets. *)
Definition assignment : bool := one_of_texts ["="] t && negb (inside_brackets pre).
(** The colon of a slice. *)
Definition slice : bool := one_of_texts [":"] t && inside_index pre.
Definition wants_before : bool :=
  negb (is_word t) && negb sign && (assignment || (negb star && one_of_texts (between ++ ["!"; "~"]) t)).
Definition wants_after : bool :=
  negb (is_word t) && negb sign && (assignment || (negb star && negb slice && one_of_texts (between ++ [","; ":"]) t)).
End At.

(** There is a space before [t] iff it wants one before, or the token before it wants one after, or both
    are words. *)
Definition gap (pre : list ptoken) (t : ptoken) : bool :=
  wants_before pre t ||
  match rev pre with
  | [] => false
  | x :: r => wants_after (rev r) x || (is_word x && is_word t)
  end.
