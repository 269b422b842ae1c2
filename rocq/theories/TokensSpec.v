(** Specification of the token pretty printer. *)
From Verif Require Import Base TokensModel.

(** Tokens with text: everything but the end-of-line and end-of-input markers. *)
Definition has_text (t : pytype * string) : bool :=
  match fst t with PNEWLINE | PENDMARKER => false | _ => true end.

(** Names, numbers and strings. *)
Definition word (t : pytype * string) : Prop :=
  fst t = PNAME \/ fst t = PNUMBER \/ fst t = PSTRING.

(** Tokens about block structure or blank lines; they cannot occur in an expression. *)
Definition layout (t : pytype * string) : Prop :=
  fst t = PINDENT \/ fst t = PDEDENT \/ fst t = PNL.

(** Token texts written one after the other, each preceded by one space iff its
    flag is set. *)
Fixpoint spaced (l : list (bool * string)) : string :=
  match l with
  | [] => EmptyString
  | (b, s) :: r => String.append (if b then " "%string else EmptyString) (String.append s (spaced r))
  end.
