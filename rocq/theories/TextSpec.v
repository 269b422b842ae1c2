(** What it means for a text to be written with given tokens. *)
From Coq Require Import Ascii.
From Verif Require Import Base OriginModel TokensModel ParseFormulaModel PyLexModel PyLexSpec.
Open Scope string_scope.
Open Scope list_scope.

Definition word_like (t : pytype * string) : bool := match fst t with PNAME | PNUMBER | PSTRING => true | _ => false end.
(** The second token may follow the first one directly. *)
Definition may_touch (t u : pytype * string) : bool := negb (word_like t && word_like u) && fits t u.

Section Written.
(** The characters allowed between tokens. *)
Variable space : ascii -> bool.
Definition spacy (s : string) : Prop := exists c r, s = String c r /\ space c = true.

(** [written l s]: the text [s] consists of the tokens [l], with spaces before, between and after them
    wherever one likes, and at least one where two tokens must not touch. *)
Inductive written : list (pytype * string) -> string -> Prop :=
| wr_end b : all_chars space b = true -> written [] b
| wr_token b t l s : all_chars space b = true -> simple_token t -> all_chars (fun c => negb (Ascii.eqb c (ascii_of_nat 10))) (snd t) = true ->
    written l s ->
    match l with [] => True | u :: _ => spacy s \/ may_touch t u = true end ->
    written (t :: l) (b ++ snd t ++ s).
End Written.

(** Blanks, tabs, form feeds and newlines. *)
Definition blank_or_newline (c : ascii) : bool := existsb (Ascii.eqb c) [" "; "009"; "012"; "010"]%char.

(** The text starts with a string in three quotes that is never closed. *)
Definition never_closed (q : ascii) (s : string) : Prop := forall b rest, long q b -> s <> (b ++ rest)%string.
Definition open_quotes (s : string) : Prop :=
  exists p q r, (p = "" \/ string_prefix p) /\ is_quote q = true /\ s = (p ++ three q ++ r)%string /\ never_closed q r.

(** The token stands in the text at the place its origin says. *)
Definition placed (code : string) (t : pytok) : Prop :=
  o_code (pt_origin t) = code /\
  exists before after, code = (before ++ pt_string t ++ after)%string /\
    o_start (pt_origin t) = String.length before /\ o_end (pt_origin t) = String.length before + String.length (pt_string t).
(** Each token ends before the next one starts. *)
Definition one_after_another (it : list pytok) : Prop :=
  forall i t u, nth_error it i = Some t -> nth_error it (S i) = Some u -> o_end (pt_origin t) <= o_start (pt_origin u).
(** A place in the text, of at least one character. *)
Definition inside (code : string) (o : origin) : Prop :=
  o_code o = code /\ o_start o < o_end o /\ o_end o <= String.length code.
(** An error pointing at some characters of the text. *)
Definition located_in (code : string) (e : exn) : Prop :=
  exists msg o, e = PatsyError msg (Some o) /\ inside code o.
