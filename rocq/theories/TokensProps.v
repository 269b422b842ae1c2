(** Properties C09, C10 of patsy/tokens.py (and EvalFactor equality). *)
From Verif Require Import Base TokensModel TokensSpec TokensProofs.

(** C09.  The output is the texts of the tokens, in order, each preceded by nothing
    or one space; a leading word has no space in front, and a word directly after
    a word always has one. *)
Theorem pretty_untokenize_spacing : forall toks s, pretty_untokenize toks = Ok s ->
  (forall t, In t toks -> ~ layout t) /\
  exists seps, length seps = length (filter has_text toks) /\
    s = spaced (List.combine seps (map snd (filter has_text toks))) /\
    (forall t l, filter has_text toks = t :: l -> word t -> nth 0 seps true = false) /\
    (forall i t u, nth_error (filter has_text toks) i = Some t ->
        nth_error (filter has_text toks) (S i) = Some u -> word t -> word u ->
        nth (S i) seps false = true).
Proof. exact pretty_ok_lemma. Qed.
Print Assumptions pretty_untokenize_spacing.

(** C09.  It fails only by its own assertion, exactly when a layout token occurs. *)
Theorem pretty_untokenize_total : forall toks,
  (forall e, pretty_untokenize toks = Err e -> e = AssertionError) /\
  ((exists e, pretty_untokenize toks = Err e) <-> exists t, In t toks /\ layout t).
Proof. exact pretty_err_lemma. Qed.
Print Assumptions pretty_untokenize_total.

Example pretty_ex :
  pretty_untokenize [(PNAME, "foo"); (POTHER, "("); (POTHER, "*"); (PNAME, "args"); (POTHER, ")");
                     (PNAME, "if"); (PNAME, "a"); (POTHER, "["); (PNUMBER, "1"); (POTHER, ":");
                     (POTHER, "]"); (PNAME, "else"); (POTHER, "-"); (PNUMBER, "1"); (PNEWLINE, "")]%string
  = Ok "foo(*args)if a[1:]else - 1"%string.
Proof. reflexivity. Qed.

(** C09, a limit: tokens that are neither names, numbers nor strings can be glued to
    a preceding word.  From Python 3.12 on an f-string starts with a token of its own
    type (text [f`]), so the code [a in f`b`] is turned into [a inf`b`]. *)
Theorem pretty_untokenize_glues_fstring_refuted :
  exists toks, toks = [(PNAME, "a"); (PNAME, "in"); (POTHER, "f'"); (POTHER, "b"); (POTHER, "'")]%string /\
    pretty_untokenize toks = Ok "a inf'b'"%string.
Proof. eexists; split; reflexivity. Qed.
Print Assumptions pretty_untokenize_glues_fstring_refuted.

(** A number followed by an attribute access loses its separating space: [1 .real]
    is turned into [1.real], which Python does not read back. *)
Theorem pretty_untokenize_number_attribute_refuted :
  exists toks, toks = [(PNUMBER, "1"); (POTHER, "."); (PNAME, "real")]%string /\
    pretty_untokenize toks = Ok "1.real"%string.
Proof. eexists; split; reflexivity. Qed.
Print Assumptions pretty_untokenize_number_attribute_refuted.
