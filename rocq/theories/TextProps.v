(** Property C89: formulas as text. *)
From Coq Require Import Ascii.
From Verif Require Import Base OriginModel TokensModel DescModel ParseFormulaModel FormulaModel PyLexModel PyLexSpec PyLexProofs
  TextModel TextSpec TextProofs TextBackProofs TextErrProofs TextOpenProofs.
Open Scope string_scope.
Open Scope list_scope.

(** C89.  Blanks and newlines between the tokens of a formula do not matter. *)
Theorem formula_spacing : forall is_float l s1 s2 m,
  written blank_or_newline l s1 -> written blank_or_newline l s2 ->
  (from_text is_float s1 = Ok m <-> from_text is_float s2 = Ok m).
Proof. intros is_float l s1 s2 m H1 H2. split; eapply spacing_lemma; eassumption. Qed.
Print Assumptions formula_spacing.

(** C89.  The model is a function of the kinds and texts of the tokens. *)
Theorem formula_same_tokens : forall is_float s1 s2 it1 it2 m,
  python_tokenize (formula_text s1) = (it1, None) -> python_tokenize (formula_text s2) = (it2, None) ->
  map (fun t => (pt_type t, pt_string t)) it1 = map (fun t => (pt_type t, pt_string t)) it2 ->
  (from_text is_float s1 = Ok m <-> from_text is_float s2 = Ok m).
Proof.
  intros is_float s1 s2 it1 it2 m H1 H2 E. split; eapply same_tokens_lemma; eauto.
Qed.
Print Assumptions formula_same_tokens.

(** C89.  The text describe() returns, read as a formula, gives the model again; no tokenizer, no
    normalising function and no text of the factors is assumed. *)
Theorem describe_text_reads_back : forall is_float s it m,
  python_tokenize (formula_text s) = (it, None) ->
  neighbours_fit (map (fun t => (pt_type t, pt_string t)) it) = true ->
  from_text is_float s = Ok m -> from_text is_float (describe m) = Ok m.
Proof. exact read_back. Qed.
Print Assumptions describe_text_reads_back.

(** C89.  Every text is a formula or is refused with a PatsyError whose origin is in the text (newlines as
    blanks, and without the space around it), unless it starts with an unclosed string in three quotes. *)
Theorem formula_text_total_or_located : forall is_float s,
  ~ open_quotes (strip (no_newlines (formula_text s))) ->
  (exists m, from_text is_float s = Ok m) \/
  (exists e, from_text is_float s = Err e /\ located_in (strip (no_newlines (formula_text s))) e).
Proof. exact text_total. Qed.
Print Assumptions formula_text_total_or_located.

(** C89, finding: a text that does start with one raises IndexError. *)
Theorem open_quotes_alone : forall is_float s,
  open_quotes (strip (no_newlines (formula_text s))) -> from_text is_float s = Err IndexError.
Proof. exact open_error. Qed.
Print Assumptions open_quotes_alone.

(** C89, finding: after other tokens, an unclosed string in three quotes is dropped with everything after it. *)
Theorem open_quotes_dropped : forall is_float l s p q r m,
  written blank_or_newline l s -> l <> [] ->
  (p = "" \/ string_prefix p) -> is_quote q = true -> never_closed q r -> all_chars (fun c => negb (Ascii.eqb c (ascii_of_nat 10))) r = true ->
  (from_text is_float (s ++ String " " (p ++ three q ++ r)) = Ok m <-> from_text is_float s = Ok m).
Proof. exact dropped_lemma. Qed.
Print Assumptions open_quotes_dropped.

(** C89, finding: so it is not true that text with an unclosed string is refused. *)
Theorem unclosed_string_refused_refuted : ~ (forall is_float s q r, is_quote q = true -> never_closed q r ->
  exists e, from_text is_float (s ++ three q ++ r) = Err e).
Proof.
  intros H. destruct (H (fun _ => false) "y ~ x " "'"%char "+ z" eq_refl) as [e E]; [|vm_compute in E; discriminate].
  intros b rest Hb E. apply (f_equal (fun x => read_long "'"%char x)) in E. rewrite (read_long_app _ _ _ Hb eq_refl) in E. discriminate.
Qed.
Print Assumptions unclosed_string_refused_refuted.

(** C89.  Tokens stand in the text where their origins say, one after another. *)
Theorem formula_token_places : forall s it e, python_tokenize s = (it, e) ->
  Forall (fun t => simple_token (pt_type t, pt_string t) /\ placed (strip (no_newlines s)) t) it /\ one_after_another it.
Proof. intros s it e H. destruct (python_spec s it e H) as [A [B _]]. split; [exact A|exact B]. Qed.
Print Assumptions formula_token_places.

(** C89.  The formula without any text is the intercept alone. *)
Theorem blank_formula : forall is_float s, (forall c, In c (list_ascii_of_string s) -> is_space c = true) ->
  from_text is_float s = Ok (MkModelDesc [] [[]]).
Proof.
  intros is_float s H. unfold from_text, formula_text. rewrite (proj2 (String.eqb_eq _ _) (proj2 (strip_empty s) H)). reflexivity.
Qed.
Print Assumptions blank_formula.

(** * Examples *)
Definition nl : string := String newline "".
Example text_ex_written :
  let l := [(PNAME, "y"); (POTHER, "~"); (PNAME, "C"); (POTHER, "("); (PNAME, "a"); (POTHER, ")"); (POTHER, "+"); (PNAME, "b")] in
  written blank_or_newline l "y~C(a)+b" /\ written blank_or_newline l ("  y ~" ++ nl ++ "  C ( a )" ++ nl ++ " + b ").
Proof.
  assert (W : forall b t l s, all_chars blank_or_newline b = true -> simple_token t -> all_chars (fun c => negb (Ascii.eqb c (ascii_of_nat 10))) (snd t) = true ->
    written blank_or_newline l s -> match l with [] => True | u :: _ => spacy blank_or_newline s \/ may_touch t u = true end -> forall x, x = (b ++ snd t ++ s)%string -> written blank_or_newline (t :: l) x) by (intros; subst; now constructor).
  assert (E : forall b, all_chars blank_or_newline b = true -> written blank_or_newline [] b) by (intros; now constructor).
  cbn zeta. split.
  - apply (W "" _ _ "~C(a)+b"); [reflexivity|cbn; auto|reflexivity| |right; reflexivity|reflexivity].
    apply (W "" _ _ "C(a)+b"); [reflexivity|cbn; tauto|reflexivity| |right; reflexivity|reflexivity].
    apply (W "" _ _ "(a)+b"); [reflexivity|cbn; auto|reflexivity| |right; reflexivity|reflexivity].
    apply (W "" _ _ "a)+b"); [reflexivity|cbn; tauto|reflexivity| |right; reflexivity|reflexivity].
    apply (W "" _ _ ")+b"); [reflexivity|cbn; auto|reflexivity| |right; reflexivity|reflexivity].
    apply (W "" _ _ "+b"); [reflexivity|cbn; tauto|reflexivity| |right; reflexivity|reflexivity].
    apply (W "" _ _ "b"); [reflexivity|cbn; tauto|reflexivity| |right; reflexivity|reflexivity].
    apply (W "" _ _ ""); [reflexivity|cbn; auto|reflexivity|now apply E|exact I|reflexivity].
  - apply (W "  " _ _ (" ~" ++ nl ++ "  C ( a )" ++ nl ++ " + b ")%string); [reflexivity|cbn; auto|reflexivity| |right; reflexivity|reflexivity].
    apply (W " " _ _ (nl ++ "  C ( a )" ++ nl ++ " + b ")%string); [reflexivity|cbn; tauto|reflexivity| |right; reflexivity|reflexivity].
    apply (W (nl ++ "  ")%string _ _ (" ( a )" ++ nl ++ " + b ")%string); [reflexivity|cbn; auto|reflexivity| |right; reflexivity|reflexivity].
    apply (W " " _ _ (" a )" ++ nl ++ " + b ")%string); [reflexivity|cbn; tauto|reflexivity| |right; reflexivity|reflexivity].
    apply (W " " _ _ (" )" ++ nl ++ " + b ")%string); [reflexivity|cbn; auto|reflexivity| |right; reflexivity|reflexivity].
    apply (W " " _ _ (nl ++ " + b ")%string); [reflexivity|cbn; tauto|reflexivity| |right; reflexivity|reflexivity].
    apply (W (nl ++ " ")%string _ _ " b "); [reflexivity|cbn; tauto|reflexivity| |right; reflexivity|reflexivity].
    apply (W " " _ _ " "); [reflexivity|cbn; auto|reflexivity|now apply E|exact I|reflexivity].
Qed.
Example text_ex_model :
  from_text (fun _ => false) "np.log(y  +1) ~ a*b + C( x,Treatment ) - 1" =
  Ok (MkModelDesc [["np.log(y + 1)"]] [["a"]; ["b"]; ["a"; "b"]; ["C(x, Treatment)"]]).
Proof. vm_compute. reflexivity. Qed.
Example text_ex_back :
  let s := "np.log(y  +1) ~ a*b + C( x,Treatment ) - 1" in
  exists it m, python_tokenize (formula_text s) = (it, None) /\ neighbours_fit (map (fun t => (pt_type t, pt_string t)) it) = true /\
    from_text (fun _ => false) s = Ok m /\ describe m = "np.log(y + 1) ~ 0 + a + b + a:b + C(x, Treatment)" /\
    from_text (fun _ => false) (describe m) = Ok m.
Proof.
  cbn zeta. do 2 eexists. split; [vm_compute; reflexivity|]. split; [vm_compute; reflexivity|]. split; [exact text_ex_model|]. split; vm_compute; reflexivity.
Qed.
Example text_ex_errors :
  from_text (fun _ => false) " y ~ x # z" = Err (comment_error "y ~ x # z" 6) /\
  from_text (fun _ => false) "y ~ 'x" = Err (unclosed_error "y ~ 'x") /\
  from_text (fun _ => false) "y ~ x + 2" = Err (PatsyError "numbers besides '0' and '1' are only allowed with **" (Some (mkOrigin "y ~ x + 2" 8 9))).
Proof. repeat split; vm_compute; reflexivity. Qed.
Example text_ex_place : exists it, python_tokenize " aa+ b" = (it, None) /\
  map (fun t => (pt_string t, o_start (pt_origin t), o_end (pt_origin t))) it = [("aa", 0, 2); ("+", 2, 3); ("b", 4, 5)].
Proof. eexists. split; vm_compute; reflexivity. Qed.
Example text_ex_blank : from_text (fun _ => false) (" " ++ nl) = Ok (MkModelDesc [] [[]]).
Proof. apply blank_formula. intros c [<-|[<-|[]]]; reflexivity. Qed.
Example text_ex_open :
  from_text (fun _ => false) "y ~ x '''+ z" = Ok (MkModelDesc [["y"]] [[]; ["x"]]) /\ from_text (fun _ => false) "r'''y ~ x" = Err IndexError /\
  from_text (fun _ => false) "y ~ f('''a'b''', 'c\'d', 1e-3, .5) + Q(u""x y"")" = Ok (MkModelDesc [["y"]] [[]; ["f('''a'b''', 'c\'d', 1e-3, .5)"]; ["Q(u""x y"")"]]).
Proof. repeat split; vm_compute; reflexivity. Qed.
