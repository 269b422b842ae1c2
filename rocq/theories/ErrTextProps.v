(** Property C90: the text of an error, and the places in it. *)
From Coq Require Import Ascii.
From Verif Require Import Base OriginModel TokensModel DescModel InfixModel NumModel ParseFormulaModel ConstraintModel ConstraintSpec ConstraintLexProofs MiscModel BuildModel PyLexModel PyLexSpec
  TextModel TextSpec TextErrProofs ErrTextModel ErrTextSpec ErrTextProofs.
Open Scope string_scope.
Open Scope list_scope.

(** C90.  str() of an error with an origin is the message, the code moved four places to the right, and a
    line with a caret under each character of the origin and nowhere else; without origin it is the message. *)
Theorem error_text_shape : forall msg o, all_chars (fun c => negb (Ascii.eqb c (ascii_of_nat 10))) (o_code o) = true -> o_start o <= o_end o ->
  err_str msg None = msg /\
  exists shown marks, lines (err_str msg (Some o)) = lines msg ++ [shown; marks] /\
    indented 4 (o_code o) shown /\ carets (4 + o_start o) (4 + o_end o) marks.
Proof.
  intros msg o H1 H2. split; [reflexivity|]. exists (fst (caretize o 4)), (snd (caretize o 4)). split; [now apply err_lines|].
  destruct (caretize_spec o 4) as [H|H]; [exact H|lia].
Qed.
Print Assumptions error_text_shape.

(** C90.  Every refused formula (that does not start with an unclosed string in three quotes): the error shows the text of the formula, and at least one caret; every
    caret is under a character of the text, and these characters are the relevant code. *)
Theorem formula_error_shown : forall is_float s e, from_text is_float s = Err e -> ~ open_quotes (strip (no_newlines (formula_text s))) ->
  let code := strip (no_newlines (formula_text s)) in
  exists msg o shown marks, e = PatsyError msg (Some o) /\ lines (err_str msg (Some o)) = lines msg ++ [shown; marks] /\
    indented 4 code shown /\ carets (4 + o_start o) (4 + o_end o) marks /\ o_start o < o_end o /\ o_end o <= String.length code /\
    forall i, i < o_end o - o_start o -> exists c, String.get (4 + o_start o + i) shown = Some c /\
      String.get (4 + o_start o + i) marks = Some "^"%char /\ String.get i (relevant_code o) = Some c.
Proof.
  intros is_float s e H Ho code. destruct (text_total is_float s Ho) as [[m E]|[e' [E L]]]; [congruence|]. rewrite H in E. injection E as <-.
  destruct L as [msg [o [-> [Hc [H1 H2]]]]]. fold code in Hc, H2.
  assert (Hl : all_chars (fun c => negb (Ascii.eqb c (ascii_of_nat 10))) (o_code o) = true) by (rewrite Hc; apply code_clean).
  destruct (error_text_shape msg o Hl) as [_ [shown [marks [A [B C]]]]]; [lia|]. rewrite Hc in B.
  exists msg, o, shown, marks. split; [reflexivity|]. split; [exact A|]. split; [exact B|]. split; [exact C|]. split; [exact H1|]. split; [exact H2|].
  intros i Hi. destruct (String.get (o_start o + i) code) as [c|] eqn:Eg.
  - exists c. split; [|split].
    + replace (4 + o_start o + i) with (4 + (o_start o + i)) by lia. rewrite (proj2 B). exact Eg.
    + rewrite C. destruct (Nat.ltb_spec (4 + o_start o + i) (4 + o_start o)); [lia|]. destruct (Nat.ltb_spec (4 + o_start o + i) (4 + o_end o)); [reflexivity|lia].
    + rewrite relevant_get by (rewrite Hc; exact H2). destruct (Nat.ltb_spec i (o_end o - o_start o)); [|lia]. now rewrite Hc.
  - exfalso. assert (G : forall t j, String.get j t = None -> String.length t <= j).
    { clear. induction t as [|c t IH]; intros j Hj; [cbn; lia|]. destruct j as [|j]; [discriminate|]. cbn in *. apply IH in Hj. lia. }
    apply G in Eg. lia.
Qed.
Print Assumptions formula_error_shown.

(** C90 (and C42).  A PatsyError for constraints given as strings points at some characters of one of them. *)
Theorem constraint_errors_located : forall names codes m o, linear_constraint (LikeStrings codes) names = Err (PatsyError m o) ->
  exists code o', In code codes /\ o = Some o' /\ inside code o'.
Proof. exact strings_located. Qed.
Print Assumptions constraint_errors_located.
Theorem constraint_error_located : forall names code m o, linear_constraint (LikeString code) names = Err (PatsyError m o) ->
  exists o', o = Some o' /\ inside code o'.
Proof.
  intros names code m o H. destruct (strings_located names [code] m o H) as [c [o' [[<-|[]] [E Ho]]]]. eauto.
Qed.
Print Assumptions constraint_error_located.

(** C90.  The relevant code of a token is its text, in formulas and in constraints. *)
Theorem formula_token_relevant : forall s it e, python_tokenize s = (it, e) ->
  Forall (fun t => relevant_code (pt_origin t) = pt_string t) it.
Proof.
  intros s it e H. destruct (python_spec s it e H) as [A _]. eapply Forall_impl; [|exact A]. cbn. intros t [_ B]. eapply placed_relevant; eauto.
Qed.
Print Assumptions formula_token_relevant.
Theorem constraint_token_relevant : forall names code toks, tokenize_constraint code names = Ok toks ->
  Forall (fun t => inside code (tk_origin t) /\ tk_extra t = Some (relevant_code (tk_origin t))) toks.
Proof.
  intros names code toks H. apply tokenize_ok_iff in H. pose proof (lexes_inside _ _ _ _ _ _ H "" eq_refl eq_refl) as [F _].
  assert (E : Forall (fun t => tk_extra t <> None) toks). { clear F. induction H as [|? ? ? ? ? ? ? IH|? ? ? ? ? ? ? ? IH]; [constructor|exact IH|constructor; [discriminate|exact IH]]. }
  rewrite Forall_forall in *. intros t Ht. destruct (F t Ht) as [A B]. split; [exact A|]. rewrite B. unfold ttext. specialize (E t Ht). destruct (tk_extra t); [reflexivity|congruence].
Qed.
Print Assumptions constraint_token_relevant.

(** C90.  repr() of an origin is the code with the relevant part between arrows, and its place. *)
Theorem origin_repr_shows : forall o, o_start o <= o_end o -> o_end o <= String.length (o_code o) ->
  exists before after, o_code o = (before ++ relevant_code o ++ after)%string /\ String.length before = o_start o /\
    String.length (relevant_code o) = o_end o - o_start o /\
    origin_repr o = ("<Origin " ++ before ++ "->" ++ relevant_code o ++ "<-" ++ after ++ " (" ++ nat_str (o_start o) ++ "-" ++ nat_str (o_end o) ++ ")>")%string.
Proof. exact repr_lemma. Qed.
Print Assumptions origin_repr_shows.

(** C90.  Origins are equal iff code, start and end are; the hashes agree then. *)
Theorem origin_equality : forall a b, (origin_eq a b = true <-> a = b) /\ origin_ne a b = negb (origin_eq a b) /\
  (origin_eq a b = true -> origin_hash_key a = origin_hash_key b).
Proof.
  intros a b. assert (E : origin_eq a b = true <-> a = b).
  { unfold origin_eq. rewrite !andb_true_iff, String.eqb_eq, !Nat.eqb_eq. destruct a, b. cbn. split; [intros [[-> ->] ->]; reflexivity|intros [= -> -> ->]; auto]. }
  split; [exact E|]. split; [reflexivity|]. intros H. apply E in H. now subst.
Qed.
Print Assumptions origin_equality.

(** C90, finding: a constraint may contain newlines, and then the carets do not stand under the code. *)
Theorem constraint_error_shown_refuted : exists names code m o l1 l2 marks,
  linear_constraint (LikeString code) names = Err (PatsyError m (Some o)) /\ inside code o /\
  lines (err_str m (Some o)) = [m; l1; l2; marks] /\ carets (4 + o_start o) (4 + o_end o) marks /\
  String.length l2 <= 4 + o_start o.
Proof.
  exists ["a"], ("a =" ++ String (ascii_of_nat 10) "b")%string. do 5 eexists. split; [vm_compute; reflexivity|]. split; [split; [reflexivity|cbn; lia]|]. split; [vm_compute; reflexivity|]. split; [|cbn; lia].
  intros j. cbn [o_start o_end]. do 10 (destruct j as [|j]; [reflexivity|]). destruct j; reflexivity.
Qed.
Print Assumptions constraint_error_shown_refuted.

(** * Examples *)
Example err_ex_text : err_str "unexpected" (Some (mkOrigin "y ~ x1:x2" 4 6)) =
  ("unexpected" ++ String (ascii_of_nat 10) ("    y ~ x1:x2" ++ String (ascii_of_nat 10) "        ^^"))%string.
Proof. reflexivity. Qed.
Example err_ex_formula : exists msg, from_text (fun _ => false) " y ~ x + (a" = Err (PatsyError msg (Some (mkOrigin "y ~ x + (a" 8 9))).
Proof. eexists. vm_compute. reflexivity. Qed.
Example err_ex_constraint : exists m, linear_constraint (LikeString "a * (b = 1)") ["a"; "b"] = Err (PatsyError m (Some (mkOrigin "a * (b = 1)" 4 11))).
Proof. eexists. vm_compute. reflexivity. Qed.
Example err_ex_repr : origin_repr (mkOrigin "y ~ x1:x2" 4 6) = "<Origin y ~ ->x1<-:x2 (4-6)>".
Proof. reflexivity. Qed.
Example err_ex_relevant : exists it, python_tokenize " aa+ b" = (it, None) /\ map (fun t => relevant_code (pt_origin t)) it = ["aa"; "+"; "b"].
Proof. eexists. split; vm_compute; reflexivity. Qed.
Example err_ex_con_token : exists toks, tokenize_constraint "a1 +2" ["a1"] = Ok toks /\ map (fun t => relevant_code (tk_origin t)) toks = ["a1"; "+"; "2"].
Proof. eexists. split; vm_compute; reflexivity. Qed.
Example err_ex_eq : origin_eq (mkOrigin "ab" 0 1) (mkOrigin "ab" 0 1) = true /\ origin_eq (mkOrigin "ab" 0 1) (mkOrigin "ab" 1 2) = false.
Proof. split; reflexivity. Qed.
