(** Property C09, completed: the spaces in normalised Python code. *)
From Verif Require Import Base TokensModel TokensSpec SpacingSpec SpacingProofs.
Open Scope string_scope.
Open Scope list_scope.

(** C09.  The text is the tokens in order, each with one space before it exactly if the rule says so. *)
Theorem pretty_untokenize_rule : forall toks s, pretty_untokenize toks = Ok s ->
  exists seps, length seps = length (filter has_text toks) /\ s = spaced (List.combine seps (map snd (filter has_text toks))) /\
    forall pre t post, filter has_text toks = pre ++ t :: post -> nth_error seps (length pre) = Some (gap pre t).
Proof. exact spacing_rule_lemma. Qed.
Print Assumptions pretty_untokenize_rule.

(** C09.  In particular, after a word [a]: a space on both sides of an operator, no space around the equals
    sign of a keyword argument, the colon of a slice and an opening paren, a space after but not before a comma, and
    a space between words. *)
Theorem spacing_cases : forall pre a t b,
  is_word a = true -> one_of_texts ["("; ","] a = false ->
  (is_word t = false -> In (snd t) between -> gap (pre ++ [a]) t = true /\ gap (pre ++ [a; t]) b = true) /\
  (is_word t = false -> is_word b = true -> snd t = "=" -> inside_brackets (pre ++ [a]) = true -> gap (pre ++ [a]) t = false /\ gap (pre ++ [a; t]) b = false) /\
  (is_word t = false -> is_word b = true -> snd t = ":" -> inside_index (pre ++ [a]) = true -> gap (pre ++ [a]) t = false /\ gap (pre ++ [a; t]) b = false) /\
  (is_word t = false -> is_word b = true -> snd t = "(" -> gap (pre ++ [a]) t = false /\ gap (pre ++ [a; t]) b = false) /\
  (is_word t = false -> snd t = "," -> gap (pre ++ [a]) t = false /\ gap (pre ++ [a; t]) b = true) /\
  (is_word t = true -> gap (pre ++ [a]) t = true).
Proof.
  intros pre a t b Ha Ho.
  assert (P1 : forall f, previous_is f (pre ++ [a]) = f a) by (intros f; apply previous_snoc).
  assert (G1 : gap (pre ++ [a]) t = wants_before (pre ++ [a]) t || is_word t).
  { unfold gap. rewrite rev_app_distr. cbn [rev app]. rewrite rev_involutive, Ha. unfold wants_after. now rewrite Ha. }
  assert (G2 : gap (pre ++ [a; t]) b = wants_before (pre ++ [a; t]) b || (wants_after (pre ++ [a]) t || (is_word t && is_word b))).
  { unfold gap. replace (pre ++ [a; t]) with ((pre ++ [a]) ++ [t]) by (now rewrite <- app_assoc). rewrite rev_app_distr. cbn [rev app]. now rewrite rev_involutive. }
  assert (Ns : sign (pre ++ [a]) t = false) by (unfold sign; rewrite P1, Ha; cbn; apply andb_false_r).
  assert (Nt : star (pre ++ [a]) t = false) by (unfold star; rewrite P1, Ho; apply andb_false_r).
  assert (Wb : is_word b = true -> wants_before (pre ++ [a; t]) b = false) by (intros Hb; unfold wants_before; now rewrite Hb).
  assert (B : wants_before (pre ++ [a]) t = negb (is_word t) && (assignment (pre ++ [a]) t || one_of_texts (between ++ ["!"; "~"]) t)) by (unfold wants_before; rewrite Ns, Nt; destruct (is_word t); reflexivity).
  assert (A : wants_after (pre ++ [a]) t = negb (is_word t) && (assignment (pre ++ [a]) t || (negb (slice (pre ++ [a]) t) && one_of_texts (between ++ [","; ":"]) t))) by (unfold wants_after; rewrite Ns, Nt; destruct (is_word t); reflexivity).
  rewrite G1, G2, A, B. split; [|split; [|split; [|split; [|split]]]].
  - intros Hw Hin. rewrite Hw.
    assert (St : forall l, one_of_texts (between ++ l) t = true).
    { intros l. unfold one_of_texts. apply existsb_exists. exists (snd t). split; [apply in_or_app; now left|apply String.eqb_refl]. }
    assert (S0 : slice (pre ++ [a]) t = false).
    { unfold slice, one_of_texts. cbn [existsb]. rewrite orb_false_r. destruct (String.eqb_spec (snd t) ":") as [E|E]; [|reflexivity]. rewrite E in Hin. exfalso. cbn in Hin. repeat (destruct Hin as [Hin|Hin]; [discriminate|]). destruct Hin. }
    rewrite !St, S0. cbn [negb andb orb]. rewrite !orb_true_r. cbn. rewrite ?orb_true_r. auto.
  - intros Hw Hb Et Hi. rewrite Hw, (Wb Hb). unfold assignment, one_of_texts, slice, one_of_texts. rewrite Et, Hi. cbn. auto.
  - intros Hw Hb Et Hi. rewrite Hw, (Wb Hb). unfold assignment, slice, one_of_texts. rewrite Et, Hi. cbn. auto.
  - intros Hw Hb Et. rewrite Hw, (Wb Hb). unfold assignment, slice, one_of_texts. rewrite Et. cbn. auto.
  - intros Hw Et. rewrite Hw. unfold assignment, slice, one_of_texts. rewrite Et. cbn. rewrite ?orb_true_r. auto.
  - intros Hw. rewrite Hw. reflexivity.
Qed.
Print Assumptions spacing_cases.

(** C09.  A sign gets no space on either side, except after a token that wants one. *)
Theorem spacing_sign : forall pre t b, sign pre t = true -> is_word t = false -> is_word b = true ->
  wants_before pre t = false /\ gap (pre ++ [t]) b = false.
Proof.
  intros pre t b Hs Hw Hb. unfold gap, wants_before. rewrite Hs, Hb, rev_app_distr. cbn [rev app negb andb orb]. rewrite rev_involutive. unfold wants_after. rewrite Hs, Hw. cbn.
  rewrite ?andb_false_r. auto.
Qed.
Print Assumptions spacing_sign.

Example spacing_ex :
  let l := [(PNAME, "f"); (POTHER, "("); (POTHER, "-"); (PNAME, "x"); (POTHER, ","); (PNAME, "k"); (POTHER, "="); (PNAME, "y"); (POTHER, "["); (PNUMBER, "1"); (POTHER, ":"); (PNUMBER, "2"); (POTHER, "]"); (POTHER, ")"); (POTHER, "+"); (PNUMBER, "1")] in
  pretty_untokenize l = Ok "f(-x, k=y[1:2]) + 1" /\
  sign [(PNAME, "f"); (POTHER, "(")] (POTHER, "-") = true /\ inside_index [(PNAME, "y"); (POTHER, "["); (PNUMBER, "1")] = true /\ inside_brackets [(PNAME, "f"); (POTHER, "("); (PNAME, "k")] = true.
Proof. repeat split; reflexivity. Qed.
