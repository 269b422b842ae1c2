(** Formulas with a string in three quotes that is not closed. *)
From Coq Require Import Ascii.
From Verif Require Import Base OriginModel TokensModel TokensSpec TokensProofs InfixModel DescModel ParseFormulaModel FormulaModel PyLexModel
  PyLexSpec PyLexProofs EvalModel TextModel TextSpec TextProofs TextSameProofs TextErrProofs.
Open Scope string_scope.
Open Scope list_scope.

Lemma open_first s : open_quotes s -> exists c r, s = String c r /\ is_blank c = false /\ Ascii.eqb c "#" = false /\ is_space c = false.
Proof.
  intros (p & q & r & Hp & Hq & -> & _). destruct Hp as [->|Hp].
  - exists q. eexists. split; [reflexivity|]. destruct (quote_other q Hq) as (_ & _ & _ & A & _ & B). repeat split; auto. apply solid_space. auto.
  - destruct (prefixes_are_names p Hp) as (c & y & -> & Hc & _). exists c. eexists. split; [reflexivity|].
    destruct (simple_first (PNAME, String c "")) as (d & z & E & A & B & _); [split; [exact Hc|reflexivity]|]. cbn in E. injection E as <- _. repeat split; auto.
    apply solid_space. left. unfold number_char, name_char. now rewrite Hc.
Qed.
Lemma open_tokens n code pos s : open_quotes s -> String.length s <= n -> py_tokens_from n code pos s = ([], None).
Proof.
  intros H Hn. pose proof (open_next s H) as N. destruct (open_first s H) as (c & r & -> & Hb & Hh & _). destruct n as [|n]; [cbn in Hn; lia|]. cbn [py_tokens_from]. now rewrite Hb, Hh, N.
Qed.
Lemma open_error is_float s : open_quotes (strip (no_newlines (formula_text s))) -> from_text is_float s = Err IndexError.
Proof. intros H. unfold from_text, python_tokenize. rewrite (open_tokens _ _ _ _ H (Nat.le_refl _)). apply from_nothing. Qed.

Lemma written_open l s x : written is_blank l s -> open_quotes x -> forall n code pos, String.length (s ++ String " " x) <= n ->
  exists it, py_tokens_from n code pos (s ++ String " " x) = (it, None) /\ map erase it = l /\ Forall (fun t => o_code (pt_origin t) = code) it.
Proof.
  intros W Hx. induction W as [b Hb|b t l s Hb Ht Hn Hw IH Hsep]; intros n code pos Hl.
  - exists []. split; [|split; [reflexivity|constructor]]. rewrite app_length_s in Hl. cbn in Hl. rewrite tokens_blank by (auto; lia).
    remember (n - String.length b) as k eqn:Ek. destruct k as [|k]; [lia|]. cbn [py_tokens_from]. change (is_blank " ") with true. cbv iota. apply open_tokens; [exact Hx|lia].
  - rewrite !append_assoc_s in *. rewrite !app_length_s in Hl. cbn [String.length] in Hl. rewrite tokens_blank by (auto; lia).
    pose proof (simple_nonempty t Ht). remember (n - String.length b) as k eqn:Ek. destruct k as [|k]; [lia|].
    destruct (IH k code (pos + String.length b + String.length (snd t))) as [it [E [M F]]]; [rewrite app_length_s; cbn; lia|].
    rewrite tok_token; [|exact Ht|].
    + cbn zeta. rewrite E. eexists. split; [reflexivity|]. cbn. split; [|now constructor]. unfold erase at 1. cbn. rewrite M. now destruct t.
    + destruct l as [|u l].
      * apply blank_stops; [exact Ht|]. inversion Hw as [b' Hb'|]; subst. destruct s as [|c' s']; [reflexivity|]. cbn in Hb' |- *. now apply andb_true_iff in Hb'.
      * destruct Hsep as [[c' [r' [-> Hc']]]|Hm]; [now apply blank_stops|].
        inversion Hw as [|b' ? ? s' Hb' Hu _ _ _]; subst. destruct b' as [|c' b'].
        -- cbn [append]. rewrite append_assoc_s. now apply touch_stop.
        -- apply blank_stops; [exact Ht|]. cbn in Hb' |- *. now apply andb_true_iff in Hb'.
Qed.

Lemma lst_app a b : lst a <> "" -> lst (a ++ b) = (lst a ++ b)%string.
Proof.
  unfold lst. rewrite chars_app, lstrip_app. destruct (lstrip (chars a)) as [|c x]; [intros K; now destruct K|]. intros _. now rewrite string_of_app, string_of_list_ascii_of_string.
Qed.
Lemma lstrip_suffix x : exists y, x = y ++ lstrip x.
Proof. induction x as [|c x [y IH]]; [now exists []|]. cbn. destruct (is_space c); [exists (c :: y); cbn; now f_equal|now exists []]. Qed.
Lemma rst_prefix s : exists w, s = (rst s ++ w)%string.
Proof.
  unfold rst. destruct (lstrip_suffix (rev (chars s))) as [y E]. exists (string_of (rev y)). rewrite <- string_of_app, <- rev_app_distr, <- E, rev_involutive. now rewrite string_of_list_ascii_of_string.
Qed.
Lemma never_closed_prefix q a b : never_closed q (a ++ b) -> never_closed q a.
Proof. intros H x rest Hx ->. apply (H x (rest ++ b)%string Hx). now rewrite append_assoc_s. Qed.
Lemma prefix_clean p : In p string_prefixes -> all_chars (fun c => negb (Ascii.eqb c newline)) p = true.
Proof. assert (A : forallb (all_chars (fun c => negb (Ascii.eqb c newline))) string_prefixes = true) by reflexivity. rewrite forallb_forall in A. apply A. Qed.

Lemma dropped_lemma is_float l s p q r m : written blank_or_newline l s -> l <> [] ->
  (p = "" \/ string_prefix p) -> is_quote q = true -> never_closed q r -> all_chars (fun c => negb (Ascii.eqb c (ascii_of_nat 10))) r = true ->
  (from_text is_float (s ++ String " " (p ++ three q ++ r)) = Ok m <-> from_text is_float s = Ok m).
Proof.
  intros W Hl Hp Hq Hn Hr. pose proof (written_nn _ _ W) as W1. pose proof (written_lst _ _ W1) as W2.
  assert (N : lst (no_newlines s) <> "").
  { intros E. rewrite E in W2. inversion W2 as [|b t l' s' Hb Ht _ _ _ E1 E2]; subst; [congruence|]. destruct (simple_first t Ht) as (d & x & Ed & _). rewrite Ed in E2. destruct b; discriminate. }
  assert (Ex : no_newlines (s ++ String " " (p ++ three q ++ r)) = (no_newlines s ++ String " " (p ++ three q ++ r))%string).
  { rewrite nn_app. f_equal. apply nn_same. cbn [all_chars]. rewrite !all_chars_app. fold newline in Hr. rewrite Hr. change (Ascii.eqb " " newline) with false. cbn [negb andb].
    assert (P : all_chars (fun c => negb (Ascii.eqb c newline)) p = true) by (destruct Hp as [->|Hp]; [reflexivity|now apply prefix_clean, string_prefix_iff]). rewrite P.
    assert (Q : Ascii.eqb q newline = false) by (unfold is_quote in Hq; apply orb_true_iff in Hq; destruct Hq as [Hq|Hq]; apply Ascii.eqb_eq in Hq; subst q; reflexivity).
    cbn. rewrite Q. reflexivity. }
  assert (Es : strip (no_newlines (s ++ String " " (p ++ three q ++ r))) = (lst (no_newlines s) ++ String " " (p ++ three q ++ rst r))%string).
  { rewrite Ex, strip_two, lst_app by exact N. replace (lst (no_newlines s) ++ String " " (p ++ three q ++ r))%string with ((lst (no_newlines s) ++ String " " (p ++ three q)) ++ r)%string by (rewrite !append_assoc_s; cbn [append]; now rewrite !append_assoc_s).
    rewrite (rst_solid _ r q (q :: q :: rev (chars p) ++ " "%char :: rev (chars (lst (no_newlines s))))); [| |apply solid_space; auto].
    - rewrite !append_assoc_s. cbn [append]. now rewrite !append_assoc_s.
    - rewrite chars_app. cbn [list_ascii_of_string]. rewrite chars_app. rewrite rev_app_distr. cbn [rev]. rewrite rev_app_distr. cbn. now rewrite <- !app_assoc. }
  assert (Ho : open_quotes (p ++ three q ++ rst r)).
  { exists p, q, (rst r). split; [exact Hp|]. split; [exact Hq|]. split; [reflexivity|]. destruct (rst_prefix r) as [w Ew]. rewrite Ew in Hn. now apply never_closed_prefix in Hn. }
  destruct (written_open _ _ _ W2 Ho (String.length (strip (no_newlines (s ++ String " " (p ++ three q ++ r))))) (strip (no_newlines (s ++ String " " (p ++ three q ++ r)))) 0) as [it [T [M F]]]; [rewrite Es; lia|].
  rewrite <- Es in T. fold (python_tokenize (s ++ String " " (p ++ three q ++ r))) in T.
  destruct (written_python _ _ W) as [it' [T' [M' F']]].
  assert (F1 : formula_text s = s).
  { unfold formula_text. destruct (String.eqb_spec (strip s) "") as [E|E]; [|reflexivity]. apply (written_blank _ _ W) in E. congruence. }
  assert (F2 : formula_text (s ++ String " " (p ++ three q ++ r)) = (s ++ String " " (p ++ three q ++ r))%string).
  { unfold formula_text. destruct (String.eqb_spec (strip (s ++ String " " (p ++ three q ++ r))) "") as [E|E]; [|reflexivity]. exfalso. apply strip_nn in E. rewrite Es in E. destruct (lst (no_newlines s)); discriminate. }
  rewrite <- F2 in T. rewrite <- F1 in T' at 1. split; intros H.
  - eapply same_tokens_lemma; [exact T|exact T'|congruence|exact H].
  - eapply same_tokens_lemma; [exact T'|exact T|congruence|exact H].
Qed.
