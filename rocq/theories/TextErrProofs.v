(** Positions of tokens and errors in the text of a formula. *)
From Coq Require Import Ascii.
From Verif Require Import Base OriginModel OriginSpec TokensModel TokensSpec TokensProofs InfixModel InfixSpec InfixProofs DescModel DescSpec DescProofs DescTopProofs
  ParseFormulaModel ParseFormulaSpec ParseFormulaProofs FormulaModel FormulaSpec FormulaProofs DescribeProofs PyLexModel PyLexSpec PyLexProofs EvalModel EvalLexProofs
  TextModel TextSpec TextProofs TextSameProofs TextBackProofs ErrPlaceProofs.
Open Scope string_scope.
Open Scope list_scope.

Lemma append_len_s a b : String.length (a ++ b) = String.length a + String.length b.
Proof. apply app_length_s. Qed.

(** An unclosed string in three quotes. *)
Lemma read_string_open p s : read_string p s = LOpenLong -> first_is is_quote s = true -> exists q r, is_quote q = true /\ s = (three q ++ r)%string /\ never_closed q r.
Proof.
  intros H Hq. destruct s as [|q r]; [discriminate|]. cbn in Hq. unfold read_string in H. destruct (prefix (three q) (String q r)) eqn:Ep; [|destruct (read_short q r) as [[b rest]|]; discriminate].
  destruct (read_long q (drop 3 (String q r))) as [[b rest]|] eqn:E; [discriminate|]. apply prefix_iff in Ep. destruct Ep as [x Ex]. exists q, x. split; [exact Hq|]. split; [exact Ex|].
  rewrite Ex in E. unfold three in E. cbn [append drop] in E. intros b rest Hb ->. rewrite (read_long_app q b rest Hb Hq) in E. discriminate.
Qed.
Lemma next_token_open s : next_token s = LOpenLong -> open_quotes s.
Proof.
  unfold next_token. destruct (first_is is_letter s) eqn:El.
  - pose proof (span_spec name_char s) as S. destruct (span name_char s) as [a b]. destruct S as [S1 _].
    destruct (existsb (String.eqb a) string_prefixes && first_is is_quote b) eqn:E; [|discriminate]. apply andb_true_iff in E. destruct E as [E1 E2]. intros H.
    destruct (read_string_open a b H E2) as (q & r & Hq & -> & Hn). exists a, q, r. split; [right; apply string_prefix_iff; apply existsb_exists in E1; destruct E1 as (x & Hx & Ex); apply String.eqb_eq in Ex; now subst x|]. auto.
  - destruct (starts_number s); [destruct (read_number _ _ s); discriminate|]. destruct (first_is is_quote s) eqn:Eq; [|destruct (operator_of s); discriminate]. intros H.
    destruct (read_string_open "" s H Eq) as (q & r & Hq & -> & Hn). exists "", q, r. auto.
Qed.
Lemma open_next s : open_quotes s -> next_token s = LOpenLong.
Proof.
  intros (p & q & r & Hp & Hq & -> & Hn). rewrite string_prefix_iff in Hp. assert (R : forall x, read_string x (three q ++ r) = LOpenLong).
  { intros x. unfold read_string. unfold three at 1. cbn [append]. change (String q (String q (String q r))) with (three q ++ r)%string. assert (P : prefix (three q) (three q ++ r) = true) by (apply prefix_iff; now exists r). rewrite P.
    change (drop 3 (three q ++ r)) with r. destruct (read_long q r) as [[b rest]|] eqn:E; [|reflexivity]. destruct (read_long_spec q _ _ _ _ (Nat.le_refl _) E) as [-> L]. destruct (Hn b rest L eq_refl). }
  assert (Fx : first_is is_quote (three q ++ r) = true) by exact Hq. destruct (quote_letter _ Fx) as [L1 L2]. unfold next_token. destruct Hp as [->|Hp].
  - change ("" ++ three q ++ r)%string with (three q ++ r)%string. rewrite L1, L2, Fx. apply R.
  - destruct (prefixes_are_names p (proj2 (string_prefix_iff p) Hp)) as (c & y & Ep & Hc & Hall). rewrite first_is_app, Ep. cbn [first_is]. rewrite Hc, <- Ep. rewrite span_app; [|exact Hall|].
    + assert (X : existsb (String.eqb p) string_prefixes = true) by (apply existsb_exists; exists p; split; [exact Hp|apply String.eqb_refl]). rewrite X, Fx. apply R.
    + unfold three. cbn. now rewrite (proj1 (proj2 (proj2 (quote_other q Hq)))).
Qed.

(** Nothing but space, or space and an unclosed string. *)
Definition no_tokens (s : string) : Prop := all_chars is_blank s = true \/ exists b r, all_chars is_blank b = true /\ s = (b ++ r)%string /\ open_quotes r.

Lemma tokens_spec n : forall code pre s it e, code = (pre ++ s)%string -> String.length s <= n ->
  py_tokens_from n code (String.length pre) s = (it, e) ->
  Forall (fun t => simple_token (erase t) /\ placed code t /\ String.length pre <= o_start (pt_origin t)) it /\
  one_after_another it /\
  match e with None => True | Some x => located_in code x end /\
  (it = [] -> e = None -> no_tokens s).
Proof.
  induction n as [|n IH]; intros code pre s it e Hc Hn H.
  { destruct s as [|c r]; [|cbn in Hn; lia]. cbn in H. injection H as <- <-. split; [constructor|]. split; [intros [|i] t u; discriminate|]. split; [exact I|]. intros _ _. now left. }
  assert (Bad : forall x, it = [] -> e = Some x -> located_in code x -> Forall (fun t => simple_token (erase t) /\ placed code t /\ String.length pre <= o_start (pt_origin t)) it /\
    one_after_another it /\ match e with None => True | Some x => located_in code x end /\ (it = [] -> e = None -> no_tokens s)).
  { intros x -> -> Hl. split; [constructor|]. split; [intros [|i] t u; discriminate|]. split; [exact Hl|discriminate]. }
  cbn [py_tokens_from] in H. destruct s as [|c r].
  { injection H as <- <-. split; [constructor|]. split; [intros [|i] t u; discriminate|]. split; [exact I|]. intros _ _. now left. }
  destruct (is_blank c) eqn:Eb.
  { assert (Ep : S (String.length pre) = String.length (pre ++ String c "")) by (rewrite append_len_s; cbn; lia). rewrite Ep in H.
    destruct (IH code (pre ++ String c "")%string r it e) as [F [O [L B]]]; auto.
    { rewrite Hc. now rewrite append_assoc_s. }
    { cbn in Hn. lia. }
    split; [|split; [exact O|split; [exact L|]]].
    - eapply Forall_impl; [|exact F]. cbn. intros t [A [P C]]. rewrite <- Ep in C. split; [exact A|]. split; [exact P|lia].
    - intros Hi He. destruct (B Hi He) as [K|(b & x & K1 & K2 & K3)]; [left; cbn [all_chars]; now rewrite Eb|right]. exists (String c b), x. split; [cbn [all_chars]; now rewrite Eb|]. split; [now rewrite K2|exact K3]. }
  destruct (Ascii.eqb c "#"). { injection H as <- <-. eapply Bad; eauto. unfold comment_error. eexists _, _. split; [reflexivity|]. split; [reflexivity|]. cbn. rewrite Hc, append_len_s. cbn. lia. }
  destruct (next_token (String c r)) as [ty w rest| | |] eqn:Et.
  - destruct (next_token_spec _ _ _ _ Et) as [Es Ht]. cbn zeta in H. destruct (py_tokens_from n code (String.length pre + String.length w) rest) as [l e0] eqn:E. injection H as <- <-.
    pose proof (simple_nonempty _ Ht) as Hw. cbn [snd] in Hw.
    rewrite <- append_len_s in E. destruct (IH code (pre ++ w)%string rest l e0) as [F [O [L _]]]; auto.
    { rewrite Hc, Es. now rewrite append_assoc_s. }
    { rewrite Es, append_len_s in Hn. lia. }
    split; [|split; [|split; [exact L|discriminate]]].
    + constructor.
      * split; [exact Ht|]. cbn. split; [|lia]. split; [reflexivity|]. exists pre, rest. cbn. now rewrite Hc, Es.
      * eapply Forall_impl; [|exact F]. cbn. intros t [A [B C]]. rewrite append_len_s in C. split; [exact A|]. split; [exact B|lia].
    + intros [|i] t u Ht1 Hu; cbn in Ht1, Hu; [|exact (O i t u Ht1 Hu)]. injection Ht1 as <-. cbn. destruct l as [|u' l]; [discriminate|]. cbn in Hu. injection Hu as <-.
      inversion F as [|? ? [_ [_ C]] _]; subst. rewrite append_len_s in C. exact C.
  - injection H as <- <-. eapply Bad; eauto. unfold unclosed_error. eexists _, _. split; [reflexivity|]. split; [reflexivity|]. cbn. rewrite Hc, append_len_s. cbn. lia.
  - injection H as <- <-. split; [constructor|]. split; [intros [|i] t u; discriminate|]. split; [exact I|]. intros _ _. right. exists "", (String c r). split; [reflexivity|]. split; [reflexivity|]. now apply next_token_open.
  - injection H as <- <-. eapply Bad; eauto. unfold character_error. eexists _, _. split; [reflexivity|]. split; [reflexivity|]. cbn. rewrite Hc, append_len_s. cbn. lia.
Qed.

(** Lines have no newlines, so tokens have none. *)
Lemma nn_clean s : all_chars (fun c => negb (Ascii.eqb c newline)) (no_newlines s) = true.
Proof.
  apply all_chars_in. intros c Hc. unfold no_newlines in Hc. rewrite list_ascii_of_string_of_list_ascii in Hc. apply in_map_iff in Hc. destruct Hc as [d [<- _]].
  destruct (Ascii.eqb d newline) eqn:E; [reflexivity|]. now rewrite E.
Qed.
Lemma lstrip_incl l : incl (lstrip l) l.
Proof. induction l as [|c l IH]; [intros x Hx; exact Hx|]. cbn. destruct (is_space c); [intros x Hx; right; auto|intros x Hx; exact Hx]. Qed.
Lemma strip_incl s c : In c (list_ascii_of_string (strip s)) -> In c (list_ascii_of_string s).
Proof.
  unfold strip. rewrite list_ascii_of_string_of_list_ascii. rewrite <- in_rev. intros H. apply lstrip_incl in H. rewrite <- in_rev in H. now apply lstrip_incl in H.
Qed.
Lemma code_clean s : all_chars (fun c => negb (Ascii.eqb c newline)) (strip (no_newlines s)) = true.
Proof. apply all_chars_in. intros c Hc. apply strip_incl in Hc. revert c Hc. apply all_chars_in. apply nn_clean. Qed.
Lemma placed_line code t : all_chars (fun c => negb (Ascii.eqb c newline)) code = true -> placed code t -> one_line (erase t).
Proof. intros Hc [_ [a [b [-> _]]]]. rewrite !all_chars_app in Hc. apply andb_true_iff in Hc. destruct Hc as [_ Hc]. apply andb_true_iff in Hc. exact (proj1 Hc). Qed.

Lemma strip_head s : strip s <> "" -> all_chars is_blank (strip s) = false.
Proof.
  intros H. destruct (all_chars is_blank (strip s)) eqn:E; [|reflexivity]. exfalso. apply H. clear H. rewrite all_chars_in in E. unfold strip in *. rewrite list_ascii_of_string_of_list_ascii in E.
  destruct (lstrip (chars s)) as [|c q] eqn:Ey; [reflexivity|]. exfalso.
  assert (Hne : is_space c = false). { clear -Ey. revert Ey. induction (chars s) as [|d x IH]; cbn; [discriminate|]. destruct (is_space d) eqn:Ed; [exact IH|]. intros [= -> _]. exact Ed. }
  assert (Hin : In c (lstrip (rev (c :: q)))).
  { cbn. rewrite lstrip_app. destruct (lstrip (rev q)); [cbn; rewrite Hne; now left|]. apply in_or_app. right. now left. }
  rewrite in_rev in Hin. specialize (E c Hin). apply blank_space in E. congruence.
Qed.
Lemma strip_first s c r : strip s = String c r -> is_space c = false.
Proof.
  unfold strip. intros H. assert (K : forall x c r, lstrip x = c :: r -> is_space c = false).
  { clear. induction x as [|d x IH]; intros c r; cbn; [discriminate|]. destruct (is_space d) eqn:Ed; [apply IH|]. intros [= -> _]. exact Ed. }
  destruct (lstrip (chars s)) as [|d y] eqn:Ey; [discriminate|]. apply K in Ey. assert (E : lstrip (rev (d :: y)) = lstrip (rev y) ++ [d]).
  { cbn [rev]. rewrite lstrip_app. cbn [lstrip]. rewrite Ey. destruct (lstrip (rev y)); reflexivity. }
  rewrite E, rev_app_distr in H. cbn in H. injection H as <- _. exact Ey.
Qed.
Lemma strip_nn s : strip (no_newlines s) = "" <-> strip s = "".
Proof.
  rewrite !strip_empty. unfold no_newlines. rewrite list_ascii_of_string_of_list_ascii. split; intros H c Hc.
  - destruct (Ascii.eqb_spec c newline) as [->|N]; [reflexivity|]. apply H. apply in_map_iff. exists c. split; [|exact Hc]. destruct (Ascii.eqb_spec c newline); congruence.
  - apply in_map_iff in Hc. destruct Hc as [d [<- Hd]]. destruct (Ascii.eqb d newline); [reflexivity|auto].
Qed.

Lemma python_spec s it e : python_tokenize s = (it, e) ->
  Forall (fun t => simple_token (erase t) /\ placed (strip (no_newlines s)) t) it /\ one_after_another it /\
  match e with None => True | Some x => located_in (strip (no_newlines s)) x end /\
  (it = [] -> e = None -> strip s = "" \/ open_quotes (strip (no_newlines s))).
Proof.
  unfold python_tokenize. intros H. destruct (tokens_spec _ (strip (no_newlines s)) "" (strip (no_newlines s)) it e eq_refl (Nat.le_refl _) H) as [F [O [L B]]].
  split; [eapply Forall_impl; [|exact F]; cbn; tauto|]. split; [exact O|]. split; [exact L|]. intros Hi He. destruct (B Hi He) as [B'|(b & r & B1 & B2 & B3)]; [left|right].
  - apply strip_nn. destruct (String.eqb_spec (strip (no_newlines s)) "") as [E|E]; [exact E|]. apply strip_head in E. congruence.
  - rewrite B2. destruct b as [|c b]; [exact B3|]. exfalso. cbn [all_chars] in B1. apply andb_true_iff in B1. destruct B1 as [B1 _]. apply blank_space in B1.
    assert (K : is_space c = false) by (eapply strip_first; exact B2). congruence.
Qed.
Lemma from_nothing norm is_float : from_formula norm is_float [] None = Err IndexError.
Proof. reflexivity. Qed.
Lemma python_from_tokenizer s it e : python_tokenize s = (it, e) -> from_tokenizer (strip (no_newlines s)) it.
Proof.
  intros H. destruct (python_spec s it e H) as [F _]. eapply erase_tokenizer; [reflexivity| |].
  - apply Forall_map. eapply Forall_impl; [|exact F]. cbn. tauto.
  - eapply Forall_impl; [|exact F]. cbn. intros t [_ [A _]]. exact A.
Qed.
Lemma formula_text_solid s : strip (formula_text s) <> "".
Proof. unfold formula_text. destruct (String.eqb_spec (strip s) "") as [E|E]; [discriminate|exact E]. Qed.

(** * Errors *)
Lemma inside_hull code l o : hull l o -> (exists i, In (Some i) l) -> (forall i, In (Some i) l -> inside code i) -> inside code o.
Proof.
  intros [H1 H2] [i Hi] HP. destruct (H1 i Hi) as [C [S E]]. destruct (HP i Hi) as [A [B D]].
  destruct (H2 (mkOrigin code 0 (String.length code))) as [C' [_ E']].
  { intros j Hj. destruct (HP j Hj) as [A' [B' D']]. split; [cbn; congruence|]. cbn. lia. }
  cbn in C', E'. split; [congruence|]. lia.
Qed.
Lemma placed_inside code t : simple_token (erase t) -> placed code t -> inside code (pt_origin t).
Proof.
  intros Hs [A [b [a [E [B C]]]]]. split; [exact A|]. rewrite B, C, E, !append_len_s.
  pose proof (simple_nonempty _ Hs) as L. cbn in L. lia.
Qed.
Lemma tail_error norm is_float code it x : from_tokenizer code it -> located_in code x ->
  exists msg o, from_formula norm is_float it (Some x) = Err (PatsyError msg (Some o)).
Proof.
  intros Hft Hx. unfold from_formula, parse_formula. cbn [check_extra bind]. rewrite app_nil_r.
  assert (N1 : ~ In "("%string (flat_map op_string default_ops)) by (cbn; intuition discriminate).
  assert (N2 : ~ In ")"%string (flat_map op_string default_ops)) by (cbn; intuition discriminate).
  destruct (tokenize_formula is_float it (Some x) (flat_map op_string default_ops)) as [toks e0] eqn:E.
  pose proof (tokenize_formula_spec _ _ _ _ _ _ _ Hft N1 N2 E) as [gs r Ei Hs Hz Hd].
  pose proof (good_extra_table [] (Forall_nil _)) as Hg. rewrite app_nil_r in Hg.
  assert (Hsrc : one_source code toks).
  { eapply token_for_source; eauto. rewrite Ei in Hft. unfold from_tokenizer in *. rewrite Forall_app in Hft. tauto. }
  assert (He0 : exists msg o, e0 = Some (PatsyError msg (Some o))).
  { destruct Hd as [[_ [? _]]|[[z [-> [Hz' _]]]|[z [-> [Hb _]]]]]; [discriminate| |].
    - injection Hz' as <-. destruct Hx as [msg [o [-> _]]]. eauto.
    - destruct Hb; eauto. }
  destruct He0 as [m0 [o0 ->]].
  destruct (infix_parse_stream toks _ default_ops atomic_token_types) as [n|y] eqn:Ep.
  - exfalso. rewrite infix_stream_cases in Ep. destruct (check_operators default_ops); [|discriminate]. destruct (foldM _ _ _); discriminate.
  - cbn [bind]. assert (Hne : toks <> [] \/ Some (PatsyError m0 (Some o0)) <> None) by (right; discriminate).
    destruct (stream_errors default_ops atomic_token_types code toks _ y Hg Hsrc Hne Ep) as [Ez|[msg [t [Hin ->]]]]; [injection Ez as <-|]; eauto.
Qed.
Lemma text_total is_float s : ~ open_quotes (strip (no_newlines (formula_text s))) -> (exists m, from_text is_float s = Ok m) \/
  (exists e, from_text is_float s = Err e /\ located_in (strip (no_newlines (formula_text s))) e).
Proof.
  intros Hopen. unfold from_text. destruct (python_tokenize (formula_text s)) as [it e] eqn:E. pose proof (python_from_tokenizer _ _ _ E) as Hft.
  destruct (python_spec _ _ _ E) as [F [_ [L B]]]. set (code := strip (no_newlines (formula_text s))) in *.
  assert (HP : Forall (fun t => inside code (pt_origin t)) it).
  { eapply Forall_impl; [|exact F]. cbn. intros t [H1 H2]. now apply placed_inside. }
  assert (Hne : it <> [] \/ e <> None).
  { destruct e; [right; discriminate|]. left. intros Hi. destruct (B Hi eq_refl) as [K|K]; [exact (formula_text_solid s K)|exact (Hopen K)]. }
  assert (Ht : rplace (inside code) (@nothing unit) (match e with None => Ok tt | Some x => Err x end)).
  { destruct e as [x|]; [|exact I]. destruct L as [msg [o [-> Ho]]]. exact Ho. }
  pose proof (formula_place (inside code) (inside_hull code) norm_text is_float code it e Hft HP Hne Ht) as R.
  assert (K : (exists m, from_formula norm_text is_float it e = Ok m) \/ exists msg o, from_formula norm_text is_float it e = Err (PatsyError msg (Some o))).
  { destruct e as [x|]; [right; now apply tail_error with (code := code)|]. destruct Hne as [Hne|]; [|congruence].
    destruct (from_formula_total norm_text is_float _ it Hft Hne) as [?|[msg [o [A _]]]]; eauto. }
  destruct K as [[m Em]|[msg [o Em]]]; [left; eauto|right]. rewrite Em in R. exists (PatsyError msg (Some o)). split; [exact Em|]. exists msg, o. auto.
Qed.

(** * Equal tokens, and reading back *)
Lemma same_tokens_lemma is_float s1 s2 it1 it2 m : python_tokenize (formula_text s1) = (it1, None) -> python_tokenize (formula_text s2) = (it2, None) ->
  map erase it1 = map erase it2 -> from_text is_float s1 = Ok m -> from_text is_float s2 = Ok m.
Proof.
  intros H1 H2 He H. unfold from_text in *. rewrite H1 in H. rewrite H2. eapply from_formula_same; [eapply python_from_tokenizer, H1|eapply python_from_tokenizer, H2|exact He| |exact H].
  intros Hi. rewrite Hi, from_nothing in H. discriminate.
Qed.
Lemma read_back is_float s it m : python_tokenize (formula_text s) = (it, None) -> neighbours_fit (map erase it) = true ->
  from_text is_float s = Ok m -> from_text is_float (describe m) = Ok m.
Proof.
  intros H Hf Hm. destruct (python_spec _ _ _ H) as [F [_ [_ _]]]. unfold from_text in Hm. rewrite H in Hm.
  apply (text_roundtrip is_float (strip (no_newlines (formula_text s))) it (map erase it)); auto.
  - eapply python_from_tokenizer, H.
  - intros Hi. rewrite Hi, from_nothing in Hm. discriminate.
  - apply Forall_map. eapply Forall_impl; [|exact F]. cbn. tauto.
  - apply Forall_map. eapply Forall_impl; [|exact F]. cbn. intros t [_ P]. eapply placed_line; [apply code_clean|exact P].
Qed.
