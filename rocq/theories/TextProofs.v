(** Formulas as text. *)
From Coq Require Import Ascii.
From Verif Require Import Base OriginModel TokensModel TokensSpec TokensProofs InfixModel DescModel ParseFormulaModel FormulaModel PyLexModel
  PyLexSpec PyLexProofs EvalModel TextModel TextSpec.
Open Scope string_scope.
Open Scope list_scope.

Definition erase (t : pytok) : pytype * string := (pt_type t, pt_string t).

(** * The positioned tokenizer *)
Lemma tok_token t : simple_token t -> forall n code pos rest, stops t rest ->
  py_tokens_from (S n) code pos (snd t ++ rest) =
    let m := String.length (snd t) in
    let '(l, e) := py_tokens_from n code (pos + m) rest in (mkPyTok (fst t) (snd t) (mkOrigin code pos (pos + m)) :: l, e).
Proof.
  intros Ht n code pos rest Hr. pose proof (next_token_back t rest Ht Hr) as N. destruct (simple_first t Ht) as (c & r & Hs & Hb & Hh & _). rewrite Hs in N |- *. cbn [append py_tokens_from] in *. rewrite Hb, Hh, N. reflexivity.
Qed.
Lemma touch_stop t u rest : simple_token t -> simple_token u -> may_touch t u = true -> stops t (snd u ++ rest).
Proof.
  intros Ht Hu Hm. unfold may_touch in Hm. apply andb_true_iff in Hm. destruct Hm as [Hm Hf]. apply negb_true_iff in Hm. now apply touch_stops.
Qed.

Lemma tokens_blank b : forall n code pos s, all_chars is_blank b = true -> String.length b <= n ->
  py_tokens_from n code pos (b ++ s) = py_tokens_from (n - String.length b) code (pos + String.length b) s.
Proof.
  induction b as [|c b IH]; intros n code pos s Hb Hn; cbn in *.
  - now rewrite Nat.sub_0_r, Nat.add_0_r.
  - apply andb_true_iff in Hb. destruct Hb as [Hc Hb]. destruct n as [|n]; [lia|]. cbn. rewrite Hc, IH by (auto; lia). f_equal. lia.
Qed.
Lemma tokens_nil n code pos : py_tokens_from n code pos "" = ([], None).
Proof. destruct n; reflexivity. Qed.
Lemma blank_head b s : all_chars is_blank b = true -> match (b ++ s)%string with EmptyString => True | String c _ => is_blank c = true end -> True.
Proof. auto. Qed.

Lemma written_tokens l s : written is_blank l s -> forall n code pos, String.length s <= n ->
  exists it, py_tokens_from n code pos s = (it, None) /\ map erase it = l /\ Forall (fun t => o_code (pt_origin t) = code) it.
Proof.
  induction 1 as [b Hb|b t l s Hb Ht Hn Hw IH Hsep]; intros n code pos Hl.
  - exists []. split; [|split; [reflexivity|constructor]]. rewrite <- (app_nil_s b) at 1. rewrite tokens_blank by auto. apply tokens_nil.
  - rewrite !app_length_s in Hl. rewrite tokens_blank by (auto; lia).
    destruct (simple_first t Ht) as [c [r [Hc _]]]. assert (0 < String.length (snd t)) by (rewrite Hc; cbn; lia).
    remember (n - String.length b) as k eqn:Ek. destruct k as [|k]; [lia|].
    destruct (IH k code (pos + String.length b + String.length (snd t)) ltac:(lia)) as [it [E [M F]]].
    rewrite tok_token; [|exact Ht|].
    + cbn zeta. rewrite E. eexists. split; [reflexivity|]. cbn. split; [|now constructor]. unfold erase at 1. cbn. rewrite M. now destruct t.
    + destruct l as [|u l].
      * apply blank_stops; [exact Ht|]. inversion Hw as [b' Hb'|]; subst. destruct s as [|c' s']; [exact I|]. cbn in Hb'. now apply andb_true_iff in Hb'.
      * destruct Hsep as [[c' [r' [-> Hc']]]|Hm]; [now apply blank_stops|].
        inversion Hw as [|b' ? ? s' Hb' Hu _ _ _]; subst. destruct b' as [|c' b'].
        -- now apply touch_stop.
        -- apply blank_stops; [exact Ht|]. cbn in Hb' |- *. now apply andb_true_iff in Hb'.
Qed.

(** * Newlines and space at the ends *)
Notation chars := list_ascii_of_string.
Notation string_of := string_of_list_ascii.
Lemma chars_app a : forall b, chars (a ++ b) = chars a ++ chars b.
Proof. induction a as [|c a IH]; intros b; cbn; [reflexivity|]. now rewrite IH. Qed.
Lemma string_of_app a : forall b, string_of (a ++ b) = (string_of a ++ string_of b)%string.
Proof. induction a as [|c a IH]; intros b; cbn; [reflexivity|]. now rewrite IH. Qed.
Lemma all_chars_in f s : all_chars f s = true <-> forall c, In c (chars s) -> f c = true.
Proof.
  induction s as [|c s IH]; cbn; [split; [contradiction|auto]|]. rewrite andb_true_iff, IH. split.
  - intros [H1 H2] d [<-|H]; auto.
  - intros H. split; auto.
Qed.

Arguments newline : simpl never.
Lemma nn_app a b : no_newlines (a ++ b) = (no_newlines a ++ no_newlines b)%string.
Proof. unfold no_newlines. now rewrite chars_app, map_app, string_of_app. Qed.
Lemma nn_same a : all_chars (fun c => negb (Ascii.eqb c newline)) a = true -> no_newlines a = a.
Proof.
  induction a as [|c a IH]; [reflexivity|]. cbn [all_chars]. intros H. apply andb_true_iff in H. destruct H as [H1 H2]. apply negb_true_iff in H1.
  unfold no_newlines in *. cbn. rewrite H1. now rewrite IH.
Qed.
Lemma space_kinds c : blank_or_newline c = true <-> is_blank c = true \/ c = newline.
Proof.
  unfold blank_or_newline, is_blank. cbn [existsb]. rewrite !orb_true_iff, !Ascii.eqb_eq. change "010"%char with newline. intuition discriminate.
Qed.
Lemma nn_blank b : all_chars blank_or_newline b = true -> all_chars is_blank (no_newlines b) = true.
Proof.
  induction b as [|c b IH]; [reflexivity|]. cbn [all_chars]. intros H. apply andb_true_iff in H. destruct H as [H1 H2].
  unfold no_newlines in *. cbn [list_ascii_of_string map string_of_list_ascii all_chars]. rewrite IH by assumption. apply space_kinds in H1. destruct (Ascii.eqb_spec c newline) as [->|N]; [reflexivity|].
  destruct H1 as [H1|H1]; [now rewrite H1|congruence].
Qed.
Lemma written_nn l s : written blank_or_newline l s -> written is_blank l (no_newlines s).
Proof.
  induction 1 as [b Hb|b t l s Hb Ht Hn Hw IH Hsep].
  - constructor. now apply nn_blank.
  - rewrite !nn_app, (nn_same (snd t)) by exact Hn. constructor; auto; [now apply nn_blank|].
    destruct l as [|u l]; [exact I|]. destruct Hsep as [[c [r [-> Hc]]]|H]; [left|now right].
    unfold no_newlines. cbn [list_ascii_of_string map string_of_list_ascii]. eexists _, _. split; [reflexivity|]. apply space_kinds in Hc.
    destruct (Ascii.eqb_spec c newline); [reflexivity|]. now destruct Hc.
Qed.

Definition lst (s : string) : string := string_of (lstrip (chars s)).
Definition rst (s : string) : string := string_of (rev (lstrip (rev (chars s)))).
Lemma strip_two s : strip s = rst (lst s).
Proof. unfold strip, rst, lst. now rewrite list_ascii_of_string_of_list_ascii. Qed.
Lemma lstrip_app x : forall y, lstrip (x ++ y) = match lstrip x with [] => lstrip y | z => z ++ y end.
Proof. induction x as [|c x IH]; intros y; [reflexivity|]. cbn. destruct (is_space c); [apply IH|reflexivity]. Qed.
Lemma lstrip_spaces x : (forall c, In c x -> is_space c = true) -> lstrip x = [].
Proof. induction x as [|c x IH]; intros H; [reflexivity|]. cbn. rewrite H by now left. apply IH. intros d Hd. apply H. now right. Qed.
Lemma blank_space c : is_blank c = true -> is_space c = true.
Proof. intros H. unfold is_blank in H. cbn [existsb] in H. rewrite !orb_true_iff, !Ascii.eqb_eq in H. destruct H as [->|[->|[->|H]]]; [reflexivity|reflexivity|reflexivity|discriminate]. Qed.
Lemma blanks_stripped b : all_chars is_blank b = true -> lstrip (chars b) = [] /\ lstrip (rev (chars b)) = [].
Proof.
  intros H. rewrite all_chars_in in H. split; apply lstrip_spaces; intros c Hc; apply blank_space; apply H; [auto|now apply in_rev].
Qed.
Lemma solid_space c : number_char c = true \/ is_sign c = true \/ is_quote c = true -> is_space c = false.
Proof. destruct c as [[] [] [] [] [] [] [] []]; vm_compute; intuition congruence. Qed.
Lemma number_chars_solid ex : forall s ae c, number_chars ex ae s = true -> In c (chars s) -> is_space c = false.
Proof.
  induction s as [|d s IH]; intros ae c H Hc; [contradiction|]. cbn [number_chars] in H. apply andb_true_iff in H. destruct H as [H1 H2]. destruct Hc as [<-|Hc]; [|eauto].
  apply solid_space. apply orb_true_iff in H1. destruct H1 as [H1|H1]; [now left|]. right. left. apply andb_true_iff in H1. destruct H1 as [H1 _]. now apply andb_true_iff in H1.
Qed.
Lemma short_last q b : short q b -> exists r, rev (chars b) = q :: r.
Proof. induction 1 as [|c r _ _ _ [x E]|b c r _ _ [x E]]; cbn; [exists []; reflexivity| |]; rewrite E; cbn; eexists; reflexivity. Qed.
Lemma long_last q b : long q b -> exists r, rev (chars b) = q :: r.
Proof. induction 1 as [|c r _ _ _ [x E]|b c r _ _ [x E]]; cbn; [eexists; reflexivity| |]; rewrite E; cbn; eexists; reflexivity. Qed.
Lemma solid_last t : simple_token t -> exists c r, rev (chars (snd t)) = c :: r /\ is_space c = false.
Proof.
  intros Ht. destruct (simple_first t Ht) as [c0 [r0 [Hc0 _]]].
  assert (N : rev (chars (snd t)) <> []) by (rewrite Hc0; cbn; destruct (rev (chars r0)); discriminate).
  assert (G : (forall c, In c (chars (snd t)) -> is_space c = false) -> exists c r, rev (chars (snd t)) = c :: r /\ is_space c = false).
  { intros H. destruct (rev (chars (snd t))) as [|c r] eqn:E; [congruence|]. exists c, r. split; [reflexivity|]. apply H. apply in_rev. rewrite E. now left. }
  destruct t as [[] s]; cbn [simple_token] in Ht; try tauto; cbn [snd] in *.
  - destruct s as [|c r]; [tauto|]. destruct Ht as [H1 H2]. apply G. intros d Hd. apply solid_space. left. unfold number_char, name_char. destruct Hd as [<-|Hd]; [now rewrite H1|].
    rewrite all_chars_in in H2. specialize (H2 d Hd). unfold name_char in H2. now rewrite H2.
  - unfold number_text in Ht. apply andb_true_iff in Ht. apply G. intros d Hd. exact (number_chars_solid _ _ _ d (proj2 Ht) Hd).
  - destruct Ht as (p & q & body & _ & Hq & Hb). assert (E : exists r, rev (chars s) = q :: r).
    { destruct Hb as [[Hb ->]|[Hb ->]]; rewrite !chars_app, !rev_app_distr; cbn [list_ascii_of_string rev]; [destruct (short_last q body Hb) as [x ->]|destruct (long_last q body Hb) as [x ->]]; cbn; eexists; reflexivity. }
    destruct E as [r E]. exists q, r. split; [exact E|]. apply solid_space. auto.
  - apply G. intros d Hd. assert (A : forallb (fun o => forallb (fun c => negb (is_space c)) (chars o)) operators = true) by reflexivity.
    rewrite forallb_forall in A. specialize (A s Ht). rewrite forallb_forall in A. specialize (A d Hd). now apply negb_true_iff in A.
Qed.
Lemma solid_first t : simple_token t -> exists c r, snd t = String c r /\ is_space c = false.
Proof.
  intros Ht. destruct (simple_first t Ht) as [c [r [Hc _]]]. exists c, r. split; [exact Hc|].
  destruct t as [[] s]; cbn [simple_token] in Ht; try tauto; cbn [snd] in *; subst s.
  - apply solid_space. left. unfold number_char, name_char. now rewrite (proj1 Ht).
  - unfold number_text in Ht. apply andb_true_iff in Ht. apply (number_chars_solid _ _ _ c (proj2 Ht)). now left.
  - destruct Ht as (p & q & body & Hp & Hq & Hb). assert (E : exists x, String c r = (p ++ String q x)%string) by (destruct Hb as [[_ ->]|[_ ->]]; eexists; reflexivity). destruct E as [x E]. apply solid_space. destruct Hp as [->|Hp].
    + cbn in E. injection E as -> _. auto.
    + destruct (prefixes_are_names p Hp) as (d & y & -> & Hd & _). cbn in E. injection E as -> _. left. unfold number_char, name_char. now rewrite Hd.
  - assert (A : forallb (fun o => forallb (fun c => negb (is_space c)) (chars o)) operators = true) by reflexivity.
    rewrite forallb_forall in A. specialize (A _ Ht). cbn in A. apply andb_true_iff in A. now apply negb_true_iff.
Qed.
Lemma rst_solid a s c r : rev (chars a) = c :: r -> is_space c = false -> rst (a ++ s) = (a ++ rst s)%string.
Proof.
  intros Ha Hc. unfold rst. rewrite chars_app, rev_app_distr, lstrip_app.
  assert (La : lstrip (rev (chars a)) = rev (chars a)) by (rewrite Ha; cbn; now rewrite Hc).
  destruct (lstrip (rev (chars s))) as [|d q].
  - rewrite La, rev_involutive, string_of_list_ascii_of_string. cbn. now rewrite app_nil_s.
  - rewrite rev_app_distr, rev_involutive, string_of_app, string_of_list_ascii_of_string. reflexivity.
Qed.
Lemma written_lst l s : written is_blank l s -> written is_blank l (lst s).
Proof.
  intros H. destruct H as [b Hb|b t l s Hb Ht Hn Hw Hsep]; unfold lst.
  - destruct (blanks_stripped b Hb) as [-> _]. now constructor.
  - rewrite chars_app, lstrip_app. destruct (blanks_stripped b Hb) as [-> _]. destruct (solid_first t Ht) as [c [r [Hc Hs]]].
    rewrite chars_app. replace (lstrip (chars (snd t) ++ chars s)) with (chars (snd t) ++ chars s) by (rewrite Hc; cbn; now rewrite Hs).
    rewrite <- chars_app, string_of_list_ascii_of_string. change (snd t ++ s)%string with ("" ++ snd t ++ s)%string. now constructor.
Qed.
Lemma written_rst l s : written is_blank l s -> written is_blank l (rst s) /\ (l <> [] -> spacy is_blank s -> spacy is_blank (rst s)).
Proof.
  induction 1 as [b Hb|b t l s Hb Ht Hn Hw [IH1 IH2] Hsep].
  - split; [|congruence]. unfold rst. destruct (blanks_stripped b Hb) as [_ ->]. now constructor.
  - assert (E : rst (b ++ snd t ++ s) = (b ++ snd t ++ rst s)%string).
    { destruct (solid_last t Ht) as [c [r [Hc Hs]]]. rewrite <- append_assoc_s.
      rewrite (rst_solid (b ++ snd t) s c (r ++ rev (chars b))); [apply append_assoc_s| |exact Hs]. now rewrite chars_app, rev_app_distr, Hc. }
    rewrite E. split.
    + constructor; auto. destruct l as [|u l]; [exact I|]. destruct Hsep as [H|H]; [left; apply IH2; [discriminate|exact H]|now right].
    + intros _ [c [r [Hc Hs]]]. destruct b as [|d b].
      * exfalso. destruct (simple_first t Ht) as [c' [r' [Hc' [Hb' _]]]]. rewrite Hc' in Hc. cbn in Hc. injection Hc as -> _. congruence.
      * cbn in Hc |- *. injection Hc as -> _. eexists _, _. split; [reflexivity|exact Hs].
Qed.
Lemma written_strip l s : written blank_or_newline l s -> written is_blank l (strip (no_newlines s)).
Proof. intros H. rewrite strip_two. apply written_rst, written_lst, written_nn, H. Qed.

(** Only blank text has no tokens. *)
Lemma strip_empty s : strip s = "" <-> forall c, In c (chars s) -> is_space c = true.
Proof.
  unfold strip. split.
  - intros H c Hc. assert (A : forall x, lstrip x = [] -> forall d, In d x -> is_space d = true).
    { induction x as [|e x IH]; intros Hx d Hd; [contradiction|]. cbn in Hx. destruct (is_space e) eqn:Ee; [|discriminate]. destruct Hd as [<-|Hd]; auto. }
    assert (B : lstrip (rev (lstrip (chars s))) = []).
    { destruct (lstrip (rev (lstrip (chars s)))) as [|e q] eqn:Eq; [reflexivity|]. exfalso. cbn in H. rewrite string_of_app in H. destruct (string_of (rev q)); discriminate. }
    assert (C : lstrip (chars s) = []).
    { destruct (lstrip (chars s)) as [|e q] eqn:Eq; [reflexivity|]. exfalso.
      assert (Hne : is_space e = false). { clear -Eq. revert Eq. induction (chars s) as [|d x IH]; cbn; [discriminate|]. destruct (is_space d) eqn:Ed; [exact IH|]. intros [= -> _]. exact Ed. }
      assert (is_space e = true) by (apply (A _ B); apply -> in_rev; now left). congruence. }
    apply (A _ C c Hc).
  - intros H. rewrite (lstrip_spaces (chars s)) by exact H. reflexivity.
Qed.
Lemma written_blank l s : written blank_or_newline l s -> (strip s = "" <-> l = []).
Proof.
  intros H. rewrite strip_empty. destruct H as [b Hb|b t l s Hb Ht Hn Hw Hsep].
  - split; [reflexivity|]. intros _ c Hc. rewrite all_chars_in in Hb. specialize (Hb c Hc). apply space_kinds in Hb. destruct Hb as [Hb| ->]; [now apply blank_space|reflexivity].
  - split; [|discriminate]. intros H. exfalso. destruct (solid_first t Ht) as [c [r [Hc Hs]]].
    assert (is_space c = true); [|congruence]. apply H. rewrite !chars_app, Hc. apply in_or_app. right. apply in_or_app. left. now left.
Qed.

Lemma written_python l s : written blank_or_newline l s ->
  exists it, python_tokenize s = (it, None) /\ map erase it = l /\ Forall (fun t => o_code (pt_origin t) = strip (no_newlines s)) it.
Proof. intros H. unfold python_tokenize. apply written_tokens; [|lia]. now apply written_strip. Qed.
