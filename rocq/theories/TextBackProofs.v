(** Reading back the text that [describe] writes. *)
From Coq Require Import Ascii.
From Verif Require Import Base OriginModel OriginSpec TokensModel TokensSpec TokensProofs InfixModel InfixSpec InfixProofs DescModel DescSpec DescProofs DescTopProofs
  ParseFormulaModel ParseFormulaSpec ParseFormulaProofs FormulaModel FormulaSpec FormulaProofs DescribeProofs PyLexModel PyLexSpec PyLexProofs EvalModel EvalLexProofs
  TextModel TextSpec TextProofs TextSameProofs.
Open Scope string_scope.
Open Scope list_scope.

Definition one_line (t : pytype * string) : Prop := all_chars (fun c => negb (Ascii.eqb c (ascii_of_nat 10))) (snd t) = true.
Lemma written_simple sp l s : written sp l s -> Forall simple_token l /\ Forall one_line l.
Proof. induction 1 as [|b t l s Hb Ht Hn Hw [IH1 IH2] Hs]; split; constructor; auto. Qed.

Lemma erase_tokenizer code it l : map erase it = l -> Forall simple_token l -> Forall (fun t => o_code (pt_origin t) = code) it -> from_tokenizer code it.
Proof.
  intros <- Hs Hc. unfold from_tokenizer. rewrite Forall_forall in *. intros t Ht. split; [now apply Hc|].
  specialize (Hs (erase t) (in_map erase _ _ Ht)). destruct t as [ty s o]. unfold erase in Hs. cbn in *. destruct ty; cbn in Hs; try contradiction; repeat split; discriminate.
Qed.

(** * The same tokens, differently spaced *)
Lemma spacing_lemma is_float l s1 s2 m : written blank_or_newline l s1 -> written blank_or_newline l s2 ->
  from_text is_float s1 = Ok m -> from_text is_float s2 = Ok m.
Proof.
  intros H1 H2 H. pose proof (written_blank l s1 H1) as B1. pose proof (written_blank l s2 H2) as B2.
  unfold from_text, formula_text in *. destruct l as [|t l].
  - rewrite (proj2 (String.eqb_eq _ _) (proj2 B1 eq_refl)) in H. now rewrite (proj2 (String.eqb_eq _ _) (proj2 B2 eq_refl)).
  - assert (E1 : String.eqb (strip s1) "" = false) by (apply String.eqb_neq; intros E; apply B1 in E; discriminate).
    assert (E2 : String.eqb (strip s2) "" = false) by (apply String.eqb_neq; intros E; apply B2 in E; discriminate).
    rewrite E1 in H. rewrite E2. destruct (written_python _ _ H1) as [it1 [T1 [M1 F1]]], (written_python _ _ H2) as [it2 [T2 [M2 F2]]].
    rewrite T1 in H. rewrite T2. destruct (written_simple _ _ _ H1) as [Hs _].
    apply (from_formula_same norm_text is_float (strip (no_newlines s1)) (strip (no_newlines s2)) it1 it2 m);
      [eapply erase_tokenizer; eassumption|eapply erase_tokenizer; eassumption|congruence| |exact H].
    intros ->. discriminate.
Qed.

(** * The text of embedded expressions *)
Lemma written_blanks b l s : all_chars is_blank b = true -> written is_blank l s -> written is_blank l (b ++ s).
Proof.
  intros Hb H. destruct H as [c Hc|c t l s Hc Ht Hn Hw Hs].
  - constructor. now rewrite all_chars_app, Hb, Hc.
  - rewrite <- append_assoc_s. constructor; auto. now rewrite all_chars_app, Hb, Hc.
Qed.
Lemma texts_written l : forall seps d l2 rest, Forall simple_token l -> Forall one_line l -> neighbours_fit l = true -> good_seps seps l ->
  List.length seps = List.length l -> written is_blank l2 rest ->
  match l2 with [] => True | u :: _ => l = [] \/ spacy is_blank rest \/ may_touch (last l d) u = true end ->
  written is_blank (l ++ l2) (texts seps l ++ rest).
Proof.
  induction l as [|t l IH]; intros seps d l2 rest Hs Ho Hf Hg Hl Hw Hb.
  - destruct seps; [|discriminate]. exact Hw.
  - destruct seps as [|b seps]; [discriminate|]. injection Hl as Hl. inversion Hs as [|? ? Ht Hs']; subst. inversion Ho as [|? ? Hot Ho']; subst.
    unfold texts. cbn [map List.combine spaced]. fold (texts seps l). rewrite !append_assoc_s.
    assert (B : all_chars is_blank (if b then " " else "")%string = true) by (destruct b; reflexivity).
    cbn [app]. destruct l as [|u l].
    + destruct seps; [|discriminate]. cbn [texts app]. change (texts [] [] ++ rest)%string with rest. constructor; auto.
      destruct l2 as [|u l2]; [exact I|]. destruct Hb as [Hb|Hb]; [discriminate|exact Hb].
    + destruct seps as [|b' seps]; [discriminate|]. cbn [neighbours_fit] in Hf. apply andb_true_iff in Hf. destruct Hf as [Hf1 Hf2]. destruct Hg as [Hg1 Hg2].
      assert (W : written is_blank ((u :: l) ++ l2) (texts (b' :: seps) (u :: l) ++ rest)).
      { apply (IH (b' :: seps) d); auto. destruct l2 as [|x l2]; [exact I|]. destruct Hb as [Hb|Hb]; [discriminate|]. right. exact Hb. }
      constructor; auto. cbn [app]. destruct b'.
      * left. unfold texts. cbn. eexists _, _. split; reflexivity.
      * right. unfold may_touch. rewrite Hf1, andb_true_r. apply negb_true_iff. destruct (word_like t) eqn:E1, (word_like u) eqn:E2; try reflexivity.
        specialize (Hg1 E1 E2). discriminate.
Qed.
Lemma pretty_written ts f d l2 rest : plain ts -> Forall one_line ts -> pretty_untokenize ts = Ok f -> written is_blank l2 rest ->
  match l2 with [] => True | u :: _ => ts = [] \/ spacy is_blank rest \/ may_touch (last ts d) u = true end ->
  written is_blank (ts ++ l2) (f ++ rest).
Proof.
  intros [Hs Hf] Ho H. destruct (pretty_ok_lemma ts f H) as [_ [seps [Hl [-> [_ Hw]]]]].
  rewrite (simple_has_text ts Hs) in *. apply texts_written; auto. apply good_from_nth; auto.
Qed.
(** A text that starts with [=] is printed with a space before it. *)
Lemma pretty_first ts f t l : ts = t :: l -> simple_token t -> pretty_untokenize ts = Ok f -> plain ts ->
  spacy is_blank f \/ (exists r, f = snd t ++ r /\ may_touch (POTHER, ":") t = true)%string.
Proof.
  intros -> Ht H [Hs _]. destruct (pretty_ok_lemma _ f H) as [_ [seps [Hl [Ef [_ _]]]]]. rewrite (simple_has_text _ Hs) in *.
  destruct seps as [|b seps]; [discriminate|]. cbn [map List.combine spaced] in Ef. destruct b.
  - left. subst f. cbn. eexists _, _. split; reflexivity.
  - cbn [append] in Ef. change (String.append "" ?x) with x in Ef.
    right. eexists. split; [exact Ef|]. destruct t as [ty s]. cbn [snd] in *. unfold may_touch, word_like, fits. cbn [fst snd andb negb].
    destruct ty; cbn in Ht; try contradiction; try reflexivity.
    destruct (separable ":" s) eqn:E; [reflexivity|]. exfalso.
    assert (K : s = "=" \/ s = "==").
    { assert (A : forallb (fun o => separable ":" o || String.eqb o "=" || String.eqb o "==") operators = true) by (vm_compute; reflexivity).
      rewrite forallb_forall in A. specialize (A s Ht). rewrite E in A. cbn in A. apply orb_true_iff in A. rewrite !String.eqb_eq in A. exact A. }
    assert (G : exists r, f = String " " r).
    { clear Ef. unfold pretty_untokenize in H. destruct K as [-> | ->]; cbn in H; destruct (pu_loop _ l) as [x|]; cbn in H; try discriminate; injection H as <-;
        try (eexists; reflexivity). all: destruct x; eexists; reflexivity. }
    destruct G as [r G]. rewrite Ef in G. destruct K as [-> | ->]; discriminate.
Qed.

(** * The tokens of a description *)
Definition tight (o : string) : Prop := o = "~" \/ o = "+" \/ o = ":".
Definition dspell (d : dtok) (ts : list (pytype * string)) : Prop :=
  match d with
  | DOp o => tight o /\ ts = [(POTHER, o)]
  | DExpr f => plain ts /\ Forall one_line ts /\ pretty_untokenize ts = Ok f /\
      nest 0 (map snd ts) 0 /\ quiet formula_ops (map snd ts) /\ (exists t r, ts = t :: r /\ ~ magic formula_ops (snd t))
  end.
Lemma tight_simple o : tight o -> simple_token (POTHER, o) /\ one_line (POTHER, o).
Proof. intros [-> | [-> | ->]]; split; cbn; try reflexivity; intuition. Qed.
Lemma colon_after t : simple_token t -> may_touch t (POTHER, ":") = true.
Proof.
  intros Ht. unfold may_touch. replace (word_like t && word_like (POTHER, ":")) with false by (unfold word_like; cbn; now rewrite andb_false_r).
  cbn [negb andb]. destruct t as [[] s]; cbn in Ht; try contradiction; try reflexivity.
  { unfold fits. cbn [fst snd first_is]. change (is_sign ":") with false. now rewrite andb_false_r. }
  unfold fits. cbn [fst snd].
  assert (A : forallb (fun o => separable o ":") operators = true) by (vm_compute; reflexivity). rewrite forallb_forall in A. now apply A.
Qed.
Lemma dspell_nonempty d ts : dspell d ts -> exists t r, ts = t :: r /\ simple_token t.
Proof.
  destruct d as [o|f]; cbn.
  - intros [H ->]. exists (POTHER, o), []. split; [reflexivity|]. now apply tight_simple.
  - intros [[Hs _] [_ [_ [_ [_ [t [r [-> _]]]]]]]]. exists t, r. split; [reflexivity|]. now inversion Hs.
Qed.
(** What a description's token can be put after directly. *)
Lemma after_colon d ts l2 x : dspell d ts -> written is_blank (ts ++ l2) (dtext d ++ x) ->
  match ts ++ l2 with [] => True | u :: _ => spacy is_blank (dtext d ++ x) \/ may_touch (POTHER, ":") u = true end.
Proof.
  intros H _. destruct (dspell_nonempty _ _ H) as [t [r [-> Ht]]]. cbn [app].
  destruct d as [o|f]; cbn in H.
  - destruct H as [[-> | [-> | ->]] E]; injection E as -> ->; cbn [dtext String.eqb]; cbn; try (left; eexists _, _; split; reflexivity). right. reflexivity.
  - destruct H as [Hp [_ [Hpr _]]]. destruct (pretty_first _ f t r eq_refl Ht Hpr Hp) as [[c [q [-> Hc]]]|[q [_ Hm]]]; [left|now right].
    cbn [dtext]. eexists _, _. split; [reflexivity|exact Hc].
Qed.
Lemma text_written l tss : Forall2 dspell l tss -> forall p, alt p l ->
  written is_blank (concat tss) (text l) /\
  match concat tss with [] => True | u :: _ => spacy is_blank (text l) \/ may_touch (POTHER, ":") u = true end /\
  (p = true -> match concat tss with [] => True | u :: _ => spacy is_blank (text l) \/ u = (POTHER, ":") end).
Proof.
  induction 1 as [|d ts l tss Hd H IH]; intros p Ha; [split; [constructor; reflexivity|split; [exact I|intros _; exact I]]|].
  rewrite text_cons. cbn [concat].
  assert (W : written is_blank (ts ++ concat tss) (dtext d ++ text l) /\ (p = true -> match ts ++ concat tss with [] => True | u :: _ => spacy is_blank (dtext d ++ text l) \/ u = (POTHER, ":") end)).
  { destruct d as [o|f]; cbn [alt] in Ha; destruct Ha as [Hp Ha]; destruct (IH _ Ha) as [W [T Q]].
    - cbn in Hd. destruct Hd as [Ho ->]. destruct (tight_simple o Ho) as [So Lo].
      assert (E : (String.eqb o ":" = true /\ o = ":") \/ (String.eqb o ":" = false)) by (destruct Ho as [-> | [-> | ->]]; auto).
      cbn [dtext]. destruct E as [[E ->]|E]; rewrite E; cbn [app].
      + split; [|right; reflexivity]. change (":" ++ text l)%string with ("" ++ snd (POTHER, ":") ++ text l)%string. constructor; auto.
      + split; [|left; eexists _, _; split; reflexivity].
        replace ((" " ++ o ++ " ") ++ text l)%string with (" " ++ snd (POTHER, o) ++ (" " ++ text l))%string by (cbn; rewrite append_assoc_s; reflexivity).
        constructor; auto. { now apply (written_blanks " "). }
        destruct (concat tss); [exact I|]. left. eexists _, _. split; reflexivity.
    - destruct Hd as [Hpl [Ho [Hpr [_ [_ [t [r [Et _]]]]]]]]. subst p. split; [|discriminate]. cbn [dtext].
      apply (pretty_written ts f (POTHER, "")); auto. specialize (Q eq_refl). destruct (concat tss) as [|u us]; [exact I|].
      right. destruct Q as [Q| ->]; [now left|right]. apply colon_after. rewrite Et.
      destruct Hpl as [Hs _]. rewrite Et in Hs. rewrite Forall_forall in Hs. apply Hs.
      destruct (exists_last (l := t :: r)) as [y [z E]]; [discriminate|]. rewrite E, last_last. apply in_or_app. right. now left. }
  destruct W as [W Q]. split; [exact W|]. split; [|exact Q].
  eapply after_colon; eassumption.
Qed.
Lemma layout_written l tss p : Forall2 dspell l tss -> alt p l -> written is_blank (concat tss) (dlayout l).
Proof.
  intros H Ha. destruct l as [|[o|f] l]; try (apply (text_written _ _ H _ Ha)).
  inversion H as [|? ts ? tss' Hd Hl]; subst. cbn in Hd. destruct Hd as [Ho ->]. destruct (tight_simple o Ho) as [So Lo]. destruct Ha as [_ Ha].
  destruct (text_written _ _ Hl _ Ha) as [W _]. cbn [dlayout concat app]. fold (text l).
  change (o ++ " " ++ text l)%string with ("" ++ snd (POTHER, o) ++ (" " ++ text l))%string. constructor; auto; [now apply (written_blanks " ")|].
  destruct (concat tss'); [exact I|]. left. eexists _, _. split; reflexivity.
Qed.

Lemma respell l tss : Forall2 dspell l tss -> forall it, map erase it = concat tss -> exists gs, flatten gs = it /\ Forall2 spell1 l gs.
Proof.
  induction 1 as [|d ts l tss Hd H IH]; intros it Hit; cbn [concat] in Hit.
  - destruct it; [|discriminate]. exists []. split; [reflexivity|constructor].
  - assert (A : exists i1 i2, it = i1 ++ i2 /\ map erase i1 = ts /\ map erase i2 = concat tss).
    { clear -Hit. revert ts Hit. induction it as [|t it IH]; intros ts Hit.
      - cbn in Hit. symmetry in Hit. apply app_eq_nil in Hit. destruct Hit as [-> ->]. exists [], []. auto.
      - destruct ts as [|x ts]; cbn in Hit.
        + exists [], (t :: it). auto.
        + injection Hit as Hx Hit. destruct (IH ts Hit) as [i1 [i2 [-> [A B]]]]. exists (t :: i1), i2. cbn. split; [reflexivity|]. split; congruence. }
    destruct A as [i1 [i2 [-> [E1 E2]]]]. destruct (IH i2 E2) as [gs [<- F]].
    destruct d as [o|f]; cbn in Hd.
    + destruct Hd as [_ ->]. destruct i1 as [|t [|? ?]]; try discriminate. cbn in E1. injection E1 as E0 E1.
      exists (GMagic t :: gs). split; [reflexivity|]. constructor; [exact E1|exact F].
    + destruct Hd as [_ [_ [Hpr [Hn [Hq [t [r [Et Hm]]]]]]]]. exists (GExpr i1 :: gs). split; [reflexivity|]. constructor; [|exact F].
      cbn. change (fun t => (pt_type t, pt_string t)) with erase. rewrite E1. split; [|exact Hpr].
      assert (Es : strings i1 = map snd ts) by (rewrite <- E1, map_map; reflexivity).
      split; [now rewrite Es|]. split; [now rewrite Es|]. destruct i1 as [|t' i1]; [rewrite Et in E1; discriminate|].
      exists t', i1. split; [reflexivity|]. rewrite Et in E1. cbn in E1. injection E1 as E1 _. now rewrite <- E1 in Hm.
Qed.

Lemma sep_forall {A} (P : A -> Prop) sep l : P sep -> Forall (Forall P) l -> Forall P (sep_by sep l).
Proof.
  intros Hs. induction 1 as [|x l Hx Hl IH]; [constructor|]. cbn [sep_by]. apply Forall_app. split; [exact Hx|]. destruct l; [constructor|]. constructor; auto.
Qed.
Lemma describe_forall (P : dtok -> Prop) m : P (DOp "~") -> P (DOp "+") -> P (DOp ":") -> P (DExpr "0") -> P (DExpr "1") ->
  (forall t f, In t (lhs_termlist m) \/ In t (rhs_termlist m) -> In f t -> P (DExpr f)) -> Forall P (describe_toks m).
Proof.
  intros P1 P2 P3 P4 P5 H.
  assert (T : forall t, In t (lhs_termlist m) \/ In t (rhs_termlist m) -> Forall P (term_toks t)).
  { intros t Ht. destruct t as [|f t]; [repeat constructor; assumption|]. unfold term_toks. apply sep_forall; [exact P3|].
    apply Forall_forall. intros x Hx. apply in_map_iff in Hx. destruct Hx as [g [<- Hg]]. repeat constructor. eauto. }
  assert (U : forall us, (forall t, In t us -> In t (lhs_termlist m) \/ In t (rhs_termlist m)) -> Forall (Forall P) (map term_toks us)).
  { intros us Hu. apply Forall_forall. intros x Hx. apply in_map_iff in Hx. destruct Hx as [t [<- Ht]]. auto. }
  unfold describe_toks. apply Forall_app. split; [apply sep_forall; auto|]. constructor; [exact P1|].
  assert (Z : Forall P (sum_toks ([DExpr "0"] :: map term_toks (rhs_termlist m)))).
  { apply sep_forall; [exact P2|]. constructor; [repeat constructor; assumption|]. apply U. auto. }
  unfold rhs_toks. destruct (rhs_termlist m) as [|[|f t] us] eqn:E; try exact Z.
  destruct us as [|u us]; [repeat constructor; assumption|]. apply sep_forall; [exact P2|]. apply U. intros x Hx. right. now right.
Qed.

(** * Factors are embedded expressions *)
Lemma factors_embedded norm is_float code it m : from_tokenizer code it -> it <> [] -> from_formula norm is_float it None = Ok m ->
  forall t f, In t (lhs_termlist m) \/ In t (rhs_termlist m) -> In f t ->
  exists gs ts s, segmentation formula_ops gs /\ flatten gs = it /\ In (GExpr ts) gs /\ pretty_untokenize (map erase ts) = Ok s /\ f = norm s.
Proof.
  intros Hft Hne H t f Ht Hf. unfold from_formula in H. apply bind_ok in H. destruct H as [n [Ep Hm]].
  destruct (parse_formula_top _ _ _ _ Hft Hne Ep) as [_ [gs [toks [c [Hs [Hfl [Hz [Hv [Hy Hrep]]]]]]]]].
  assert (HP : forall s, leaf_code n s -> exists ts, In (GExpr ts) gs /\ pretty_untokenize (map erase ts) = Ok s).
  { intros s Hl.
    assert (Hx : exists t, In t (yield c) /\ tk_type t = TName "PYTHON_EXPR" /\ tk_extra t = Some s).
    { destruct Hrep as [Hr|[m0 [Hr ->]]]; [eapply leaf_in_yield; eauto|].
      inversion Hl as [? ? ? ? ? E1 E2 E3|? ? ? ? ? ? Hin Hla]; subst. destruct Hin as [<-|[]].
      eapply leaf_in_yield; eauto. }
    destruct Hx as [t' [Hin [_ Hx]]]. rewrite Hy in Hin.
    assert (Hg : exists g, In g gs /\ token_for def_ops is_float g t').
    { clear - Hz Hin. induction Hz as [|g t gs toks Hg Hz IH]; [contradiction|].
      destruct Hin as [-> |Hin]; [exists g; split; [now left|exact Hg]|].
      destruct (IH Hin) as [g' [A B]]. exists g'. split; [now right|exact B]. }
    destruct Hg as [g [Hg Htf]]. inversion Htf as [p Hp|p Hp|p Hp|ts o text ty Hk Hh Hpt]; subst; cbn in Hx; try discriminate.
    injection Hx as ->. exists ts. auto. }
  assert (Hmem : t = [] \/ exists a, (forall code, leaf_code a code -> leaf_code n code) /\ mem norm a t).
  { destruct (from_tree_meaning _ _ _ Hm) as [[tok [r [o [-> [Lem Lr]]]]]|[tok [l [r [o [-> [Ll Lr]]]]]]].
    - destruct Ht as [Ht|Ht]; [rewrite Lem in Ht; contradiction|].
      pose proof (lists_in _ _ _ Lr Ht) as [Hmem|[-> _]]; [|now left]. right.
      exists r. split; [|exact Hmem]. intros. eapply lc_arg; [now left|eassumption].
    - destruct Ht as [Ht|Ht].
      + pose proof (lists_in _ _ _ Ll Ht) as [Hmem|[-> _]]; [|now left]. right.
        exists l. split; [|exact Hmem]. intros. eapply lc_arg; [now left|eassumption].
      + pose proof (lists_in _ _ _ Lr Ht) as [Hmem|[-> _]]; [|now left]. right.
        exists r. split; [|exact Hmem]. intros. eapply lc_arg; [right; now left|eassumption]. }
  destruct Hmem as [-> |[a [Hla Hmem]]]; [contradiction|]. destruct (mem_leaf norm a t Hmem f Hf) as [s [L ->]].
  destruct (HP s (Hla _ L)) as [ts [A B]]. exists gs, ts, s. auto.
Qed.

Lemma sub_plain l ts a b : Forall simple_token l -> neighbours_fit l = true -> l = a ++ ts ++ b -> plain ts.
Proof.
  intros Hs Hf ->. apply Forall_app in Hs. destruct Hs as [_ Hs]. apply Forall_app in Hs. destruct (fit_app _ _ Hf) as [_ Hf']. destruct (fit_app _ _ Hf') as [Hf'' _].
  split; [apply Hs|exact Hf''].
Qed.
Lemma group_part gs ts : In (GExpr ts) gs -> exists a b, flatten gs = a ++ ts ++ b.
Proof.
  intros H. apply in_split in H. destruct H as [g1 [g2 ->]]. exists (flatten g1), (flatten g2). unfold flatten. now rewrite flat_map_app.
Qed.
Lemma norm_pretty ts s : plain ts -> pretty_untokenize ts = Ok s -> norm_text s = s.
Proof. intros Hp E. unfold norm_text. rewrite (normalize_text s ts s (py_lex_back ts s Hp E) E). reflexivity. Qed.

(** * Reading back *)
Lemma text_roundtrip is_float code it l m : from_tokenizer code it -> it <> [] -> map erase it = l -> Forall simple_token l -> Forall one_line l ->
  neighbours_fit l = true -> from_formula norm_text is_float it None = Ok m -> from_text is_float (describe m) = Ok m.
Proof.
  intros Hft Hne Hl Hs Ho Hfit Hm.
  assert (Hpart : forall gs ts, flatten gs = it -> In (GExpr ts) gs -> plain (map erase ts) /\ Forall one_line (map erase ts)).
  { intros gs ts Hfl Hin. destruct (group_part gs ts Hin) as [a [b E]]. rewrite Hfl in E.
    assert (El : l = map erase a ++ map erase ts ++ map erase b) by (rewrite <- Hl, E, !map_app; reflexivity).
    split; [eapply sub_plain; eassumption|]. rewrite El in Ho. apply Forall_app in Ho. destruct Ho as [_ Ho]. apply Forall_app in Ho. apply Ho. }
  assert (Hn : forall x, embedded_in it x -> norm_text x = x).
  { intros x [gs [ts [_ [Hfl [Hin Hpr]]]]]. change (fun t => (pt_type t, pt_string t)) with erase in Hpr.
    eapply norm_pretty; [apply (Hpart gs ts Hfl Hin)|exact Hpr]. }
  assert (Hfac : forall t f, In t (lhs_termlist m) \/ In t (rhs_termlist m) -> In f t -> exists ts, dspell (DExpr f) ts).
  { intros t f Ht Hf. destruct (factors_embedded _ _ _ _ _ Hft Hne Hm t f Ht Hf) as [gs [ts [x [[Hleg _] [Hfl [Hin [Hpr ->]]]]]]].
    destruct (Hpart gs ts Hfl Hin) as [Hp Hol]. rewrite (norm_pretty _ _ Hp Hpr). exists (map erase ts).
    rewrite Forall_forall in Hleg. destruct (Hleg _ Hin) as [A [B [y [r [Ey Hmag]]]]].
    assert (Es : strings ts = map snd (map erase ts)) by (rewrite map_map; reflexivity).
    split; [exact Hp|]. split; [exact Hol|]. split; [exact Hpr|]. rewrite <- Es. split; [exact A|]. split; [exact B|].
    rewrite Ey. cbn. eexists _, _. split; [reflexivity|exact Hmag]. }
  assert (Hnum : forall x, x = "0" \/ x = "1" -> dspell (DExpr x) [(PNUMBER, x)]).
  { intros x Hx. assert (Q : quiet formula_ops [x]).
    { intros p y q E Hp. destruct p as [|z p]; cbn in E; [|destruct p; discriminate]. injection E as <- _.
      destruct Hx as [-> | ->]; cbn; intros K; unfold ParseFormulaSpec.stop in K; cbn in K; intuition discriminate. }
    split; [split; [constructor; [destruct Hx as [-> | ->]; cbn; auto|constructor]|reflexivity]|].
    split; [constructor; [destruct Hx as [-> | ->]; reflexivity|constructor]|].
    split; [destruct Hx as [-> | ->]; reflexivity|].
    split; [destruct Hx as [-> | ->]; cbn; apply nest_other; try (unfold open_bracket, close_bracket; intuition discriminate); constructor|].
    split; [exact Q|]. eexists _, _. split; [reflexivity|]. cbn [snd]. unfold magic. destruct Hx as [-> | ->]; cbn; intuition discriminate. }
  assert (Hsp : exists tss, Forall2 dspell (describe_toks m) tss).
  { assert (F : Forall (fun d => exists ts, dspell d ts) (describe_toks m)).
    { apply describe_forall; [| | | | |exact Hfac]; try (eexists; split; [|reflexivity]; unfold tight; auto; fail); eexists; apply Hnum; auto. }
    clear -F. induction F as [|d l [ts Hd] F [tss IH]]; [exists []; constructor|]. exists (ts :: tss). now constructor. }
  destruct Hsp as [tss Hsp].
  assert (Hd : describe m = dlayout (describe_toks m)).
  { eapply describe_text_formula; [exact Hm|]. intros t f Ht Hf ->. destruct (Hfac t "" (or_introl Ht) Hf) as [ts [Hp [_ [Hpr [_ [_ [x [r [-> _]]]]]]]]].
    destruct (pretty_first _ "" x r eq_refl ltac:(destruct Hp as [Hp _]; now inversion Hp) Hpr Hp) as [[c [q [E _]]]|[q [E _]]]; [discriminate|].
    destruct Hp as [Hp _]. inversion Hp as [|? ? Hx _]; subst. destruct (simple_first x Hx) as [c [q' [Ex _]]]. rewrite Ex in E. discriminate. }
  pose proof (layout_written _ _ _ Hsp (alt_describe norm_text is_float m)) as W. rewrite <- Hd in W.
  assert (W2 : written blank_or_newline (concat tss) (describe m)).
  { clear -W. induction W as [b Hb|b t l s Hb Ht Hn Hw IH Hs].
    - constructor. rewrite all_chars_in in *. intros c Hc. specialize (Hb c Hc). apply space_kinds. now left.
    - constructor; auto.
      + rewrite all_chars_in in *. intros c Hc. specialize (Hb c Hc). apply space_kinds. now left.
      + destruct l; [exact I|]. destruct Hs as [[c [r [-> Hc]]]|Hs]; [left|now right]. eexists _, _. split; [reflexivity|]. apply space_kinds. now left. }
  destruct (written_python _ _ W2) as [it' [T [M F]]]. destruct (written_simple _ _ _ W2) as [S1 _].
  destruct (respell _ _ Hsp it' M) as [gs [Hg1 Hg2]].
  unfold from_text, formula_text.
  assert (Hnb : String.eqb (strip (describe m)) "" = false).
  { apply String.eqb_neq. intros E. apply (written_blank _ _ W2) in E. clear -Hsp E.
    unfold describe_toks in Hsp. apply Forall2_app_inv_l in Hsp. destruct Hsp as [t1 [t2 [_ [H2 ->]]]]. inversion H2 as [|? ts ? ? Hd]; subst.
    cbn in Hd. destruct Hd as [_ ->]. rewrite concat_app in E. apply app_eq_nil in E. destruct E as [_ E]. discriminate. }
  rewrite Hnb, T. eapply describe_roundtrip; [exact Hft|exact Hne|exact Hn|exact Hm|eapply erase_tokenizer; eassumption|]. exists gs. auto.
Qed.
