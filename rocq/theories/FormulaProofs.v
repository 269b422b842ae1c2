From Verif Require Import Base OriginModel OriginSpec OriginProofs InfixModel InfixSpec InfixProofs UtilModel
  DescModel DescSpec DescProofs DescTopProofs TokensModel ParseFormulaModel ParseFormulaSpec ParseFormulaProofs
  FormulaModel.

(** * Every node the parser makes has an origin in the code *)
Inductive well_org (code : string) : node -> Prop :=
| wo ty tok args o : o_code o = code -> Forall (well_org code) args ->
    well_org code (Node ty tok args (Some o)).

Lemma combine_some_head i l org : combine (Some i :: l) = Ok org ->
  exists o, org = Some o /\ o_code o = o_code i.
Proof.
  unfold combine. cbn [keep_some]. unfold assert. destruct (forallb _ _); [|discriminate].
  intros [= <-]. eexists; split; [reflexivity|]. reflexivity.
Qed.

Definition good_ctx (code : string) (c : context) : Prop :=
  Forall (fun so => o_code (tk_origin (so_token so)) = code) (op_stack c) /\
  Forall (well_org code) (noun_stack c).

Lemma pop_n_org code k : forall l xs r, pop_n k l = Ok (xs, r) -> Forall (well_org code) l ->
  Forall (well_org code) xs /\ Forall (well_org code) r.
Proof.
  induction k as [|k IH]; intros l xs r H HF; cbn in H.
  - injection H as <- <-. auto.
  - destruct l as [|x l]; [discriminate|]. inversion HF as [|? ? Hx HF']; subst.
    apply bind_ok in H. destruct H as [[ys r'] [E H]]. cbn in H. injection H as <- <-.
    destruct (IH _ _ _ E HF') as [A B]. auto.
Qed.

Lemma run_op_org code c c' : run_op c = Ok c' -> good_ctx code c -> good_ctx code c'.
Proof.
  unfold run_op. destruct c as [[|so rest] nouns]; cbn [op_stack noun_stack]; [discriminate|].
  intros H [H1 H2]. cbn in H1, H2. inversion H1 as [|? ? Hso Hrest]; subst.
  apply bind_ok in H. destruct H as [[popped ns] [Ep H]]. cbn in H.
  apply bind_ok in H. destruct H as [org [Ec H]]. injection H as <-.
  destruct (pop_n_org (o_code (tk_origin (so_token so))) _ _ _ _ Ep H2) as [A B].
  apply combine_some_head in Ec. destruct Ec as [o [-> Ho]].
  split; cbn; [exact Hrest|]. constructor; [|exact B]. constructor; [exact Ho|].
  apply Forall_forall. intros x Hx. rewrite <- in_rev in Hx. rewrite Forall_forall in A. auto.
Qed.

Lemma run_op_stack c c' : run_op c = Ok c' -> exists so, op_stack c = so :: op_stack c'.
Proof.
  unfold run_op. destruct (op_stack c) as [|so rest]; [discriminate|]. intros H.
  apply bind_ok in H. destruct H as [[popped ns] [_ H]]. cbn in H.
  apply bind_ok in H. destruct H as [org [_ H]]. injection H as <-. eauto.
Qed.

Lemma reduce_org code cond ops : forall nouns c', reduce_while cond ops nouns = Ok c' ->
  good_ctx code (mkCtx ops nouns) -> good_ctx code c'.
Proof.
  induction ops as [|so ops IH]; intros nouns c' H G; cbn [reduce_while] in H.
  - injection H as <-. exact G.
  - destruct (cond so); [|injection H as <-; exact G].
    apply bind_ok in H. destruct H as [c [E H]]. apply (IH _ _ H).
    pose proof (run_op_org code _ _ E G) as [A B]. apply run_op_stack in E. destruct E as [so' E].
    cbn in E. injection E as _ E. split; cbn [op_stack noun_stack]; [rewrite E; exact A|exact B].
Qed.

Lemma set_origin_org code n o : well_org code n -> o_code o = code -> well_org code (set_origin n (Some o)).
Proof. intros H Ho. destruct H as [ty tok args o0 Ho0 HF]. cbn. constructor; [exact Ho|exact HF]. Qed.

Lemma read_token_org code ops atoms st tok st' : read_token ops atoms st tok = Ok st' ->
  o_code (tk_origin tok) = code -> good_ctx code (snd st) -> good_ctx code (snd st').
Proof.
  destruct st as [w c]. unfold read_token. intros H Ht G. destruct w.
  - unfold read_noun_context in H. destruct (ttype_eqb (tk_type tok) TLParen).
    { injection H as <-. destruct G as [A B]. split; cbn; [constructor|]; assumption. }
    destruct (lookup_op ops 1 (tk_type tok)).
    { injection H as <-. destruct G as [A B]. split; cbn; [constructor|]; assumption. }
    destruct (in_types atoms (tk_type tok)); [|discriminate].
    injection H as <-. destruct G as [A B]. split; cbn; [assumption|]. constructor; [|exact B].
    constructor; [exact Ht|constructor].
  - unfold read_op_context in H. destruct (ttype_eqb (tk_type tok) TRParen).
    + apply bind_ok in H. destruct H as [c1 [E H]].
      assert (G1 : good_ctx code c1).
      { eapply reduce_org; [exact E|]. destruct c; exact G. }
      destruct c1 as [[|so rest] nouns]; cbn [op_stack noun_stack] in H; [discriminate|].
      destruct (ttype_eqb (op_type (so_op so)) TLParen); cbn [assert] in H; [|discriminate].
      destruct nouns as [|n nouns]; [discriminate|].
      apply bind_ok in H. destruct H as [org [Ec H]]. injection H as <-.
      apply combine_some_head in Ec. destruct Ec as [o [-> Ho]].
      destruct G1 as [A B]. cbn in A, B. inversion A as [|? ? Hso A']; inversion B as [|? ? Hn B']; subst.
      split; cbn; [exact A'|]. constructor; [|exact B']. apply set_origin_org; [exact Hn|]. congruence.
    + destruct (lookup_op ops 2 (tk_type tok)); [|discriminate].
      apply bind_ok in H. destruct H as [c1 [E H]]. injection H as <-.
      assert (G1 : good_ctx code c1).
      { eapply reduce_org; [exact E|]. destruct c; exact G. }
      destruct G1 as [A B]. split; cbn; [constructor|]; assumption.
Qed.

Lemma fold_org code ops atoms toks : forall st st', foldM (read_token ops atoms) toks st = Ok st' ->
  one_source code toks -> good_ctx code (snd st) -> good_ctx code (snd st').
Proof.
  induction toks as [|t toks IH]; intros st st' H Hs G; cbn in H.
  - injection H as <-. exact G.
  - apply bind_ok in H. destruct H as [s1 [E H]]. inversion Hs as [|? ? Ht Hs']; subst.
    eapply IH; [exact H|exact Hs'|]. eapply read_token_org; [exact E|reflexivity|exact G].
Qed.

Lemma finish_org code ops : forall nouns ns, finish_loop ops nouns = Ok ns ->
  good_ctx code (mkCtx ops nouns) -> Forall (well_org code) ns.
Proof.
  induction ops as [|so ops IH]; intros nouns ns H G; cbn [finish_loop] in H.
  - injection H as <-. apply G.
  - destruct (ttype_eqb (op_type (so_op so)) TLParen); [discriminate|].
    apply bind_ok in H. destruct H as [c [E H]]. apply (IH _ _ H).
    pose proof (run_op_org code _ _ E G) as [A B]. apply run_op_stack in E. destruct E as [so' E].
    cbn in E. injection E as _ E. split; cbn [op_stack noun_stack]; [rewrite E; exact A|exact B].
Qed.

Lemma infix_org code toks tail ops atoms n : infix_parse_stream toks tail ops atoms = Ok n ->
  one_source code toks -> well_org code n.
Proof.
  unfold infix_parse_stream. intros H Hs. apply bind_ok in H. destruct H as [? [_ H]].
  apply bind_ok in H. destruct H as [[w c] [E H]]. cbn in H.
  destruct tail; [discriminate|]. destruct w; [destruct (op_stack c); discriminate|].
  apply bind_ok in H. destruct H as [ns [Ef H]]. destruct ns as [|x0 [|]]; try discriminate.
  injection H as <-. pose proof (fold_org code _ _ _ _ _ E Hs) as G. cbn in G.
  assert (G1 : good_ctx code c) by (apply G; split; constructor).
  pose proof (finish_org code _ _ _ Ef) as F. destruct c as [os ns]; cbn in *. specialize (F G1).
  now inversion F.
Qed.

(** * Parse trees of the default table are formula trees *)
Lemma declares_in ops a ty p : declares ops a ty p -> In (mkOp ty a p) ops.
Proof. intros [x [y [-> _]]]. apply in_or_app. right. now left. Qed.

Lemma tree_is_formula code c : valid default_ops atomic_token_types c ->
  Forall (fun t => In (tk_type t) atomic_token_types -> exists text, tk_extra t = Some text) (yield c) ->
  forall n, represents n (tree_of c) -> well_org code n -> formula_tree code n.
Proof.
  induction 1 as [t H1 H2 H3|t c p H1 Hd Hv IH Hl|l t r p H1 Hd Hvl IHl Hvr IHr Hro Hlo|lp c rp H1 H2 Hv IH];
    intros HF n Hr Hw; cbn [tree_of yield] in *.
  - inversion Hr as [ty tok args org ts Hargs E1]; subst. inversion Hargs; subst.
    inversion Hw as [? ? ? o Ho _]; subst. inversion HF as [|? ? Hx _]; subst. destruct (Hx H3) as [text Ht].
    cbn in H3. destruct H3 as [<-|[<-|[<-|[<-|[]]]]]; (apply (ft_leaf _ _ _ text); [cbn; tauto|exact Ht|reflexivity]).
  - inversion Hr as [ty tok args org ts Hargs E1]; subst. inversion Hargs as [|a ? ? ? Ha Hn]; subst. inversion Hn; subst.
    inversion Hw as [? ? ? o Ho Hwa]; subst. inversion Hwa as [|? ? Hwa' _]; subst.
    inversion HF as [|? ? _ HF']; subst.
    apply declares_in in Hd. cbn in Hd.
    repeat (destruct Hd as [Hd|Hd]; [injection Hd as <- ?; try discriminate|]); try contradiction;
      (apply ft_un; [cbn; tauto|auto|reflexivity]).
  - inversion Hr as [ty tok args org ts Hargs E1]; subst. inversion Hargs as [|a ? ? ? Ha Hn]; subst.
    inversion Hn as [|b ? ? ? Hb Hn']; subst. inversion Hn'; subst.
    inversion Hw as [? ? ? o Ho Hwa]; subst. inversion Hwa as [|? ? Hwa1 Hwa']; subst. inversion Hwa' as [|? ? Hwa2 _]; subst.
    apply Forall_app in HF. destruct HF as [HFl HFr]. inversion HFr as [|? ? _ HFr']; subst.
    apply declares_in in Hd. cbn in Hd.
    repeat (destruct Hd as [Hd|Hd]; [injection Hd as <- ?; try discriminate|]); try contradiction;
      (apply ft_bin; [cbn; tauto|auto|auto|reflexivity]).
  - apply IH; auto. inversion HF as [|? ? _ HF']; subst. apply Forall_app in HF'. tauto.
Qed.

Definition def_ops : list string := flat_map op_string default_ops.

Lemma token_extra is_float g tok : token_for def_ops is_float g tok ->
  In (tk_type tok) atomic_token_types -> exists text, tk_extra tok = Some text.
Proof.
  intros H. destruct H as [t Hin|t Hp|t Hp|ts o text ty Hk Hh Hp]; cbn [tk_type tk_extra]; intros Ha; eauto.
  - exfalso. cbn in Hin, Ha. repeat (destruct Hin as [Hin|Hin]; [rewrite <- Hin in Ha|]); intuition discriminate.
  - cbn in Ha. intuition discriminate.
  - cbn in Ha. intuition discriminate.
Qed.

Lemma parse_formula_top is_float code it n : from_tokenizer code it -> it <> [] ->
  parse_formula is_float it None [] = Ok n ->
  formula_top code n /\
  exists gs toks c, segmentation def_ops gs /\ flatten gs = it /\ Forall2 (token_for def_ops is_float) gs toks /\
    valid default_ops atomic_token_types c /\ yield c = toks /\
    (represents n (tree_of c) \/ exists m, represents m (tree_of c) /\ n = Node (TName "~") None [m] (n_origin m)).
Proof.
  intros Hft Hne H. unfold parse_formula in H. cbn [check_extra bind] in H. rewrite app_nil_r in H.
  fold def_ops in H.
  destruct (tokenize_formula is_float it None def_ops) as [toks e] eqn:E.
  apply bind_ok in H. destruct H as [m [Ep H]]. injection H as Hm.
  destruct e as [e|].
  { rewrite infix_stream_cases in Ep.
    destruct (check_operators _) as [?|]; [|discriminate]. destruct (foldM _ _ _); discriminate. }
  apply (tokenize_ok_lemma is_float def_ops code it Hft) in E;
    [|cbn; intuition discriminate|cbn; intuition discriminate].
  destruct E as [gs [Hs [Hfl Hz]]].
  assert (Hsrc : one_source code toks).
  { eapply token_for_source; eauto. now rewrite Hfl. }
  pose proof (good_extra_table [] (Forall_nil _)) as Hg. rewrite app_nil_r in Hg.
  destruct (parse_correct_lemma default_ops atomic_token_types code toks Hg Hsrc) as [Hsound _].
  destruct (Hsound m Ep) as [c [Hv [Hy Hr]]].
  pose proof (infix_org code _ _ _ _ _ Ep Hsrc) as Hw.
  assert (Hf : formula_tree code m).
  { eapply tree_is_formula; [exact Hv| |exact Hr|exact Hw]. rewrite Hy.
    clear - Hz. induction Hz as [|g t gs toks Hg Hz IH]; constructor; auto. intros. eapply token_extra; eauto. }
  unfold wrap_tilde, is_type in Hm.
  destruct (ttype_eqb_spec (n_type m) (TName "~")) as [Et|Et]; subst n; split.
  - left. auto.
  - exists gs, toks, c. do 5 (split; [assumption|]). now left.
  - right. inversion Hw as [ty tok args o Ho _]; subst. exists (Node ty tok args (Some o)), o. auto.
  - exists gs, toks, c. do 5 (split; [assumption|]). right. eauto.
Qed.

(** C15, end to end. *)
Lemma from_formula_total norm is_float code it : from_tokenizer code it -> it <> [] ->
  (exists m, from_formula norm is_float it None = Ok m) \/
  (exists msg o, from_formula norm is_float it None = Err (PatsyError msg (Some o)) /\ o_code o = code).
Proof.
  intros Hft Hne. unfold from_formula.
  destruct (parse_formula is_float it None []) as [n|e] eqn:E; cbn [bind].
  - destruct (parse_formula_top _ _ _ _ Hft Hne E) as [Ht _].
    destruct (from_tree_total norm code n Ht) as [_ He].
    destruct (from_tree norm n) as [m|e] eqn:Em; [left; eauto|right].
    destruct (He e eq_refl) as [msg [o [-> Ho]]]. eauto.
  - right. destruct (parse_formula_lemma is_float code it [] Hft Hne (Forall_nil _)) as [_ HE].
    destruct (HE e E) as [msg [o [-> Ho]]]. eauto.
Qed.
