(** Every place an error of a formula points at is made of places of its tokens. *)
From Coq Require Import Ascii.
From Verif Require Import Base OriginModel OriginSpec OriginProofs InfixModel InfixSpec InfixProofs UtilModel
  DescModel DescSpec DescProofs DescTopProofs TokensModel ParseFormulaModel ParseFormulaSpec ParseFormulaProofs
  FormulaModel FormulaProofs.

Section Place.
Variable P : origin -> Prop.
Hypothesis P_hull : forall l o, hull l o -> (exists i, In (Some i) l) -> (forall i, In (Some i) l -> P i) -> P o.

Lemma P_combine l org : combine l = Ok org -> (exists i, In (Some i) l) -> (forall i, In (Some i) l -> P i) ->
  exists o, org = Some o /\ P o.
Proof.
  intros H [i Hi] HP. destruct (combine_cases l) as [[_ N]|[[_ [o [E Hh]]]|[_ E]]].
  - exfalso. eapply N; eauto.
  - rewrite E in H. injection H as <-. exists o. split; [reflexivity|]. eapply P_hull; eauto.
  - congruence.
Qed.

Definition tok_ok (t : option token) : Prop := forall x, t = Some x -> P (tk_origin x).
Inductive placed_tree : node -> Prop :=
| pt_node ty tok args o : P o -> tok_ok tok -> Forall placed_tree args -> placed_tree (Node ty tok args (Some o)).

Definition good_place (c : context) : Prop :=
  Forall (fun so => P (tk_origin (so_token so))) (op_stack c) /\ Forall placed_tree (noun_stack c).

Lemma pop_n_place k : forall l xs r, pop_n k l = Ok (xs, r) -> Forall placed_tree l ->
  Forall placed_tree xs /\ Forall placed_tree r.
Proof.
  induction k as [|k IH]; intros l xs r H HF; cbn in H.
  - injection H as <- <-. auto.
  - destruct l as [|x l]; [discriminate|]. inversion HF as [|? ? Hx HF']; subst.
    apply bind_ok in H. destruct H as [[ys r'] [E H]]. cbn in H. injection H as <- <-.
    destruct (IH _ _ _ E HF') as [A B]. auto.
Qed.
Lemma placed_origin n o : placed_tree n -> n_origin n = Some o -> P o.
Proof. intros H E. destruct H. cbn in E. congruence. Qed.
Lemma placed_token n t : placed_tree n -> n_token n = Some t -> P (tk_origin t).
Proof. intros H E. destruct H as [ty tok args o Ho Ht _]. cbn in E. auto. Qed.

Lemma run_op_place c c' : run_op c = Ok c' -> good_place c -> good_place c'.
Proof.
  unfold run_op. destruct c as [[|so rest] nouns]; cbn [op_stack noun_stack]; [discriminate|].
  intros H [H1 H2]. cbn in H1, H2. inversion H1 as [|? ? Hso Hrest]; subst.
  apply bind_ok in H. destruct H as [[popped ns] [Ep H]]. cbn zeta iota in H.
  apply bind_ok in H. destruct H as [org [Ec H]]. injection H as <-.
  destruct (pop_n_place _ _ _ _ Ep H2) as [A B].
  assert (A' : Forall placed_tree (rev popped)) by (apply Forall_rev; exact A).
  apply P_combine in Ec.
  - destruct Ec as [o [-> Ho]]. split; cbn; [exact Hrest|]. constructor; [|exact B]. constructor; [exact Ho| |exact A'].
    intros x [= <-]. exact Hso.
  - eexists. now left.
  - intros i [[= <-]|Hi]; [exact Hso|]. apply in_map_iff in Hi. destruct Hi as [n [Hn Hi]]. rewrite Forall_forall in A'. eapply placed_origin; [apply A', Hi|exact Hn].
Qed.

Lemma reduce_place cond ops : forall nouns c', reduce_while cond ops nouns = Ok c' ->
  good_place (mkCtx ops nouns) -> good_place c'.
Proof.
  induction ops as [|so ops IH]; intros nouns c' H G; cbn [reduce_while] in H.
  - injection H as <-. exact G.
  - destruct (cond so); [|injection H as <-; exact G].
    apply bind_ok in H. destruct H as [c [E H]]. apply (IH _ _ H).
    pose proof (run_op_place _ _ E G) as [A B]. apply run_op_stack in E. destruct E as [so' E].
    cbn in E. injection E as _ E. split; cbn [op_stack noun_stack]; [rewrite E; exact A|exact B].
Qed.

Lemma read_token_place ops atoms st tok st' : read_token ops atoms st tok = Ok st' ->
  P (tk_origin tok) -> good_place (snd st) -> good_place (snd st').
Proof.
  destruct st as [w c]. unfold read_token. intros H Ht G. destruct w.
  - unfold read_noun_context in H. destruct (ttype_eqb (tk_type tok) TLParen).
    { injection H as <-. destruct G as [A B]. split; cbn; [constructor|]; assumption. }
    destruct (lookup_op ops 1 (tk_type tok)).
    { injection H as <-. destruct G as [A B]. split; cbn; [constructor|]; assumption. }
    destruct (in_types atoms (tk_type tok)); [|discriminate].
    injection H as <-. destruct G as [A B]. split; cbn; [assumption|]. constructor; [|exact B].
    constructor; [exact Ht|intros x [= <-]; exact Ht|constructor].
  - unfold read_op_context in H. destruct (ttype_eqb (tk_type tok) TRParen).
    + apply bind_ok in H. destruct H as [c1 [E H]].
      assert (G1 : good_place c1).
      { eapply reduce_place; [exact E|]. destruct c; exact G. }
      destruct c1 as [[|so rest] nouns]; cbn [op_stack noun_stack] in H; [discriminate|].
      destruct (ttype_eqb (op_type (so_op so)) TLParen); cbn [assert] in H; [|discriminate].
      destruct nouns as [|n nouns]; [discriminate|].
      apply bind_ok in H. destruct H as [org [Ec H]]. injection H as <-.
      destruct G1 as [A B]. cbn in A, B. inversion A as [|? ? Hso A']; inversion B as [|? ? Hn B']; subst.
      apply P_combine in Ec.
      * destruct Ec as [o [-> Ho]]. split; cbn; [exact A'|]. constructor; [|exact B'].
        destruct Hn as [ty tk args o0 Ho0 Htk HF]. cbn. constructor; assumption.
      * eexists. now left.
      * intros i [[= <-]|[Hi|[[= <-]|[]]]]; [exact Hso| |exact Ht].
        destruct (n_token n) as [t|] eqn:En; [|discriminate]. cbn in Hi. injection Hi as <-. eapply placed_token; eauto.
    + destruct (lookup_op ops 2 (tk_type tok)); [|discriminate].
      apply bind_ok in H. destruct H as [c1 [E H]]. injection H as <-.
      assert (G1 : good_place c1).
      { eapply reduce_place; [exact E|]. destruct c; exact G. }
      destruct G1 as [A B]. split; cbn; [constructor|]; assumption.
Qed.

Lemma fold_place ops atoms toks : forall st st', foldM (read_token ops atoms) toks st = Ok st' ->
  Forall (fun t => P (tk_origin t)) toks -> good_place (snd st) -> good_place (snd st').
Proof.
  induction toks as [|t toks IH]; intros st st' H Hs G; cbn in H.
  - injection H as <-. exact G.
  - apply bind_ok in H. destruct H as [s1 [E H]]. inversion Hs as [|? ? Ht Hs']; subst.
    eapply IH; [exact H|exact Hs'|]. eapply read_token_place; [exact E|exact Ht|exact G].
Qed.

Lemma finish_place ops : forall nouns ns, finish_loop ops nouns = Ok ns ->
  good_place (mkCtx ops nouns) -> Forall placed_tree ns.
Proof.
  induction ops as [|so ops IH]; intros nouns ns H G; cbn [finish_loop] in H.
  - injection H as <-. apply G.
  - destruct (ttype_eqb (op_type (so_op so)) TLParen); [discriminate|].
    apply bind_ok in H. destruct H as [c [E H]]. apply (IH _ _ H).
    pose proof (run_op_place _ _ E G) as [A B]. apply run_op_stack in E. destruct E as [so' E].
    cbn in E. injection E as _ E. split; cbn [op_stack noun_stack]; [rewrite E; exact A|exact B].
Qed.

Lemma infix_place toks tail ops atoms n : infix_parse_stream toks tail ops atoms = Ok n ->
  Forall (fun t => P (tk_origin t)) toks -> placed_tree n.
Proof.
  unfold infix_parse_stream. intros H Hs. apply bind_ok in H. destruct H as [? [_ H]].
  apply bind_ok in H. destruct H as [[w c] [E H]]. cbn in H.
  destruct tail; [discriminate|]. destruct w; [destruct (op_stack c); discriminate|].
  apply bind_ok in H. destruct H as [ns [Ef H]]. destruct ns as [|x0 [|]]; try discriminate.
  injection H as <-. pose proof (fold_place _ _ _ _ _ E Hs) as G. cbn in G.
  assert (G1 : good_place c) by (apply G; split; constructor).
  pose proof (finish_place _ _ _ Ef) as F. destruct c as [os ns]; cbn in *. specialize (F G1).
  now inversion F.
Qed.

(** * The evaluator *)
Definition rplace {X} (Q : X -> Prop) (r : result X) : Prop :=
  match r with Ok x => Q x | Err (PatsyError _ (Some o)) => P o | Err _ => True end.
Definition nothing {X} (x : X) : Prop := True.
Lemma rplace_bind {X Y} (Q : X -> Prop) (R : Y -> Prop) r k : rplace Q r -> (forall x, Q x -> rplace R (k x)) -> rplace R (bind r k).
Proof. intros H K. destruct r as [x|e]; cbn; [now apply K|]. cbn in H. exact H. Qed.
Definition ie_place (e : inter_expr) : Prop := forall o, ie_origin e = Some (Some o) -> P o.
Definition val_place (v : value) : Prop := match v with VExpr e => ie_place e | VModel _ => True end.

Lemma mk_ie_place i o r ts : (forall x, o = Some (Some x) -> P x) -> rplace ie_place (mk_ie i o r ts).
Proof. intros H. unfold mk_ie. destruct (implb i (is_some o)); cbn; [|exact I]. destruct (negb (i && r)); cbn; [|exact I]. intros x E. auto. Qed.
Lemma ret_place r : rplace ie_place r -> rplace val_place (ret_ie r).
Proof. intros H. unfold ret_ie. eapply rplace_bind; [exact H|]. intros x Hx. exact Hx. Qed.
Lemma err_place {X} (Q : X -> Prop) msg n : placed_tree n -> rplace Q (Err (PatsyError msg (n_origin n))).
Proof. intros H. destruct H. cbn. assumption. Qed.
Lemma require_place n r : placed_tree n -> rplace val_place r -> rplace ie_place (require_expr n r).
Proof.
  intros Hn H. unfold require_expr. eapply rplace_bind; [exact H|]. intros [e|m] Hx; [exact Hx|]. now apply err_place.
Qed.
Lemma check_place e : ie_place e -> rplace (fun _ : unit => True) (check_interactable e).
Proof.
  intros H. unfold check_interactable. destruct (ie_intercept e); [|exact I]. unfold ie_place in H. destruct (ie_origin e) as [[o|]|]; cbn; auto.
Qed.
Lemma none_place (x : origin) : @None (option origin) = Some (Some x) -> P x.
Proof. discriminate. Qed.
Lemma interaction_place l r : ie_place l -> ie_place r -> rplace ie_place (interaction l r).
Proof.
  intros Hl Hr. unfold interaction. eapply rplace_bind; [apply check_place, Hl|]. intros _ _. eapply rplace_bind; [apply check_place, Hr|]. intros _ _.
  apply mk_ie_place, none_place.
Qed.
Lemma power_place l n : ie_place l -> forall big all, ie_place big -> rplace (fun _ : list term => True) (power_loop l n big all).
Proof.
  intros Hl. induction n as [|n IH]; intros big all Hb; cbn; [exact I|]. eapply rplace_bind; [apply interaction_place; eassumption|]. intros x Hx. now apply IH.
Qed.
Lemma exponent_place b : rplace (fun _ : Z => True) (exponent b).
Proof.
  unfold exponent. destruct (is_type "ONE" b || is_type "NUMBER" b); [|exact I]. destruct (n_token b) as [t|]; [|exact I]. destruct (tk_extra t); exact I.
Qed.

Lemma eval_place norm : forall n, placed_tree n -> rplace val_place (eval_any norm n).
Proof.
  fix IH 2. intros n Hn. destruct Hn as [ty tok args o Ho Ht Hargs]. cbn [eval_any].
  assert (Unk : rplace val_place (Err (PatsyError "I don't know how to evaluate this operator" (option_map tk_origin tok)))).
  { destruct tok as [t|]; cbn; [apply Ht; reflexivity|exact I]. }
  assert (Own : forall msg, rplace val_place (Err (PatsyError msg (Some o)))) by (intros; exact Ho).
  destruct ty as [ | |ty]; try exact Unk. destruct Hargs as [|a l Ha Hl]; [|destruct Hl as [|b l Hb Hl]].
  - destruct (String.eqb ty "ZERO"); [apply ret_place, mk_ie_place, none_place|].
    destruct (String.eqb ty "ONE"); [apply ret_place, mk_ie_place; cbn; intros x [= <-]; exact Ho|].
    destruct (String.eqb ty "NUMBER"); [apply Own|].
    destruct (String.eqb ty "PYTHON_EXPR"); [|exact Unk]. destruct tok as [t|]; [|exact I]. destruct (tk_extra t); [|exact I]. apply ret_place, mk_ie_place, none_place.
  - pose proof (require_place a (eval_any norm a) Ha (IH a Ha)) as Ra.
    destruct (String.eqb ty "~").
    { eapply rplace_bind; [exact Ra|]. intros r _. eapply rplace_bind; [apply mk_ie_place, none_place|]. intros x _. exact I. }
    destruct (String.eqb ty "+"). { eapply rplace_bind; [exact Ra|]. intros r Hr. exact Hr. }
    destruct (String.eqb ty "-"); [|exact Unk].
    destruct (is_type "ZERO" a); [apply ret_place, mk_ie_place; cbn; intros x [= <-]; exact Ho|].
    destruct (is_type "ONE" a); [apply ret_place, mk_ie_place, none_place|]. apply Own.
  - destruct Hl as [|]; [|exact Unk].
    pose proof (require_place a (eval_any norm a) Ha (IH a Ha)) as Ra.
    pose proof (require_place b (eval_any norm b) Hb (IH b Hb)) as Rb.
    destruct (String.eqb ty "~").
    { eapply rplace_bind; [exact Ra|]. intros l _. eapply rplace_bind; [exact Rb|]. intros r _. exact I. }
    destruct (String.eqb ty "+").
    { eapply rplace_bind; [exact Ra|]. intros l Hl. destruct (is_type "ZERO" b); [apply ret_place, mk_ie_place, none_place|].
      eapply rplace_bind; [exact Rb|]. intros r Hr. destruct (ie_intercept r); apply ret_place, mk_ie_place; assumption. }
    destruct (String.eqb ty "-").
    { eapply rplace_bind; [exact Ra|]. intros l Hl. destruct (is_type "ZERO" b).
      { apply ret_place, mk_ie_place. intros x [= E]. eapply placed_origin; eauto. }
      destruct (is_type "ONE" b); [apply ret_place, mk_ie_place, none_place|].
      eapply rplace_bind; [exact Rb|]. intros r Hr. cbn zeta. destruct (ie_intercept r); apply ret_place, mk_ie_place; [apply none_place|exact Hl]. }
    destruct (String.eqb ty "*").
    { eapply rplace_bind; [exact Ra|]. intros l Hl. eapply rplace_bind; [exact Rb|]. intros r Hr.
      eapply rplace_bind; [apply interaction_place; eassumption|]. intros i _. apply ret_place, mk_ie_place, none_place. }
    destruct (String.eqb ty "/").
    { eapply rplace_bind; [exact Ra|]. intros l Hl. eapply rplace_bind; [exact Rb|]. intros r Hr.
      eapply rplace_bind; [apply check_place; exact Hl|]. intros _ _. eapply rplace_bind; [apply mk_ie_place, none_place|]. intros lc Hlc.
      eapply rplace_bind; [apply interaction_place; eassumption|]. intros i _. apply ret_place, mk_ie_place, none_place. }
    destruct (String.eqb ty ":").
    { eapply rplace_bind; [exact Ra|]. intros l Hl. eapply rplace_bind; [exact Rb|]. intros r Hr. apply ret_place, interaction_place; assumption. }
    destruct (String.eqb ty "**"); [|exact Unk].
    eapply rplace_bind; [exact Ra|]. intros l Hl. eapply rplace_bind; [apply check_place; exact Hl|]. intros _ _. eapply rplace_bind; [apply exponent_place|]. intros p _.
    destruct (Z.ltb p 1); [now apply err_place|]. cbn zeta. eapply rplace_bind; [apply power_place; assumption|]. intros all _. apply ret_place, mk_ie_place, none_place.
Qed.

(** * Whole formulas *)
Lemma token_for_place ops is_float gs toks : Forall2 (token_for ops is_float) gs toks -> Forall (legal ops) gs -> Forall (fun t => P (pt_origin t)) (flatten gs) ->
  Forall (fun t => P (tk_origin t)) toks.
Proof.
  induction 1 as [|g t gs toks Hg Hz IH]; intros HL HP; [constructor|]. inversion HL as [|? ? L1 L2]; subst.
  cbn [flatten flat_map] in HP. apply Forall_app in HP. destruct HP as [H1 H2]. constructor; [|now apply IH].
  destruct Hg as [x Hin|x Hp|x Hp|ts o text ty Hk Hh Hp]; cbn [tk_origin]; try (now inversion H1).
  destruct L1 as [_ [_ [x [l [-> _]]]]]. eapply P_hull; [exact Hh| |].
  - exists (pt_origin x). now left.
  - intros i Hi. apply in_map_iff in Hi. destruct Hi as [y [[= <-] Hy]]. rewrite Forall_forall in H1. now apply H1.
Qed.

Lemma formula_place norm is_float code it tail : from_tokenizer code it -> Forall (fun t => P (pt_origin t)) it ->
  (it <> [] \/ tail <> None) -> rplace (@nothing unit) (match tail with None => Ok tt | Some x => Err x end) ->
  rplace (@nothing model_desc) (from_formula norm is_float it tail).
Proof.
  intros Hft HP Hne Htail. unfold from_formula, parse_formula. cbn [check_extra bind]. rewrite app_nil_r.
  assert (N1 : ~ In "("%string (flat_map op_string default_ops)) by (cbn; intuition discriminate).
  assert (N2 : ~ In ")"%string (flat_map op_string default_ops)) by (cbn; intuition discriminate).
  destruct (tokenize_formula is_float it tail (flat_map op_string default_ops)) as [toks e0] eqn:E.
  pose proof (tokenize_formula_spec _ _ _ _ _ _ _ Hft N1 N2 E) as [gs r Ei Hs Hz Hd].
  pose proof (good_extra_table [] (Forall_nil _)) as Hg. rewrite app_nil_r in Hg.
  assert (Hsrc : one_source code toks).
  { eapply token_for_source; eauto. rewrite Ei in Hft. unfold from_tokenizer in *. rewrite Forall_app in Hft. tauto. }
  rewrite Ei, Forall_app in HP. destruct HP as [HP1 HP2].
  assert (Htoks : Forall (fun t => P (tk_origin t)) toks) by (eapply token_for_place; [exact Hz|apply Hs|exact HP1]).
  assert (He0 : rplace (@nothing unit) (match e0 with None => Ok tt | Some x => Err x end)).
  { destruct Hd as [[-> _]|[[z [-> [Hz' _]]]|[z [-> [Hb _]]]]]; [exact I|now rewrite Hz' in Htail|].
    destruct Hb as [p t q y l _ _ _ _ _ _|y l d o _ _ _ Ho]; cbn.
    - apply Forall_app in HP2. destruct HP2 as [_ HP2]. now inversion HP2.
    - eapply P_hull; [exact Ho|exists (pt_origin y); now left|]. intros i Hi. apply in_map_iff in Hi. destruct Hi as [x [[= <-] Hx]]. rewrite Forall_forall in HP2. now apply HP2. }
  destruct (infix_parse_stream toks e0 default_ops atomic_token_types) as [n|y] eqn:Ep; cbn [bind].
  - pose proof (infix_place _ _ _ _ _ Ep Htoks) as Hn. unfold from_tree. eapply (rplace_bind val_place).
    + apply eval_place. unfold wrap_tilde. destruct (is_type "~" n); [exact Hn|]. pose proof Hn as Hn'. inversion Hn as [ty tok args o Ho Ht HF E1]. cbn. constructor; [exact Ho|intros x Hx; discriminate|]. constructor; [rewrite E1; exact Hn'|constructor].
    + intros [e|m] _; exact I.
  - assert (Hne' : toks <> [] \/ e0 <> None).
    { destruct Hd as [[_ [Htl Hr]]|[[z [-> _]]|[z [-> _]]]]; try (right; discriminate). left. destruct Hne as [Hne|]; [|congruence]. intros ->. apply Hne. rewrite Ei, Hr, app_nil_r. inversion Hz. subst. reflexivity. }
    destruct (stream_errors default_ops atomic_token_types code toks e0 y Hg Hsrc Hne' Ep) as [Ez|[msg [t [Hin ->]]]].
    + rewrite Ez in He0. exact He0.
    + cbn. rewrite Forall_forall in Htoks. now apply Htoks.
Qed.
End Place.
