(** The model of a formula does not depend on where its tokens stand. *)
From Verif Require Import Base OriginModel OriginSpec TokensModel InfixModel InfixSpec InfixProofs DescModel DescProofs
  ParseFormulaModel ParseFormulaSpec ParseFormulaProofs FormulaModel FormulaSpec FormulaProofs DescribeProofs TextProofs.

Definition rsim {A B} (R : A -> B -> Prop) (r : result A) (r' : result B) : Prop :=
  match r, r' with Ok a, Ok b => R a b | Err _, Err _ => True | _, _ => False end.
Lemma bind_sim {A B C D} (R : A -> B -> Prop) (S : C -> D -> Prop) r r' (k : A -> result C) (k' : B -> result D) :
  rsim R r r' -> (forall a b, R a b -> rsim S (k a) (k' b)) -> rsim S (bind r k) (bind r' k').
Proof. destruct r, r'; cbn; try contradiction; auto. Qed.

Definition esim (e e' : inter_expr) : Prop :=
  ie_intercept e = ie_intercept e' /\ is_some (ie_origin e) = is_some (ie_origin e') /\
  ie_removed e = ie_removed e' /\ ie_terms e = ie_terms e'.
Definition vsim (v v' : value) : Prop :=
  match v, v' with VExpr e, VExpr e' => esim e e' | VModel m, VModel m' => m = m' | _, _ => False end.
Definition tsim (t t' : token) : Prop := tk_type t = tk_type t' /\ tk_extra t = tk_extra t'.
Inductive nsim : node -> node -> Prop :=
| nsim_node ty tok tok' args args' org org' :
    match tok, tok' with Some t, Some t' => tsim t t' | None, None => True | _, _ => False end ->
    is_some org = is_some org' -> Forall2 nsim args args' ->
    nsim (Node ty tok args org) (Node ty tok' args' org').

Lemma mk_ie_sim i r ts o o' : is_some o = is_some o' -> rsim esim (mk_ie i o r ts) (mk_ie i o' r ts).
Proof.
  intros H. unfold mk_ie, assert. rewrite H. destruct (implb i (is_some o')); cbn; auto. destruct (negb (i && r)); cbn; auto.
  repeat split; auto.
Qed.
Lemma ret_sim r r' : rsim esim r r' -> rsim vsim (ret_ie r) (ret_ie r').
Proof. destruct r, r'; cbn; auto. Qed.
Lemma origin_obj_sim o o' : is_some o = is_some o' -> is_some (origin_obj o) = is_some (origin_obj o').
Proof. destruct o, o'; cbn; auto. Qed.
Lemma require_sim n n' r r' : rsim vsim r r' -> rsim esim (require_expr n r) (require_expr n' r').
Proof. destruct r as [[e|m]|], r' as [[e'|m']|]; cbn; auto. Qed.
Lemma check_sim e e' : esim e e' -> rsim eq (check_interactable e) (check_interactable e').
Proof. intros [H _]. unfold check_interactable. rewrite H. destruct (ie_intercept e'); cbn; auto. Qed.
Lemma interaction_sim a a' b b' : esim a a' -> esim b b' -> rsim esim (interaction a b) (interaction a' b').
Proof.
  intros Ha Hb. unfold interaction. eapply bind_sim; [apply check_sim, Ha|]. intros _ _ _. eapply bind_sim; [apply check_sim, Hb|]. intros _ _ _.
  destruct Ha as [_ [_ [_ ->]]], Hb as [_ [_ [_ ->]]]. now apply mk_ie_sim.
Qed.
Lemma power_sim n : forall l l' b b' all, esim l l' -> esim b b' -> rsim eq (power_loop l n b all) (power_loop l' n b' all).
Proof.
  induction n as [|n IH]; intros l l' b b' all Hl Hb; cbn; [reflexivity|].
  eapply bind_sim; [apply interaction_sim; eassumption|]. intros x y Hxy. destruct Hxy as [H1 [H2 [H3 H4]]] eqn:E. rewrite H4. now apply IH.
Qed.
Lemma type_sim n n' s : nsim n n' -> is_type s n = is_type s n'.
Proof. intros H. inversion H; subst. reflexivity. Qed.
Lemma origin_sim n n' : nsim n n' -> is_some (n_origin n) = is_some (n_origin n').
Proof. intros H. inversion H; subst. assumption. Qed.
Lemma exponent_sim n n' : nsim n n' -> rsim eq (exponent n) (exponent n').
Proof.
  intros H. unfold exponent. rewrite (type_sim n n' "ONE" H), (type_sim n n' "NUMBER" H).
  destruct (is_type "ONE" n' || is_type "NUMBER" n'); [|reflexivity]. inversion H as [ty tok tok' args args' org org' Ht]; subst. cbn [n_token].
  destruct tok as [t|], tok' as [t'|]; cbn; try contradiction; auto. destruct Ht as [_ ->]. destruct (tk_extra t'); cbn; reflexivity || exact I.
Qed.

Section Same.
Variable norm : string -> string.
Lemma eval_sim n : forall n', nsim n n' -> rsim vsim (eval_any norm n) (eval_any norm n').
Proof.
  induction n as [ty tok args org IH] using node_ind2. intros n' H. inversion H as [? ? tok' ? args' ? org' Ht Ho Ha]; subst.
  destruct ty as [| |ty]; try exact I.
  destruct args as [|a [|b [|c args]]]; inversion Ha as [|? a' ? args1 Haa Ha1]; subst.
  - cbn [eval_any].
    destruct (String.eqb ty "ZERO"); [apply ret_sim; now apply mk_ie_sim|].
    destruct (String.eqb ty "ONE"); [apply ret_sim; apply mk_ie_sim; now apply origin_obj_sim|].
    destruct (String.eqb ty "NUMBER"); [exact I|].
    destruct (String.eqb ty "PYTHON_EXPR"); [|exact I].
    destruct tok as [t|], tok' as [t'|]; try contradiction; try exact I. destruct Ht as [_ ->].
    destruct (tk_extra t'); [|exact I]. apply ret_sim. now apply mk_ie_sim.
  - inversion Ha1; subst. inversion IH as [|? ? IHa _]; subst. specialize (IHa _ Haa).
    pose proof (require_sim a a' _ _ IHa) as Ra. cbn [eval_any].
    destruct (String.eqb ty "~").
    { eapply bind_sim; [exact Ra|]. intros x y [_ [_ [Hr Hts]]]. cbn. now rewrite Hr, Hts. }
    destruct (String.eqb ty "+"). { eapply bind_sim; [exact Ra|]. auto. }
    destruct (String.eqb ty "-"); [|exact I].
    rewrite (type_sim a a' "ZERO" Haa), (type_sim a a' "ONE" Haa).
    destruct (is_type "ZERO" a'); [apply ret_sim, mk_ie_sim; now apply origin_obj_sim|].
    destruct (is_type "ONE" a'); [apply ret_sim; now apply mk_ie_sim|exact I].
  - inversion Ha1 as [|? b' ? args2 Hbb Ha2]; subst. inversion Ha2; subst.
    inversion IH as [|? ? IHa IH']; subst. inversion IH' as [|? ? IHb _]; subst. specialize (IHa _ Haa). specialize (IHb _ Hbb).
    pose proof (require_sim a a' _ _ IHa) as Ra. pose proof (require_sim b b' _ _ IHb) as Rb. cbn [eval_any].
    rewrite (type_sim b b' "ZERO" Hbb), (type_sim b b' "ONE" Hbb).
    destruct (String.eqb ty "~").
    { eapply bind_sim; [exact Ra|]. intros x y [Hi [_ [_ Hts]]]. eapply bind_sim; [exact Rb|]. intros u v [_ [_ [Hr' Hts']]]. cbn. now rewrite Hi, Hts, Hr', Hts'. }
    destruct (String.eqb ty "+").
    { eapply bind_sim; [exact Ra|]. intros x y Hxy. pose proof Hxy as [Hi [Hoo [Hrr Hts]]].
      destruct (is_type "ZERO" b'). { rewrite Hts. apply ret_sim. now apply mk_ie_sim. }
      eapply bind_sim; [exact Rb|]. intros u v [Hi' [Ho' [Hr' Hts']]]. rewrite Hi', Hi, Hrr, Hts, Hts'.
      destruct (ie_intercept v); apply ret_sim; now apply mk_ie_sim. }
    destruct (String.eqb ty "-").
    { eapply bind_sim; [exact Ra|]. intros x y Hxy. pose proof Hxy as [Hi [Hoo [Hrr Hts]]]. rewrite Hi, Hrr, Hts.
      destruct (is_type "ZERO" b'); [apply ret_sim; now apply mk_ie_sim|].
      destruct (is_type "ONE" b'); [apply ret_sim; now apply mk_ie_sim|].
      eapply bind_sim; [exact Rb|]. intros u v [Hi' [Ho' [Hr' Hts']]]. rewrite Hi', Hts'.
      destruct (ie_intercept v); apply ret_sim; now apply mk_ie_sim. }
    destruct (String.eqb ty "*").
    { eapply bind_sim; [exact Ra|]. intros x y Hxy. eapply bind_sim; [exact Rb|]. intros u v Huv.
      eapply bind_sim; [apply interaction_sim; eassumption|]. intros p q [_ [_ [_ Hpq]]].
      destruct Hxy as [_ [_ [_ ->]]], Huv as [_ [_ [_ ->]]]. rewrite Hpq. apply ret_sim. now apply mk_ie_sim. }
    destruct (String.eqb ty "/").
    { eapply bind_sim; [exact Ra|]. intros x y Hxy. eapply bind_sim; [exact Rb|]. intros u v Huv.
      eapply bind_sim; [apply check_sim, Hxy|]. intros _ _ _. pose proof Hxy as [_ [_ [_ Hts]]]. rewrite Hts.
      eapply bind_sim; [now apply mk_ie_sim|]. intros p q Hpq. eapply bind_sim; [apply interaction_sim; eassumption|].
      intros p' q' [_ [_ [_ Hpq']]]. rewrite Hpq'. apply ret_sim. now apply mk_ie_sim. }
    destruct (String.eqb ty ":").
    { eapply bind_sim; [exact Ra|]. intros x y Hxy. eapply bind_sim; [exact Rb|]. intros u v Huv.
      apply ret_sim. now apply interaction_sim. }
    destruct (String.eqb ty "**"); [|exact I].
    eapply bind_sim; [exact Ra|]. intros x y Hxy. eapply bind_sim; [apply check_sim, Hxy|]. intros _ _ _.
    eapply bind_sim; [apply exponent_sim, Hbb|]. intros p q ->. destruct (Z.ltb q 1); [exact I|].
    pose proof Hxy as [_ [_ [_ Hts]]]. rewrite Hts. eapply bind_sim; [apply power_sim; eassumption|]. intros u v ->. apply ret_sim. now apply mk_ie_sim.
  - inversion Ha1 as [|? b' ? args2 Hbb Ha2]; subst. inversion Ha2; subst. exact I.
Qed.
Lemma from_tree_sim n n' m : nsim n n' -> from_tree norm n = Ok m -> from_tree norm n' = Ok m.
Proof.
  intros H E. pose proof (eval_sim n n' H) as S. unfold from_tree in *. destruct (eval_any norm n) as [[e|m0]|], (eval_any norm n') as [[e'|m0']|]; cbn in *; try discriminate; try contradiction.
  now subst.
Qed.

(** * Trees *)
Inductive csim : cst -> cst -> Prop :=
| cs_atom t t' : tsim t t' -> csim (CAtom t) (CAtom t')
| cs_un t t' c c' : tsim t t' -> csim c c' -> csim (CUn t c) (CUn t' c')
| cs_bin t t' l l' r r' : tsim t t' -> csim l l' -> csim r r' -> csim (CBin l t r) (CBin l' t' r')
| cs_paren p p' c c' q q' : tsim p p' -> csim c c' -> tsim q q' -> csim (CParen p c q) (CParen p' c' q').
Lemma retoken c : forall toks', Forall2 tsim (yield c) toks' -> exists c', csim c c' /\ yield c' = toks'.
Proof.
  induction c as [t|t c IH|l IHl t r IHr|lp c IH rp]; intros toks' H; cbn [yield] in H.
  - inversion H as [|? t' ? ? Ht Hn]; subst. inversion Hn; subst. exists (CAtom t'). split; [now constructor|reflexivity].
  - inversion H as [|? t' ? r' Ht Hn]; subst. destruct (IH _ Hn) as [c' [S <-]]. exists (CUn t' c'). split; [now constructor|reflexivity].
  - apply Forall2_app_inv_l in H. destruct H as [l1 [l2 [H1 [H2 ->]]]]. inversion H2 as [|? t' ? r' Ht Hn]; subst.
    destruct (IHl _ H1) as [l' [S1 <-]], (IHr _ Hn) as [r'' [S2 <-]]. exists (CBin l' t' r''). split; [now constructor|reflexivity].
  - inversion H as [|? p' ? r' Hp Hn]; subst. apply Forall2_app_inv_l in Hn. destruct Hn as [l1 [l2 [H1 [H2 ->]]]].
    inversion H2 as [|? q' ? ? Hq Hz]; subst. inversion Hz; subst. destruct (IH _ H1) as [c' [S <-]].
    exists (CParen p' c' q'). split; [now constructor|reflexivity].
Qed.
Lemma left_open_sim ops P c : forall c', csim c c' -> left_open ops P c -> left_open ops P c'.
Proof.
  induction c as [t|t c IH|l IHl t r IHr|lp c IH rp]; intros c' H L; inversion H; subst; try constructor.
  inversion L as [| | |? ? ? p Hd Hp Hl]; subst. match goal with T : tsim _ _ |- _ => destruct T as [T _]; rewrite T in Hd end. econstructor; eauto.
Qed.
Lemma right_open_sim ops P c : forall c', csim c c' -> right_open ops P c -> right_open ops P c'.
Proof.
  induction c as [t|t c IH|l IHl t r IHr|lp c IH rp]; intros c' H L; inversion H; subst; try constructor.
  - inversion L as [| |? ? p Hd Hp Hl|]; subst. match goal with T : tsim _ _ |- _ => destruct T as [T _]; rewrite T in Hd end. econstructor; eauto.
  - inversion L as [| | |? ? ? p Hd Hp Hl]; subst. match goal with T : tsim _ _ |- _ => destruct T as [T _]; rewrite T in Hd end. econstructor; eauto.
Qed.
Lemma valid_sim ops atoms c : forall c', csim c c' -> valid ops atoms c -> valid ops atoms c'.
Proof.
  induction c as [t|t c IH|l IHl t r IHr|lp c IH rp]; intros c' H V; inversion H; subst; inversion V; subst;
    repeat match goal with T : tsim ?x ?y |- _ => let E := fresh "E" in destruct T as [E _]; rewrite ?E in * end; econstructor; eauto using left_open_sim, right_open_sim.
Qed.
Lemma tree_sim code code' c : forall c' n n', csim c c' -> represents n (tree_of c) -> represents n' (tree_of c') ->
  well_org code n -> well_org code' n' -> nsim n n'.
Proof.
  induction c as [t|t c IH|l IHl t r IHr|lp c IH rp]; intros c' n n' H R R' W W'; inversion H; subst; cbn [tree_of] in *.
  - apply represents_leaf in R, R'. destruct R as [o ->], R' as [o' ->]. inversion W; inversion W'; subst.
    match goal with T : tsim _ _ |- _ => pose proof (proj1 T) as E; rewrite E; now constructor end.
  - apply represents_un in R, R'. destruct R as [a [o [-> Ha]]], R' as [a' [o' [-> Ha']]]. inversion W as [? ? ? ? ? Wa]; inversion W' as [? ? ? ? ? Wa']; subst.
    inversion Wa; inversion Wa'; subst. match goal with T : tsim _ _ |- _ => pose proof (proj1 T) as E; rewrite E; constructor; auto end. repeat constructor. eapply IH; eauto.
  - apply represents_bin in R, R'. destruct R as [a [b [o [-> [Ha Hb]]]]], R' as [a' [b' [o' [-> [Ha' Hb']]]]]. inversion W as [? ? ? ? ? Wa]; inversion W' as [? ? ? ? ? Wa']; subst.
    inversion Wa as [|? ? ? Wb]; inversion Wa' as [|? ? ? Wb']; subst. inversion Wb; inversion Wb'; subst.
    match goal with T : tsim _ _ |- _ => pose proof (proj1 T) as E; rewrite E; constructor; auto end. repeat constructor; [eapply IHl|eapply IHr]; eauto.
  - eapply IH; eauto.
Qed.

(** * Groups *)
Definition gsim (g g' : group) : Prop :=
  match g, g' with GMagic t, GMagic t' => erase t = erase t' | GExpr ts, GExpr ts' => map erase ts = map erase ts' | _, _ => False end.
Lemma map_split {A B} (f : A -> B) l1 : forall l2 l', map f (l1 ++ l2) = map f l' -> exists l1' l2', l' = l1' ++ l2' /\ map f l1 = map f l1' /\ map f l2 = map f l2'.
Proof.
  induction l1 as [|x l1 IH]; intros l2 l' H; cbn in H; [exists [], l'; auto|].
  destruct l' as [|y l']; [discriminate|]. cbn in H. injection H as H1 H2. destruct (IH _ _ H2) as [a [b [-> [A1 A2]]]]. exists (y :: a), b. cbn. split; [reflexivity|]. split; [congruence|exact A2].
Qed.
Lemma regroup gs : forall it', map erase (flatten gs) = map erase it' -> exists gs', flatten gs' = it' /\ Forall2 gsim gs gs'.
Proof.
  induction gs as [|g gs IH]; intros it' H; cbn in H.
  - destruct it'; [|discriminate]. exists []. split; [reflexivity|constructor].
  - apply map_split in H. destruct H as [l1 [l2 [-> [H1 H2]]]]. destruct (IH l2 H2) as [gs' [<- F]].
    destruct g as [t|ts].
    + destruct l1 as [|t' [|? ?]]; try discriminate. cbn in H1. injection H1 as H0 H1. exists (GMagic t' :: gs'). split; [reflexivity|]. constructor; [|exact F].
      cbn. unfold erase. congruence.
    + exists (GExpr l1 :: gs'). split; [reflexivity|]. constructor; [exact H1|exact F].
Qed.
Lemma erase_strings ts ts' : map erase ts = map erase ts' -> strings ts = strings ts'.
Proof.
  intros H. unfold strings. replace (map pt_string ts) with (map snd (map erase ts)) by (rewrite map_map; reflexivity).
  rewrite H, map_map. reflexivity.
Qed.
Lemma legal_sim ops g g' : gsim g g' -> legal ops g -> legal ops g'.
Proof.
  destruct g as [t|ts], g' as [t'|ts']; cbn; try contradiction.
  - intros H. injection H as _ ->. auto.
  - intros H [A [B [x [r [-> C]]]]]. pose proof (erase_strings _ _ H) as E. split; [now rewrite <- E|]. split; [now rewrite <- E|].
    destruct ts' as [|x' r']; [discriminate|]. exists x', r'. split; [reflexivity|]. cbn in H. injection H as _ H _. now rewrite <- H.
Qed.
Lemma seg_sim ops gs gs' : Forall2 gsim gs gs' -> segmentation ops gs -> segmentation ops gs'.
Proof.
  intros F [H1 H2]. split.
  - clear H2. induction F as [|g g' gs gs' Hg F IH]; constructor; inversion H1; subst; eauto using legal_sim.
  - intros p' ts' g' q' ->. apply Forall2_app_inv_r in F. destruct F as [p [gs2 [_ [F ->]]]].
    inversion F as [|g1 ? gs3 ? G1 F1]; subst. inversion F1 as [|g2 ? gs4 ? G2 F2]; subst.
    destruct g1 as [|ts]; [contradiction|]. destruct (H2 p ts g2 gs4 eq_refl) as [t [-> Ht]].
    destruct g' as [t'|]; [|contradiction]. exists t'. split; [reflexivity|]. cbn in G2. injection G2 as _ <-. exact Ht.
Qed.
Lemma tokens_sim ops isf code gs gs' toks : from_tokenizer code (flatten gs') -> Forall2 gsim gs gs' -> segmentation ops gs' ->
  Forall2 (token_for ops isf) gs toks -> exists toks', Forall2 (token_for ops isf) gs' toks' /\ Forall2 tsim toks toks'.
Proof.
  intros Hft F [Hleg _] H. revert gs' F Hft Hleg. induction H as [|g t gs toks Hg H IH]; intros gs' F Hft Hleg; inversion F as [|? g' ? gs2 G F2]; subst.
  - exists []. split; constructor.
  - unfold from_tokenizer, flatten in Hft. cbn [flat_map] in Hft. apply Forall_app in Hft. destruct Hft as [Hf1 Hf2]. inversion Hleg as [|? ? L1 L2]; subst.
    destruct (IH _ F2 Hf2 L2) as [toks' [A B]].
    assert (K : exists t', token_for ops isf g' t' /\ tsim t t').
    { inversion Hg as [p Hp|p Hp|p Hp|ts o text ty Hk Hh Hpt]; subst; destruct g' as [p'|ts']; cbn in G; try contradiction.
      - injection G as _ G. eexists. split; [apply tf_op; now rewrite <- G|]. split; cbn; congruence.
      - injection G as _ G. eexists. split; [apply tf_lparen; now rewrite <- G|]. split; reflexivity.
      - injection G as _ G. eexists. split; [apply tf_rparen; now rewrite <- G|]. split; reflexivity.
      - destruct L1 as [_ [_ [x [r [-> _]]]]]. destruct (combine_ok code x r Hf1) as [o' [_ Ho']].
        eexists. split; [eapply tf_expr; [exact Hk|exact Ho'|]|split; reflexivity].
        change (fun t => (pt_type t, pt_string t)) with erase in *. now rewrite <- G. }
    destruct K as [t' [K1 K2]]. exists (t' :: toks'). split; constructor; auto.
Qed.

Variable is_float : string -> bool.
Lemma from_formula_same code code' it it' m : from_tokenizer code it -> from_tokenizer code' it' -> map erase it = map erase it' -> it <> [] ->
  from_formula norm is_float it None = Ok m -> from_formula norm is_float it' None = Ok m.
Proof.
  intros Hft Hft' He Hne H. unfold from_formula in H. apply bind_ok in H. destruct H as [n [Ep Hm]].
  pose proof (good_extra_table [] (Forall_nil _)) as Hg. rewrite app_nil_r in Hg.
  unfold parse_formula in Ep. cbn [check_extra bind] in Ep. rewrite app_nil_r in Ep.
  destruct (tokenize_formula is_float it None (flat_map op_string default_ops)) as [toks e] eqn:Et.
  apply bind_ok in Ep. destruct Ep as [n0 [Ei En]]. injection En as <-.
  assert (e = None).
  { destruct e; [|reflexivity]. exfalso. unfold infix_parse_stream in Ei. apply bind_ok in Ei. destruct Ei as [? [_ Ei]]. apply bind_ok in Ei. destruct Ei as [[w c] [_ Ei]]. cbn in Ei. discriminate. }
  subst e.
  assert (N1 : ~ In "("%string (flat_map op_string default_ops)) by (cbn; intuition discriminate).
  assert (N2 : ~ In ")"%string (flat_map op_string default_ops)) by (cbn; intuition discriminate).
  destruct (proj1 (tokenize_ok_lemma is_float _ code it Hft N1 N2 toks) Et) as [gs [Hs [Hfl Hz]]].
  assert (Hsrc : one_source code toks) by (eapply token_for_source; eauto; rewrite Hfl; exact Hft).
  destruct (proj1 (parse_correct_lemma default_ops atomic_token_types code toks Hg Hsrc) n0 Ei) as [c [Hv [Hy Hr]]].
  pose proof (infix_org code _ _ _ _ _ Ei Hsrc) as Hw.
  rewrite <- Hfl in He. destruct (regroup gs it' He) as [gs' [Hfl' Fg]]. pose proof (seg_sim _ _ _ Fg Hs) as Hs'.
  rewrite <- Hfl' in Hft'. destruct (tokens_sim _ is_float code' gs gs' toks Hft' Fg Hs' Hz) as [toks' [Hz' Ft]].
  rewrite <- Hy in Ft. destruct (retoken c toks' Ft) as [c' [Sc Hy']].
  assert (Hsrc' : one_source code' toks') by (eapply token_for_source; eauto).
  destruct (proj2 (parse_correct_lemma default_ops atomic_token_types code' toks' Hg Hsrc') c' (valid_sim _ _ _ _ Sc Hv) Hy') as [n0' [Ei' Hr']].
  unfold infix_parse in Ei'. pose proof (infix_org code' _ _ _ _ _ Ei' Hsrc') as Hw'.
  pose proof (tree_sim code code' c c' n0 n0' Sc Hr Hr' Hw Hw') as Sn.
  assert (Et' : tokenize_formula is_float it' None (flat_map op_string default_ops) = (toks', None)).
  { rewrite Hfl' in Hft'. apply (tokenize_ok_lemma is_float _ code' it' Hft' N1 N2). eauto. }
  unfold from_formula, parse_formula. cbn [check_extra bind]. rewrite app_nil_r, Et', Ei'. cbn [bind].
  eapply from_tree_sim; [|exact Hm]. unfold wrap_tilde. rewrite (type_sim _ _ "~" Sn). destruct (is_type "~" n0'); [exact Sn|].
  constructor; [exact I|now apply origin_sim|repeat constructor; exact Sn].
Qed.
End Same.
