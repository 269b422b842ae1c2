From Verif Require Import IntSpec IntProofs.
From Verif Require Import Base OriginModel OriginSpec OriginProofs UtilModel TokensModel TokensSpec
  TokensProofs InfixModel DescModel ParseFormulaModel ParseFormulaSpec.

Lemma expr_type_kind is_float text ty : expr_kind is_float text ty <-> ty = expr_type is_float text.
Proof.
  unfold expr_kind, expr_type. destruct (String.eqb_spec text "0") as [->|N0]; [split; [intros [H _]; auto|intros ->; repeat split; try discriminate; congruence]|].
  destruct (String.eqb_spec text "1") as [->|N1]; [split; [intros [_ [H _]]; auto|intros ->; repeat split; try discriminate; congruence]|].
  destruct (py_int text) as [k|] eqn:E; cbn [is_some orb].
  - apply py_int_spec in E. split; [intros [_ [_ H]]; apply H; eauto|]. intros ->. repeat split; try congruence. intros Hn. destruct Hn. eauto.
  - assert (N : ~ exists k, int_text text k) by (intros [k H]; apply py_int_spec in H; congruence).
    destruct (is_float text) eqn:F; (split; [intros [_ [_ H]]; apply H; auto|]); intros ->; repeat split; try congruence; intros [Hn|Hn]; try congruence; now destruct (N Hn).
Qed.

Lemma str_in_spec s l : str_in s l = true <-> In s l.
Proof.
  unfold str_in. rewrite existsb_exists. split.
  - intros [x [H E]]. apply String.eqb_eq in E. now subst.
  - intros H. exists s. split; [exact H|apply String.eqb_refl].
Qed.
Lemma str_in_false s l : str_in s l = false <-> ~ In s l.
Proof. rewrite <- str_in_spec. destruct (str_in s l); intuition congruence. Qed.

Lemma opens_spec s : opens s = true <-> open_bracket s.
Proof. unfold opens, open_bracket. rewrite str_in_spec. cbn. intuition congruence. Qed.
Lemma closes_spec s : closes s = true <-> close_bracket s.
Proof. unfold closes, close_bracket. rewrite str_in_spec. cbn. intuition congruence. Qed.

Lemma open_not_close s : open_bracket s -> ~ close_bracket s.
Proof. unfold open_bracket, close_bracket. intuition congruence. Qed.

Lemma nest_det d l d1 : nest d l d1 -> forall d2, nest d l d2 -> d1 = d2.
Proof.
  induction 1 as [d|d s l d' Ho H IH|d s l d' Hc H IH|d s l d' Ho Hc H IH]; intros d2 H2;
    inversion H2; subst; auto; try (exfalso; eapply open_not_close; eassumption); try contradiction.
Qed.

Lemma nest_app d l1 d1 l2 d2 : nest d l1 d1 -> nest d1 l2 d2 -> nest d (l1 ++ l2) d2.
Proof.
  induction 1 as [d|d s l d' Ho H IH|d s l d' Hc H IH|d s l d' Ho Hc H IH]; intros H2; cbn; auto;
    [constructor 2|constructor 3|constructor 4]; auto.
Qed.
Lemma nest_app_inv l1 : forall d l2 d2, nest d (l1 ++ l2) d2 -> exists d1, nest d l1 d1 /\ nest d1 l2 d2.
Proof.
  induction l1 as [|s l1 IH]; cbn; intros d l2 d2 H.
  - exists d. split; [constructor|exact H].
  - inversion H as [|? ? ? ? Ho Hn|? ? ? ? Hc Hn|? ? ? ? Ho Hc Hn]; subst;
      apply IH in Hn; destruct Hn as [d1 [H1 H2]];
      exists d1; (split; [|assumption]); [constructor 2|constructor 3|constructor 4]; auto.
Qed.

Section P.
Variable ops : list string.

Lemma end_tokens_spec s : In s (end_tokens ops) <-> stop ops s.
Proof. unfold end_tokens, stop. rewrite in_app_iff. cbn. intuition congruence. Qed.

(* [l], read starting at depth [d], has no stop at depth 0 *)
Definition quiet_at (d : nat) (l : list string) : Prop :=
  forall p s q, l = p ++ s :: q -> nest d p 0 -> ~ stop ops s.

Lemma quiet_at_nil d : quiet_at d [].
Proof. intros p s q H. destruct p; discriminate. Qed.

Lemma quiet_at_cons d s l : (d = 0 -> ~ stop ops s) ->
  (forall d', nest d [s] d' -> quiet_at d' l) -> quiet_at d (s :: l).
Proof.
  intros H0 H p x q E Hn. destruct p as [|y p]; cbn in E; injection E as <- E.
  - inversion Hn; subst. auto.
  - change (s :: p) with ([s] ++ p) in Hn. apply nest_app_inv in Hn. destruct Hn as [d1 [H1 H2]].
    eapply H; eauto.
Qed.

Lemma nest_cons d s d1 l d2 : nest d [s] d1 -> nest d1 l d2 -> nest d (s :: l) d2.
Proof. intros; change (s :: l) with ([s] ++ l); eapply nest_app; eauto. Qed.

Lemma read_loop_spec it : forall level acc,
  (exists lvl mid rest, read_expr_loop it (end_tokens ops) level acc = Ok (lvl, rev acc ++ mid, rest) /\
     it = mid ++ rest /\ nest level (strings mid) lvl /\ quiet_at level (strings mid) /\
     (rest = [] \/ exists t r, rest = t :: r /\ lvl = 0 /\ stop ops (pt_string t))) \/
  (exists mid t r, it = mid ++ t :: r /\ nest level (strings mid) 0 /\ quiet_at level (strings mid) /\
     close_bracket (pt_string t) /\ ~ stop ops (pt_string t) /\
     read_expr_loop it (end_tokens ops) level acc
     = Err (PatsyError "unmatched close bracket" (Some (pt_origin t)))).
Proof.
  induction it as [|t it IH]; intros level acc; cbn [read_expr_loop].
  { left. exists level, [], []. rewrite app_nil_r. repeat split; auto using quiet_at_nil; constructor. }
  destruct (Nat.eqb level 0 && str_in (pt_string t) (end_tokens ops)) eqn:E0.
  { apply andb_true_iff in E0. destruct E0 as [E0 E1]. apply Nat.eqb_eq in E0. subst level.
    apply str_in_spec, end_tokens_spec in E1.
    left. exists 0, [], (t :: it). rewrite app_nil_r. repeat split; auto using quiet_at_nil; [constructor|].
    right. eauto. }
  assert (Hns : level = 0 -> ~ stop ops (pt_string t)).
  { intros -> Hs. apply end_tokens_spec, str_in_spec in Hs. cbn in E0. congruence. }
  (* a step to depth [d1] *)
  assert (Step : forall d1, nest level [pt_string t] d1 ->
    (exists lvl mid rest, read_expr_loop it (end_tokens ops) d1 (t :: acc) = Ok (lvl, rev acc ++ mid, rest) /\
     t :: it = mid ++ rest /\ nest level (strings mid) lvl /\ quiet_at level (strings mid) /\
     (rest = [] \/ exists t r, rest = t :: r /\ lvl = 0 /\ stop ops (pt_string t))) \/
    (exists mid t' r, t :: it = mid ++ t' :: r /\ nest level (strings mid) 0 /\ quiet_at level (strings mid) /\
     close_bracket (pt_string t') /\ ~ stop ops (pt_string t') /\
     read_expr_loop it (end_tokens ops) d1 (t :: acc)
     = Err (PatsyError "unmatched close bracket" (Some (pt_origin t'))))).
  { intros d1 Hd1.
    assert (Hq : forall m, quiet_at d1 (strings m) -> quiet_at level (strings (t :: m))).
    { intros m Hm. cbn. apply quiet_at_cons; auto. intros d' Hd'.
      rewrite (nest_det _ _ _ Hd' _ Hd1). exact Hm. }
    destruct (IH d1 (t :: acc)) as [[lvl [mid [rest [E [Ei [Hn [Hqq Hr]]]]]]]|[mid [t' [r [Ei [Hn [Hqq [Hc [Hs E]]]]]]]]].
    - left. exists lvl, (t :: mid), rest. rewrite E. cbn [rev]. rewrite <- app_assoc.
      repeat split; auto; [now rewrite Ei|].
      cbn. eapply nest_cons; eauto.
    - right. exists (t :: mid), t', r. repeat split; auto; [now rewrite Ei|].
      cbn. eapply nest_cons; eauto. }
  destruct (opens (pt_string t)) eqn:Eo.
  - apply opens_spec in Eo.
    destruct (closes (pt_string t)) eqn:Ec.
    { apply closes_spec in Ec. exfalso. eapply open_not_close; eauto. }
    apply Step. constructor 2; [exact Eo|constructor].
  - assert (~ open_bracket (pt_string t)) by (rewrite <- opens_spec; congruence).
    destruct (closes (pt_string t)) eqn:Ec.
    + apply closes_spec in Ec. destruct level as [|l].
      * right. exists [], t, it. repeat split; auto using quiet_at_nil. constructor.
      * apply Step. constructor 3; [exact Ec|constructor].
    + assert (~ close_bracket (pt_string t)) by (rewrite <- closes_spec; congruence).
      apply Step. constructor 4; auto. constructor.
Qed.

Lemma magic_type_spec s :
  match magic_type ops s with
  | Some (TName x) => x = s /\ In s ops
  | Some TLParen => ~ In s ops /\ s = "("%string
  | Some TRParen => ~ In s ops /\ s = ")"%string
  | None => ~ magic ops s
  end.
Proof.
  unfold magic_type, magic. destruct (str_in s ops) eqn:E.
  - apply str_in_spec in E. auto.
  - apply str_in_false in E.
    destruct (String.eqb_spec s "("); [auto|]. destruct (String.eqb_spec s ")"); [auto|]. tauto.
Qed.

Lemma combine_ok code x l : from_tokenizer code (x :: l) ->
  exists o, combine (map (fun t => Some (pt_origin t)) (x :: l)) = Ok (Some o) /\
    hull (map (fun t => Some (pt_origin t)) (x :: l)) o.
Proof.
  intros H.
  destruct (combine (map (fun t => Some (pt_origin t)) (x :: l))) as [[o|]|e] eqn:E.
  - apply combine_some_iff in E. exists o. intuition.
  - exfalso. apply (proj1 (combine_none_iff _) E (pt_origin x)). now left.
  - exfalso. pose proof (combine_cases (map (fun t => Some (pt_origin t)) (x :: l))) as C.
    assert (Hsame : same_code (map (fun t => Some (pt_origin t)) (x :: l))).
    { intros i j Hi Hj. apply in_map_iff in Hi, Hj.
      destruct Hi as [ti [[= <-] Hi]], Hj as [tj [[= <-] Hj]].
      unfold from_tokenizer in H. rewrite Forall_forall in H.
      destruct (H _ Hi) as [-> _], (H _ Hj) as [-> _]. reflexivity. }
    destruct C as [[C _]|[[_ [o [C _]]]|[C _]]]; [congruence|congruence|contradiction].
Qed.
Lemma pretty_total code ts : from_tokenizer code ts ->
  exists text, pretty_untokenize (map (fun t => (pt_type t, pt_string t)) ts) = Ok text.
Proof.
  intros H. destruct (pretty_untokenize _) as [s|e] eqn:E; [eauto|].
  exfalso. destruct (pretty_err_lemma (map (fun t => (pt_type t, pt_string t)) ts)) as [_ [H1 _]].
  destruct (H1 (ex_intro _ e E)) as [x [Hi Hl]]. apply in_map_iff in Hi. destruct Hi as [t [<- Hi]].
  unfold from_tokenizer in H. rewrite Forall_forall in H. specialize (H t Hi).
  unfold layout in Hl. cbn in Hl. intuition congruence.
Qed.

Variable is_float : string -> bool.

Lemma quiet_at_0 l : quiet_at 0 l <-> quiet ops l.
Proof. reflexivity. Qed.

Lemma read_expr_spec code it tail x l : it = x :: l -> from_tokenizer code it ->
  ~ magic ops (pt_string x) ->
  (exists ts rest tok, read_python_expr is_float it tail (end_tokens ops) = Ok (tok, rest) /\
     it = ts ++ rest /\ embedded ops ts /\ token_for ops is_float (GExpr ts) tok /\
     ((rest = [] /\ tail = None) \/ exists t r, rest = t :: r /\ stop ops (pt_string t))) \/
  (exists e, read_python_expr is_float it tail (end_tokens ops) = Err e /\ bracket_error ops it e) \/
  (exists e d, read_python_expr is_float it tail (end_tokens ops) = Err e /\ tail = Some e /\
     nest 0 (strings it) d /\ quiet ops (strings it)).
Proof.
  intros Eit Hft Hm. unfold read_python_expr.
  assert (Hns : ~ stop ops (pt_string x)) by (unfold stop, magic in *; tauto).
  destruct (read_loop_spec it 0 []) as [[lvl [mid [rest [E [Ei [Hn [Hq Hr]]]]]]]|[mid [t [r [Ei [Hn [Hq [Hc [Hs E]]]]]]]]];
    rewrite E; cbn [bind app rev].
  - assert (Hmid : exists l', mid = x :: l').
    { destruct mid as [|y mid].
      - exfalso. cbn in Ei. destruct Hr as [->|[t [r [-> [_ Hst]]]]]; [congruence|].
        rewrite Eit in Ei. injection Ei as <- _. contradiction.
      - rewrite Eit in Ei. injection Ei as <- _. eauto. }
    destruct Hmid as [l' ->].
    assert (Hft' : from_tokenizer code (x :: l')).
    { unfold from_tokenizer in *. rewrite Ei, Forall_app in Hft. tauto. }
    destruct (combine_ok code x l' Hft') as [o [Eo Ho]].
    destruct (pretty_total code _ Hft') as [text Et].
    assert (Body : exists r, (let* org := combine (map (fun t => Some (pt_origin t)) (x :: l')) in
        if Nat.eqb lvl 0 then
          let* text := pretty_untokenize (map (fun t => (pt_type t, pt_string t)) (x :: l')) in
          match org with
          | Some o => Ok (mkToken (TName (expr_type is_float text)) o (Some text), rest)
          | None => Err AssertionError
          end
        else Err (PatsyError "unclosed bracket in embedded Python expression" org)) = r /\
      ((lvl = 0 /\ exists tok, r = Ok (tok, rest) /\ token_for ops is_float (GExpr (x :: l')) tok) \/
       (exists d, lvl = S d /\ r = Err (PatsyError "unclosed bracket in embedded Python expression" (Some o))))).
    { eexists; split; [reflexivity|]. rewrite Eo. cbn [bind]. destruct lvl as [|d]; cbn [Nat.eqb].
      - left. split; [reflexivity|]. rewrite Et. cbn [bind]. eexists; split; [reflexivity|].
        constructor; [now apply expr_type_kind|assumption|assumption].
      - right. eauto. }
    destruct Body as [r [Er Body]].
    destruct Hr as [->|[t [r' [-> [-> Hst]]]]].
    + rewrite app_nil_r in Ei. destruct tail as [e|].
      * right; right. exists e, lvl. rewrite Ei. auto.
      * rewrite Er. destruct Body as [[-> [tok [-> Htf]]]|[d [-> ->]]].
        -- left. exists (x :: l'), [], tok. rewrite app_nil_r. repeat split; auto.
           ++ eauto.
        -- right; left. eexists; split; [reflexivity|]. rewrite Ei. econstructor; eauto.
    + rewrite Er. destruct Body as [[_ [tok [-> Htf]]]|[d [? _]]]; [|discriminate].
      left. exists (x :: l'), (t :: r'), tok. repeat split; eauto.
  - right; left. eexists; split; [reflexivity|]. rewrite Ei.
    destruct mid as [|y mid].
    + cbn in *. rewrite Eit in Ei. injection Ei as <- _.
      now apply (be_unmatched ops [] x r x []).
    + rewrite Eit in Ei. injection Ei as <- _.
      now apply (be_unmatched ops (x :: mid) t r x (mid ++ [t])).
Qed.

Lemma seg_nil : segmentation ops [].
Proof. split; [constructor|]. intros p ts g q E. destruct p; discriminate. Qed.

Lemma seg_magic t gs : magic ops (pt_string t) -> segmentation ops gs -> segmentation ops (GMagic t :: gs).
Proof.
  intros Ht [Hl Ha]. split; [constructor; auto|]. intros p ts g q E.
  destruct p as [|x p]; [discriminate|]. injection E as _ E. eauto.
Qed.

Lemma seg_expr ts gs : embedded ops ts -> segmentation ops gs ->
  (gs = [] \/ exists t gs', gs = GMagic t :: gs' /\ stop ops (pt_string t)) ->
  segmentation ops (GExpr ts :: gs).
Proof.
  intros Ht [Hl Ha] Hg. split; [constructor; auto|]. intros p ts' g q E.
  destruct p as [|x p].
  - injection E as _ ->. destruct Hg as [?|[t [gs' [E Hs]]]]; [discriminate|]. injection E as -> _. eauto.
  - injection E as _ E. eauto.
Qed.

Lemma open_ended_cons g gs : open_ended gs -> (gs = [] -> exists t, g = GMagic t) -> open_ended (g :: gs).
Proof.
  intros H Hg p ts E. destruct p as [|x p].
  - injection E as -> ->. destruct (Hg eq_refl); discriminate.
  - injection E as _ E. exact (H _ _ E).
Qed.

Lemma magic_stop_seg t r gs r' : flatten gs ++ r' = t :: r -> Forall (legal ops) gs ->
  stop ops (pt_string t) -> gs <> [] -> exists gs', gs = GMagic t :: gs' /\ stop ops (pt_string t).
Proof.
  intros E Hl Hs Hne. destruct gs as [|[x|ts] gs]; [congruence| |].
  - cbn in E. injection E as -> _. eauto.
  - inversion Hl as [|? ? He _]; subst. destruct He as [_ [_ [x [l [-> Hm]]]]]. cbn in E. injection E as -> _.
    exfalso. apply Hm. unfold stop, magic in *. tauto.
Qed.

Inductive outcome (it : list pytok) (tail : option exn) (out : list token) (e : option exn) : Prop :=
| oc gs r : it = flatten gs ++ r -> segmentation ops gs -> Forall2 (token_for ops is_float) gs out ->
    ((e = None /\ tail = None /\ r = []) \/
     (exists x, e = Some x /\ tail = Some x /\ unfinished ops r /\ open_ended gs) \/
     (exists x, e = Some x /\ bracket_error ops r x /\ open_ended gs)) ->
    outcome it tail out e.

Lemma unfinished_stop r t l : unfinished ops r -> r = t :: l -> ~ stop ops (pt_string t).
Proof.
  intros [->|[x [m [d [-> [Hm _]]]]]] E; [discriminate|]. injection E as <- _.
  unfold stop, magic in *. tauto.
Qed.
Lemma bracket_error_stop r e : bracket_error ops r e -> exists t l, r = t :: l /\ ~ stop ops (pt_string t).
Proof.
  intros H. destruct H as [p t q x l E Hm _ _ _ _|x l d o Hm _ _ _].
  - destruct p as [|y p]; injection E as <- _; eexists _, _; (split; [reflexivity|]);
      unfold stop, magic in *; tauto.
  - eexists _, _; split; [reflexivity|]. unfold stop, magic in *; tauto.
Qed.

Lemma tokenize_loop_spec code fuel : forall it tail, length it < fuel -> from_tokenizer code it ->
  ~ In "("%string ops -> ~ In ")"%string ops ->
  outcome it tail (fst (tokenize_loop is_float fuel ops it tail)) (snd (tokenize_loop is_float fuel ops it tail)).
Proof.
  induction fuel as [|fuel IH]; intros it tail Hf Hft Ho Hc; [lia|].
  destruct it as [|t it]; cbn [tokenize_loop].
  { cbn. apply (oc _ _ _ _ [] []); [reflexivity|apply seg_nil|constructor|].
    destruct tail as [x|]; [|auto]. right; left. exists x. repeat split; auto; [now left|].
    intros p ts E. destruct p; discriminate. }
  assert (Hft' : from_tokenizer code it) by (inversion Hft; assumption).
  pose proof (magic_type_spec (pt_string t)) as Hm.
  destruct (magic_type ops (pt_string t)) as [ty|] eqn:Ety.
  - cbn [length] in Hf. specialize (IH it tail ltac:(lia) Hft' Ho Hc).
    destruct (tokenize_loop is_float fuel ops it tail) as [out e]. cbn [fst snd] in *.
    destruct IH as [gs r E Hs Hz Hr].
    assert (Hmag : magic ops (pt_string t)).
    { unfold magic. destruct ty; tauto. }
    assert (Htf : token_for ops is_float (GMagic t) (mkToken ty (pt_origin t) None)).
    { destruct ty; [now apply tf_lparen|now apply tf_rparen|]. destruct Hm as [-> Hm]. now apply tf_op. }
    apply (oc _ _ _ _ (GMagic t :: gs) r).
    + cbn. now rewrite E.
    + now apply seg_magic.
    + constructor; assumption.
    + destruct Hr as [Hr|[[x Hr]|[x Hr]]]; [now left|right; left|right; right]; exists x;
        intuition (auto; apply open_ended_cons; eauto).
  - destruct (read_expr_spec code (t :: it) tail t it eq_refl Hft Hm)
      as [[ts [rest [tok [E [Eit [He [Htf Hr]]]]]]]|[[e [E Hb]]|[e [d [E [Et [Hn Hq]]]]]]]; rewrite E.
    + assert (Hlen : length rest < fuel).
      { destruct He as [_ [_ [x [l [-> _]]]]]. apply (f_equal (@length _)) in Eit.
        rewrite app_length in Eit. cbn in Eit, Hf. lia. }
      assert (Hft2 : from_tokenizer code rest).
      { unfold from_tokenizer in *. rewrite Eit, Forall_app in Hft. tauto. }
      specialize (IH rest tail Hlen Hft2 Ho Hc).
      destruct (tokenize_loop is_float fuel ops rest tail) as [out e]. cbn [fst snd] in *.
      destruct IH as [gs r Er Hs Hz Hd].
      assert (Hgs : (gs = [] /\ rest = r) \/ exists t' gs', gs = GMagic t' :: gs' /\ stop ops (pt_string t')).
      { destruct gs as [|g gs]; [now left|right].
        destruct Hr as [[-> _]|[t' [r' [Hr Hst]]]].
        - exfalso. destruct Hs as [Hl _]. inversion Hl as [|? ? Hg _]; subst.
          destruct g as [x|xs]; [discriminate|]. destruct Hg as [_ [_ [x [l [-> _]]]]]. discriminate.
        - rewrite Hr in Er. symmetry in Er. destruct Hs as [Hl _].
          destruct (magic_stop_seg _ _ _ _ Er Hl Hst) as [gs' [Egs _]]; [discriminate|]. eauto. }
      assert (Hne : gs = [] -> r = [] /\ tail = None).
      { intros ->. destruct Hgs as [[_ <-]|[? [? [? _]]]]; [|discriminate].
        destruct Hr as [[-> Hr]|[t' [r' [-> Hst]]]]; [now split|].
        exfalso. destruct Hd as [[_ [_ ?]]|[[x [_ [_ [Hu _]]]]|[x [_ [Hb _]]]]]; [discriminate| |].
        - eapply unfinished_stop; eauto.
        - apply bracket_error_stop in Hb. destruct Hb as [y [l [Ey Hy]]]. injection Ey as -> _. contradiction. }
      apply (oc _ _ _ _ (GExpr ts :: gs) r).
      * cbn. rewrite Eit, Er, app_assoc. reflexivity.
      * apply seg_expr; auto. destruct Hgs as [[-> _]|Hgs]; auto.
      * constructor; assumption.
      * destruct Hd as [Hd|[[x [E1 [E2 [Hu Hop]]]]|[x [E1 [Hb Hop]]]]]; [now left|right; left|right; right]; exists x.
        -- repeat split; auto. apply open_ended_cons; auto. intros Hg.
           destruct (Hne Hg) as [_ ?]. congruence.
        -- repeat split; auto. apply open_ended_cons; auto. intros Hg.
           destruct (Hne Hg) as [-> _]. apply bracket_error_stop in Hb.
           destruct Hb as [y [l [? _]]]. discriminate.
    + cbn. apply (oc _ _ _ _ [] (t :: it)); [reflexivity|apply seg_nil|constructor|].
      right; right. exists e. repeat split; auto. intros p ts Ep. destruct p; discriminate.
    + cbn. apply (oc _ _ _ _ [] (t :: it)); [reflexivity|apply seg_nil|constructor|].
      right; left. exists e. repeat split; auto.
      * right. exists t, it, d. auto.
      * intros p ts Ep. destruct p; discriminate.
Qed.

(* exclusivity *)
Lemma embedded_prefix_unique ts1 r1 ts2 r2 : ts1 ++ r1 = ts2 ++ r2 ->
  embedded ops ts1 -> embedded ops ts2 ->
  (r1 = [] \/ exists t l, r1 = t :: l /\ stop ops (pt_string t)) ->
  (r2 = [] \/ exists t l, r2 = t :: l /\ stop ops (pt_string t)) -> ts1 = ts2 /\ r1 = r2.
Proof.
  assert (G : forall ts1 r1 ts2 r2, ts1 ++ r1 = ts2 ++ r2 ->
    embedded ops ts1 -> embedded ops ts2 ->
    (r1 = [] \/ exists t l, r1 = t :: l /\ stop ops (pt_string t)) ->
    (r2 = [] \/ exists t l, r2 = t :: l /\ stop ops (pt_string t)) -> length ts1 <= length ts2 -> ts1 = ts2 /\ r1 = r2).
  { clear. intros ts1 r1 ts2 r2 E H1 H2 Hr1 Hr2 Hlen.
    assert (Hsp : exists m, ts2 = ts1 ++ m /\ r1 = m ++ r2).
    { clear - E Hlen. revert ts2 E Hlen. induction ts1 as [|x ts1 IH]; intros ts2 E Hlen.
      - exists ts2. auto.
      - destruct ts2 as [|y ts2]; [cbn in Hlen; lia|]. injection E as -> E. cbn in Hlen.
        destruct (IH ts2 E ltac:(lia)) as [m [-> ->]]. exists m. auto. }
    destruct Hsp as [m [-> ->]]. destruct m as [|x m]; [now rewrite app_nil_r|].
    exfalso. destruct Hr1 as [?|[t [l [Et Hs]]]]; [discriminate|]. injection Et as -> _.
    destruct H2 as [_ [Hq _]], H1 as [Hn _].
    apply (Hq (strings ts1) (pt_string t) (strings m)); auto.
    unfold strings. now rewrite map_app. }
  intros E H1 H2 Hr1 Hr2. destruct (le_ge_dec (length ts1) (length ts2)) as [L|L].
  - now apply G.
  - symmetry in E. destruct (G _ _ _ _ E H2 H1 Hr2 Hr1 L) as [-> ->]. auto.
Qed.

Lemma bracket_error_excl r e ts r1 : bracket_error ops r e -> r = ts ++ r1 -> embedded ops ts ->
  (r1 = [] \/ exists t l, r1 = t :: l /\ stop ops (pt_string t)) -> False.
Proof.
  intros H E [Hn [Hq _]] Hr. destruct H as [p t q x l _ _ Hnp Hqp Hc Hs|x l d o _ Hnx Hqx _].
  - destruct (le_lt_dec (length ts) (length p)) as [L|L].
    + assert (Hsp : exists m, p = ts ++ m /\ r1 = m ++ t :: q).
      { clear - E L. revert p E L. induction ts as [|y ts IH]; intros p E L.
        - exists p. auto.
        - destruct p as [|z p]; [cbn in L; lia|]. injection E as -> E. cbn in L.
          destruct (IH p E ltac:(lia)) as [m [-> ->]]. exists m. auto. }
      destruct Hsp as [m [-> ->]]. destruct Hr as [Hr|[s [l' [Es Hst]]]]; [destruct m; discriminate|].
      destruct m as [|y m]; injection Es as -> _; [contradiction|].
      apply (Hqp (strings ts) (pt_string s) (strings m)); auto. unfold strings. now rewrite map_app.
    + assert (Hsp : exists m, ts = p ++ t :: m).
      { clear - E L. revert ts E L. induction p as [|y p IH]; intros ts E L.
        - destruct ts as [|z ts]; [cbn in L; lia|]. injection E as -> E. exists ts. reflexivity.
        - destruct ts as [|z ts]; [cbn in L; lia|]. injection E as -> E. cbn in L.
          destruct (IH ts E ltac:(lia)) as [m ->]. exists m. auto. }
      destruct Hsp as [m ->]. unfold strings in Hn. rewrite map_app in Hn. apply nest_app_inv in Hn.
      destruct Hn as [d1 [A B]]. rewrite (nest_det _ _ _ A _ Hnp) in B. cbn in B.
      inversion B; subst; [|contradiction]. eapply open_not_close; eauto.
  - rewrite E in Hnx, Hqx. destruct Hr as [->|[s [l' [-> Hst]]]].
    + rewrite app_nil_r in Hnx. pose proof (nest_det _ _ _ Hn _ Hnx). discriminate.
    + apply (Hqx (strings ts) (pt_string s) (strings l')); auto. unfold strings. now rewrite map_app.
Qed.

Lemma seg_tail g gs : segmentation ops (g :: gs) -> segmentation ops gs.
Proof.
  intros [Hl Ha]. split; [now inversion Hl|]. intros p ts x q ->. apply (Ha (g :: p) ts x q). reflexivity.
Qed.
Lemma seg_next ts gs : segmentation ops (GExpr ts :: gs) ->
  embedded ops ts /\ (flatten gs = [] \/ exists t l, flatten gs = t :: l /\ stop ops (pt_string t)).
Proof.
  intros [Hl Ha]. split; [now inversion Hl|]. destruct gs as [|g gs]; [now left|right].
  destruct (Ha [] ts g gs eq_refl) as [t [-> Hs]]. exists t, (flatten gs). auto.
Qed.

Lemma seg_prefix_excl gs2 : forall gs1 r e, segmentation ops gs1 -> open_ended gs1 -> bracket_error ops r e ->
  segmentation ops gs2 -> flatten gs1 ++ r = flatten gs2 -> False.
Proof.
  induction gs2 as [|g2 gs2 IH]; intros gs1 r e H1 Ho Hb H2 E.
  - cbn in E. apply app_eq_nil in E. destruct E as [_ ->]. apply bracket_error_stop in Hb.
    destruct Hb as [? [? [? _]]]. discriminate.
  - destruct gs1 as [|g1 gs1].
    + cbn [flatten flat_map app] in E. destruct g2 as [t|ts].
      * destruct H2 as [H2 _]. pose proof (Forall_inv H2) as Hm. cbn in Hm, E.
        destruct Hb as [p t' q x l Ex Hmx _ _ _ _|x l d o Hmx _ _ _].
        -- destruct p; injection Ex as <- _; injection E as <- _; contradiction.
        -- injection E as <- _. contradiction.
      * destruct (seg_next _ _ H2) as [He Hr]. eapply bracket_error_excl; eauto.
    + assert (Ho' : open_ended gs1). { intros p ts ->. apply (Ho (g1 :: p) ts). reflexivity. }
      destruct g1 as [t1|ts1], g2 as [t2|ts2].
      * cbn in E. injection E as _ E. eapply (IH gs1 r e); eauto using seg_tail.
      * destruct (seg_next _ _ H2) as [[_ [_ [x [l [-> Hm]]]]] _]. cbn in E. injection E as -> _.
        destruct H1 as [H1 _]. inversion H1; subst. contradiction.
      * destruct (seg_next _ _ H1) as [[_ [_ [x [l [-> Hm]]]]] _]. cbn in E. injection E as <- _.
        destruct H2 as [H2 _]. inversion H2; subst. contradiction.
      * destruct (seg_next _ _ H1) as [He1 Hr1]. destruct (seg_next _ _ H2) as [He2 Hr2].
        cbn [flatten flat_map] in E. rewrite <- app_assoc in E.
        assert (Hr1' : flatten gs1 ++ r = [] \/ exists t l, flatten gs1 ++ r = t :: l /\ stop ops (pt_string t)).
        { destruct gs1 as [|g gs1]; [exfalso; apply (Ho [] ts1); reflexivity|].
          destruct H1 as [_ Ha]. destruct (Ha [] ts1 g gs1 eq_refl) as [t [-> Hs]]. right.
          exists t, (flatten gs1 ++ r). auto. }
        destruct (embedded_prefix_unique _ _ _ _ E He1 He2 Hr1' Hr2) as [-> E'].
        eapply (IH gs1 r e); eauto using seg_tail.
Qed.

Lemma app_split {A} (p1 : list A) : forall t1 q1 p2 t2 q2, p1 ++ t1 :: q1 = p2 ++ t2 :: q2 ->
  (p1 = p2 /\ t1 = t2 /\ q1 = q2) \/ (exists m, p2 = p1 ++ t1 :: m) \/ (exists m, p1 = p2 ++ t2 :: m).
Proof.
  induction p1 as [|x p1 IH]; intros t1 q1 p2 t2 q2 E; destruct p2 as [|y p2]; cbn in E.
  - injection E as -> ->. auto.
  - injection E as -> E. right; left. exists p2. reflexivity.
  - injection E as -> E. right; right. exists p1. reflexivity.
  - injection E as -> E. destruct (IH _ _ _ _ _ E) as [[-> [-> ->]]|[[m ->]|[m ->]]]; auto.
    + right; left. exists m. reflexivity.
    + right; right. exists m. reflexivity.
Qed.

Lemma nest_close_0 p t m d : nest 0 (strings p) 0 -> close_bracket (pt_string t) ->
  nest 0 (strings (p ++ t :: m)) d -> False.
Proof.
  intros Hp Hc Hn. unfold strings in Hn. rewrite map_app in Hn. apply nest_app_inv in Hn.
  destruct Hn as [d1 [A B]]. rewrite (nest_det _ _ _ A _ Hp) in B. cbn in B.
  inversion B; subst; [|contradiction]. eapply open_not_close; eauto.
Qed.

Lemma bracket_error_unique r e1 : bracket_error ops r e1 -> forall e2, bracket_error ops r e2 -> e1 = e2.
Proof.
  intros H1 e2 H2.
  inversion H1 as [p1 t1 q1 x1 l1 _ _ Hn1 Hq1 Hc1 Hs1 Er1|x1 l1 d1 o1 _ Hn1 Hq1 Ho1 Er1]; subst;
    inversion H2 as [p2 t2 q2 x2 l2 _ _ Hn2 Hq2 Hc2 Hs2 Er2|x2 l2 d2 o2 _ Hn2 Hq2 Ho2 Er2]; subst.
  - destruct (app_split _ _ _ _ _ _ Er2) as [[-> [-> ->]]|[[m ->]|[m ->]]]; [reflexivity| |]; exfalso.
    + eapply nest_close_0; [exact Hn2|exact Hc2|exact Hn1].
    + eapply nest_close_0; [exact Hn1|exact Hc1|exact Hn2].
  - exfalso. rewrite Er2 in Hn2. eapply nest_close_0; [exact Hn1|exact Hc1|exact Hn2].
  - exfalso. rewrite <- Er2 in Hn1. eapply nest_close_0; [exact Hn2|exact Hc2|exact Hn1].
  - now rewrite (hull_unique _ _ _ Ho1 Ho2).
Qed.

Lemma seg_prefix_unique gs2 : forall gs1 r1 r2 e1 e2,
  segmentation ops gs1 -> open_ended gs1 -> bracket_error ops r1 e1 ->
  segmentation ops gs2 -> open_ended gs2 -> bracket_error ops r2 e2 ->
  flatten gs1 ++ r1 = flatten gs2 ++ r2 -> e1 = e2.
Proof.
  assert (Next : forall ts gs r, segmentation ops (GExpr ts :: gs) -> open_ended (GExpr ts :: gs) ->
     flatten gs ++ r = [] \/ exists t l, flatten gs ++ r = t :: l /\ stop ops (pt_string t)).
  { intros ts gs r H Ho. destruct gs as [|g gs]; [exfalso; apply (Ho [] ts); reflexivity|].
    destruct H as [_ Ha]. destruct (Ha [] ts g gs eq_refl) as [t [-> Hs]]. right.
    exists t, (flatten gs ++ r). auto. }
  assert (Head : forall r e t l, bracket_error ops r e -> r = t :: l -> magic ops (pt_string t) -> False).
  { intros r e t l Hb E Hm. destruct Hb as [p t' q x l' Ex Hmx _ _ _ _|x l' d o Hmx _ _ _].
    - destruct p; injection Ex as <- _; injection E as <- _; contradiction.
    - injection E as <- _. contradiction. }
  assert (Hoe : forall g gs, open_ended (g :: gs) -> open_ended gs).
  { intros g gs Ho p ts ->. apply (Ho (g :: p) ts). reflexivity. }
  induction gs2 as [|g2 gs2 IH]; intros gs1 r1 r2 e1 e2 H1 Ho1 Hb1 H2 Ho2 Hb2 E.
  - destruct gs1 as [|[t1|ts1] gs1].
    + cbn in E. subst. eapply bracket_error_unique; eauto.
    + exfalso. cbn in E. symmetry in E. eapply Head; [exact Hb2|exact E|]. destruct H1 as [H1 _]. now inversion H1.
    + exfalso. destruct (seg_next _ _ H1) as [He1 _]. symmetry in E. cbn [flatten flat_map app] in E.
      rewrite <- app_assoc in E.
      exact (bracket_error_excl _ _ _ _ Hb2 E He1 (Next _ _ _ H1 Ho1)).
  - destruct gs1 as [|g1 gs1].
    + exfalso. cbn [flatten flat_map app] in E. destruct g2 as [t2|ts2].
      * eapply Head; [exact Hb1|exact E|]. destruct H2 as [H2 _]. now inversion H2.
      * destruct (seg_next _ _ H2) as [He2 _]. rewrite <- app_assoc in E.
        exact (bracket_error_excl _ _ _ _ Hb1 E He2 (Next _ _ _ H2 Ho2)).
    + destruct g1 as [t1|ts1], g2 as [t2|ts2].
      * cbn in E. injection E as _ E. eapply (IH gs1); eauto using seg_tail.
      * destruct (seg_next _ _ H2) as [[_ [_ [x [l [-> Hm]]]]] _]. cbn in E. injection E as -> _.
        destruct H1 as [H1 _]. inversion H1; subst. contradiction.
      * destruct (seg_next _ _ H1) as [[_ [_ [x [l [-> Hm]]]]] _]. cbn in E. injection E as <- _.
        destruct H2 as [H2 _]. inversion H2; subst. contradiction.
      * destruct (seg_next _ _ H1) as [He1 _]. destruct (seg_next _ _ H2) as [He2 _].
        cbn [flatten flat_map] in E. rewrite <- !app_assoc in E.
        destruct (embedded_prefix_unique _ _ _ _ E He1 He2 (Next _ _ _ H1 Ho1) (Next _ _ _ H2 Ho2)) as [-> E'].
        eapply (IH gs1); eauto using seg_tail.
Qed.

Lemma seg_unique gs2 : forall gs1, segmentation ops gs1 -> segmentation ops gs2 ->
  flatten gs1 = flatten gs2 -> gs1 = gs2.
Proof.
  assert (Hne : forall g gs, segmentation ops (g :: gs) -> flatten (g :: gs) <> []).
  { intros g gs [H _]. inversion H as [|? ? Hg _]; subst. destruct g; [discriminate|].
    destruct Hg as [_ [_ [x [l [-> _]]]]]. discriminate. }
  induction gs2 as [|g2 gs2 IH]; intros gs1 H1 H2 E.
  - destruct gs1; [reflexivity|]. exfalso. eapply Hne; eauto.
  - destruct gs1 as [|g1 gs1]; [exfalso; eapply Hne; eauto|].
    destruct g1 as [t1|ts1], g2 as [t2|ts2].
    + cbn in E. injection E as -> E. f_equal. apply IH; eauto using seg_tail.
    + destruct (seg_next _ _ H2) as [[_ [_ [x [l [-> Hm]]]]] _]. cbn in E. injection E as -> _.
      destruct H1 as [H1 _]. inversion H1; subst. contradiction.
    + destruct (seg_next _ _ H1) as [[_ [_ [x [l [-> Hm]]]]] _]. cbn in E. injection E as <- _.
      destruct H2 as [H2 _]. inversion H2; subst. contradiction.
    + destruct (seg_next _ _ H1) as [He1 Hr1]. destruct (seg_next _ _ H2) as [He2 Hr2].
      destruct (embedded_prefix_unique _ _ _ _ E He1 He2 Hr1 Hr2) as [-> E'].
      f_equal. apply IH; eauto using seg_tail.
Qed.
End P.

Lemma tokenize_formula_spec is_float ops code it tail out e :
  from_tokenizer code it -> ~ In "("%string ops -> ~ In ")"%string ops ->
  tokenize_formula is_float it tail ops = (out, e) -> outcome ops is_float it tail out e.
Proof.
  intros Hft Ho Hc. unfold tokenize_formula.
  rewrite (proj2 (str_in_false _ _) Ho), (proj2 (str_in_false _ _) Hc). cbn [orb]. intros E.
  pose proof (tokenize_loop_spec ops is_float code (S (length it)) it tail ltac:(lia) Hft Ho Hc) as H.
  rewrite E in H. exact H.
Qed.

Lemma tokenize_ok_lemma is_float ops code it :
  from_tokenizer code it -> ~ In "("%string ops -> ~ In ")"%string ops ->
  forall out, tokenize_formula is_float it None ops = (out, None) <->
    exists gs, segmentation ops gs /\ flatten gs = it /\ Forall2 (token_for ops is_float) gs out.
Proof.
  intros Hft Ho Hc out. destruct (tokenize_formula is_float it None ops) as [out' e'] eqn:E.
  pose proof (tokenize_formula_spec _ _ _ _ _ _ _ Hft Ho Hc E) as [gs r Ei Hs Hz Hd].
  split.
  - intros [= -> ->]. destruct Hd as [[_ [_ ->]]|[[x [? _]]|[x [? _]]]]; try discriminate.
    rewrite app_nil_r in Ei. eauto.
  - intros [gs' [Hs' [E' Hz']]].
    destruct Hd as [[-> [_ ->]]|[[x [_ [? _]]]|[x [_ [Hb Hop]]]]]; try discriminate.
    + rewrite app_nil_r in Ei. f_equal.
      assert (gs = gs') by (apply (seg_unique ops); auto; congruence). subst gs'.
      revert out Hz'. clear -Hz Ho Hc. induction Hz as [|g o gs os Hg Hz IH]; intros out Hz'; inversion Hz' as [|? o' ? os' Hg' Hz2]; subst; [reflexivity|].
      f_equal; auto. clear - Hg Hg' Ho Hc.
      inversion Hg; subst; inversion Hg'; subst; try congruence; try reflexivity.
      match goal with A : hull _ ?a, B : hull _ ?b |- _ => pose proof (hull_unique _ _ _ A B) end.
      repeat match goal with K : expr_kind _ _ _ |- _ => apply expr_type_kind in K end.
      congruence.
    + exfalso. apply (seg_prefix_excl ops gs' gs r x Hs Hop Hb Hs'). congruence.
Qed.

Lemma tokenize_err_lemma is_float ops code it :
  from_tokenizer code it -> ~ In "("%string ops -> ~ In ")"%string ops ->
  forall x, (exists out, tokenize_formula is_float it None ops = (out, Some x)) <->
    exists gs r, segmentation ops gs /\ open_ended gs /\ flatten gs ++ r = it /\ bracket_error ops r x.
Proof.
  intros Hft Ho Hc x. destruct (tokenize_formula is_float it None ops) as [out' e'] eqn:E.
  pose proof (tokenize_formula_spec _ _ _ _ _ _ _ Hft Ho Hc E) as [gs r Ei Hs Hz Hd].
  split.
  - intros [out [= -> ->]]. destruct Hd as [[? _]|[[y [_ [? _]]]|[y [Hy [Hb Hop]]]]]; try discriminate.
    injection Hy as <-. eauto 7.
  - intros [gs' [r' [Hs' [Hop' [E' Hb']]]]]. exists out'. f_equal.
    destruct Hd as [[-> [_ ->]]|[[y [_ [? _]]]|[y [-> [Hb Hop]]]]]; try discriminate.
    + exfalso. rewrite app_nil_r in Ei. eapply (seg_prefix_excl ops gs gs' r'); eauto. congruence.
    + f_equal. eapply (seg_prefix_unique ops gs' gs r r'); eauto. congruence.
Qed.

(** * Parsing *)
From Verif Require Import InfixSpec InfixProofs.

Lemma token_for_nonempty ops isf gs out : Forall2 (token_for ops isf) gs out -> segmentation ops gs ->
  flatten gs <> [] -> out <> [].
Proof. intros H _ Hf ->. inversion H; subst. now apply Hf. Qed.

Lemma token_for_source ops isf code gs out : Forall2 (token_for ops isf) gs out ->
  segmentation ops gs -> from_tokenizer code (flatten gs) -> one_source code out.
Proof.
  intros H [Hl _]. revert Hl. induction H as [|g o gs os Hg H IH]; intros Hl Hft; [constructor|].
  inversion Hl; subst. cbn in Hft. unfold from_tokenizer in Hft. rewrite Forall_app in Hft.
  destruct Hft as [Hf1 Hf2]. constructor; [|now apply IH].
  inversion Hg; subst; cbn; try (now inversion Hf1; intuition).
  assert (Hl' : exists x l, ts = x :: l) by (match goal with Hl : legal _ _ |- _ => destruct Hl as [_ [_ [x [l [-> _]]]]] end; eauto).
  destruct Hl' as [x [l ->]].
  match goal with Hh : hull _ _ |- _ => destruct Hh as [Hh _]; specialize (Hh (pt_origin x) ltac:(now left)); rewrite (proj1 Hh) end.
  inversion Hf1; intuition.
Qed.

Lemma infix_stream_cases toks tail ops atoms :
  infix_parse_stream toks tail ops atoms =
  match tail with
  | None => infix_parse toks ops atoms
  | Some e =>
      match check_operators ops with
      | Err x => Err x
      | Ok _ => match foldM (read_token ops atoms) toks (true, mkCtx [] []) with
                | Err x => Err x
                | Ok _ => Err e
                end
      end
  end.
Proof.
  destruct tail as [e|]; [|reflexivity]. unfold infix_parse_stream.
  destruct (check_operators ops); cbn; [|reflexivity].
  destruct (foldM _ _ _) as [[w c]|]; reflexivity.
Qed.


Lemma stream_errors ops atoms code toks tail x : good_table ops -> one_source code toks ->
  (toks <> [] \/ tail <> None) -> infix_parse_stream toks tail ops atoms = Err x ->
  tail = Some x \/ exists m t, In t toks /\ x = PatsyError m (Some (tk_origin t)).
Proof.
  intros Hg Hs Hne. rewrite infix_stream_cases. destruct tail as [e|]; intros H.
  - rewrite check_operators_good in H by assumption.
    destruct (foldM _ _ _) as [c|y] eqn:E; injection H as <-; [now left|right].
    eapply (parse_errors_lemma ops atoms code toks y); auto.
    + intros ->. discriminate.
    + unfold infix_parse, infix_parse_stream. rewrite check_operators_good by assumption.
      cbn [bind]. now rewrite E.
  - right. destruct Hne as [Hne|]; [|congruence]. eapply parse_errors_lemma; eauto.
Qed.

Lemma check_extra_ok extra : check_extra extra = Ok tt <-> Forall (fun o => (0 <= op_prec o)%Z) extra.
Proof.
  induction extra as [|o extra IH]; cbn.
  - split; auto.
  - destruct (Z.ltb_spec (op_prec o) 0).
    + split; [discriminate|]. intros Hf; inversion Hf; lia.
    + rewrite IH. split; intros Hf; [constructor; auto|now inversion Hf].
Qed.

Lemma default_ops_good : good_table default_ops.
Proof. repeat (constructor; [cbn; repeat split; try lia; try congruence; auto|]); constructor. Qed.

Lemma good_extra_table extra : good_extra extra -> good_table (default_ops ++ extra).
Proof.
  intros H. apply Forall_app. split; [exact default_ops_good|].
  eapply Forall_impl; [|exact H]. cbn. intros o [H1 [H2 [s [-> _]]]]. repeat split; auto; [lia|congruence].
Qed.
Lemma good_extra_noparen extra p : good_extra extra -> p = "("%string \/ p = ")"%string ->
  ~ In p (flat_map op_string (default_ops ++ extra)).
Proof.
  intros H Hp Hi. rewrite flat_map_app in Hi. apply in_app_iff in Hi. destruct Hi as [Hi|Hi].
  - cbn in Hi. destruct Hp as [-> | ->]; intuition discriminate.
  - apply in_flat_map in Hi. destruct Hi as [o [Ho Hi]]. unfold good_extra in H. rewrite Forall_forall in H.
    destruct (H o Ho) as [_ [_ [s [E [H1 H2]]]]]. unfold op_string in Hi. rewrite E in Hi.
    destruct Hi as [<-|[]]. destruct Hp; contradiction.
Qed.

Lemma parse_formula_lemma is_float code it extra :
  from_tokenizer code it -> it <> [] -> good_extra extra ->
  let ops := flat_map op_string (default_ops ++ extra) in
  (forall n, parse_formula is_float it None extra = Ok n ->
     exists gs toks c m, segmentation ops gs /\ flatten gs = it /\
       Forall2 (token_for ops is_float) gs toks /\
       valid (default_ops ++ extra) atomic_token_types c /\ yield c = toks /\ represents m (tree_of c) /\
       n_type n = TName "~" /\
       ((n_type m = TName "~" /\ n = m) \/
        (n_type m <> TName "~" /\ n = Node (TName "~") None [m] (n_origin m)))) /\
  (forall e, parse_formula is_float it None extra = Err e ->
     exists msg o, e = PatsyError msg (Some o) /\ o_code o = code).
Proof.
  intros Hft Hne Hx ops.
  assert (Hc : check_extra extra = Ok tt).
  { apply check_extra_ok. eapply Forall_impl; [|exact Hx]. cbn. tauto. }
  assert (Hp1 := good_extra_noparen extra _ Hx (or_introl eq_refl)).
  assert (Hp2 := good_extra_noparen extra _ Hx (or_intror eq_refl)).
  fold ops in Hp1, Hp2.
  unfold parse_formula. rewrite Hc. cbn [bind]. fold ops.
  destruct (tokenize_formula is_float it None ops) as [toks e0] eqn:E.
  pose proof (tokenize_formula_spec _ _ _ _ _ _ _ Hft Hp1 Hp2 E) as [gs r Ei Hs Hz Hd].
  assert (Hsrc : one_source code toks).
  { eapply token_for_source; eauto. rewrite Ei in Hft. unfold from_tokenizer in *. rewrite Forall_app in Hft. tauto. }
  pose proof (good_extra_table _ Hx) as Hg.
  split.
  - intros n H.
    destruct Hd as [[-> [_ ->]]|[[x [_ [? _]]]|[x [-> _]]]]; [|discriminate|].
    + rewrite infix_stream_cases in H.
      destruct (infix_parse toks (default_ops ++ extra) atomic_token_types) as [m|] eqn:Ep; [|discriminate].
      destruct (parse_correct_lemma (default_ops ++ extra) atomic_token_types code toks Hg Hsrc) as [Hsound _].
      destruct (Hsound m Ep) as [c [Hv [Hy Hr]]].
      exists gs, toks, c, m. rewrite app_nil_r in Ei. cbn [bind] in H. injection H as <-.
      split; [exact Hs|]. do 5 (split; [auto|]). unfold wrap_tilde, is_type. split.
      * destruct (ttype_eqb_spec (n_type m) (TName "~")) as [Et|Et]; [exact Et|reflexivity].
      * destruct (ttype_eqb_spec (n_type m) (TName "~")) as [Et|Et]; auto.
    + rewrite infix_stream_cases in H.
      destruct (check_operators _) as [?|]; [|discriminate]. destruct (foldM _ _ _); discriminate.
  - intros e H.
    assert (Hloc : forall x, infix_parse_stream toks e0 (default_ops ++ extra) atomic_token_types = Err x ->
        e0 = Some x \/ exists m t, In t toks /\ x = PatsyError m (Some (tk_origin t))).
    { intros x. apply (stream_errors _ _ code); auto.
      destruct Hd as [[-> [_ ->]]|[[x' [_ [? _]]]|[x' [-> _]]]]; [|discriminate|right; discriminate].
      left. rewrite app_nil_r in Ei. eapply token_for_nonempty; eauto. congruence. }
    destruct (infix_parse_stream toks e0 (default_ops ++ extra) atomic_token_types) as [m|x] eqn:Ep; [discriminate|].
    cbn [bind] in H. injection H as <-.
    destruct (Hloc x eq_refl) as [->|[msg [t [Hi ->]]]].
    + destruct Hd as [[? _]|[[x' [_ [? _]]]|[x' [[= <-] [Hb _]]]]]; try discriminate.
      assert (Hr : from_tokenizer code r).
      { rewrite Ei in Hft. unfold from_tokenizer in *. rewrite Forall_app in Hft. tauto. }
      destruct Hb as [p t q y l _ _ _ _ _ _|y l d o _ _ _ Ho].
      * eexists _, _; split; [reflexivity|]. unfold from_tokenizer in Hr. rewrite Forall_app in Hr.
        destruct Hr as [_ Hr]. inversion Hr; intuition.
      * eexists _, _; split; [reflexivity|]. destruct Ho as [Ho _].
        destruct (Ho (pt_origin y)) as [-> _]; [now left|]. inversion Hr; intuition.
    + eexists _, _; split; [reflexivity|]. unfold one_source in Hsrc. rewrite Forall_forall in Hsrc. auto.
Qed.
