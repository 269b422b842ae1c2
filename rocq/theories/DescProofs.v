From Verif Require Import IntSpec IntProofs.
From Verif Require Import Base OriginModel InfixModel InfixSpec InfixProofs UtilModel UtilSpec UtilProofs
  DescModel DescSpec.

Lemma node_ind2 (P : node -> Prop) :
  (forall ty tok args org, Forall P args -> P (Node ty tok args org)) -> forall n, P n.
Proof.
  intros H. fix IH 1. intros [ty tok args org]. apply H.
  induction args as [|a args IHa]; constructor; [apply IH|exact IHa].
Qed.

(** * Terms as sets *)
Lemma same_set_refl a : same_set a a.
Proof. intros x; tauto. Qed.
Lemma same_set_sym a b : same_set a b -> same_set b a.
Proof. intros H x; rewrite (H x); tauto. Qed.
Lemma same_set_trans a b c : same_set a b -> same_set b c -> same_set a c.
Proof. intros H1 H2 x; rewrite (H1 x); auto. Qed.
Lemma same_set_app a b c d : same_set a b -> same_set c d -> same_set (a ++ c) (b ++ d).
Proof. intros H1 H2 x; rewrite !in_app_iff, (H1 x), (H2 x); tauto. Qed.

Lemma subset_eqb_spec a b : subset_eqb a b = true <-> incl a b.
Proof.
  unfold subset_eqb. rewrite forallb_forall. split.
  - intros H x Hx. specialize (H x Hx). apply existsb_exists in H. destruct H as [y [Hy E]].
    apply String.eqb_eq in E. now subst.
  - intros H x Hx. apply existsb_exists. exists x. split; [auto|apply String.eqb_refl].
Qed.
Lemma term_eqb_spec a b : term_eqb a b = true <-> same_set a b.
Proof.
  unfold term_eqb. rewrite andb_true_iff, !subset_eqb_spec. unfold same_set, incl. firstorder.
Qed.
Lemma term_eqb_refl a : term_eqb a a = true.
Proof. apply term_eqb_spec, same_set_refl. Qed.
Lemma term_eqb_sym a b : term_eqb a b = term_eqb b a.
Proof. apply eq_true_iff_eq. rewrite !term_eqb_spec. split; apply same_set_sym. Qed.
Lemma term_eqb_trans a b c : term_eqb a b = true -> term_eqb b c = true -> term_eqb a c = true.
Proof. rewrite !term_eqb_spec. apply same_set_trans. Qed.

Lemma mk_term_same fs : same_set (mk_term fs) fs.
Proof.
  intros x. unfold mk_term. split; intros H.
  - now apply uniqueify_incl in H.
  - destruct (uniqueify_complete String.eqb String.eqb_refl fs x H) as [y [Hy E]].
    apply String.eqb_eq in E. now subst.
Qed.
Lemma distinct_NoDup l : distinct String.eqb l <-> NoDup l.
Proof.
  induction l as [|x l IH]; split; intros H; try constructor.
  - inversion H as [|? ? Hf Hd]; subst. rewrite Forall_forall in Hf. intros Hx. specialize (Hf x Hx).
    now rewrite String.eqb_refl in Hf.
  - apply IH. now inversion H.
  - inversion H; subst. apply Forall_forall. intros y Hy. apply String.eqb_neq. intros ->. contradiction.
  - apply IH. now inversion H.
Qed.
Lemma mk_term_NoDup fs : NoDup (mk_term fs).
Proof. apply distinct_NoDup. apply uniqueify_distinct. apply String.eqb_sym. Qed.
Lemma mk_term_id fs : NoDup fs -> mk_term fs = fs.
Proof. intros H. apply uniqueify_id; [apply String.eqb_sym|]. now apply distinct_NoDup. Qed.
Lemma mk_term_nil fs : mk_term fs = [] -> fs = [].
Proof.
  intros H. pose proof (mk_term_same fs) as S. rewrite H in S. destruct fs as [|x fs]; [reflexivity|].
  exfalso. apply (proj2 (S x)). now left.
Qed.

Lemma uniq_terms_in ts t : In t (uniq_terms ts) -> In t ts.
Proof. apply uniqueify_incl. Qed.
Lemma uniq_terms_complete ts t : In t ts -> exists u, In u (uniq_terms ts) /\ same_set t u.
Proof.
  intros H. destruct (uniqueify_complete term_eqb term_eqb_refl ts t H) as [u [Hu E]].
  exists u. split; [exact Hu|]. now apply term_eqb_spec.
Qed.
Lemma uniq_terms_distinct ts : distinct term_eqb (uniq_terms ts).
Proof. apply uniqueify_distinct, term_eqb_sym. Qed.
Lemma uniq_terms_id ts : distinct term_eqb ts -> uniq_terms ts = ts.
Proof. apply uniqueify_id, term_eqb_sym. Qed.
Lemma uniq_terms_idem ts : uniq_terms (uniq_terms ts) = uniq_terms ts.
Proof. apply uniqueify_idem, term_eqb_sym. Qed.
Lemma uniq_terms_absorb l1 l2 : (forall x, In x l2 -> exists y, In y l1 /\ same_set x y) ->
  uniq_terms (l1 ++ l2) = uniq_terms l1.
Proof.
  intros H. apply (uniqueify_app_absorb term_eqb term_eqb_refl term_eqb_trans).
  intros x Hx. destruct (H x Hx) as [y [Hy E]]. exists y. split; auto. now apply term_eqb_spec.
Qed.

Lemma term_in_spec t ts : term_in t ts = true <-> exists u, In u ts /\ same_set t u.
Proof.
  unfold term_in. rewrite existsb_exists. split; intros [u [H E]]; exists u; (split; [exact H|]);
    now apply term_eqb_spec.
Qed.

(** * [lists] *)
Lemma lists_closed ts P s s' : lists ts P -> same_set s s' -> P s -> P s'.
Proof.
  intros H E Hs. apply H in Hs. destruct Hs as [t [Ht Et]]. apply H. exists t. split; [exact Ht|].
  eapply same_set_trans; [apply same_set_sym; exact E|exact Et].
Qed.
Lemma lists_in ts P t : lists ts P -> In t ts -> P t.
Proof. intros H Ht. apply H. exists t. split; [exact Ht|apply same_set_refl]. Qed.
Lemma lists_ext ts P Q : lists ts P -> (forall s, P s <-> Q s) -> lists ts Q.
Proof. intros H E s. rewrite (H s). apply E. Qed.
Lemma lists_uniq ts P : lists ts P -> lists (uniq_terms ts) P.
Proof.
  intros H s. rewrite <- (H s). split; intros [t [Ht Es]].
  - exists t. split; [now apply uniq_terms_in|exact Es].
  - destruct (uniq_terms_complete ts t Ht) as [u [Hu Eu]]. exists u. split; [exact Hu|].
    eapply same_set_trans; eauto.
Qed.
Lemma lists_app ts us P Q : lists ts P -> lists us Q -> lists (ts ++ us) (fun s => P s \/ Q s).
Proof.
  intros H1 H2 s. rewrite <- (H1 s), <- (H2 s). split.
  - intros [t [Ht E]]. apply in_app_iff in Ht. destruct Ht; [left|right]; eauto.
  - intros [[t [Ht E]]|[t [Ht E]]]; exists t; rewrite in_app_iff; auto.
Qed.
Lemma lists_diff ts us P Q : lists ts P -> lists us Q ->
  lists (filter (fun t => negb (term_in t us)) ts) (fun s => P s /\ ~ Q s).
Proof.
  intros H1 H2 s. split.
  - intros [t [Ht E]]. apply filter_In in Ht. destruct Ht as [Ht Hn]. split.
    + apply H1. eauto.
    + intros HQ. apply H2 in HQ. destruct HQ as [u [Hu Eu]].
      apply negb_true_iff in Hn. assert (term_in t us = true); [|congruence].
      apply term_in_spec. exists u. split; [exact Hu|]. eapply same_set_trans; [apply same_set_sym; exact E|exact Eu].
  - intros [HP HQ]. apply H1 in HP. destruct HP as [t [Ht E]]. exists t. split; [|exact E].
    apply filter_In. split; [exact Ht|]. apply negb_true_iff. destruct (term_in t us) eqn:Et; [|reflexivity].
    exfalso. apply HQ. apply term_in_spec in Et. destruct Et as [u [Hu Eu]]. apply H2. exists u.
    split; [exact Hu|]. eapply same_set_trans; eauto.
Qed.
Lemma in_interact ts us t : In t (interact_terms ts us) <->
  exists x y, In x ts /\ In y us /\ t = mk_term (x ++ y).
Proof.
  unfold interact_terms. rewrite in_flat_map. split.
  - intros [x [Hx H]]. apply in_map_iff in H. destruct H as [y [<- Hy]]. eauto.
  - intros [x [y [Hx [Hy ->]]]]. exists x. split; [exact Hx|]. apply in_map_iff. eauto.
Qed.
Lemma lists_interact ts us P Q : lists ts P -> lists us Q ->
  lists (interact_terms ts us) (fun s => exists x y, P x /\ Q y /\ same_set s (x ++ y)).
Proof.
  intros H1 H2 s. split.
  - intros [t [Ht E]]. apply in_interact in Ht. destruct Ht as [x [y [Hx [Hy ->]]]].
    exists x, y. split; [eapply lists_in; eauto|]. split; [eapply lists_in; eauto|].
    eapply same_set_trans; [exact E|apply mk_term_same].
  - intros [x [y [Hx [Hy E]]]]. apply H1 in Hx. apply H2 in Hy.
    destruct Hx as [t [Ht Et]], Hy as [u [Hu Eu]]. exists (mk_term (t ++ u)).
    split; [apply in_interact; eauto|]. eapply same_set_trans; [exact E|].
    eapply same_set_trans; [|apply same_set_sym, mk_term_same]. now apply same_set_app.
Qed.
Lemma lists_nil : lists [] (fun _ => False).
Proof. intros s. split; [intros [t [[] _]]|tauto]. Qed.
Lemma lists_single t : lists [t] (fun s => same_set s t).
Proof. intros s. split; [intros [u [[<-|[]] E]]; exact E|]. intros E. exists t. split; [now left|exact E]. Qed.

(** * Rounds of interaction *)
Lemma cross_interact ts us : cross ts us = uniq_terms (interact_terms ts us).
Proof. reflexivity. Qed.

(* [round] is what one has after [j] further rounds *)
Definition spans (ts : list term) (j : nat) (s : list string) : Prop :=
  exists xs, length xs = j /\ Forall (fun x => In x ts) xs /\ same_set s (List.concat xs).

Lemma lists_cross ts r j : lists r (spans ts j) -> lists (cross ts r) (spans ts (S j)).
Proof.
  intros H. rewrite cross_interact. apply lists_uniq.
  assert (Hts : lists ts (fun s => exists t, In t ts /\ same_set s t)) by (intros s; tauto).
  eapply lists_ext; [apply (lists_interact _ _ _ _ Hts H)|]. intros s. split.
  - intros [x [y [[t [Ht Et]] [[xs [Hl [Hf Ey]]] Es]]]]. exists (t :: xs). cbn. split; [now rewrite Hl|].
    split; [constructor; auto|]. eapply same_set_trans; [exact Es|]. now apply same_set_app.
  - intros [xs [Hl [Hf Es]]]. destruct xs as [|x xs]; [discriminate|]. cbn in Hl, Es. inversion Hf; subst.
    exists x, (List.concat xs). split; [exists x; split; [assumption|apply same_set_refl]|].
    split; [|exact Es]. exists xs. repeat split; auto; tauto.
Qed.
Lemma lists_rounds ts k : forall r j, lists r (spans ts j) ->
  lists (rounds ts r k) (fun s => exists i, j <= i < j + k /\ spans ts i s).
Proof.
  induction k as [|k IH]; intros r j H; cbn [rounds].
  - eapply lists_ext; [apply lists_nil|]. intros s; split; [tauto|]. intros [i [Hi _]]. lia.
  - eapply lists_ext; [apply lists_app; [exact H|apply IH, lists_cross, H]|].
    intros s. cbn beta. split.
    + intros [Hs|[i [Hi Hs]]]; [exists j|exists i]; (split; [lia|exact Hs]).
    + intros [i [Hi Hs]]. destruct (Nat.eq_dec i j) as [->|Hne]; [now left|right]. exists i. split; [lia|exact Hs].
Qed.
Lemma lists_rounds_1 ts k :
  lists (rounds ts ts k) (fun s => exists i, 1 <= i < 1 + k /\ spans ts i s).
Proof.
  apply lists_rounds. intros s. split.
  - intros [t [Ht E]]. exists [t]. cbn. rewrite app_nil_r. repeat split; auto; apply E.
  - intros [xs [Hl [Hf E]]]. destruct xs as [|x [|]]; try discriminate. cbn in E. rewrite app_nil_r in E.
    inversion Hf; subst. exists x. split; assumption.
Qed.

Lemma spans_reduce ts i s : 1 <= i -> spans ts i s -> exists j, 1 <= j <= length ts /\ spans ts j s.
Proof.
  intros Hi [xs [Hl [Hf E]]].
  set (ys := nodup (list_eq_dec string_dec) xs).
  exists (length ys). split; [split|].
  - destruct ys as [|y ys'] eqn:Ey; [|cbn; lia]. exfalso. destruct xs as [|x xs]; [cbn in Hl; lia|].
    assert (Hx : In x ys) by (apply nodup_In; now left). rewrite Ey in Hx. destruct Hx.
  - apply NoDup_incl_length; [apply NoDup_nodup|]. intros y Hy. apply nodup_In in Hy.
    rewrite Forall_forall in Hf. auto.
  - exists ys. split; [reflexivity|]. split.
    + apply Forall_forall. intros y Hy. apply nodup_In in Hy. rewrite Forall_forall in Hf. auto.
    + eapply same_set_trans; [exact E|]. intros f. rewrite !in_concat.
      split; intros [x [Hx Hfx]]; exists x; (split; [|exact Hfx]); now apply nodup_In in Hx || apply nodup_In.
Qed.

Lemma rounds_app ts a : forall r b, exists r', rounds ts r (a + b) = rounds ts r a ++ rounds ts r' b.
Proof.
  induction a as [|a IH]; intros r b; cbn [rounds plus].
  - exists r. reflexivity.
  - destruct (IH (cross ts r) b) as [r' E]. exists r'. rewrite E, app_assoc. reflexivity.
Qed.

Lemma rounds_saturate ts k : length ts <= k ->
  uniq_terms (rounds ts ts k) = uniq_terms (rounds ts ts (length ts)).
Proof.
  intros Hk. destruct (rounds_app ts (length ts) ts (k - length ts)) as [r' E].
  replace (length ts + (k - length ts)) with k in E by lia. rewrite E.
  apply uniq_terms_absorb. intros x Hx.
  assert (Hin : In x (rounds ts ts k)) by (rewrite E, in_app_iff; now right).
  pose proof (lists_in _ _ _ (lists_rounds_1 ts k) Hin) as [i [Hi Hs]].
  destruct (spans_reduce ts i x (proj1 Hi) Hs) as [j [Hj Hsj]].
  destruct (proj2 (lists_rounds_1 ts (length ts) x)) as [t [Ht Et]]; [|eauto].
  exists j. split; [lia|exact Hsj].
Qed.

Lemma interaction_ok l r : ie_intercept l = false -> ie_intercept r = false ->
  interaction l r = Ok (MkIE false None false (cross (ie_terms l) (ie_terms r))).
Proof. intros H1 H2. unfold interaction, check_interactable. rewrite H1, H2. reflexivity. Qed.

Lemma power_loop_ok l n : ie_intercept l = false -> forall big all, ie_intercept big = false ->
  power_loop l n big all = Ok (all ++ rounds (ie_terms l) (cross (ie_terms l) (ie_terms big)) n).
Proof.
  intros Hl. induction n as [|n IH]; intros big all Hb; cbn [power_loop rounds].
  - now rewrite app_nil_r.
  - rewrite interaction_ok by assumption. cbn [bind]. rewrite IH by reflexivity. cbn [ie_terms].
    now rewrite app_assoc.
Qed.

(* the whole power computation *)
Lemma power_ok l p : ie_intercept l = false -> (1 <= p)%Z ->
  exists all, power_loop l (Z.to_nat (Z.min (Z.of_nat (length (ie_terms l))) p - 1)) l (ie_terms l) = Ok all /\
    uniq_terms all = uniq_terms (rounds (ie_terms l) (ie_terms l) (Z.to_nat p)).
Proof.
  intros Hl Hp. rewrite power_loop_ok by assumption. eexists; split; [reflexivity|].
  set (ts := ie_terms l).
  change (ts ++ rounds ts (cross ts ts) ?n) with (rounds ts ts (S n)).
  destruct (Nat.eq_dec (length ts) 0) as [E0|E0].
  - destruct ts; [|discriminate]. rewrite (rounds_saturate [] (Z.to_nat p)) by (cbn; lia).
    rewrite (rounds_saturate [] (S _)) by (cbn; lia). reflexivity.
  - destruct (Z.le_gt_cases (Z.of_nat (length ts)) p) as [L|L].
    + rewrite Z.min_l by lia. replace (S (Z.to_nat (Z.of_nat (length ts) - 1))) with (length ts) by lia.
      symmetry. apply rounds_saturate. lia.
    + rewrite Z.min_r by lia. f_equal. f_equal. lia.
Qed.

(** * Evaluation *)
Section Eval.
Variable norm : string -> string.

Lemma require_expr_ok n r e : require_expr n r = Ok e <-> r = Ok (VExpr e).
Proof.
  unfold require_expr. destruct r as [[x|m]|x]; cbn; split; intros H; try discriminate;
    injection H as <-; reflexivity.
Qed.
Lemma ret_ie_ok r v : ret_ie r = Ok v <-> exists e, r = Ok e /\ v = VExpr e.
Proof.
  unfold ret_ie. destruct r as [e|x]; cbn; split.
  - intros [= <-]. eauto.
  - intros [e' [[= <-] ->]]. reflexivity.
  - discriminate.
  - intros [e' [? _]]. discriminate.
Qed.
Lemma mk_ie_ok i o r ts e : mk_ie i o r ts = Ok e ->
  e = MkIE i o r (uniq_terms ts) /\ (i = true -> r = false) /\ (i = true -> o <> None).
Proof.
  unfold mk_ie, assert. destruct (implb i (is_some o)) eqn:E1; [|discriminate].
  destruct (negb (i && r)) eqn:E2; [|discriminate]. intros [= <-].
  destruct i, r, o; cbn in *; repeat split; congruence.
Qed.
Lemma mk_ie_plain ts : mk_ie false None false ts = Ok (MkIE false None false (uniq_terms ts)).
Proof. reflexivity. Qed.
Lemma mk_ie_removed ts : mk_ie false None true ts = Ok (MkIE false None true (uniq_terms ts)).
Proof. reflexivity. Qed.

Lemma bind_ok {A B} (r : result A) (k : A -> result B) b : bind r k = Ok b <-> exists a, r = Ok a /\ k a = Ok b.
Proof.
  destruct r as [a|x]; cbn; split; [eauto| |discriminate|].
  - now intros [a' [[= <-] H]].
  - intros [a' [? _]]. discriminate.
Qed.
Lemma check_ok e u : check_interactable e = Ok u <-> ie_intercept e = false.
Proof. unfold check_interactable. destruct (ie_intercept e), u; split; congruence. Qed.

Definition good_terms (ts : list term) : Prop :=
  distinct term_eqb ts /\ Forall (fun t => NoDup t /\ t <> []) ts.

Lemma good_uniq ts : Forall (fun t => NoDup t /\ t <> []) ts -> good_terms (uniq_terms ts).
Proof.
  intros H. split; [apply uniq_terms_distinct|]. rewrite Forall_forall in *. intros t Ht.
  apply H. now apply uniq_terms_in.
Qed.
Lemma good_interact ts us : Forall (fun t => NoDup t /\ t <> []) us ->
  Forall (fun t => NoDup t /\ t <> []) (interact_terms ts us).
Proof.
  intros H. apply Forall_forall. intros t Ht. apply in_interact in Ht. destruct Ht as [x [y [_ [Hy ->]]]].
  split; [apply mk_term_NoDup|]. intros E. apply mk_term_nil in E. apply app_eq_nil in E. destruct E as [_ ->].
  rewrite Forall_forall in H. now apply H in Hy.
Qed.
Lemma good_rounds ts k : Forall (fun t => NoDup t /\ t <> []) ts -> forall r,
  Forall (fun t => NoDup t /\ t <> []) r -> Forall (fun t => NoDup t /\ t <> []) (rounds ts r k).
Proof.
  intros H. induction k as [|k IH]; intros r Hr; cbn [rounds]; [constructor|].
  apply Forall_app. split; [exact Hr|]. apply IH. rewrite cross_interact. apply good_uniq, good_interact, Hr.
Qed.

(* what is known of a value returned for the node [n] *)
Definition denotes (n : node) (e : inter_expr) : Prop :=
  good_terms (ie_terms e) /\ lists (ie_terms e) (mem norm n) /\
  ie_intercept e = is_present (status n) /\ ie_removed e = is_removed (status n) /\
  (ie_intercept e = true -> ie_origin e <> None).

Lemma exponent_ok b p : exponent b = Ok p -> (1 <= p)%Z -> exponent_is b p.
Proof.
  unfold exponent, is_type, exponent_is, lit.
  destruct (ttype_eqb_spec (n_type b) (TName "ONE")) as [E1|E1];
    [|destruct (ttype_eqb_spec (n_type b) (TName "NUMBER")) as [E2|E2]]; cbn [orb].
  3: { intros [= <-]. lia. }
  all: destruct (n_token b) as [tok|] eqn:Et; [|discriminate];
    destruct (tk_extra tok) as [text|] eqn:Ex; [|discriminate];
    destruct (py_int text) as [z|] eqn:Ep; intros [= <-] Hp; [|lia];
    (split; [tauto|]); exists tok, text; rewrite <- py_int_spec; auto.
Qed.
Lemma exponent_is_det b p q : exponent_is b p -> exponent_is b q -> p = q.
Proof. intros [_ [t [x [H1 [H2 H3]]]]] [_ [t' [x' [H1' [H2' H3']]]]]. apply py_int_spec in H3, H3'. congruence. Qed.
Lemma exponent_complete b p : exponent_is b p -> exponent b = Ok p.
Proof.
  intros [Ht [tok [text [E1 [E2 E3]]]]]. apply py_int_spec in E3. unfold exponent, is_type.
  replace (_ || _) with true.
  - now rewrite E1, E2, E3.
  - symmetry. apply orb_true_iff. destruct Ht as [Ht|Ht]; unfold lit in Ht; rewrite Ht; [left|right];
      cbn; reflexivity.
Qed.

Lemma litb_spec s n : litb s n = true <-> lit s n.
Proof. unfold litb, lit. destruct (ttype_eqb_spec (n_type n) (TName s)); split; congruence. Qed.
Lemma is_type_litb s n : is_type s n = litb s n.
Proof. reflexivity. Qed.

Definition is_expr_node (n : node) : Prop := forall e, eval_any norm n = Ok (VExpr e) -> denotes n e.

Lemma mem_leaf_not ty tok org s : ty <> "PYTHON_EXPR"%string -> ~ mem norm (Node (TName ty) tok [] org) s.
Proof. intros H [E _]. contradiction. Qed.

Lemma lit_no_mem b s : lit "ZERO" b \/ lit "ONE" b -> ~ mem norm b s.
Proof.
  destruct b as [ty tok args org]. unfold lit; cbn [n_type].
  intros [-> | ->] H; destruct args as [|x [|y [|]]]; cbn in H; intuition discriminate.
Qed.

Lemma denotes_ext n e P : denotes n e -> (forall s, mem norm n s <-> P s) -> lists (ie_terms e) P.
Proof. intros [_ [H _]] E. eapply lists_ext; eauto. Qed.

(* helper: build [denotes] from its parts *)
Lemma denotes_mk n i o r ts : Forall (fun t => NoDup t /\ t <> []) ts -> lists ts (mem norm n) ->
  i = is_present (status n) -> r = is_removed (status n) -> (i = true -> o <> None) ->
  denotes n (MkIE i o r (uniq_terms ts)).
Proof.
  intros H1 H2 H3 H4 H5. repeat split; cbn; auto; try apply good_uniq; auto.
  - apply (proj1 (lists_uniq _ _ H2 s)).
  - apply (proj2 (lists_uniq _ _ H2 s)).
Qed.

Ltac strcase ty s := destruct (String.eqb_spec ty s) as [?|?]; [subst ty|].

Lemma eval_denotes n : is_expr_node n.
Proof.
  induction n as [ty tok args org IH] using node_ind2. intros e He.
  destruct ty as [| |ty]; try discriminate.
  destruct args as [|a [|b [|c args]]].
  - (* leaves *)
    cbn [eval_any] in He.
    destruct (String.eqb_spec ty "ZERO") as [->|N1].
    { apply ret_ie_ok in He. destruct He as [e' [He [= ->]]]. apply mk_ie_ok in He. destruct He as [-> _].
      apply denotes_mk; auto; [|discriminate]. eapply lists_ext; [apply lists_nil|].
      intros s. split; [tauto|]. apply mem_leaf_not. discriminate. }
    destruct (String.eqb_spec ty "ONE") as [->|N2].
    { apply ret_ie_ok in He. destruct He as [e' [He [= ->]]]. apply mk_ie_ok in He. destruct He as [-> [_ Ho]].
      apply denotes_mk; auto. eapply lists_ext; [apply lists_nil|].
      intros s. split; [tauto|]. apply mem_leaf_not. discriminate. }
    destruct (String.eqb_spec ty "NUMBER") as [->|N3]; [discriminate|].
    destruct (String.eqb_spec ty "PYTHON_EXPR") as [->|N4]; [|discriminate].
    destruct tok as [t|]; [|discriminate]. destruct (tk_extra t) as [code|] eqn:Ex; [|discriminate].
    apply ret_ie_ok in He. destruct He as [e' [He [= ->]]]. apply mk_ie_ok in He. destruct He as [-> _].
    apply denotes_mk; auto; [| |discriminate].
    + constructor; [|constructor]. split; [apply mk_term_NoDup|]. discriminate.
    + eapply lists_ext; [apply lists_single|]. intros s. cbn [mem]. split.
      * intros H. split; [reflexivity|]. exists t, code. auto.
      * intros [_ [t' [code' [[= <-] [Ex' H]]]]]. rewrite Ex in Ex'. injection Ex' as <-. exact H.
  - (* unary *)
    inversion IH as [|? ? IHa _]; subst. cbn [eval_any] in He.
    destruct (String.eqb_spec ty "~") as [->|N1].
    { apply bind_ok in He. destruct He as [r [_ He]]. apply bind_ok in He. destruct He as [l [_ He]]. discriminate. }
    destruct (String.eqb_spec ty "+") as [->|N2].
    { apply bind_ok in He. destruct He as [r [Hr [= ->]]]. apply require_expr_ok in Hr.
      destruct (IHa e Hr) as [H1 [H2 [H3 [H4 H5]]]]. split; [exact H1|]. split; [|auto].
      eapply lists_ext; [exact H2|]. intros s. cbn [mem]. tauto. }
    destruct (String.eqb_spec ty "-") as [->|N3]; [|discriminate].
    change (is_type "ZERO" a) with (litb "ZERO" a) in He. change (is_type "ONE" a) with (litb "ONE" a) in He.
    assert (Hmem : forall s, ~ mem norm (Node (TName "-") tok [a] org) s) by (intros s [? _]; discriminate).
    destruct (litb "ZERO" a) eqn:L0.
    { apply ret_ie_ok in He. destruct He as [e' [He [= ->]]]. apply mk_ie_ok in He. destruct He as [-> [_ Ho]].
      apply denotes_mk; auto; cbn [status]; rewrite ?L0; auto.
      eapply lists_ext; [apply lists_nil|]. intros s. specialize (Hmem s). tauto. }
    destruct (litb "ONE" a) eqn:L1; [|discriminate].
    apply ret_ie_ok in He. destruct He as [e' [He [= ->]]]. apply mk_ie_ok in He. destruct He as [-> _].
    apply denotes_mk; auto; cbn [status]; rewrite ?L0; auto; [|discriminate].
    eapply lists_ext; [apply lists_nil|]. intros s. specialize (Hmem s). tauto.
  - (* binary *)
    inversion IH as [|? ? IHa IH']; subst. inversion IH' as [|? ? IHb _]; subst. clear IH IH'.
    cbn [eval_any] in He.
    destruct (String.eqb_spec ty "~") as [->|N1].
    { apply bind_ok in He. destruct He as [r [_ He]]. apply bind_ok in He. destruct He as [l [_ He]]. discriminate. }
    destruct (String.eqb_spec ty "+") as [->|N2].
    { apply bind_ok in He. destruct He as [l [Hl He]]. apply require_expr_ok in Hl.
      destruct (IHa l Hl) as [[A1 A1'] [A2 [A3 [A4 A5]]]].
      rewrite is_type_litb in He. destruct (litb "ZERO" b) eqn:L0.
      - apply ret_ie_ok in He. destruct He as [e' [He [= ->]]]. apply mk_ie_ok in He. destruct He as [-> _].
        apply denotes_mk; auto; cbn [status]; rewrite ?L0; auto; [|discriminate].
        eapply lists_ext; [exact A2|]. intros s. apply litb_spec in L0.
        pose proof (lit_no_mem b s (or_introl L0)) as Hb. cbn [mem].
        intuition (try discriminate).
      - apply bind_ok in He. destruct He as [r [Hr He]]. apply require_expr_ok in Hr.
        destruct (IHb r Hr) as [[B1 B1'] [B2 [B3 [B4 B5]]]].
        assert (L : lists (ie_terms l ++ ie_terms r) (mem norm (Node (TName "+") tok [a; b] org))).
        { eapply lists_ext; [apply lists_app; eauto|]. intros s. cbn [mem]. intuition (try discriminate). }
        assert (G : Forall (fun t => NoDup t /\ t <> []) (ie_terms l ++ ie_terms r)) by (apply Forall_app; auto).
        destruct (ie_intercept r) eqn:Ir; apply ret_ie_ok in He; destruct He as [e' [He [= ->]]];
          apply mk_ie_ok in He; destruct He as [-> [_ Ho]]; apply denotes_mk; auto; cbn [status];
          rewrite ?L0, <- ?B3; auto. }
    destruct (String.eqb_spec ty "-") as [->|N3].
    { apply bind_ok in He. destruct He as [l [Hl He]]. apply require_expr_ok in Hl.
      destruct (IHa l Hl) as [[A1 A1'] [A2 [A3 [A4 A5]]]].
      change (is_type "ZERO" b) with (litb "ZERO" b) in He. change (is_type "ONE" b) with (litb "ONE" b) in He.
      assert (Lit : lit "ZERO" b \/ lit "ONE" b -> lists (ie_terms l) (mem norm (Node (TName "-") tok [a; b] org))).
      { intros Hb. eapply lists_ext; [exact A2|]. intros s.
        pose proof (lit_no_mem b s Hb) as Hn. cbn [mem]. intuition (try discriminate). }
      destruct (litb "ZERO" b) eqn:L0; [|destruct (litb "ONE" b) eqn:L1].
      - apply ret_ie_ok in He. destruct He as [e' [He [= ->]]]. apply mk_ie_ok in He. destruct He as [-> [_ Ho]].
        apply litb_spec in L0 as L0'.
        apply denotes_mk; auto; cbn [status]; rewrite ?L0; auto.
      - apply ret_ie_ok in He. destruct He as [e' [He [= ->]]]. apply mk_ie_ok in He. destruct He as [-> _].
        apply litb_spec in L1 as L1'.
        apply denotes_mk; auto; cbn [status]; rewrite ?L0, ?L1; auto; discriminate.
      - apply bind_ok in He. destruct He as [r [Hr He]]. apply require_expr_ok in Hr.
        destruct (IHb r Hr) as [[B1 B1'] [B2 [B3 [B4 B5]]]].
        set (ts := filter (fun t => negb (term_in t (ie_terms r))) (ie_terms l)) in *.
        assert (L : lists ts (mem norm (Node (TName "-") tok [a; b] org))).
        { eapply lists_ext; [apply lists_diff; eauto|]. intros s. cbn [mem]. intuition (try discriminate). }
        assert (G : Forall (fun t => NoDup t /\ t <> []) ts).
        { rewrite Forall_forall in *. intros t Ht. apply filter_In in Ht. apply A1'. tauto. }
        cbv zeta in He.
        destruct (ie_intercept r) eqn:Ir; apply ret_ie_ok in He; destruct He as [e' [He [= ->]]];
          apply mk_ie_ok in He; destruct He as [-> [_ Ho]]; apply denotes_mk; auto; cbn [status];
          rewrite ?L0, ?L1, <- ?B3; auto. }
    destruct (String.eqb_spec ty "*") as [->|N4].
    { apply bind_ok in He. destruct He as [l [Hl He]]. apply require_expr_ok in Hl.
      apply bind_ok in He. destruct He as [r [Hr He]]. apply require_expr_ok in Hr.
      apply bind_ok in He. destruct He as [i [Hi He]].
      destruct (IHa l Hl) as [[A1 A1'] [A2 [A3 [A4 A5]]]]. destruct (IHb r Hr) as [[B1 B1'] [B2 [B3 [B4 B5]]]].
      unfold interaction in Hi. apply bind_ok in Hi. destruct Hi as [u [_ Hi]].
      apply bind_ok in Hi. destruct Hi as [u' [_ Hi]]. apply mk_ie_ok in Hi. destruct Hi as [-> _].
      apply ret_ie_ok in He. destruct He as [e' [He [= ->]]]. apply mk_ie_ok in He. destruct He as [-> _].
      apply denotes_mk; auto; [| |discriminate].
      - apply Forall_app; split; [exact A1'|]. apply Forall_app; split; [exact B1'|].
        apply good_uniq, good_interact, B1'.
      - cbn [ie_terms]. eapply lists_ext; [apply lists_app; [exact A2|apply lists_app; [exact B2|]];
          apply lists_uniq, lists_interact; eauto|].
        intros s. cbn [mem]. intuition (try discriminate). }
    destruct (String.eqb_spec ty "/") as [->|N5].
    { apply bind_ok in He. destruct He as [l [Hl He]]. apply require_expr_ok in Hl.
      apply bind_ok in He. destruct He as [r [Hr He]]. apply require_expr_ok in Hr.
      apply bind_ok in He. destruct He as [u1 [_ He]].
      rewrite mk_ie_plain in He. cbn [bind] in He.
      apply bind_ok in He. destruct He as [i [Hi He]].
      destruct (IHa l Hl) as [[A1 A1'] [A2 [A3 [A4 A5]]]]. destruct (IHb r Hr) as [[B1 B1'] [B2 [B3 [B4 B5]]]].
      unfold interaction in Hi. apply bind_ok in Hi. destruct Hi as [u [_ Hi]].
      apply bind_ok in Hi. destruct Hi as [u' [_ Hi]]. apply mk_ie_ok in Hi. destruct Hi as [-> _].
      apply ret_ie_ok in He. destruct He as [e' [He [= ->]]]. apply mk_ie_ok in He. destruct He as [-> _].
      apply denotes_mk; auto; [| |discriminate].
      - apply Forall_app; split; [exact A1'|]. apply good_uniq, good_interact, B1'.
      - cbn [ie_terms]. eapply lists_ext; [apply lists_app; [exact A2|];
          apply lists_uniq, lists_interact; [apply lists_uniq, lists_single|exact B2]|].
        intros s. cbn [mem].
        assert (Hall : forall f, In f (mk_term (List.concat (ie_terms l))) <-> exists x, mem norm a x /\ In f x).
        { intros f. rewrite (mk_term_same _ f), in_concat. split.
          - intros [x [Hx Hf]]. exists x. split; [eapply lists_in; eauto|exact Hf].
          - intros [x [Hx Hf]]. apply A2 in Hx. destruct Hx as [t [Ht Et]]. exists t. split; [exact Ht|now apply Et]. }
        assert (Hd : (exists x y, same_set x (mk_term (List.concat (ie_terms l))) /\ mem norm b y /\ same_set s (x ++ y)) <->
          exists y, mem norm b y /\ forall f, In f s <-> (exists x, mem norm a x /\ In f x) \/ In f y).
        { split.
          - intros [x [y [Hx [Hy Hs]]]]. exists y. split; [exact Hy|]. intros f.
            rewrite (Hs f), in_app_iff, (Hx f), Hall. tauto.
          - intros [y [Hy Hs]]. exists (mk_term (List.concat (ie_terms l))), y.
            split; [apply same_set_refl|]. split; [exact Hy|]. intros f. rewrite in_app_iff, Hall. apply Hs. }
        rewrite Hd. intuition (try discriminate). }
    destruct (String.eqb_spec ty ":") as [->|N6].
    { apply bind_ok in He. destruct He as [l [Hl He]]. apply require_expr_ok in Hl.
      apply bind_ok in He. destruct He as [r [Hr He]]. apply require_expr_ok in Hr.
      apply ret_ie_ok in He. destruct He as [i [Hi [= ->]]].
      destruct (IHa l Hl) as [[A1 A1'] [A2 [A3 [A4 A5]]]]. destruct (IHb r Hr) as [[B1 B1'] [B2 [B3 [B4 B5]]]].
      unfold interaction in Hi. apply bind_ok in Hi. destruct Hi as [u [_ Hi]].
      apply bind_ok in Hi. destruct Hi as [u' [_ Hi]]. apply mk_ie_ok in Hi. destruct Hi as [-> _].
      apply denotes_mk; auto; [| |discriminate].
      - apply good_interact, B1'.
      - eapply lists_ext; [apply lists_interact; eauto|]. intros s. cbn [mem]. intuition (try discriminate). }
    destruct (String.eqb_spec ty "**") as [->|N7]; [|discriminate].
    apply bind_ok in He. destruct He as [l [Hl He]]. apply require_expr_ok in Hl.
    apply bind_ok in He. destruct He as [u1 [Hc He]]. apply check_ok in Hc.
    apply bind_ok in He. destruct He as [p [Hp He]].
    destruct (Z.ltb_spec p 1) as [|Hp1]; [discriminate|].
    destruct (IHa l Hl) as [[A1 A1'] [A2 [A3 [A4 A5]]]].
    destruct (power_ok l p Hc Hp1) as [all [Eall Eu]].
    cbv zeta in He. rewrite Eall in He. cbn [bind] in He.
    apply ret_ie_ok in He. destruct He as [e' [He [= ->]]]. apply mk_ie_ok in He. destruct He as [-> _].
    rewrite Eu. apply denotes_mk; auto; [| |discriminate].
    + apply good_rounds; exact A1'.
    + eapply lists_ext; [apply lists_rounds_1|]. intros s. apply (exponent_ok _ _ Hp) in Hp1 as Hex. cbn [mem]. split.
      * intros [i [Hi [xs [Hlen [Hf Es]]]]]. right; right; right; right; right. split; [reflexivity|].
        assert (Hlen' : @length (list string) xs = i) by exact Hlen.
        exists p, xs. split; [exact Hex|]. split; [intros ->; cbn in Hlen; lia|]. split; [lia|].
        split; [|exact Es]. eapply Forall_impl; [|exact Hf]. cbn. intros x Hx. eapply lists_in; eauto.
      * intros [[? _]|[[? _]|[[? _]|[[? _]|[[? _]|[_ [k [xs [Hk [Hne [Hlen [Hf Es]]]]]]]]]]]]; try discriminate.
        rewrite (exponent_is_det _ _ _ Hk Hex) in Hlen.
        assert (Hys : exists ys, length ys = length xs /\ Forall (fun x => In x (ie_terms l)) ys /\
                   same_set (List.concat xs) (List.concat ys)).
        { clear - Hf A2. induction Hf as [|x xs Hx Hf IHf].
          - exists []. repeat split; auto; tauto.
          - destruct IHf as [ys [E1 [E2 E3]]]. apply A2 in Hx. destruct Hx as [t [Ht Et]].
            exists (t :: ys). cbn. split; [now rewrite E1|]. split; [constructor; auto|].
            now apply same_set_app. }
        destruct Hys as [ys [E1 [E2 E3]]]. exists (length ys). split.
        -- destruct xs; [congruence|]. cbn [length] in *. lia.
        -- exists ys. split; [reflexivity|]. split; [exact E2|]. eapply same_set_trans; eauto.
  - cbn in He. discriminate.
Qed.

Variable code : string.
Definition perr {A} (r : result A) : Prop :=
  exists msg o, r = Err (PatsyError msg (Some o)) /\ o_code o = code.
Definition here (n : node) : Prop := exists o, n_origin n = Some o /\ o_code o = code.
Definition fine (n : node) : Prop :=
  (exists e, eval_any norm n = Ok (VExpr e) /\ sensible n /\
             (ie_intercept e = true -> exists o, ie_origin e = Some (Some o) /\ o_code o = code)) \/
  (~ sensible n /\ ((exists m, eval_any norm n = Ok (VModel m)) \/ perr (eval_any norm n))).

Lemma fine_require n : here n -> fine n ->
  (exists e, require_expr n (eval_any norm n) = Ok e /\ eval_any norm n = Ok (VExpr e) /\ sensible n /\
             (ie_intercept e = true -> exists o, ie_origin e = Some (Some o) /\ o_code o = code)) \/
  (~ sensible n /\ perr (require_expr n (eval_any norm n))).
Proof.
  intros Hn [[e [E H]]|[Hs [[m E]|[msg [o [E Ho]]]]]].
  - left. exists e. rewrite E. repeat split; auto; tauto.
  - right. split; [exact Hs|]. rewrite E. cbn. destruct Hn as [o [-> Ho]]. eexists _, _; (split; [reflexivity|eassumption]).
  - right. split; [exact Hs|]. rewrite E. eexists _, _; (split; [reflexivity|eassumption]).
Qed.

Lemma formula_tree_origin n : formula_tree code n -> here n.
Proof. intros H; destruct H; eexists; split; try reflexivity; assumption. Qed.

Lemma check_fine e : (ie_intercept e = true -> exists o, ie_origin e = Some (Some o) /\ o_code o = code) ->
  (ie_intercept e = false /\ check_interactable e = Ok tt) \/
  (ie_intercept e = true /\ perr (check_interactable e)).
Proof.
  intros H. unfold check_interactable. destruct (ie_intercept e); [right|left; auto].
  destruct (H eq_refl) as [o [-> Ho]]. split; [reflexivity|]. eexists _, _; (split; [reflexivity|eassumption]).
Qed.

Lemma mk_ie_fine i o r ts : (i = true -> r = false) -> (i = true -> exists x, o = Some (Some x) /\ o_code x = code) ->
  exists e, mk_ie i o r ts = Ok e /\ (ie_intercept e = true -> exists x, ie_origin e = Some (Some x) /\ o_code x = code).
Proof.
  intros H1 H2. unfold mk_ie. destruct i.
  - rewrite (H1 eq_refl). destruct (H2 eq_refl) as [x [-> Hx]]. cbn. eexists; split; [reflexivity|]. cbn. eauto.
  - cbn. eexists; split; [reflexivity|]. cbn. discriminate.
Qed.

Lemma denotes_flags n e : eval_any norm n = Ok (VExpr e) ->
  (ie_intercept e = true <-> status n = Present) /\ (ie_intercept e = true -> ie_removed e = false).
Proof.
  intros H. apply eval_denotes in H. destruct H as [_ [_ [H1 [H2 _]]]]. rewrite H1, H2.
  destruct (status n); cbn; split; try split; congruence.
Qed.

Lemma present_dec n : {status n = Present} + {status n <> Present}.
Proof. destruct (status n); [right|left|right]; congruence. Qed.

Lemma eval_fine n : formula_tree code n -> fine n.
Proof.
  induction 1 as [ty t text o Hty Hx Ho|ty t a o Hty Ha IHa Ho|ty t a b o Hty Ha IHa Hb IHb Ho].
  - (* leaf *)
    cbn in Hty. destruct Hty as [<-|[<-|[<-|[<-|[]]]]].
    + left. eexists. cbn. rewrite Hx. cbn. split; [reflexivity|]. split; [discriminate|]. cbn. discriminate.
    + left. eexists. cbn. split; [reflexivity|]. split; [discriminate|]. cbn. discriminate.
    + left. eexists. cbn. split; [reflexivity|]. split; [discriminate|]. cbn. eauto.
    + right. split; [cbn; intros H; now apply H|]. right. eexists _, _; (split; [reflexivity|eassumption]).
  - (* unary *)
    destruct (fine_require a (formula_tree_origin a Ha) IHa) as [[e [Er [Ea [Sa Hoe]]]]|[Sa [msg [oe [Er Hoe]]]]].
    + cbn in Hty. destruct Hty as [<-|[<-|[<-|[]]]].
      * right. split; [cbn; intuition discriminate|]. left. cbn. rewrite Er. cbn. eauto.
      * left. exists e. cbn. rewrite Er. cbn. auto.
      * unfold fine. cbn [eval_any sensible String.eqb]. cbn.
        unfold is_type, lit.
        destruct (ttype_eqb_spec (n_type a) (TName "ZERO")) as [E0|E0];
          [|destruct (ttype_eqb_spec (n_type a) (TName "ONE")) as [E1|E1]].
        -- left. eexists. split; [reflexivity|]. split; [tauto|]. cbn. eauto.
        -- left. eexists. split; [reflexivity|]. split; [tauto|]. cbn. discriminate.
        -- right. split; [intuition discriminate|]. right. eexists _, _; (split; [reflexivity|eassumption]).
    + cbn in Hty. destruct Hty as [<-|[<-|[<-|[]]]].
      * right. split; [cbn; intuition discriminate|]. right. cbn. rewrite Er. cbn. eexists _, _; (split; [reflexivity|eassumption]).
      * right. split; [cbn; intuition discriminate|]. right. cbn. rewrite Er. cbn. eexists _, _; (split; [reflexivity|eassumption]).
      * unfold fine. cbn [eval_any sensible String.eqb]. cbn.
        unfold is_type, lit.
        destruct (ttype_eqb_spec (n_type a) (TName "ZERO")) as [E0|E0];
          [|destruct (ttype_eqb_spec (n_type a) (TName "ONE")) as [E1|E1]].
        -- left. eexists. split; [reflexivity|]. split; [tauto|]. cbn. eauto.
        -- left. eexists. split; [reflexivity|]. split; [tauto|]. cbn. discriminate.
        -- right. split; [intuition discriminate|]. right. eexists _, _; (split; [reflexivity|eassumption]).
  - (* binary *)
    destruct (fine_require a (formula_tree_origin a Ha) IHa) as [[l [El [Ela [Sa Hol]]]]|[Sa [msg [oe [El Hoe]]]]].
    2: { right. split.
      - cbn in Hty. destruct Hty as [<-|[<-|[<-|[<-|[<-|[<-|[<-|[]]]]]]]]; cbn; intuition discriminate.
      - right. cbn in Hty. destruct Hty as [<-|[<-|[<-|[<-|[<-|[<-|[<-|[]]]]]]]]; cbn; rewrite El; cbn;
          eexists _, _; (split; [reflexivity|eassumption]). }
    destruct (denotes_flags a l Ela) as [Fl Fl'].
    assert (Pow : fine (Node (TName "**") (Some t) [a; b] (Some o))).
    { unfold fine. cbn [eval_any String.eqb]. cbn. rewrite El. cbn [bind].
      destruct (check_fine l Hol) as [[Il ->]|[Il [msg [oe [-> Hoe]]]]]; cbn [bind].
      2: { right. split; [intuition congruence|]. right. eexists _, _; (split; [reflexivity|eassumption]). }
      assert (Sp : status a <> Present) by (rewrite <- Fl; congruence).
      unfold exponent, is_type.
      assert (Hleaf : forall s, n_type b = TName s -> (s = "ONE"%string \/ s = "NUMBER"%string) ->
         exists tok text, n_token b = Some tok /\ tk_extra tok = Some text).
      { intros s Es Hs. inversion Hb as [ty' t' text' o' H1 H2 Hc E|ty' t' a' o' H1 H2 Hc E|ty' t' a' b' o' H1 H2 H3 Hc E]; subst; cbn in *.
        - eauto.
        - injection Es as ->. intuition subst; discriminate.
        - injection Es as ->. intuition subst; discriminate. }
      destruct (ttype_eqb (n_type b) (TName "ONE") || ttype_eqb (n_type b) (TName "NUMBER")) eqn:Et.
      - assert (Ht : lit "ONE" b \/ lit "NUMBER" b).
        { apply orb_true_iff in Et. destruct Et as [Et|Et]; [left|right]; now apply litb_spec. }
        assert (Htt : exists tok text, n_token b = Some tok /\ tk_extra tok = Some text).
        { destruct Ht as [Ht|Ht]; eapply Hleaf; try exact Ht; auto. }
        destruct Htt as [tok [text [Etk Etx]]]. rewrite Etk, Etx. cbn [bind].
        assert (Hdet : forall k, exponent_is b k -> py_int text = Some k).
        { intros k [_ [tok' [text' [E1 [E2 E3]]]]]. apply py_int_spec in E3. congruence. }
        destruct (py_int text) as [z|] eqn:Ez.
        + destruct (Z.ltb_spec z 1) as [Hz|Hz].
          * right. split.
            -- intros [[? _]|[[? _]|[_ [_ [_ [k [Hk Hk1]]]]]]]; [intuition discriminate|intuition discriminate|].
               apply Hdet in Hk. injection Hk as <-. lia.
            -- right. pose proof (formula_tree_origin _ Hb) as [ob [-> Hob]]. eexists _, _; (split; [reflexivity|eassumption]).
          * left. destruct (power_ok l z Il Hz) as [all [-> _]]. cbn [bind].
            eexists. split; [reflexivity|]. split; [|cbn; discriminate].
            right; right. split; [reflexivity|]. split; [exact Sa|]. split; [exact Sp|].
            exists z. split; [|exact Hz]. split; [exact Ht|]. apply py_int_spec in Ez. eauto.
        + right. split.
          * intros [[? _]|[[? _]|[_ [_ [_ [k [Hk Hk1]]]]]]]; [intuition discriminate|intuition discriminate|].
            apply Hdet in Hk. discriminate.
          * right. cbn. pose proof (formula_tree_origin _ Hb) as [ob [-> Hob]].
            eexists _, _; (split; [reflexivity|eassumption]).
      - right. split.
        + intros [[? _]|[[? _]|[_ [_ [_ [k [[Ht _] Hk1]]]]]]]; [intuition discriminate|intuition discriminate|].
          apply orb_false_iff in Et. unfold lit in Ht. destruct Ht as [Ht|Ht]; rewrite Ht in Et; cbn in Et;
            intuition discriminate.
        + right. cbn. pose proof (formula_tree_origin _ Hb) as [ob [-> Hob]].
          eexists _, _; (split; [reflexivity|eassumption]). }
    destruct (fine_require b (formula_tree_origin b Hb) IHb) as [[r [Er [Erb [Sb Hor]]]]|[Sb [msg [oe [Er Hoe]]]]].
    + (* both sides evaluate *)
      destruct (denotes_flags b r Erb) as [Fr Fr'].
      assert (Mul : forall op, In op ["*"; "/"; ":"]%string -> fine (Node (TName op) (Some t) [a; b] (Some o))).
      { intros op Hop. destruct (check_fine l Hol) as [[Il Cl]|[Il [msg [oe [Cl Hoe]]]]].
        2: { right. split.
          - cbn. intros Hs. assert (status a = Present) by now apply Fl. cbn in Hop. intuition subst; intuition discriminate.
          - right. cbn in Hop. destruct Hop as [<-|[<-|[<-|[]]]]; cbn; rewrite El; cbn [bind]; rewrite Er; cbn [bind];
              unfold interaction; rewrite Cl; eexists _, _; (split; [reflexivity|eassumption]). }
        assert (Sp : status a <> Present) by (rewrite <- Fl; congruence).
        destruct (check_fine r Hor) as [[Ir Cr]|[Ir [msg [oe [Cr Hoe]]]]].
        2: { right. split.
          - cbn. intros Hs. assert (status b = Present) by now apply Fr. cbn in Hop. intuition subst; intuition discriminate.
          - right. cbn in Hop. destruct Hop as [<-|[<-|[<-|[]]]]; cbn; rewrite El; cbn [bind]; rewrite Er; cbn [bind];
              unfold interaction; rewrite ?Cl; cbn; rewrite ?Cr; eexists _, _; (split; [reflexivity|eassumption]). }
        assert (Sq : status b <> Present) by (rewrite <- Fr; congruence).
        left. cbn in Hop. destruct Hop as [<-|[<-|[<-|[]]]]; cbn; rewrite El; cbn [bind]; rewrite Er; cbn [bind];
          unfold interaction; rewrite ?Cl; cbn; rewrite ?Cr; cbn; (eexists; split; [reflexivity|]); cbn;
          (split; [right; left; tauto|discriminate]). }
      cbn in Hty. destruct Hty as [<-|[<-|[<-|[<-|[<-|[<-|[<-|[]]]]]]]].
      * right. split; [cbn; intuition discriminate|]. left. cbn. rewrite El. cbn [bind]. rewrite Er. cbn. eauto.
      * left. cbn. rewrite El. cbn [bind]. destruct (is_type "ZERO" b) eqn:Eb.
        -- eexists. split; [reflexivity|]. split; [left; tauto|]. cbn. discriminate.
        -- rewrite Er. cbn [bind]. destruct (ie_intercept r) eqn:Ir.
           ++ destruct (mk_ie_fine true (ie_origin r) false (ie_terms l ++ ie_terms r)) as [e [-> He]]; auto.
              cbn. eexists. split; [reflexivity|]. split; [left; tauto|exact He].
           ++ destruct (mk_ie_fine (ie_intercept l) (ie_origin l) (ie_removed l) (ie_terms l ++ ie_terms r)) as [e [-> He]]; auto.
              cbn. eexists. split; [reflexivity|]. split; [left; tauto|exact He].
      * left. cbn. rewrite El. cbn [bind]. destruct (is_type "ZERO" b) eqn:Eb; [|destruct (is_type "ONE" b) eqn:Eb1].
        -- pose proof (formula_tree_origin _ Hb) as [ob [-> Hob]].
           eexists. split; [reflexivity|]. split; [left; tauto|]. cbn. eauto.
        -- eexists. split; [reflexivity|]. split; [left; tauto|]. cbn. discriminate.
        -- rewrite Er. cbn [bind]. destruct (ie_intercept r) eqn:Ir.
           ++ eexists. split; [reflexivity|]. split; [left; tauto|]. cbn. discriminate.
           ++ destruct (mk_ie_fine (ie_intercept l) (ie_origin l) (ie_removed l)
                (filter (fun t0 => negb (term_in t0 (ie_terms r))) (ie_terms l))) as [e [-> He]]; auto.
              cbn. eexists. split; [reflexivity|]. split; [left; tauto|exact He].
      * apply Mul. cbn; tauto.
      * apply Mul. cbn; tauto.
      * apply Mul. cbn; tauto.
      * exact Pow.
    + (* right side fails *)
      assert (Hlit : ~ lit "ZERO" b /\ ~ lit "ONE" b).
      { split; intros Hl; apply Sb; inversion Hb; subst; unfold lit in Hl; cbn in *; injection Hl as ->;
          try (intuition discriminate); discriminate. }
      destruct Hlit as [HZ HO].
      assert (EZ : is_type "ZERO" b = false) by (rewrite is_type_litb; destruct (litb "ZERO" b) eqn:L; [apply litb_spec in L; contradiction|reflexivity]).
      assert (EO : is_type "ONE" b = false) by (rewrite is_type_litb; destruct (litb "ONE" b) eqn:L; [apply litb_spec in L; contradiction|reflexivity]).
      cbn in Hty. destruct Hty as [<-|[<-|[<-|[<-|[<-|[<-|[<-|[]]]]]]]]; try exact Pow;
        (right; split; [cbn; intuition discriminate|]; right; cbn; rewrite El; cbn [bind];
         rewrite ?EZ, ?EO, Er; eexists _, _; (split; [reflexivity|eassumption])).
Qed.
End Eval.
