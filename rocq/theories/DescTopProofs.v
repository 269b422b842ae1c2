From Verif Require Import Base InfixModel InfixProofs UtilModel UtilSpec UtilProofs DescModel DescSpec DescProofs.

Section Top.
Variable norm : string -> string.

(** * Inversion of [from_tree] *)
Definition sides_of (l : option inter_expr) (r : inter_expr) : model_desc :=
  mk_model_desc
    (match l with Some l => maybe_add_intercept (ie_intercept l) (ie_terms l) | None => [] end)
    (maybe_add_intercept (negb (ie_removed r)) (ie_terms r)).

Lemma unknown_not_ok (tok : option token) (m : value) :
  Err (PatsyError "I don't know how to evaluate this operator" (option_map tk_origin tok)) = Ok m -> False.
Proof. discriminate. Qed.

Lemma eval_model n m : eval_any norm n = Ok (VModel m) ->
  (exists tok a o r, n = Node (TName "~") tok [a] o /\ eval_any norm a = Ok (VExpr r) /\ m = sides_of None r) \/
  (exists tok a b o l r, n = Node (TName "~") tok [a; b] o /\ eval_any norm a = Ok (VExpr l) /\
     eval_any norm b = Ok (VExpr r) /\ m = sides_of (Some l) r).
Proof.
  destruct n as [ty tok args o]. destruct ty as [| |ty]; try discriminate.
  assert (Hr : forall r, ret_ie r = Ok (VModel m) -> False).
  { intros r H. apply ret_ie_ok in H. destruct H as [e [_ H]]. discriminate. }
  destruct args as [|a [|b [|c args]]]; cbn [eval_any]; intros H.
  - repeat (match type of H with (if ?c then _ else _) = _ => destruct c end); try discriminate; try (now apply Hr in H).
    destruct tok as [t|]; [|discriminate]. destruct (tk_extra t); [|discriminate]. now apply Hr in H.
  - destruct (String.eqb_spec ty "~") as [->|_].
    { apply bind_ok in H. destruct H as [r [E H]]. apply require_expr_ok in E.
      left. exists tok, a, o, r. cbn in H. injection H as <-. auto. }
    destruct (String.eqb ty "+").
    { apply bind_ok in H. destruct H as [r [E H]]. discriminate. }
    destruct (String.eqb ty "-"); [|discriminate].
    destruct (is_type "ZERO" a); [now apply Hr in H|]. destruct (is_type "ONE" a); [now apply Hr in H|discriminate].
  - destruct (String.eqb_spec ty "~") as [->|_].
    { apply bind_ok in H. destruct H as [l [El H]]. apply bind_ok in H. destruct H as [r [Er H]].
      apply require_expr_ok in El, Er. right. exists tok, a, b, o, l, r. injection H as <-. auto 10. }
    exfalso.
    repeat (match type of H with
      | (if ?c then _ else _) = _ => destruct c
      | bind ?r _ = _ => apply bind_ok in H; destruct H as [? [_ H]]
      | ret_ie _ = _ => now apply Hr in H
      | Err _ = _ => discriminate
      end).
  - discriminate.
Qed.

Lemma eval_model_1 tok a o r : eval_any norm a = Ok (VExpr r) ->
  eval_any norm (Node (TName "~") tok [a] o) = Ok (VModel (sides_of None r)).
Proof. intros E. cbn. rewrite E. reflexivity. Qed.
Lemma eval_model_2 tok a b o l r : eval_any norm a = Ok (VExpr l) -> eval_any norm b = Ok (VExpr r) ->
  eval_any norm (Node (TName "~") tok [a; b] o) = Ok (VModel (sides_of (Some l) r)).
Proof. intros E1 E2. cbn. rewrite E1. cbn. rewrite E2. reflexivity. Qed.

Lemma from_tree_inv n m : from_tree norm n = Ok m <-> eval_any norm n = Ok (VModel m).
Proof.
  unfold from_tree. destruct (eval_any norm n) as [[e|x]|x]; cbn; split; intros H; try discriminate;
    injection H as <-; reflexivity.
Qed.

(** * Meaning of the sides *)
Lemma good_add b ts : good_terms ts -> distinct term_eqb (maybe_add_intercept b ts) /\
  Forall (@NoDup string) (maybe_add_intercept b ts).
Proof.
  intros [Hd Hf]. assert (Hn : Forall (@NoDup string) ts).
  { rewrite Forall_forall in *. intros t Ht. now apply Hf. }
  destruct b; cbn; [|auto]. split; [|constructor; [constructor|exact Hn]].
  constructor; [|exact Hd]. rewrite Forall_forall in *. intros t Ht.
  change [] with INTERCEPT. destruct (term_eqb INTERCEPT t) eqn:E; [|reflexivity]. apply term_eqb_spec in E.
  exfalso. destruct (Hf t Ht) as [_ H]. destruct t as [|x t]; [congruence|].
  apply (proj2 (E x)). now left.
Qed.
Lemma uniq_add b ts : good_terms ts -> uniq_terms (maybe_add_intercept b ts) = maybe_add_intercept b ts.
Proof. intros H. apply uniq_terms_id. now apply good_add. Qed.

Lemma lists_add b ts P : lists ts P ->
  lists (maybe_add_intercept b ts) (fun s => P s \/ (s = [] /\ b = true)).
Proof.
  intros H s. destruct b; cbn.
  - split.
    + intros [t [[<-|Ht] E]].
      * right. split; [|reflexivity]. destruct s as [|x s]; [reflexivity|]. exfalso. apply (proj1 (E x)). now left.
      * left. apply H. eauto.
    + intros [Hs|[-> _]].
      * apply H in Hs. destruct Hs as [t [Ht E]]. eauto.
      * exists INTERCEPT. split; [now left|apply same_set_refl].
  - rewrite (H s). intuition discriminate.
Qed.

Lemma rhs_lists a r : eval_any norm a = Ok (VExpr r) ->
  lists (uniq_terms (maybe_add_intercept (negb (ie_removed r)) (ie_terms r))) (rhs_mem norm a).
Proof.
  intros H. apply eval_denotes in H. destruct H as [G [L [_ [R _]]]]. rewrite (uniq_add _ _ G).
  eapply lists_ext; [apply (lists_add _ _ _ L)|]. intros s. unfold rhs_mem. rewrite R.
  destruct (status a); cbn; intuition congruence.
Qed.
Lemma lhs_lists a r : eval_any norm a = Ok (VExpr r) ->
  lists (uniq_terms (maybe_add_intercept (ie_intercept r) (ie_terms r))) (lhs_mem norm a).
Proof.
  intros H. apply eval_denotes in H. destruct H as [G [L [R _]]]. rewrite (uniq_add _ _ G).
  eapply lists_ext; [apply (lists_add _ _ _ L)|]. intros s. unfold lhs_mem. rewrite R.
  destruct (status a); cbn; intuition congruence.
Qed.

(** C11 *)
Lemma from_tree_meaning n m : from_tree norm n = Ok m ->
  (exists tok r o, n = Node (TName "~") tok [r] o /\ lhs_termlist m = [] /\
     lists (rhs_termlist m) (rhs_mem norm r)) \/
  (exists tok l r o, n = Node (TName "~") tok [l; r] o /\
     lists (lhs_termlist m) (lhs_mem norm l) /\ lists (rhs_termlist m) (rhs_mem norm r)).
Proof.
  intros H. apply from_tree_inv, eval_model in H.
  destruct H as [[tok [a [o [r [-> [E ->]]]]]]|[tok [a [b [o [l [r [-> [El [Er ->]]]]]]]]]].
  - left. exists tok, a, o. split; [reflexivity|]. split; [reflexivity|]. now apply rhs_lists.
  - right. exists tok, a, b, o. split; [reflexivity|]. split; [now apply lhs_lists|now apply rhs_lists].
Qed.

(** C12: no duplicates; the intercept, if there, is first. *)
Lemma distinct_nth ts : distinct term_eqb ts <->
  (forall i j t u, nth_error ts i = Some t -> nth_error ts j = Some u -> same_set t u -> i = j).
Proof.
  split.
  - intros H. induction H as [|x ts Hf Hd IH]; intros i j t u Hi Hj E; [destruct i; discriminate|].
    rewrite Forall_forall in Hf. destruct i as [|i], j as [|j]; cbn in Hi, Hj; auto.
    + injection Hi as <-. apply nth_error_In in Hj. specialize (Hf _ Hj). apply term_eqb_spec in E. congruence.
    + injection Hj as <-. apply nth_error_In in Hi. specialize (Hf _ Hi). apply same_set_sym in E.
      apply term_eqb_spec in E. congruence.
    + f_equal. eapply IH; eauto.
  - induction ts as [|x ts IH]; intros H; [constructor|]. constructor.
    + apply Forall_forall. intros y Hy. destruct (term_eqb x y) eqn:E; [|reflexivity].
      apply term_eqb_spec in E. apply In_nth_error in Hy. destruct Hy as [j Hj].
      discriminate (H 0 (S j) x y eq_refl Hj E).
    + apply IH. intros i j t u Hi Hj E. specialize (H (S i) (S j) t u Hi Hj E). congruence.
Qed.
Lemma tidy_nil : tidy [].
Proof. split; [intros [|]; discriminate|]. split; [constructor|]. intros []. Qed.
Lemma tidy_add b ts : good_terms ts -> tidy (uniq_terms (maybe_add_intercept b ts)).
Proof.
  intros G. rewrite (uniq_add _ _ G). destruct (good_add b ts G) as [H1 H2].
  split; [now apply distinct_nth|]. split; [exact H2|]. intros H. destruct b; cbn in *; [eauto|].
  destruct G as [_ G]. rewrite Forall_forall in G. destruct (G _ H). congruence.
Qed.
Lemma from_tree_tidy n m : from_tree norm n = Ok m -> tidy (lhs_termlist m) /\ tidy (rhs_termlist m).
Proof.
  intros H. apply from_tree_inv, eval_model in H.
  destruct H as [[tok [a [o [r [-> [E ->]]]]]]|[tok [a [b [o [l [r [-> [El [Er ->]]]]]]]]]].
  - apply eval_denotes in E. destruct E as [G _]. split; [apply tidy_nil|now apply tidy_add].
  - apply eval_denotes in El, Er. destruct El as [Gl _], Er as [Gr _]. split; now apply tidy_add.
Qed.

(** C12: order of + chains *)
Lemma proper_id ts : Forall (fun t : term => NoDup t /\ t <> []) ts -> proper ts = ts.
Proof.
  induction ts as [|t ts IH]; cbn; intros H; [reflexivity|].
  inversion H as [|? ? [_ Hne] Hf]; subst. destruct t as [|x t]; [congruence|]. cbn. f_equal. auto.
Qed.
Lemma proper_add b ts : good_terms ts -> proper (uniq_terms (maybe_add_intercept b ts)) = ts.
Proof.
  intros G. rewrite (uniq_add _ _ G). destruct b; cbn; apply proper_id; now destruct G.
Qed.
Lemma rhs_of_terms e r : eval_any norm e = Ok (VExpr r) ->
  exists m, from_tree norm (rhs_of e) = Ok m /\ proper (rhs_termlist m) = ie_terms r.
Proof.
  intros E. exists (sides_of None r). split; [apply from_tree_inv; now apply eval_model_1|].
  apply eval_denotes in E. destruct E as [G _]. now apply proper_add.
Qed.

Lemma uniq_terms_app_l l1 l2 : uniq_terms (uniq_terms l1 ++ l2) = uniq_terms (l1 ++ l2).
Proof.
  unfold uniq_terms, uniqueify_list. rewrite !uniqueify_loop_app. cbn [app].
  pose proof (uniq_terms_idem l1) as E. unfold uniq_terms, uniqueify_list in E. rewrite !E. reflexivity.
Qed.
Lemma uniq_loop_loop l : forall s seen,
  (forall y, existsb (term_eqb y) s = true -> existsb (term_eqb y) seen = true) ->
  uniqueify_loop term_eqb (uniqueify_loop term_eqb l s) seen = uniqueify_loop term_eqb l seen.
Proof.
  induction l as [|x l IH]; intros s seen H; cbn [uniqueify_loop]; [reflexivity|].
  destruct (existsb (term_eqb x) s) eqn:E.
  - rewrite (H _ E). now apply IH.
  - cbn [uniqueify_loop]. destruct (existsb (term_eqb x) seen) eqn:E2.
    + apply IH. intros y Hy. cbn in Hy. apply orb_true_iff in Hy. destruct Hy as [Hy|Hy]; [|auto].
      apply existsb_exists in E2. destruct E2 as [z [Hz Ez]]. apply existsb_exists. exists z. split; [exact Hz|].
      eapply term_eqb_trans; eauto.
    + f_equal. apply IH. intros y Hy. cbn in *. apply orb_true_iff in Hy. apply orb_true_iff.
      destruct Hy; auto.
Qed.
Lemma uniq_terms_app_r l1 l2 : uniq_terms (l1 ++ uniq_terms l2) = uniq_terms (l1 ++ l2).
Proof.
  unfold uniq_terms, uniqueify_list. rewrite !uniqueify_loop_app. f_equal. apply uniq_loop_loop.
  cbn. discriminate.
Qed.

Lemma mk_ie_terms i o r ts e : mk_ie i o r ts = Ok e -> ie_terms e = uniq_terms ts.
Proof. intros H. apply mk_ie_ok in H. destruct H as [-> _]. reflexivity. Qed.

Lemma chain_terms n es : plus_chain n es -> forall e, eval_any norm n = Ok (VExpr e) ->
  exists tss, Forall2 (fun x ts => exists r, eval_any norm x = Ok (VExpr r) /\ ie_terms r = ts) es tss /\
    ie_terms e = uniq_terms (List.concat tss).
Proof.
  induction 1 as [n|a b tok o es H IH Hz]; intros e He.
  - exists [ie_terms e]. split; [constructor; [eauto|constructor]|]. cbn. rewrite app_nil_r.
    symmetry. apply uniq_terms_id. apply eval_denotes in He. now destruct He as [[? _] _].
  - cbn in He. apply bind_ok in He. destruct He as [l [El He]]. apply require_expr_ok in El.
    destruct (is_type "ZERO" b) eqn:Eb; [exfalso; apply Hz; now apply litb_spec|].
    apply bind_ok in He. destruct He as [r [Er He]]. apply require_expr_ok in Er.
    destruct (IH l El) as [tss [HF E]].
    exists (tss ++ [ie_terms r]). split; [apply Forall2_app; [exact HF|constructor; [eauto|constructor]]|].
    rewrite concat_app. cbn. rewrite app_nil_r, <- uniq_terms_app_l, <- E.
    destruct (ie_intercept r); apply ret_ie_ok in He; destruct He as [e' [He Ee]]; injection Ee as <-;
      eapply mk_ie_terms; eauto.
Qed.

Lemma chain_order n es m : plus_chain n es -> from_tree norm (rhs_of n) = Ok m ->
  exists tss, Forall2 (fun x ts => exists mx, from_tree norm (rhs_of x) = Ok mx /\
                                       proper (rhs_termlist mx) = ts) es tss /\
    first_occurrences term_eqb [] (List.concat tss) (proper (rhs_termlist m)).
Proof.
  intros Hc H. apply from_tree_inv, eval_model in H.
  destruct H as [[tok [a [o [r [E1 [E ->]]]]]]|[tok [a [b [o [l [r [E1 _]]]]]]]]; [|discriminate].
  injection E1 as <- <- <-.
  destruct (chain_terms n es Hc r E) as [tss [HF Et]]. exists tss. split.
  - clear - HF. induction HF as [|x ts es tss [rx [Ex <-]] HF IH]; constructor; auto. now apply rhs_of_terms.
  - apply (first_occ_lemma term_eqb term_eqb_sym term_eqb_trans).
    unfold sides_of. cbn [rhs_termlist mk_model_desc]. rewrite proper_add; [|apply eval_denotes in E; apply E].
    symmetry. exact Et.
Qed.

(** C13 *)
Definition said (l : list (sign * item)) : option bool :=
  fold_left (fun acc x => match mention x with Some b => Some b | None => acc end) l None.
Lemma last_mention_said d l : last_mention d l = match said l with Some b => b | None => d end.
Proof.
  unfold last_mention, said.
  assert (G : forall l acc, fold_left (fun acc x => match mention x with Some b => b | None => acc end) l
            (match acc with Some b => b | None => d end) =
          match fold_left (fun acc x => match mention x with Some b => Some b | None => acc end) l acc with
          | Some b => b | None => d end).
  { induction l0 as [|x l0 IH]; intros acc; cbn; [reflexivity|]. rewrite <- IH. destruct (mention x); reflexivity. }
  apply (G l None).
Qed.
Definition status_of (o : option bool) : istatus :=
  match o with Some true => Present | Some false => Removed | None => Default end.
Lemma said_snoc l x : said (l ++ [x]) = match mention x with Some b => Some b | None => said l end.
Proof. unfold said. rewrite fold_left_app. reflexivity. Qed.

Lemma litb_false s n : ~ lit s n -> litb s n = false.
Proof. intros H. destruct (litb s n) eqn:E; [|reflexivity]. apply litb_spec in E. contradiction. Qed.
Lemma chain_status n l : chain n l -> status n = status_of (said l).
Proof.
  induction 1 as [n i Hi|n i t o Hi|n i t o Hi Hne|a b i l t o Hc IH Hi|a b i l t o Hc IH Hi].
  - destruct Hi as [t' o'|t' o'|n Hs H0 H1]; cbn; auto.
  - destruct Hi as [t' o'|t' o'|n Hs H0 H1]; cbn; auto.
  - destruct Hi as [t' o'|t' o'|n Hs H0 H1]; cbn; auto. congruence.
  - rewrite said_snoc. cbn [status String.eqb]. cbn.
    destruct Hi as [t' o'|t' o'|n Hs H0 H1]; cbn; auto.
    rewrite (litb_false _ _ H0), Hs. exact IH.
  - rewrite said_snoc. cbn [status String.eqb]. cbn.
    destruct Hi as [t' o'|t' o'|n Hs H0 H1]; cbn; auto.
    rewrite (litb_false _ _ H0), (litb_false _ _ H1), Hs. exact IH.
Qed.


Lemma add_starts b ts : good_terms ts ->
  (has_intercept (uniq_terms (maybe_add_intercept b ts)) <-> b = true) /\ (starts_with_intercept (uniq_terms (maybe_add_intercept b ts)) <-> b = true).
Proof.
  intros G. rewrite (uniq_add _ _ G). unfold has_intercept, starts_with_intercept.
  destruct G as [_ G]. rewrite Forall_forall in G.
  destruct b; cbn; split; split; intros H; try discriminate; auto.
  - now exists ts.
  - exfalso. destruct (G _ H). congruence.
  - exfalso. destruct H as [us ->]. destruct (G []); [now left|]. congruence.
Qed.

Lemma intercept_rule tok ls r o m l : from_tree norm (Node (TName "~") tok (ls ++ [r]) o) = Ok m ->
  chain r l ->
  (has_intercept (rhs_termlist m) <-> last_mention true l = true) /\ (starts_with_intercept (rhs_termlist m) <-> last_mention true l = true) /\ forall x lx, ls = [x] -> chain x lx ->
    (has_intercept (lhs_termlist m) <-> last_mention false lx = true) /\   (starts_with_intercept (lhs_termlist m) <-> last_mention false lx = true).
Proof.
  intros H Hc. apply from_tree_inv, eval_model in H.
  assert (R : forall e, eval_any norm r = Ok (VExpr e) -> last_mention true l = negb (ie_removed e)).
  { intros e He. apply eval_denotes in He. destruct He as [_ [_ [_ [He _]]]]. rewrite He, (chain_status _ _ Hc).
    rewrite last_mention_said. destruct (said l) as [[|]|]; reflexivity. }
  destruct H as [[tok' [a [o' [e [E1 [E ->]]]]]]|[tok' [a [b [o' [el [e [E1 [El [E ->]]]]]]]]]].
  - injection E1 as <- Ea <-. change [a] with (@nil node ++ [a]) in Ea. apply app_inj_tail in Ea. destruct Ea as [-> <-].
    rewrite (R _ E). apply eval_denotes in E. destruct E as [G _]. destruct (add_starts (negb (ie_removed e)) _ G) as [A B].
    split; [exact A|]. split; [exact B|]. discriminate.
  - injection E1 as <- Ea <-. change [a; b] with ([a] ++ [b]) in Ea. apply app_inj_tail in Ea. destruct Ea as [-> <-].
    rewrite (R _ E). apply eval_denotes in E. destruct E as [G _]. destruct (add_starts (negb (ie_removed e)) _ G) as [A B].
    split; [exact A|]. split; [exact B|]. intros x lx Ex Hx. injection Ex as <-.
    apply eval_denotes in El. destruct El as [Gl [_ [Il _]]].
    replace (last_mention false lx) with (ie_intercept el).
    + apply add_starts. exact Gl.
    + rewrite Il, (chain_status _ _ Hx), last_mention_said. destruct (said lx) as [[|]|]; reflexivity.
Qed.

(** C14 *)
Lemma power_terms tok a b o m k : from_tree norm (rhs_of (Node (TName "**") tok [a; b] o)) = Ok m ->
  exponent_is b k ->
  exists ma, from_tree norm (rhs_of a) = Ok ma /\   first_occurrences term_eqb []
      (rounds (proper (rhs_termlist ma)) (proper (rhs_termlist ma)) (Z.to_nat k)) (proper (rhs_termlist m)).
Proof.
  intros H Hk. apply from_tree_inv, eval_model in H.
  destruct H as [[tok' [a' [o' [r [E1 [E ->]]]]]]|[tok' [a' [b' [o' [l [r [E1 _]]]]]]]]; [|discriminate].
  injection E1 as <- <- <-.
  assert (Gr : good_terms (ie_terms r)) by (apply eval_denotes in E; apply E).
  cbn in E. apply bind_ok in E. destruct E as [l [El E]]. apply require_expr_ok in El.
  apply bind_ok in E. destruct E as [u [Cl E]]. apply check_ok in Cl.
  rewrite (exponent_complete _ _ Hk) in E. cbn [bind] in E.
  destruct (Z.ltb_spec k 1) as [|Hk1]; [discriminate|].
  destruct (power_ok l k Cl Hk1) as [all [Ea Eu]]. rewrite Ea in E. cbn in E.
  injection E as <-.
  destruct (rhs_of_terms a l El) as [ma [Hma Hp]]. exists ma. split; [exact Hma|]. rewrite Hp.
  apply (first_occ_lemma term_eqb term_eqb_sym term_eqb_trans).
  cbn [sides_of mk_model_desc rhs_termlist ie_terms ie_removed negb].
  rewrite proper_add; [|exact Gr]. symmetry. exact Eu.
Qed.
Lemma power_saturates tok a b b' o k k' m m' :
  exponent_is b k -> exponent_is b' k' -> 
  from_tree norm (rhs_of (Node (TName "**") tok [a; b] o)) = Ok m ->
  from_tree norm (rhs_of (Node (TName "**") tok [a; b'] o)) = Ok m' ->
  (forall ma, from_tree norm (rhs_of a) = Ok ma ->
     (Z.of_nat (length (proper (rhs_termlist ma))) <= k)%Z /\ (Z.of_nat (length (proper (rhs_termlist ma))) <= k')%Z) ->
  rhs_termlist m = rhs_termlist m'.
Proof.
  intros Hk Hk' H H' Hl.
  assert (E : proper (rhs_termlist m) = proper (rhs_termlist m')).
  { destruct (power_terms _ _ _ _ _ _ H Hk) as [ma [Ha F]]. destruct (power_terms _ _ _ _ _ _ H' Hk') as [ma' [Ha' F']].
    rewrite Ha in Ha'. injection Ha' as <-. destruct (Hl ma Ha) as [L1 L2].
    apply (first_occ_lemma term_eqb term_eqb_sym term_eqb_trans) in F, F'. rewrite <- F, <- F'.
    rewrite (rounds_saturate _ (Z.to_nat k)), (rounds_saturate _ (Z.to_nat k')) by lia. reflexivity. }
  (* neither removes the intercept *)
  assert (S : forall b m, from_tree norm (rhs_of (Node (TName "**") tok [a; b] o)) = Ok m ->
     rhs_termlist m = [] :: proper (rhs_termlist m)).
  { intros b0 m0 H0. apply from_tree_inv, eval_model in H0.
    destruct H0 as [[tok' [a' [o' [r [E1 [E0 ->]]]]]]|[tok' [a' [b1 [o' [l [r [E1 _]]]]]]]]; [|discriminate].
    injection E1 as <- <- <-. apply eval_denotes in E0. destruct E0 as [G [_ [_ [R _]]]].
    cbn [sides_of mk_model_desc rhs_termlist]. rewrite proper_add by exact G. rewrite (uniq_add _ _ G), R. reflexivity. }
  rewrite (S _ _ H), (S _ _ H'), E. reflexivity.
Qed.

(** C15 *)
Lemma from_tree_total code n : formula_top code n ->
  ((exists m, from_tree norm n = Ok m) <-> sensible_formula n) /\ (forall e, from_tree norm n = Err e -> exists msg o, e = PatsyError msg (Some o) /\ o_code o = code).
Proof.
  assert (One : forall tok a o, formula_tree code a ->
    let n := Node (TName "~") tok [a] o in
    ((exists m, from_tree norm n = Ok m) <-> sensible_formula n) /\   (forall e, from_tree norm n = Err e -> exists msg o, e = PatsyError msg (Some o) /\ o_code o = code)).
  { clear n. intros tok a o Ha n. destruct (fine_require norm code a (formula_tree_origin code a Ha) (eval_fine norm code a Ha))
      as [[r [Er [Ea [Sa _]]]]|[Sa [msg [oe [Er Hoe]]]]].
    - split.
      + split; [|intros _; exists (sides_of None r); apply from_tree_inv; now apply eval_model_1].
        intros _. split; [reflexivity|]. split; [now left|]. constructor; [exact Sa|constructor].
      + intros e He. unfold n, from_tree in He. rewrite (eval_model_1 _ _ _ _ Ea) in He. discriminate.
    - assert (E : from_tree norm n = Err (PatsyError msg (Some oe))).
      { unfold n, from_tree. cbn. rewrite Er. reflexivity. }
      rewrite E. split.
      + split; [intros [m H]; discriminate|]. intros [_ [_ H]]. cbn in H. inversion H; contradiction.
      + intros e [= <-]. eauto. }
  intros [[Hn Hl]|[a [o [-> [Ho [Ha Hl]]]]]].
  2: { now apply One. }
  inversion Hn as [ty t text o Hty Hx Ho E|ty t a o Hty Ha Ho E|ty t a b o Hty Ha Hb Ho E]; subst; unfold lit in Hl;
    cbn in Hl; injection Hl as ->.
  - cbn in Hty. intuition discriminate.
  - now apply One.
  - destruct (fine_require norm (o_code o) a (formula_tree_origin _ a Ha) (eval_fine norm _ a Ha))
      as [[l [El [Ela [Sa _]]]]|[Sa [msg [oe [El Hoe]]]]].
    + destruct (fine_require norm (o_code o) b (formula_tree_origin _ b Hb) (eval_fine norm _ b Hb))
        as [[r [Er [Era [Sb _]]]]|[Sb [msg [oe [Er Hoe]]]]].
      * split.
        -- split; [|intros _; exists (sides_of (Some l) r); apply from_tree_inv; now apply eval_model_2].
           intros _. split; [reflexivity|]. split; [now right|]. repeat (constructor; [assumption|]). constructor.
        -- intros e He. unfold from_tree in He. rewrite (eval_model_2 _ _ _ _ _ _ Ela Era) in He. discriminate.
      * assert (E : from_tree norm (Node (TName "~") (Some t) [a; b] (Some o)) = Err (PatsyError msg (Some oe))).
        { unfold from_tree. cbn. rewrite El. cbn. rewrite Er. reflexivity. }
        rewrite E. split.
        -- split; [intros [m H]; discriminate|]. intros [_ [_ H]]. cbn in H.
           inversion H as [|? ? _ H2]; inversion H2; contradiction.
        -- intros e [= <-]. eauto.
    + assert (E : from_tree norm (Node (TName "~") (Some t) [a; b] (Some o)) = Err (PatsyError msg (Some oe))).
      { unfold from_tree. cbn. rewrite El. reflexivity. }
      rewrite E. split.
      * split; [intros [m H]; discriminate|]. intros [_ [_ H]]. cbn in H. inversion H; contradiction.
      * intros e [= <-]. eauto.
Qed.

(** C60: a*b is a + b + a:b, in the same order. *)
Lemma times_expands a b m : from_tree norm (rhs_of (n_times a b)) = Ok m ->
  ~ lit "ZERO" b ->
  exists m', from_tree norm (rhs_of (n_plus (n_plus a b) (n_colon a b))) = Ok m' /\   proper (rhs_termlist m') = proper (rhs_termlist m).
Proof.
  intros H Hz. apply from_tree_inv, eval_model in H.
  destruct H as [[tok' [a' [o' [r [E1 [E ->]]]]]]|[tok' [a' [b1 [o' [l [r [E1 _]]]]]]]]; [|discriminate].
  injection E1 as <- <- <-.
  assert (Gr : good_terms (ie_terms r)) by (apply eval_denotes in E; apply E).
  cbn in E. apply bind_ok in E. destruct E as [l [El E]]. apply bind_ok in E. destruct E as [x [Ex E]].
  apply bind_ok in E. destruct E as [i [Ei E]].
  assert (Cl : ie_intercept l = false /\ ie_intercept x = false).
  { unfold interaction in Ei. apply bind_ok in Ei. destruct Ei as [? [C1 Ei]]. apply bind_ok in Ei.
    destruct Ei as [? [C2 _]]. apply check_ok in C1, C2. auto. }
  destruct Cl as [Cl Cx]. rewrite (interaction_ok _ _ Cl Cx) in Ei. injection Ei as <-.
  cbn in E. injection E as <-.
  assert (Ez : is_type "ZERO" b = false) by (rewrite is_type_litb; now apply litb_false).
  pose proof (interaction_ok l x Cl Cx) as I.
  assert (Ev : exists e, eval_any norm (n_plus (n_plus a b) (n_colon a b)) = Ok (VExpr e) /\    ie_terms e = uniq_terms (uniq_terms (ie_terms l ++ ie_terms x) ++ cross (ie_terms l) (ie_terms x))).
  { cbn. rewrite El. cbn [bind]. rewrite Ez, Ex. cbn [bind]. rewrite Cx.
    unfold mk_ie at 1. cbn [bind]. rewrite Cl. cbn. rewrite I. cbn. eauto. }
  destruct Ev as [e [Ev Et]]. destruct (rhs_of_terms _ _ Ev) as [m' [Hm Hp]]. exists m'. split; [exact Hm|].
  cbn [sides_of mk_model_desc rhs_termlist]. rewrite Hp, proper_add by exact Gr. rewrite Et.
  cbn [ie_terms]. rewrite uniq_terms_app_l, app_assoc. reflexivity.
Qed.
End Top.

(** C17 *)
Lemma term_equal xs ys : term_eqb (mk_term xs) (mk_term ys) = true <-> (forall f, In f xs <-> In f ys).
Proof.
  rewrite term_eqb_spec. pose proof (mk_term_same xs) as A. pose proof (mk_term_same ys) as B.
  unfold same_set in *. split; intros H f; specialize (A f); specialize (B f); specialize (H f); tauto.
Qed.
