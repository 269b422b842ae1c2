From Verif Require Import Base FitModel FitSpec.
From Coq Require Import Permutation.
Open Scope string_scope.
Open Scope list_scope.

Section P.
Context {val data St : Type}.
Local Notation texpr := (@texpr val data St).
Local Notation tclass := (@tclass val St).
Local Notation store := (@store St).

Section Ind.
Variable P : texpr -> Prop.
Hypothesis HL : forall f, P (TLeaf f).
Hypothesis HO : forall f args, Forall P args -> P (TOp f args).
Hypothesis HI : forall t a b c, P a -> P b -> P c -> P (TIf t a b c).
Hypothesis HC : forall o c args, Forall P args -> P (TCall o c args).
Fixpoint texpr_rect' (e : texpr) : P e :=
  let go := fix go l : Forall P l := match l with [] => Forall_nil _ | a :: r => Forall_cons _ (texpr_rect' a) (go r) end in
  match e with
  | TLeaf f => HL f
  | TOp f args => HO f args (go args)
  | TIf t a b c => HI t a b c (texpr_rect' a) (texpr_rect' b) (texpr_rect' c)
  | TCall o c args => HC o c args (go args)
  end.
End Ind.

(** The local recursions are [mapM]. *)
Lemma teval_call st o c (args : list texpr) d : teval st (TCall o c args) d =
  match st o with None => Err NameError | Some s => let* vs := tevals st args d in c_transform c s vs end.
Proof.
  cbn [teval]. destruct (st o) as [s|]; [|reflexivity]. f_equal. unfold tevals. induction args as [|a r IH]; [reflexivity|]. cbn [mapM]. now rewrite IH.
Qed.
Lemma teval_op st f (args : list texpr) d : teval st (TOp f args) d = let* vs := tevals st args d in f vs.
Proof. cbn [teval]. f_equal. unfold tevals. induction args as [|a r IH]; [reflexivity|]. cbn [mapM]. now rewrite IH. Qed.

Variable chunks : list data.
Local Notation fitted_value := (fitted_value (val := val) (St := St) chunks).
Local Notation fitted_values := (fitted_values (val := val) (St := St) chunks).
Local Notation fitted_state := (fitted_state (val := val) (St := St) chunks).
Lemma fitted_op f args d : fitted_value (TOp f args) d = let* vs := fitted_values args d in f vs.
Proof. cbn [FitSpec.fitted_value]. f_equal. unfold FitSpec.fitted_values. induction args as [|a r IH]; [reflexivity|]. cbn [mapM]. now rewrite IH. Qed.
Lemma foldM_ext {A B} (f g : B -> A -> result B) l : (forall b a, In a l -> f b a = g b a) -> forall b, foldM f l b = foldM g l b.
Proof.
  induction l as [|x l IH]; intros H b; [reflexivity|]. cbn. rewrite (H b x) by now left. destruct (g b x); [|reflexivity]. cbn. apply IH. intros; apply H; now right.
Qed.
Lemma fitted_call o c args d : fitted_value (TCall o c args) d = let* s := fitted_state c args in let* vs := fitted_values args d in c_transform c s vs.
Proof.
  cbn [FitSpec.fitted_value].
  set (values := fix values (l : list texpr) (d : data) := match l with [] => Ok [] | a :: r => let* v := fitted_value a d in let* vs := values r d in Ok (v :: vs) end).
  assert (E : forall l d, values l d = fitted_values l d).
  { intros l d'. unfold FitSpec.fitted_values. induction l as [|a r IH]; [reflexivity|]. cbn [mapM values]. now rewrite <- IH. }
  unfold FitSpec.fitted_state. rewrite (foldM_ext _ (fun s d => let* vs := fitted_values args d in c_chunk c s vs)) by (intros; now rewrite E).
  rewrite E. destruct (foldM _ chunks (c_new c)) as [s|]; reflexivity.
Qed.
Lemma plain_call o c (args : list texpr) d : plain_value (TCall o c args) d = let* vs := mapM (fun a => plain_value a d) args in direct_call c vs.
Proof. cbn [plain_value]. f_equal. induction args as [|a r IH]; [reflexivity|]. cbn [mapM]. now rewrite IH. Qed.
Lemma plain_op f (args : list texpr) d : plain_value (TOp f args) d = let* vs := mapM (fun a => plain_value a d) args in f vs.
Proof. cbn [plain_value]. f_equal. induction args as [|a r IH]; [reflexivity|]. cbn [mapM]. now rewrite IH. Qed.

(** * Evaluation with fitted objects *)
Definition settled (st : store) (p : string * (tclass * list texpr)) : Prop :=
  exists s, fitted_state (fst (snd p)) (snd (snd p)) = Ok s /\ st (fst p) = Some s.
Lemma mapM_ext_in {A B} (f g : A -> result B) l : (forall a, In a l -> f a = g a) -> mapM f l = mapM g l.
Proof. induction l as [|a l IH]; intros H; [reflexivity|]. cbn. rewrite (H a) by now left. rewrite IH; [reflexivity|]. intros; apply H; now right. Qed.
Lemma in_flat_calls (a : texpr) (args : list texpr) p : In a args -> In p (calls a) -> In p (flat_map calls args).
Proof. intros H1 H2. apply in_flat_map. eauto. Qed.
Lemma teval_settled (e : texpr) : forall st, (forall p, In p (calls e) -> settled st p) -> forall d, teval st e d = fitted_value e d.
Proof.
  induction e as [f|f args IH|t a b c IHa IHb IHc|o c args IH] using texpr_rect'; intros st Hs d; [reflexivity|..].
  - rewrite teval_op, fitted_op. f_equal. apply mapM_ext_in. intros a Ha. rewrite Forall_forall in IH. apply IH; [exact Ha|]. intros p Hp. apply Hs. cbn. eapply in_flat_calls; eauto.
  - cbn in *. rewrite IHa by (intros p Hp; apply Hs; rewrite !in_app_iff; auto). destruct (fitted_value a d) as [v|]; [|reflexivity]. cbn. destruct (t v) as [[]|]; [..|reflexivity]; cbn;
      [apply IHb|apply IHc]; intros p Hp; apply Hs; rewrite !in_app_iff; auto.
  - rewrite teval_call, fitted_call. destruct (Hs (o, (c, args)) (or_introl eq_refl)) as [s [E1 E2]]. cbn in E1, E2. rewrite E1, E2. cbn [bind].
    f_equal. apply mapM_ext_in. intros a Ha. rewrite Forall_forall in IH. apply IH; [exact Ha|]. intros p Hp. apply Hs. cbn. right. eapply in_flat_calls; eauto.
Qed.
Lemma tevals_settled (l : list texpr) st d : (forall p, In p (flat_map calls l) -> settled st p) -> tevals st l d = fitted_values l d.
Proof. intros H. apply mapM_ext_in. intros a Ha. apply teval_settled. intros p Hp. apply H. eapply in_flat_calls; eauto. Qed.

Lemma sub_calls (e : texpr) : forall o c args, In (o, (c, args)) (calls e) -> incl (flat_map calls args) (calls e).
Proof.
  induction e as [f|f l IH|t a b c IHa IHb IHc|o c l IH] using texpr_rect'; intros o' c' args H; cbn in H; [destruct H|..].
  - apply in_flat_map in H. destruct H as [a [Ha H]]. rewrite Forall_forall in IH. intros p Hp. cbn. eapply in_flat_calls; [exact Ha|]. eapply IH; eauto.
  - rewrite !in_app_iff in H. intros p Hp. cbn. rewrite !in_app_iff. destruct H as [H|[H|H]]; [left; eapply IHa|right; left; eapply IHb|right; right; eapply IHc]; eauto.
  - destruct H as [H|H].
    + injection H as -> -> ->. intros p Hp. now right.
    + apply in_flat_map in H. destruct H as [a [Ha H]]. rewrite Forall_forall in IH. intros p Hp. cbn. right. eapply in_flat_calls; [exact Ha|]. eapply IH; eauto.
Qed.
Lemma find_call_in (e : texpr) o x : find_call e o = Some x -> In (o, x) (calls e).
Proof.
  unfold find_call. destruct (find _ (calls e)) as [p|] eqn:E; [|discriminate]. intros H. injection H as <-. apply find_some in E. destruct E as [E1 E2].
  apply String.eqb_eq in E2. subst o. now destruct p.
Qed.
Lemma find_call_some (e : texpr) o x : NoDup (map fst (calls e)) -> In (o, x) (calls e) -> find_call e o = Some x.
Proof.
  unfold find_call. induction (calls e) as [|[k y] l IH]; intros Hn Hi; [destruct Hi|]. cbn in *. inversion Hn; subst. destruct Hi as [Hi|Hi].
  - injection Hi as -> ->. now rewrite String.eqb_refl.
  - destruct (String.eqb_spec k o) as [->|]; [|now apply IH]. exfalso. apply H1. apply in_map_iff. now exists (o, x).
Qed.

(** * Objects are independent of each other within a pass *)
Definition pointwise (F : string -> St -> result St) (st : store) (o : string) : result store :=
  match st o with Some s => let* s' := F o s in Ok (put st o s') | None => Err NameError end.
Lemma put_same (st : store) o s : put st o s o = Some s.
Proof. unfold put. now rewrite String.eqb_refl. Qed.
Lemma put_other (st : store) o s k : k <> o -> put st o s k = st k.
Proof. intros H. unfold put. apply String.eqb_neq in H. now rewrite H. Qed.
Lemma pointwise_ok F bin : NoDup bin -> forall st st', foldM (pointwise F) bin st = Ok st' ->
  (forall o, ~ In o bin -> st' o = st o) /\ (forall o, In o bin -> exists s s', st o = Some s /\ F o s = Ok s' /\ st' o = Some s').
Proof.
  induction bin as [|x bin IH]; intros Hn st st' H; cbn in H; [injection H as <-; split; [auto|intros o []]|]. inversion Hn; subst.
  unfold pointwise at 1 in H. destruct (st x) as [s|] eqn:Ex; [|discriminate]. cbn in H. destruct (F x s) as [s'|] eqn:Ef; [|discriminate]. cbn in H.
  destruct (IH H3 _ _ H) as [A B]. split.
  - intros o Ho. rewrite A by (intros Hi; apply Ho; now right). apply put_other. intros ->. apply Ho. now left.
  - intros o [<-|Ho].
    + exists s, s'. rewrite A by exact H2. repeat split; auto. apply put_same.
    + destruct (B o Ho) as [t [t' [C1 [C2 C3]]]]. rewrite put_other in C1 by (intros ->; contradiction). eauto.
Qed.
Lemma pointwise_exists F bin : NoDup bin -> forall st, (forall o, In o bin -> exists s s', st o = Some s /\ F o s = Ok s') ->
  exists st', foldM (pointwise F) bin st = Ok st'.
Proof.
  induction bin as [|x bin IH]; intros Hn st H; cbn; [eauto|]. inversion Hn; subst. unfold pointwise at 1. destruct (H x (or_introl eq_refl)) as [s [s' [E1 E2]]].
  rewrite E1. cbn. rewrite E2. cbn. apply IH; [assumption|]. intros o Ho. rewrite put_other by (intros ->; contradiction). apply H. now right.
Qed.

Section Pass.
Variable e : texpr.
Hypothesis Hnd : NoDup (map fst (calls e)).
Definition chunk_of (d : data) (o : string) (s : St) : result St :=
  match find_call e o with Some (c, args) => let* vs := fitted_values args d in c_chunk c s vs | None => Err NameError end.
Definition finish_of (o : string) (s : St) : result St :=
  match find_call e o with Some (c, args) => c_finish c s | None => Err NameError end.
Variable bin : list string.
Hypothesis Hbin : NoDup bin.
(** The objects in the arguments are finished, and not in this pass. *)
Definition prepared (st : store) : Prop :=
  forall o c args p, In o bin -> In (o, (c, args)) (calls e) -> In p (flat_map calls args) -> settled st p /\ ~ In (fst p) bin.

Lemma prepared_off st st' : prepared st -> (forall o, ~ In o bin -> st' o = st o) -> prepared st'.
Proof.
  intros H Ho o c args p H1 H2 H3. destruct (H o c args p H1 H2 H3) as [[s [A B]] C]. split; [|exact C]. exists s. split; [exact A|]. rewrite Ho by exact C. exact B.
Qed.
Lemma memorize_pointwise d st o : prepared st -> In o bin -> memorize_object e d st o = pointwise (chunk_of d) st o.
Proof.
  intros Hp Ho. unfold memorize_object, pointwise, chunk_of. destruct (st o) as [s|]; [|reflexivity]. destruct (find_call e o) as [[c args]|] eqn:E; [|reflexivity].
  apply find_call_in in E. rewrite (tevals_settled args st d); [|intros p H; now apply (Hp o c args p)]. destruct (fitted_values args d); reflexivity.
Qed.
Lemma memorize_bin d st : prepared st -> foldM (memorize_object e d) bin st = foldM (pointwise (chunk_of d)) bin st.
Proof.
  intros Hp. assert (H : forall l, incl l bin -> forall st', (forall o, ~ In o bin -> st' o = st o) -> foldM (memorize_object e d) l st' = foldM (pointwise (chunk_of d)) l st').
  { induction l as [|x l IH]; intros Hi st' Hst'; [reflexivity|]. cbn. rewrite memorize_pointwise; [|now apply (prepared_off st)|apply Hi; now left].
    destruct (pointwise (chunk_of d) st' x) as [st2|] eqn:E2; [|reflexivity]. cbn. apply IH; [intros k Hk; apply Hi; now right|].
    unfold pointwise in E2. destruct (st' x) as [s|]; [|discriminate]. cbn in E2. destruct (chunk_of d x s) as [s'|]; [|discriminate]. injection E2 as <-.
    intros o Ho. rewrite put_other; [now apply Hst'|]. intros ->. apply Ho, Hi. now left. }
  apply H; [apply incl_refl|auto].
Qed.
Lemma chunks_ok ds : forall st st', prepared st -> foldM (fun st d => foldM (memorize_object e d) bin st) ds st = Ok st' ->
  (forall o, ~ In o bin -> st' o = st o) /\
  (forall o s, In o bin -> st o = Some s -> exists s', foldM (fun s d => chunk_of d o s) ds s = Ok s' /\ st' o = Some s').
Proof.
  induction ds as [|d ds IH]; intros st st' Hp H; cbn in H; [injection H as <-; split; [auto|intros o s _ Hs; now exists s]|].
  rewrite memorize_bin in H by exact Hp. destruct (foldM (pointwise (chunk_of d)) bin st) as [st1|] eqn:E; [|discriminate]. cbn in H.
  destruct (pointwise_ok _ _ Hbin _ _ E) as [A B]. destruct (IH st1 st' (prepared_off _ _ Hp A) H) as [C D]. split.
  - intros o Ho. now rewrite C, A.
  - intros o s Ho Hs. destruct (B o Ho) as [t [t' [E1 [E2 E3]]]]. replace t with s in * by congruence. cbn. rewrite E2. cbn. now apply D.
Qed.
Lemma chunks_exist ds : forall st, prepared st ->
  (forall o, In o bin -> exists s s', st o = Some s /\ foldM (fun s d => chunk_of d o s) ds s = Ok s') ->
  exists st', foldM (fun st d => foldM (memorize_object e d) bin st) ds st = Ok st'.
Proof.
  induction ds as [|d ds IH]; intros st Hp H; cbn; [eauto|]. rewrite memorize_bin by exact Hp.
  destruct (pointwise_exists (chunk_of d) bin Hbin st) as [st1 E].
  { intros o Ho. destruct (H o Ho) as [s [s' [E1 E2]]]. cbn in E2. destruct (chunk_of d o s) as [t|] eqn:Et; [|discriminate]. eauto. }
  rewrite E. cbn. destruct (pointwise_ok _ _ Hbin _ _ E) as [A B]. apply IH; [now apply (prepared_off st)|].
  intros o Ho. destruct (H o Ho) as [s [s' [E1 E2]]]. destruct (B o Ho) as [t [t' [E3 [E4 E5]]]]. replace t with s in * by congruence. cbn in E2. rewrite E4 in E2. cbn in E2. eauto.
Qed.
Lemma finish_pointwise l : forall st, foldM (finish_object e) l st = foldM (pointwise finish_of) l st.
Proof.
  intros st. apply foldM_ext. intros b o _. unfold finish_object, pointwise, finish_of. destruct (b o); [|reflexivity]. destruct (find_call e o) as [[c args]|]; reflexivity.
Qed.
Lemma fitted_split o c args : In (o, (c, args)) (calls e) ->
  fitted_state c args = let* s := foldM (fun s d => chunk_of d o s) chunks (c_new c) in finish_of o s.
Proof.
  intros H. unfold FitSpec.fitted_state, chunk_of, finish_of. now rewrite (find_call_some e o (c, args) Hnd H).
Qed.
Lemma pass_ok st st' : prepared st -> run_pass e chunks st bin = Ok st' ->
  (forall o, ~ In o bin -> st' o = st o) /\
  (forall o c args, In o bin -> In (o, (c, args)) (calls e) -> st o = Some (c_new c) -> settled st' (o, (c, args))).
Proof.
  intros Hp H. unfold run_pass in H. destruct (foldM _ chunks st) as [st1|] eqn:E; [|discriminate]. cbn in H. rewrite finish_pointwise in H.
  destruct (chunks_ok _ _ _ Hp E) as [A B]. destruct (pointwise_ok _ _ Hbin _ _ H) as [C D]. split; [intros o Ho; now rewrite C, A|].
  intros o c args Ho Hc Hs. destruct (B o _ Ho Hs) as [s1 [E1 E2]]. destruct (D o Ho) as [t [t' [E3 [E4 E5]]]]. replace t with s1 in * by congruence.
  exists t'. cbn. rewrite (fitted_split o c args Hc). rewrite E1. cbn. auto.
Qed.
Lemma pass_exists st : prepared st ->
  (forall o, In o bin -> exists c args s, In (o, (c, args)) (calls e) /\ st o = Some (c_new c) /\ fitted_state c args = Ok s) ->
  exists st', run_pass e chunks st bin = Ok st'.
Proof.
  intros Hp H. unfold run_pass. destruct (chunks_exist chunks st Hp) as [st1 E].
  { intros o Ho. destruct (H o Ho) as [c [args [s [H1 [H2 H3]]]]]. rewrite (fitted_split o c args H1) in H3. destruct (foldM _ chunks (c_new c)) as [s1|] eqn:E; [|discriminate]. eauto. }
  rewrite E. cbn. rewrite finish_pointwise. apply (pointwise_exists _ _ Hbin). intros o Ho. destruct (H o Ho) as [c [args [s [H1 [H2 H3]]]]].
  destruct (chunks_ok _ _ _ Hp E) as [A B]. destruct (B o _ Ho H2) as [s1 [E1 E2]]. rewrite (fitted_split o c args H1), E1 in H3. cbn in H3. eauto.
Qed.
End Pass.

(** * All passes *)
Section All.
Variable e : texpr.
Hypothesis Hnd : NoDup (map fst (calls e)).
Definition progress (done : list (list string)) (st : store) : Prop :=
  forall o c args, In (o, (c, args)) (calls e) ->
    (In o (concat done) -> settled st (o, (c, args))) /\ (~ In o (concat done) -> st o = Some (c_new c)).
Lemma NoDup_app_disjoint {A} (a b : list A) : NoDup (a ++ b) -> NoDup a /\ NoDup b /\ forall x, In x a -> ~ In x b.
Proof.
  induction a as [|x a IH]; cbn; intros H; [repeat split; [constructor|exact H|intros ? []]|]. inversion H; subst. destruct (IH H3) as [A1 [A2 A3]]. rewrite in_app_iff in H2.
  split; [constructor; tauto|]. split; [exact A2|]. intros y [<-|Hy]; [tauto|auto].
Qed.
Lemma step_ready done bin rest st : inner_first e (done ++ bin :: rest) -> progress done st -> prepared e bin st.
Proof.
  intros [Hp Ho] Hpr o c args [o' [c' args']] H1 H2 H3.
  assert (Hin : In o' (map fst (flat_map calls args))) by (apply in_map_iff; exists (o', (c', args')); auto).
  assert (Hc : In (o', (c', args')) (calls e)) by (eapply sub_calls; eauto).
  assert (Hq : forall q bin', nth_error (done ++ bin :: rest) q = Some bin' -> In o' bin' -> q < length done).
  { intros q bin' Hq Hb. apply (Ho o c args o' (length done) q bin bin' H2 Hin); auto. rewrite nth_error_app2, Nat.sub_diag by lia. reflexivity. }
  assert (Hd : In o' (concat done)).
  { assert (Ha : In o' (concat (done ++ bin :: rest))) by (apply (Permutation_in _ (Permutation_sym Hp)); apply in_map_iff; exists (o', (c', args')); auto).
    apply in_concat in Ha. destruct Ha as [b [Hb Hb']]. apply In_nth_error in Hb. destruct Hb as [q Hb]. pose proof (Hq q b Hb Hb') as Hlt.
    rewrite nth_error_app1 in Hb by exact Hlt. apply in_concat. exists b. split; [eapply nth_error_In; eauto|exact Hb']. }
  split; [now apply Hpr|]. cbn. intros Hb. assert (length done < length done); [|lia]. apply (Hq (length done) bin); [|exact Hb]. rewrite nth_error_app2, Nat.sub_diag by lia. reflexivity.
Qed.
Lemma concat_snoc {A} (l : list (list A)) x y : In y (concat (l ++ [x])) <-> In y (concat l) \/ In y x.
Proof. rewrite concat_app, in_app_iff. cbn. now rewrite app_nil_r. Qed.
Lemma bin_facts done bin rest : inner_first e (done ++ bin :: rest) -> NoDup bin /\ (forall o, In o bin -> ~ In o (concat done)) /\ (forall o, In o bin -> exists c args, In (o, (c, args)) (calls e)).
Proof.
  intros [Hp _]. rewrite concat_app in Hp. cbn in Hp. assert (Hn : NoDup (concat done ++ bin ++ concat rest)) by (eapply Permutation_NoDup; [apply Permutation_sym; exact Hp|exact Hnd]).
  apply NoDup_app_disjoint in Hn. destruct Hn as [_ [Hn Hd]]. apply NoDup_app_disjoint in Hn. destruct Hn as [Hn _]. split; [exact Hn|]. split.
  - intros o Ho Ho'. apply (Hd o Ho'). apply in_app_iff. now left.
  - intros o Ho. assert (In o (map fst (calls e))) as H by (eapply Permutation_in; [exact Hp|]; rewrite !in_app_iff; auto). apply in_map_iff in H. destruct H as [[k [c args]] [<- H]]. eauto.
Qed.
Lemma step_ok done bin rest st st' : inner_first e (done ++ bin :: rest) -> progress done st -> run_pass e chunks st bin = Ok st' -> progress (done ++ [bin]) st'.
Proof.
  intros Hi Hpr H. destruct (bin_facts done bin rest Hi) as [Hb [Hd _]]. destruct (pass_ok e Hnd bin Hb st st' (step_ready _ _ _ _ Hi Hpr) H) as [A B].
  intros o c args Hc. rewrite concat_snoc. destruct (Hpr o c args Hc) as [P1 P2]. split.
  - intros Ho. destruct (in_dec string_dec o bin) as [Hob|Hob].
    + apply B; auto.
    + destruct Ho as [Ho|Ho]; [|contradiction]. destruct (P1 Ho) as [s [E1 E2]]. exists s. split; [exact E1|]. cbn in *. now rewrite A.
  - intros Ho. rewrite A by tauto. apply P2. tauto.
Qed.
Lemma fit_ok rest : forall done st st', inner_first e (done ++ rest) -> progress done st -> foldM (run_pass e chunks) rest st = Ok st' -> progress (done ++ rest) st'.
Proof.
  induction rest as [|bin rest IH]; intros done st st' Hi Hpr H; cbn in H; [injection H as <-; now rewrite app_nil_r|].
  destruct (run_pass e chunks st bin) as [st1|] eqn:E; [|discriminate]. cbn in H. change (bin :: rest) with ([bin] ++ rest). rewrite app_assoc. apply (IH _ st1); [now rewrite <- app_assoc| |exact H].
  eapply step_ok; eauto.
Qed.
Lemma fit_exists rest : (forall o c args, In (o, (c, args)) (calls e) -> exists s, fitted_state c args = Ok s) ->
  forall done st, inner_first e (done ++ rest) -> progress done st -> exists st', foldM (run_pass e chunks) rest st = Ok st'.
Proof.
  intros Hf. induction rest as [|bin rest IH]; intros done st Hi Hpr; cbn; [eauto|]. destruct (bin_facts done bin rest Hi) as [Hb [Hd Hc]].
  destruct (pass_exists e Hnd bin Hb st (step_ready _ _ _ _ Hi Hpr)) as [st1 E].
  { intros o Ho. destruct (Hc o Ho) as [c [args H]]. destruct (Hf o c args H) as [s Hs]. exists c, args, s. repeat split; auto. apply (Hpr o c args H). auto. }
  rewrite E. cbn. apply (IH (done ++ [bin])); [now rewrite <- app_assoc|]. eapply step_ok; eauto.
Qed.
Lemma new_progress : progress [] (new_objects e).
Proof. intros o c args H. split; [intros []|]. intros _. unfold new_objects. now rewrite (find_call_some e o (c, args) Hnd H). Qed.

Lemma fit_factor_ok bins st : inner_first e bins -> fit_factor e bins chunks = Ok st ->
  (forall o c args, In (o, (c, args)) (calls e) -> exists s, fitted_state c args = Ok s /\ st o = Some s) /\ forall d, teval st e d = fitted_value e d.
Proof.
  intros Hi H. pose proof (fit_ok bins [] _ _ Hi new_progress H) as P. cbn in P.
  assert (A : forall p, In p (calls e) -> settled st p).
  { intros [o [c args]] Hc. apply (P o c args Hc). destruct Hi as [Hp _]. apply (Permutation_in _ (Permutation_sym Hp)). apply in_map_iff. now exists (o, (c, args)). }
  split; [intros o c args Hc; exact (A _ Hc)|]. apply teval_settled. exact A.
Qed.
Lemma fit_factor_exists bins : inner_first e bins ->
  ((exists st, fit_factor e bins chunks = Ok st) <-> forall o c args, In (o, (c, args)) (calls e) -> exists s, fitted_state c args = Ok s).
Proof.
  intros Hi. split.
  - intros [st H] o c args Hc. destruct (fit_factor_ok bins st Hi H) as [A _]. destruct (A o c args Hc) as [s [E _]]. eauto.
  - intros H. apply (fit_exists bins H [] _ Hi new_progress).
Qed.
End All.
End P.

(** * One chunk *)
Section One.
Context {val data St : Type}.
Local Notation texpr := (@texpr val data St).
Lemma direct_one (d : data) (e : texpr) : (forall o c args, In (o, (c, args)) (calls e) -> exists s, fitted_state [d] c args = Ok s) -> fitted_value [d] e d = plain_value e d.
Proof.
  induction e as [f|f args IH|t a b c IHa IHb IHc|o c args IH] using texpr_rect'; intros H; [reflexivity|..].
  - rewrite fitted_op, plain_op. f_equal. apply mapM_ext_in. intros a Ha. rewrite Forall_forall in IH. apply IH; [exact Ha|]. intros o c l Hc. apply (H o). cbn. eapply in_flat_calls; eauto.
  - cbn in H. cbn [fitted_value plain_value]. rewrite IHa by (intros o k l Hk; apply (H o); rewrite !in_app_iff; auto). destruct (plain_value a d) as [v|]; [|reflexivity]. cbn. destruct (t v) as [[]|]; [..|reflexivity]; cbn;
      [apply IHb|apply IHc]; intros o k l Hk; apply (H o); rewrite !in_app_iff; auto.
  - rewrite fitted_call, plain_call. assert (E : fitted_values [d] args d = mapM (fun a => plain_value a d) args).
    { apply mapM_ext_in. intros a Ha. rewrite Forall_forall in IH. apply IH; [exact Ha|]. intros k c' l Hc. apply (H k). cbn. right. eapply in_flat_calls; eauto. }
    unfold fitted_state. cbn [foldM]. rewrite E. destruct (mapM _ args) as [vs|]; [|reflexivity]. cbn. unfold direct_call. destruct (c_chunk c (c_new c) vs) as [s|]; [|reflexivity]. cbn. now destruct (c_finish c s).
Qed.
(** Without conditional expressions, a plain value means that everything can be fitted. *)
Fixpoint straight (e : texpr) : Prop :=
  match e with
  | TLeaf _ => True
  | TOp _ args | TCall _ _ args => (fix all l := match l with [] => True | a :: r => straight a /\ all r end) args
  | TIf _ _ _ _ => False
  end.
Lemma plain_fits (d : data) (e : texpr) : straight e -> forall v, plain_value e d = Ok v ->
  (forall o c args, In (o, (c, args)) (calls e) -> exists s, fitted_state [d] c args = Ok s) /\ fitted_value [d] e d = Ok v.
Proof.
  assert (X : forall args : list texpr, Forall (fun e => straight e -> forall v, plain_value e d = Ok v ->
      (forall o c args, In (o, (c, args)) (calls e) -> exists s, fitted_state [d] c args = Ok s) /\ fitted_value [d] e d = Ok v) args ->
    (fix all l := match l with [] => True | a :: r => straight a /\ all r end) args -> forall vs, mapM (fun a => plain_value a d) args = Ok vs ->
    (forall o c l, In (o, (c, l)) (flat_map calls args) -> exists s, fitted_state [d] c l = Ok s) /\ fitted_values [d] args d = Ok vs).
  { induction 1 as [|a r Ha Hr IH]; intros Hs vs H; cbn in *; [injection H as <-; split; [intros ? ? ? []|reflexivity]|]. destruct Hs as [Hs1 Hs2].
    destruct (plain_value a d) as [v|]; [|discriminate]. cbn in H. destruct (mapM _ r) as [ws|]; [|discriminate]. injection H as <-.
    destruct (Ha Hs1 v eq_refl) as [A1 A2]. destruct (IH Hs2 ws eq_refl) as [B1 B2]. split.
    - intros o c l Hc. apply in_app_iff in Hc. destruct Hc; eauto.
    - unfold fitted_values in *. cbn. rewrite A2. cbn. now rewrite B2. }
  induction e as [f|f args IH|t a b c IHa IHb IHc|o c args IH] using texpr_rect'; intros Hs v H.
  - split; [intros ? ? ? []|exact H].
  - rewrite plain_op in H. destruct (mapM _ args) as [vs|] eqn:E; [|discriminate]. cbn in H. destruct (X args IH Hs vs E) as [A B]. split; [exact A|]. rewrite fitted_op, B. exact H.
  - destruct Hs.
  - rewrite plain_call in H. destruct (mapM _ args) as [vs|] eqn:E; [|discriminate]. cbn [bind] in H. destruct (X args IH Hs vs E) as [A B].
    assert (F : exists s, fitted_state [d] c args = Ok s /\ c_transform c s vs = Ok v).
    { unfold fitted_state. cbn [foldM]. rewrite B. cbn. unfold direct_call in H. destruct (c_chunk c (c_new c) vs) as [s|]; [|discriminate]. cbn in *. destruct (c_finish c s) as [s'|]; [|discriminate]. eauto. }
    destruct F as [s [F1 F2]]. split.
    + intros k c' l [Hc|Hc]; [injection Hc as <- <- <-; eauto|eauto].
    + rewrite fitted_call, F1. cbn. rewrite B. exact F2.
Qed.
End One.
