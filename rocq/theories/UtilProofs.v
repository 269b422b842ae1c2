From Verif Require Import Base UtilModel UtilSpec.

Section Nub.
Context {A : Type} (eqb : A -> A -> bool).

Lemma existsb_false (f : A -> bool) l : existsb f l = false <-> forall y, In y l -> f y = false.
Proof.
  split.
  - intros H y Hy. destruct (f y) eqn:E; auto.
    assert (existsb f l = true) by (apply existsb_exists; eauto). congruence.
  - intros H. destruct (existsb f l) eqn:E; auto. apply existsb_exists in E as [y [Hy E]].
    rewrite H in E; auto.
Qed.

Lemma existsb_true (f : A -> bool) l : existsb f l = true <-> exists y, In y l /\ f y = true.
Proof. apply existsb_exists. Qed.

Lemma uniqueify_loop_first (Heq_sym : forall x y, eqb x y = eqb y x)
    (Heq_trans : forall x y z, eqb x y = true -> eqb y z = true -> eqb x z = true) seq :
  forall before seen,
  (forall x, existsb (eqb x) seen = existsb (eqb x) before) ->
  first_occurrences eqb before seq (uniqueify_loop eqb seq seen).
Proof.
  induction seq as [|x l IH]; cbn; intros before seen HS; [constructor|].
  destruct (existsb (eqb x) seen) eqn:E.
  - pose proof E as E'. rewrite HS in E'. apply existsb_exists in E'.
    apply fo_drop; auto. apply IH. intros y. rewrite existsb_app, HS. cbn.
    destruct (eqb y x) eqn:Eyx; cbn; rewrite ?orb_false_r; auto.
    rewrite orb_true_r. destruct E' as [z [Hz Hxz]].
    apply existsb_exists. exists z; split; eauto.
  - pose proof E as E'. rewrite HS in E'. apply fo_keep.
    + apply existsb_false; auto.
    + apply IH. intros y. rewrite existsb_app, <- HS. cbn. rewrite orb_false_r. apply orb_comm.
Qed.

Lemma fo_det before l l1 : first_occurrences eqb before l l1 ->
  forall l2, first_occurrences eqb before l l2 -> l1 = l2.
Proof.
  induction 1 as [b|b x l l' [y [Hy Hxy]] H IH|b x l l' Hn H IH]; intros l2 H2; inversion H2; subst; auto.
  - match goal with K : forall y, In y b -> _ |- _ => rewrite (K _ Hy) in Hxy end. discriminate.
  - match goal with K : exists y, In y b /\ _ |- _ => destruct K as [y [Hy Hxy]] end.
    rewrite (Hn _ Hy) in Hxy. discriminate.
  - f_equal; auto.
Qed.

Lemma uniqueify_loop_incl seq seen x : In x (uniqueify_loop eqb seq seen) ->
  In x seq /\ existsb (eqb x) seen = false.
Proof.
  revert seen; induction seq as [|y l IH]; cbn; intros seen H; [tauto|].
  destruct (existsb (eqb y) seen) eqn:E.
  - destruct (IH _ H); auto.
  - destruct H as [<-|H]; auto. destruct (IH _ H) as [H1 H2]. split; auto.
    cbn in H2. apply orb_false_iff in H2 as [_ H2]; auto.
Qed.

Lemma uniqueify_incl seq x : In x (uniqueify_list eqb seq) -> In x seq.
Proof. intros H; apply uniqueify_loop_incl in H; tauto. Qed.

Hypothesis eqb_refl : forall x, eqb x x = true.
Hypothesis eqb_sym : forall x y, eqb x y = eqb y x.
Hypothesis eqb_trans : forall x y z, eqb x y = true -> eqb y z = true -> eqb x z = true.

Lemma uniqueify_loop_complete seq seen x : In x seq ->
  existsb (eqb x) seen = false -> exists y, In y (uniqueify_loop eqb seq seen) /\ eqb x y = true.
Proof.
  revert seen; induction seq as [|y l IH]; cbn; intros seen HI E; [destruct HI|].
  destruct HI as [<-|H].
  - rewrite E. exists y; cbn; auto.
  - destruct (existsb (eqb y) seen) eqn:E'.
    + auto.
    + destruct (eqb x y) eqn:Exy.
      * exists y; cbn; auto.
      * destruct (IH (y :: seen) H) as [z [Hz1 Hz2]]. { cbn. rewrite Exy; auto. }
        exists z; cbn; auto.
Qed.

Lemma uniqueify_complete seq x : In x seq ->
  exists y, In y (uniqueify_list eqb seq) /\ eqb x y = true.
Proof. intros; apply uniqueify_loop_complete; auto. Qed.

Lemma uniqueify_loop_distinct seq seen : distinct eqb (uniqueify_loop eqb seq seen).
Proof.
  revert seen; induction seq as [|y l IH]; cbn; intros seen; [constructor|].
  destruct (existsb (eqb y) seen); auto. constructor; [|apply IH].
  apply Forall_forall. intros z Hz. apply uniqueify_loop_incl in Hz as [_ Hz].
  cbn in Hz. apply orb_false_iff in Hz as [Hz _]. rewrite eqb_sym; auto.
Qed.

Lemma uniqueify_distinct seq : distinct eqb (uniqueify_list eqb seq).
Proof. apply uniqueify_loop_distinct. Qed.

Lemma uniqueify_loop_id seq seen : distinct eqb seq ->
  (forall x, In x seq -> existsb (eqb x) seen = false) -> uniqueify_loop eqb seq seen = seq.
Proof.
  revert seen; induction seq as [|y l IH]; cbn; intros seen HD HS; auto.
  rewrite HS by auto. f_equal. inversion HD; subst. apply IH; auto.
  intros x Hx. cbn. rewrite HS by auto. rewrite orb_false_r. rewrite eqb_sym.
  rewrite Forall_forall in H1. auto.
Qed.

Lemma uniqueify_id seq : distinct eqb seq -> uniqueify_list eqb seq = seq.
Proof. intros; apply uniqueify_loop_id; auto. Qed.

Lemma uniqueify_idem seq : uniqueify_list eqb (uniqueify_list eqb seq) = uniqueify_list eqb seq.
Proof. apply uniqueify_id, uniqueify_distinct. Qed.

Lemma uniqueify_loop_app l1 l2 seen :
  uniqueify_loop eqb (l1 ++ l2) seen
  = uniqueify_loop eqb l1 seen ++ uniqueify_loop eqb l2 (rev (uniqueify_loop eqb l1 seen) ++ seen).
Proof.
  revert seen; induction l1 as [|x l IH]; cbn; intros seen; auto.
  destruct (existsb (eqb x) seen); auto. cbn. f_equal. rewrite IH. f_equal.
  f_equal. rewrite <- app_assoc. reflexivity.
Qed.

(** Elements already represented are dropped. *)
Lemma uniqueify_loop_absorb l seen :
  (forall x, In x l -> existsb (eqb x) seen = true) -> uniqueify_loop eqb l seen = [].
Proof.
  revert seen; induction l as [|x l IH]; cbn; intros seen H; auto.
  rewrite H by auto. auto.
Qed.

Lemma uniqueify_app_absorb l1 l2 :
  (forall x, In x l2 -> exists y, In y l1 /\ eqb x y = true) ->
  uniqueify_list eqb (l1 ++ l2) = uniqueify_list eqb l1.
Proof.
  intros H. unfold uniqueify_list. rewrite uniqueify_loop_app.
  rewrite (uniqueify_loop_absorb l2); [apply app_nil_r|].
  intros x Hx. rewrite app_nil_r. destruct (H x Hx) as [y [Hy Hxy]].
  destruct (uniqueify_complete _ _ Hy) as [z [Hz Hyz]].
  apply existsb_exists. exists z. split; [apply in_rev; rewrite rev_involutive; auto|eauto].
Qed.

Lemma first_occ_lemma seq l :
  uniqueify_list eqb seq = l <-> first_occurrences eqb [] seq l.
Proof.
  split.
  - intros <-. apply uniqueify_loop_first; auto.
  - intros H. eapply fo_det; [|exact H]. apply uniqueify_loop_first; auto.
Qed.
End Nub.

Section PB.
Context {A : Type}.
Definition pb_abs (p : pushback A) : list A := pb_pushed p ++ pb_it p.

Lemma adapter_step_ok (p : pushback A) o :
  let '(out, p') := adapter_step p o in
  let '(out', l') := stream_step (pb_abs p) o in out = out' /\ pb_abs p' = l'.
Proof.
  destruct p as [it pushed]. unfold pb_abs.
  destruct o, pushed as [|a r], it as [|b it]; cbn; auto.
Qed.

Lemma adapter_run_ok os : forall p : pushback A, adapter_run p os = stream_run (pb_abs p) os.
Proof.
  induction os as [|o os IH]; intros p; cbn; auto.
  pose proof (adapter_step_ok p o) as H.
  destruct (adapter_step p o) as [out p'], (stream_step (pb_abs p) o) as [out' l'].
  destruct H as [-> <-]. f_equal; auto.
Qed.
End PB.
