From Coq Require Import Permutation.
From Verif Require Import Base RedundancyModel RedundancySpec RedundancyProofs RankTopProofs.

Section S.
Context {F : Type} (feqb : F -> F -> bool).
Hypothesis feqb_spec : forall a b, feqb a b = true <-> a = b.

Lemma extends_can b f short long : proper short -> extends b f short long -> can_absorb feqb long short = true.
Proof.
  intros Hp [Hn P]. unfold can_absorb. apply andb_true_iff. split.
  - apply Z.eqb_eq. rewrite (Permutation_length P). cbn [length]. lia.
  - apply forallb_forall. intros e He. apply (ef_in_spec feqb feqb_spec). eapply Permutation_in; [symmetry; exact P|]. now right.
Qed.
Lemma proper_perm (a b : list (bool * F)) : Permutation a b -> proper a -> proper b.
Proof. intros P H. eapply Permutation_NoDup; [|exact H]. now apply Permutation_map. Qed.

Lemma step_merge a b : Forall proper a -> step feqb a b -> merge a b /\ Forall proper b.
Proof.
  intros Hp H. destruct H as [pre short mid long post new Hc Ha].
  apply Forall_app in Hp. destruct Hp as [Hpre Hp]. inversion Hp as [|? ? Hs Hp2]; subst.
  apply Forall_app in Hp2. destruct Hp2 as [Hmid Hp2]. inversion Hp2 as [|? ? Hl Hpost]; subst.
  destruct (absorb_shape feqb feqb_spec long short Hl Hs Hc) as [b [f [P [Hf E]]]]. rewrite Ha in E. destruct b; [discriminate|].
  injection E as ->. split.
  - apply (merge_intro pre short mid long post f); split; auto. symmetry. apply Permutation_cons_append.
  - apply Forall_app. split; [exact Hpre|]. apply Forall_app. split; [exact Hmid|]. constructor; [|exact Hpost].
    unfold proper. rewrite map_app. cbn. eapply Permutation_NoDup; [apply Permutation_cons_append|]. constructor; auto.
Qed.
Lemma steps_merges a b : Forall proper a -> steps feqb a b -> Forall proper b /\ exists n, merges n a b.
Proof.
  intros Hp H. induction H as [l|x y z Hs H IH]; [split; [exact Hp|exists 0; constructor]|].
  destruct (step_merge x y Hp Hs) as [Hm Hy]. destruct (IH Hy) as [Hz [n Hn]]. split; [exact Hz|]. exists (S n). econstructor; eauto.
Qed.
Lemma merges_length n (a b : list (list (bool * F))) : merges n a b -> length a = (n + length b)%nat.
Proof.
  induction 1 as [|n x y z Hm H IH]; [reflexivity|]. destruct Hm. rewrite !app_length in *. cbn in *. rewrite !app_length in *. cbn in *. lia.
Qed.

Lemma simplify_lemma sts : Forall proper sts ->
  match simplify feqb sts with
  | Ok l => (exists n, merges n sts l /\ length sts = (n + length l)%nat) /\ Forall proper l /\ forall b, ~ has_pair b l
  | Err e => e = AssertionError /\ exists n l, merges n sts l /\ has_pair true l
  end.
Proof.
  intros Hp. pose proof (simplify_spec feqb sts) as H. destruct (simplify feqb sts) as [l|e].
  - destruct H as [H1 H2]. destruct (steps_merges _ _ Hp H1) as [Hl [n Hn]]. split; [exists n; split; [exact Hn|now apply merges_length]|].
    split; [exact Hl|]. intros b [pre [short [mid [long [post [f [-> He]]]]]]].
    assert (Hs : proper short) by (rewrite Forall_forall in Hl; apply Hl, in_app_iff; right; now left).
    pose proof (extends_can b f short long Hs He) as Hc. rewrite (H2 pre short mid long post eq_refl) in Hc. discriminate.
  - destruct H as [l [pre [short [mid [long [post [H1 [-> [H2 H3]]]]]]]]]. destruct (steps_merges _ _ Hp H1) as [Hl [n Hn]].
    apply Forall_app in Hl. destruct Hl as [Hpre Hl]. inversion Hl as [|? ? Hs Hl2]; subst.
    apply Forall_app in Hl2. destruct Hl2 as [Hmid Hl2]. inversion Hl2 as [|? ? Hlo Hpost]; subst.
    destruct (absorb_shape feqb feqb_spec long short Hlo Hs H2) as [b [f [P [Hf E]]]]. rewrite H3 in E. destruct b; [|discriminate].
    injection E as ->. split; [reflexivity|]. exists n, (pre ++ short :: mid ++ long :: post). split; [exact Hn|].
    exists pre, short, mid, long, post, f. split; [reflexivity|]. split; assumption.
Qed.

Lemma stands_cov s (S : list F) : stands_for s S <-> cov s S.
Proof.
  unfold stands_for, covers, cov. split; intros [A B]; split.
  - intros f Hf. destruct (A f Hf) as [b Hb]. apply in_map_iff in Hb. destruct Hb as [[b' f'] [[= -> ->] Hb]]. eauto.
  - intros f Hf. apply B. apply in_map_iff. exists (false, f). auto.
  - intros f Hf. destruct (A f Hf) as [b Hb]. exists b. apply in_map_iff. exists (b, f). auto.
  - intros f Hf. apply in_map_iff in Hf. destruct Hf as [[b' f'] [[= -> ->] Hb]]. auto.
Qed.
Lemma disjoint_inv sts : Forall proper sts -> disjoint sts -> inv feqb feqb_spec sts.
Proof.
  intros Hp Hd. split; [exact Hp|]. intros S. clear Hp. induction Hd as [|x l Hx Hd IH]; [cbn; lia|].
  rewrite cnt_cons. destruct (covb feqb feqb_spec S x) eqn:E; [|cbn; lia].
  assert (Z : cnt feqb feqb_spec S l = 0); [|lia]. unfold cnt. rewrite Forall_forall in Hx.
  destruct (filter (covb feqb feqb_spec S) l) as [|y r] eqn:Ef; [reflexivity|]. exfalso.
  assert (Hy : In y (filter (covb feqb feqb_spec S) l)) by (rewrite Ef; now left).
  apply filter_In in Hy. destruct Hy as [Hy1 Hy2]. apply (Hx y Hy1). exists S. split; apply stands_cov; now apply (covb_spec feqb feqb_spec).
Qed.
Lemma inv_disjoint sts : inv feqb feqb_spec sts -> disjoint sts.
Proof.
  intros [_ H]. apply FOP_intro. intros p x m y q -> [S [A B]]. specialize (H S).
  rewrite cnt_app, cnt_cons, cnt_app, cnt_cons in H.
  apply stands_cov, (covb_spec feqb feqb_spec) in A. apply stands_cov, (covb_spec feqb feqb_spec) in B.
  rewrite A, B in H. lia.
Qed.
Lemma cnt_exists S l : 0 < cnt feqb feqb_spec S l <-> exists s, In s l /\ stands_for s S.
Proof.
  unfold cnt. split.
  - destruct (filter _ l) as [|y r] eqn:Ef; cbn; [lia|]. intros _.
    assert (Hy : In y (filter (covb feqb feqb_spec S) l)) by (rewrite Ef; now left).
    apply filter_In in Hy. destruct Hy as [H1 H2]. exists y. split; [exact H1|]. apply stands_cov. now apply (covb_spec feqb feqb_spec).
  - intros [s [H1 H2]]. apply stands_cov, (covb_spec feqb feqb_spec) in H2.
    assert (Hy : In s (filter (covb feqb feqb_spec S) l)) by (apply filter_In; auto).
    destruct (filter _ l); [destruct Hy|cbn; lia].
Qed.

Lemma simplify_disjoint_lemma sts : Forall proper sts -> disjoint sts ->
  exists l, simplify feqb sts = Ok l /\ disjoint l /\ (forall b, ~ has_pair b l) /\
    forall S, (exists s, In s l /\ stands_for s S) <-> (exists s, In s sts /\ stands_for s S).
Proof.
  intros Hp Hd. destruct (simplify_inv feqb feqb_spec sts (disjoint_inv sts Hp Hd)) as [l [E [_ [_ [Hi Hc]]]]].
  exists l. split; [exact E|]. split; [now apply inv_disjoint|]. split.
  - pose proof (simplify_lemma sts Hp) as H. rewrite E in H. apply H.
  - intros S. rewrite <- !cnt_exists, Hc. reflexivity.
Qed.
End S.
