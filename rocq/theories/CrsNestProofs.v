(** Splines on some knots are splines on more. *)
From Coq Require Import ZArith Sorted.
From Verif Require Import Base NumModel RankSpec ContrastSpec StateModel LinModel SplineModel SplineSpec CrsSpec.
Open Scope nat_scope.
Open Scope list_scope.

Lemma meet_refl p x : meet p x p x. Proof. repeat split. Qed.
Lemma nth_ins (A : Type) (d : A) l1 z l2 j : nth j (l1 ++ z :: l2) d = if j <? length l1 then nth j (l1 ++ l2) d else if j =? length l1 then z else nth (j - 1) (l1 ++ l2) d.
Proof.
  destruct (Nat.ltb_spec j (length l1)); [now rewrite !app_nth1|]. destruct (Nat.eqb_spec j (length l1)) as [->|]; [rewrite app_nth2, Nat.sub_diag by lia; reflexivity|].
  rewrite !app_nth2 by lia. replace (j - length l1) with (S (j - 1 - length l1)) by lia. reflexivity.
Qed.
Lemma nth_map_seq (A : Type) (d : A) f a n j : j < n -> nth j (map f (seq a n)) d = f (a + j).
Proof. intros H. rewrite (nth_indep _ d (f 0)) by now rewrite map_length, seq_length. rewrite map_nth, seq_nth; auto. Qed.
Lemma inc_nth l : increasing l -> forall i j, i < j -> j < length l -> (nth i l 0 < nth j l 0)%Qc.
Proof.
  induction 1 as [|x l H IH F]; cbn; intros i j Hi Hj; [lia|]. destruct j as [|j]; [lia|]. destruct i as [|i]; [|apply IH; lia].
  rewrite Forall_forall in F. apply F, nth_In. lia.
Qed.

Section Insert.
Variables (l1 l2 : list Qc) (z : Qc).
Let K := l1 ++ l2. Let K' := l1 ++ z :: l2. Let i := length l1. Let n := length K.
Hypothesis Hinc : increasing K'.
Let Hn : length K' = S n. Proof. unfold n, K, K'. rewrite !app_length. cbn. lia. Qed.
Let Hi : i <= n. Proof. unfold i, n, K. rewrite app_length. lia. Qed.
Let kn j : nth j K' 0%Qc = if j <? i then nth j K 0%Qc else if j =? i then z else nth (j - 1) K 0%Qc.
Proof. apply nth_ins. Qed.
Let below j : j < i -> (nth j K 0 <= z)%Qc.
Proof.
  intros H. generalize (inc_nth _ Hinc j i H ltac:(lia)). rewrite !kn. destruct (Nat.ltb_spec j i); [|lia]. rewrite Nat.ltb_irrefl, Nat.eqb_refl. apply Qclt_le_weak.
Qed.
Let above j : i <= j -> j < n -> (z <= nth j K 0)%Qc.
Proof.
  intros H H1. generalize (inc_nth _ Hinc i (S j) ltac:(lia) ltac:(lia)). rewrite !kn, Nat.ltb_irrefl, Nat.eqb_refl. destruct (Nat.ltb_spec (S j) i); [lia|].
  destruct (Nat.eqb_spec (S j) i); [lia|]. replace (S j - 1) with j by lia. apply Qclt_le_weak.
Qed.
Ltac cases := repeat match goal with
  | |- context [?a <? ?b] => destruct (Nat.ltb_spec a b); try lia | |- context [?a =? ?b] => destruct (Nat.eqb_spec a b); try lia
  | |- context [?a <=? ?b] => destruct (Nat.leb_spec a b); try lia end.
Ltac same := repeat match goal with |- context [nth (?a - 1) ?l _] => let H := fresh in assert (H : exists b, a - 1 = b) by eauto; destruct H as [? H]; rewrite H end.

Lemma insert_natural s : 2 <= n -> is_natural_spline K s -> is_natural_spline K' s.
Proof.
  intros H2 (left & pieces & right & (Lp & Fp & Ll & Lr & Hm) & Hfirst & Hlast & Hmid). fold n in Lp, Hm, Hlast, Hmid.
  set (all := left :: pieces ++ [right]) in *. assert (La : length all = S n) by (unfold all; cbn; rewrite app_length; cbn; lia).
  assert (Al : forall j, 1 <= j -> j < n -> nth j all [] = nth (j - 1) pieces []).
  { intros [|j] A B; [lia|]. unfold all. cbn [nth]. rewrite app_nth1 by lia. f_equal. lia. }
  assert (A0 : nth 0 all [] = left) by reflexivity.
  assert (An : nth n all [] = right). { unfold all. destruct n as [|n'] eqn:En; [lia|]. cbn [nth]. rewrite app_nth2 by lia. replace (n' - length pieces) with 0 by lia. reflexivity. }
  set (g := fun j => nth (if j <=? i then j else j - 1) all []).
  assert (Fa : Forall (fun p => length p <= 4) all). { unfold all. constructor; [lia|]. apply Forall_app. split; [assumption|constructor; [lia|constructor]]. }
  exists left, (map g (seq 1 n)), right.
  assert (G : forall j, j <= S n -> nth j (left :: map g (seq 1 n) ++ [right]) [] = g j).
  { intros [|j] H; [unfold g; cases; reflexivity|]. cbn [nth]. destruct (Nat.eq_dec j n) as [->|].
    - rewrite app_nth2; rewrite map_length, seq_length; [|lia]. rewrite Nat.sub_diag. unfold g. cases. replace (S n - 1) with n by lia. now rewrite An.
    - rewrite app_nth1 by (rewrite map_length, seq_length; lia). now rewrite nth_map_seq by lia. }
  split; [split; [rewrite map_length, seq_length; lia|split; [|split; [auto|split; [auto|]]]]|split; [|split]].
  - apply Forall_forall. intros p Hp. apply in_map_iff in Hp. destruct Hp as (j & <- & Hj). apply in_seq in Hj. rewrite Forall_forall in Fa. apply Fa. unfold g. apply nth_In. cases.
  - intros j Hj. cbn zeta. rewrite !G by lia. rewrite kn. unfold g. cases.
    + apply Hm. lia.
    + replace (j + 1 - 1) with j by lia. apply meet_refl.
    + replace (j + 1 - 1) with (j - 1 + 1) by lia. apply Hm. lia.
  - intros x Hx. apply Hfirst. unfold first_knot in *. rewrite kn in Hx. revert Hx. cases; auto. intros Hx. eapply Qcle_trans; [exact Hx|]. apply above; lia.
  - intros x Hx. apply Hlast. unfold last_knot in *. fold n. rewrite Hn, kn in Hx. revert Hx. replace (S n - 1) with n by lia. cases; auto.
    intros Hx. eapply Qcle_trans; [|exact Hx]. apply below. lia.
  - intros j x Hj Ha Hb. rewrite nth_map_seq by lia. cbn [Nat.add]. rewrite kn in Ha, Hb. unfold g.
    destruct (Nat.lt_trichotomy (S j) i) as [C|[C|C]].
    + revert Ha Hb. cases. intros. rewrite Al by lia. replace (S j - 1) with j by lia. apply Hmid; auto. lia.
    + revert Ha Hb. cases. intros. destruct (Nat.eq_dec (S j) n) as [E|E].
      * rewrite E, An. apply Hlast. unfold last_knot. fold n. replace (n - 1) with j by lia. auto.
      * rewrite Al by lia. replace (S j - 1) with j by lia. apply Hmid; auto; [lia|]. eapply Qcle_trans; [exact Hb|]. apply above; lia.
    + destruct (Nat.eq_dec j i) as [E|E].
      * revert Ha Hb. cases. replace (j + 1 - 1) with j by lia. replace (S j - 1) with j by lia. intros. destruct (Nat.eq_dec j 0) as [E0|E0].
        -- rewrite E0 in *. rewrite A0. apply Hfirst. auto.
        -- rewrite Al by lia. apply Hmid; [lia| |now replace (j - 1 + 1) with j by lia]. eapply Qcle_trans; [|exact Ha]. apply below. lia.
      * revert Ha Hb. cases. replace (j + 1 - 1) with j by lia. replace (S j - 1) with j by lia. intros. rewrite Al by lia. apply Hmid; auto; [lia|]. now replace (j - 1 + 1) with j by lia.
Qed.

Lemma insert_cyclic s : 0 < i -> i < n -> is_cyclic_spline K s -> is_cyclic_spline K' s.
Proof.
  intros I0 I1 (pieces & (Lp & Fp & Hm & Hw) & Hmid & Hper). fold n in Lp, Hm, Hw, Hmid.
  set (g := fun j => nth (if j <? i then j else j - 1) pieces []).
  assert (E0 : first_knot K' = first_knot K) by (unfold first_knot; rewrite kn; cases; reflexivity).
  assert (E1 : last_knot K' = last_knot K). { unfold last_knot. fold n. rewrite Hn, kn. cases. f_equal. lia. }
  assert (G : forall j, j < n -> nth j (map g (seq 0 n)) [] = g j) by (intros; now rewrite nth_map_seq).
  exists (map g (seq 0 n)). split; [split; [rewrite map_length, seq_length; lia|split; [|split]]|split].
  - apply Forall_forall. intros p Hp. apply in_map_iff in Hp. destruct Hp as (j & <- & Hj). apply in_seq in Hj. rewrite Forall_forall in Fp. apply Fp. unfold g. apply nth_In. cases.
  - intros j Hj. rewrite !G by lia. rewrite kn. unfold g. cases.
    + apply Hm. lia.
    + replace (j + 1 - 1) with j by lia. apply meet_refl.
    + replace (j + 1 - 1) with (j - 1 + 1) by lia. apply Hm. lia.
  - rewrite E0, E1, !G by lia. unfold g. rewrite Hn. cases. replace (S n - 2 - 1) with (n - 2) by lia. exact Hw.
  - intros j x Hj Ha Hb. rewrite G by lia. rewrite kn in Ha, Hb. unfold g. revert Ha Hb. cases; intros.
    + apply Hmid; auto. lia.
    + apply Hmid; auto; [lia|]. eapply Qcle_trans; [exact Hb|]. apply above; lia.
    + replace (j + 1 - 1) with (j - 1 + 1) in Hb by lia. apply Hmid; auto; [lia|]. eapply Qcle_trans; [|exact Ha]. apply below. lia.
    + replace (j + 1 - 1) with (j - 1 + 1) in Hb by lia. apply Hmid; auto. lia.
  - intros x w. rewrite E0, E1. apply Hper.
Qed.
End Insert.

(** [l] is what is left of [l'] after leaving some out. *)
Inductive sub : list Qc -> list Qc -> Prop :=
| sub_nil : sub [] []
| sub_keep x l l' : sub l l' -> sub (x :: l) (x :: l')
| sub_skip x l l' : sub l l' -> sub l (x :: l').
Lemma inc_sub l' : increasing l' -> forall l, increasing l -> incl l l' -> sub l l'.
Proof.
  induction 1 as [|x l' H IH F]; intros l Hl Hc.
  - destruct l as [|y l]; [constructor|]. destruct (Hc y). now left.
  - rewrite Forall_forall in F. destruct l as [|y l]; [apply sub_skip, IH; [constructor|intros ? []]|].
    inversion Hl as [|? ? Hl' Fl]; subst. rewrite Forall_forall in Fl. destruct (Qc_eq_dec x y) as [->|D].
    + apply sub_keep, IH; auto. intros w Hw. destruct (Hc w) as [<-|]; [now right| |auto]. exfalso. exact (Qclt_not_eq _ _ (Fl _ Hw) eq_refl).
    + apply sub_skip, IH; auto. intros w Hw. destruct (Hc w) as [<-|]; auto. exfalso.
      assert (Hy : In y l') by (destruct (Hc y); [now left|easy|auto]). destruct Hw as [->|Hw]; [easy|].
      exact (Qclt_not_le _ _ (Fl _ Hw) (Qclt_le_weak _ _ (F _ Hy))).
Qed.
Lemma inc_drop pre x l : increasing (pre ++ x :: l) -> increasing (pre ++ l).
Proof.
  induction pre as [|y pre IH]; cbn; intros H; inversion H as [|? ? H1 F]; subst; auto. constructor; [now apply IH|].
  rewrite Forall_app in *. destruct F as [F1 F2]. inversion F2. auto.
Qed.
Lemma sub_chain (P : list Qc -> Prop) suf n : (forall l1 z l2, increasing (l1 ++ z :: l2 ++ suf) -> n <= length l1 -> P (l1 ++ l2 ++ suf) -> P (l1 ++ z :: l2 ++ suf)) ->
  forall l l', sub l l' -> forall pre, n <= length pre -> increasing (pre ++ l' ++ suf) -> P (pre ++ l ++ suf) -> P (pre ++ l' ++ suf).
Proof.
  intros HP l l' H. induction H as [|x l l' H IH|x l l' H IH]; intros pre Hn Hi Hl; auto.
  - assert (E : forall u, pre ++ (x :: u) ++ suf = (pre ++ [x]) ++ u ++ suf) by (intros; now rewrite <- !app_assoc).
    rewrite E in *. apply IH; auto. rewrite app_length. lia.
  - apply HP; auto. apply IH; auto. cbn in Hi. eapply inc_drop, Hi.
Qed.
