From Verif Require Import Base OriginModel OriginSpec.

Lemma keep_some_in {A} (l : list (option A)) x : In x (keep_some l) <-> In (Some x) l.
Proof.
  induction l as [|[y|] l IH]; cbn; [tauto| |].
  - rewrite IH. split; intros [H|H]; auto; left; congruence.
  - rewrite IH. split; [auto|intros [H|H]; [discriminate|auto]].
Qed.

Lemma min_list_le x l : min_list x l <= x /\ forall y, In y l -> min_list x l <= y.
Proof.
  unfold min_list. revert x; induction l as [|a l IH]; intros x; cbn; [split; auto; intros ? []|].
  destruct (IH (Nat.min x a)) as [H1 H2]. split; [lia|].
  intros y [<-|Hy]; [lia|auto].
Qed.
Lemma min_list_ge x l b : b <= x -> (forall y, In y l -> b <= y) -> b <= min_list x l.
Proof.
  unfold min_list. revert x; induction l as [|a l IH]; intros x Hx H; cbn; auto.
  apply IH; [|intros; apply H; right; auto]. specialize (H a (or_introl eq_refl)). lia.
Qed.
Lemma max_list_ge x l : x <= max_list x l /\ forall y, In y l -> y <= max_list x l.
Proof.
  unfold max_list. revert x; induction l as [|a l IH]; intros x; cbn; [split; auto; intros ? []|].
  destruct (IH (Nat.max x a)) as [H1 H2]. split; [lia|].
  intros y [<-|Hy]; [lia|auto].
Qed.
Lemma max_list_le x l b : x <= b -> (forall y, In y l -> y <= b) -> max_list x l <= b.
Proof.
  unfold max_list. revert x; induction l as [|a l IH]; intros x Hx H; cbn; auto.
  apply IH; [|intros; apply H; right; auto]. specialize (H a (or_introl eq_refl)). lia.
Qed.

Lemma combine_cases l :
  (combine l = Ok None /\ forall i, ~ In (Some i) l) \/
  (same_code l /\ exists o, combine l = Ok (Some o) /\ hull l o) \/
  (~ same_code l /\ combine l = Err AssertionError).
Proof.
  unfold combine. pose proof (keep_some_in l) as HK.
  destruct (keep_some l) as [|o os] eqn:E.
  - left. split; auto. intros i Hi. apply HK in Hi. destruct Hi.
  - right. destruct (forallb _ os) eqn:Ef; cbn [assert].
    + left. rewrite forallb_forall in Ef.
      assert (HC : forall i, In (Some i) l -> o_code i = o_code o).
      { intros i Hi. apply HK in Hi as [<-|Hi]; auto. apply Ef in Hi. apply String.eqb_eq in Hi. auto. }
      split. { intros i j Hi Hj. rewrite (HC i Hi), (HC j Hj). reflexivity. }
      eexists; split; [reflexivity|].
      destruct (min_list_le (o_start o) (map o_start os)) as [A1 A2].
      destruct (max_list_ge (o_end o) (map o_end os)) as [B1 B2].
      split.
      * intros i Hi. split; [cbn; symmetry; auto|]. cbn. apply HK in Hi as [<-|Hi]; [auto|].
        split; [apply A2|apply B2]; apply in_map; auto.
      * intros o' Ho'. destruct (Ho' o) as (C1 & C2 & C3). { apply HK; left; auto. }
        split; [auto|]. cbn. split.
        -- apply min_list_ge; auto. intros y Hy. apply in_map_iff in Hy as [i [<- Hi]].
           apply Ho'. apply HK; right; auto.
        -- apply max_list_le; auto. intros y Hy. apply in_map_iff in Hy as [i [<- Hi]].
           apply Ho'. apply HK; right; auto.
    + right. split; auto. intros HS.
      assert (forallb (fun o' => (o_code o' =? o_code o)%string) os = true); [|congruence].
      apply forallb_forall. intros i Hi. apply String.eqb_eq. apply HS; apply HK; [right|left]; auto.
Qed.

Lemma hull_unique l o1 o2 : hull l o1 -> hull l o2 -> o1 = o2.
Proof.
  intros [A1 A2] [B1 B2]. destruct (A2 o2 B1) as (C1 & C2 & C3). destruct (B2 o1 A1) as (D1 & D2 & D3).
  destruct o1, o2; cbn in *. f_equal; auto; lia.
Qed.

Lemma combine_none_iff l : combine l = Ok None <-> forall i, ~ In (Some i) l.
Proof.
  destruct (combine_cases l) as [[H1 H2]|[[H0 [o [H1 H2]]]|[H1 H2]]].
  - tauto.
  - rewrite H1. split; [discriminate|]. intros H.
    (* hull of the empty set cannot be produced *)
    exfalso. unfold combine in H1. pose proof (keep_some_in l) as HK.
    destruct (keep_some l) as [|o1 os] eqn:E; [discriminate|].
    apply (H o1). apply HK. left; auto.
  - rewrite H2. split; [discriminate|]. intros H. exfalso. apply H1.
    intros i j Hi. destruct (H i Hi).
Qed.

Lemma combine_some_iff l o : combine l = Ok (Some o) <->
  (exists i, In (Some i) l) /\ same_code l /\ hull l o.
Proof.
  split.
  - intros H. destruct (combine_cases l) as [[H1 H2]|[[H0 [o' [H1 H2]]]|[H1 H2]]].
    + congruence.
    + assert (o' = o) by congruence. subst. split; auto.
      unfold combine in H1. pose proof (keep_some_in l) as HK.
      destruct (keep_some l) as [|o1 os] eqn:E; [discriminate|].
      exists o1. apply HK; left; auto.
    + congruence.
  - intros [[i Hi] [HS HH]].
    destruct (combine_cases l) as [[H1 H2]|[[H0 [o' [H1 H2]]]|[H1 H2]]].
    + destruct (H2 i Hi).
    + rewrite H1. do 2 f_equal. eapply hull_unique; eauto.
    + destruct (H1 HS).
Qed.

Lemma combine_order l1 l2 : (forall x, In x l1 <-> In x l2) -> combine l1 = combine l2.
Proof.
  intros H.
  destruct (combine_cases l1) as [[A1 A2]|[[A0 [o1 [A1 A2]]]|[A1 A2]]].
  - rewrite A1. symmetry. apply combine_none_iff. intros i Hi. apply H in Hi. destruct (A2 i Hi).
  - rewrite A1. symmetry. apply combine_some_iff.
    apply combine_some_iff in A1 as [[i Hi] [HS [HH1 HH2]]].
    split; [exists i; apply H; auto|]. split.
    + intros a b Ha Hb. apply HS; apply H; auto.
    + split; [intros; apply HH1; apply H; auto|]. intros o' Ho'. apply HH2. intros; apply Ho'; apply H; auto.
  - rewrite A2. destruct (combine_cases l2) as [[B1 B2]|[[B0 [o1 [B1 B2]]]|[B1 B2]]].
    + exfalso. apply A1. intros i j Hi. apply H in Hi. destruct (B2 i Hi).
    + exfalso. apply A1. intros a b Ha Hb. apply B0; apply H; auto.
    + auto.
Qed.

