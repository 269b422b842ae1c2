(** Sorting the transform objects into passes. *)
From Coq Require Import Permutation.
From Verif Require Import Base TokensModel BuildModel EvalModel EvalSpec.
Open Scope string_scope.
Open Scope list_scope.

Lemma str_in_iff s l : str_in s l = true <-> In s l.
Proof.
  unfold str_in. rewrite existsb_exists. split.
  - intros [x [H E]]. apply String.eqb_eq in E. now subst.
  - intros H. exists s. split; [exact H|apply String.eqb_refl].
Qed.

Section Bins.
Variable lex : string -> result (list ptok).
Variable memorize_code : list (string * string).
Variable objs : list string.
Variable dep : string -> string -> bool.
Variable rank : string -> nat.
Hypothesis dep_rank : forall o o', In o objs -> In o' objs -> dep o o' = true -> rank o < rank o'.
Hypothesis codes : forall o, In o objs -> exists code, dget String.eqb o memorize_code = Some code /\
  forall names, incl names objs -> ~ In o names -> has_bare_variable_reference lex names code = Ok (existsb (dep o) names).

Definition others (o : string) (l : list string) : list string := filter (fun x => negb (String.eqb x o)) l.
Definition ready (l : list string) (o : string) : bool := negb (existsb (dep o) (others o l)).
Lemma in_others x o l : In x (others o l) <-> In x l /\ x <> o.
Proof. unfold others. rewrite filter_In, negb_true_iff, String.eqb_neq. tauto. Qed.
Lemma ready_iff l o : In o objs -> incl l objs -> (ready l o = true <-> forall o', In o' l -> dep o o' = false).
Proof.
  intros Ho Hl. unfold ready. rewrite negb_true_iff. split.
  - intros H o' Ho'. destruct (dep o o') eqn:E; [|reflexivity]. assert (C : existsb (dep o) (others o l) = true); [|congruence].
    apply existsb_exists. exists o'. split; [|exact E]. apply in_others. split; [exact Ho'|]. intros ->. apply dep_rank in E; auto. lia.
  - intros H. destruct (existsb (dep o) (others o l)) eqn:E; [|reflexivity]. apply existsb_exists in E. destruct E as [o' [A B]]. apply in_others in A. rewrite H in B by tauto. discriminate.
Qed.
Lemma ready_step l : forall l', incl l' l -> incl l objs ->
  mapM (fun o => let* code := lookup (dget String.eqb o memorize_code) in
                 let* b := has_bare_variable_reference lex (others o l) code in Ok (o, negb b)) l' = Ok (map (fun o => (o, ready l o)) l').
Proof.
  induction l' as [|o l' IH]; intros Hi Hl; [reflexivity|]. cbn [mapM map].
  destruct (codes o) as [code [A B]]; [apply Hl, Hi; now left|]. rewrite A. cbn [lookup bind]. rewrite B.
  - cbn [bind]. rewrite IH; [reflexivity|intros x Hx; apply Hi; now right|exact Hl].
  - intros x Hx. apply in_others in Hx. apply Hl. tauto.
  - rewrite in_others. tauto.
Qed.
Lemma filter_pairs l l' : map fst (filter snd (map (fun o => (o, ready l o)) l')) = filter (ready l) l'.
Proof. induction l' as [|o l' IH]; [reflexivity|]. cbn. destruct (ready l o); cbn; now rewrite IH. Qed.
Lemma max_rank (l : list string) : l <> [] -> exists o, In o l /\ forall o', In o' l -> rank o' <= rank o.
Proof.
  induction l as [|a l IH]; intros H; [congruence|]. destruct l as [|b l].
  - exists a. split; [now left|]. intros o' [->|[]]. lia.
  - destruct IH as [o [A B]]; [discriminate|]. destruct (le_lt_dec (rank o) (rank a)).
    + exists a. split; [now left|]. intros o' [->|Ho]; [lia|]. specialize (B o' Ho). lia.
    + exists o. split; [now right|]. intros o' [->|Ho]; [lia|]. auto.
Qed.
Lemma split_perm (p : string -> bool) l : Permutation (filter p l ++ filter (fun x => negb (p x)) l) l.
Proof.
  induction l as [|a l IH]; [constructor|]. cbn. destruct (p a); cbn; [now constructor|].
  eapply Permutation_trans; [apply Permutation_sym, Permutation_middle|]. now constructor.
Qed.
Lemma no_bins fuel : exists bins, pass_bins lex fuel memorize_code [] = Ok bins /\
    Permutation (concat bins) [] /\ Forall (fun b => b <> []) bins /\
    (forall o, in_pass bins o 0 <-> In o [] /\ ready [] o = true) /\
    (forall o o' p q, in_pass bins o p -> in_pass bins o' q -> dep o o' = true -> q < p) /\
    (forall o p, in_pass bins o (S p) -> exists o', in_pass bins o' p /\ dep o o' = true).
Proof.
  assert (Hnone : forall o p, ~ in_pass [] o p) by (intros o [|p] [b [H _]]; discriminate).
  exists []. split; [destruct fuel; reflexivity|]. split; [constructor|]. split; [constructor|]. split; [intros o; split; [intros H; exfalso; eapply Hnone; exact H|intros [[] _]]|].
  split; intros; exfalso; eapply Hnone; eassumption.
Qed.
Lemma bins_lemma fuel : forall l, incl l objs -> List.length l <= fuel ->
  exists bins, pass_bins lex fuel memorize_code l = Ok bins /\
    Permutation (concat bins) l /\ Forall (fun b => b <> []) bins /\
    (forall o, in_pass bins o 0 <-> In o l /\ ready l o = true) /\
    (forall o o' p q, in_pass bins o p -> in_pass bins o' q -> dep o o' = true -> q < p) /\
    (forall o p, in_pass bins o (S p) -> exists o', in_pass bins o' p /\ dep o o' = true).
Proof.
  induction fuel as [|fuel IH]; intros l Hl Hf.
  - destruct l as [|a l]; [|cbn in Hf; lia]. apply no_bins.
  - destruct l as [|a l0].
    { apply no_bins. }
    remember (a :: l0) as l eqn:El.
    assert (Hne : l <> []) by (subst; discriminate).
    destruct (max_rank l Hne) as [m [M1 M2]].
    assert (Hm : ready l m = true).
    { apply ready_iff; [now apply Hl|exact Hl|]. intros o' Ho'. destruct (dep m o') eqn:E; [|reflexivity]. apply dep_rank in E; [|now apply Hl|now apply Hl]. specialize (M2 o' Ho'). lia. }
    set (bin := filter (ready l) l).
    assert (Hbin : In m bin) by (apply filter_In; auto).
    set (l' := filter (fun x => negb (str_in x bin)) l).
    assert (El' : l' = filter (fun x => negb (ready l x)) l).
    { unfold l'. apply filter_ext_in. intros x Hx. f_equal. destruct (ready l x) eqn:E.
      - apply str_in_iff. apply filter_In. auto.
      - destruct (str_in x bin) eqn:E2; [|reflexivity]. apply str_in_iff in E2. apply filter_In in E2. destruct E2. congruence. }
    assert (Hp : Permutation (bin ++ l') l) by (rewrite El'; apply split_perm).
    assert (Hlen : List.length l' <= fuel).
    { apply Permutation_length in Hp. rewrite app_length in Hp. destruct bin; [destruct Hbin|]. cbn in Hp. lia. }
    assert (Hl' : incl l' objs) by (intros x Hx; apply filter_In in Hx; apply Hl; tauto).
    destruct (IH l' Hl' Hlen) as [bins [A [B [C [D [E F]]]]]].
    exists (bin :: bins). split; [|split; [|split; [|split; [|split]]]].
    + cbn [pass_bins]. rewrite El. cbv beta iota. rewrite <- El. 
      assert (R := ready_step l l (incl_refl l) Hl). unfold others in R. rewrite R. cbn [bind]. rewrite filter_pairs. fold bin.
      assert (Hmatch : forall X : result (list (list string)), match bin with [] => Err AssertionError | _ => X end = X) by (intros X; destruct bin; [destruct Hbin|reflexivity]).
      rewrite Hmatch. fold l'. rewrite A. reflexivity.
    + cbn [concat]. eapply Permutation_trans; [|exact Hp]. now apply Permutation_app_head.
    + constructor; [|exact C]. intros Eb. rewrite Eb in Hbin. destruct Hbin.
    + intros o. split.
      * intros [b [H1 H2]]. injection H1 as <-. now apply filter_In in H2.
      * intros H. exists bin. split; [reflexivity|]. now apply filter_In.
    + assert (Hin : forall o p, in_pass bins o p -> In o l').
      { intros o p [b [H1 H2]]. eapply Permutation_in; [exact B|]. apply in_concat. exists b. split; [eapply nth_error_In; exact H1|exact H2]. }
      intros o o' p q Ho Ho' Hd. destruct p as [|p].
      * exfalso. destruct Ho as [b [H1 H2]]. injection H1 as <-. apply filter_In in H2. destruct H2 as [H2 H3].
        pose proof (proj1 (ready_iff l o (Hl o H2) Hl) H3) as H3'. 
        assert (In o' l).
        { destruct q as [|q]; [destruct Ho' as [b [H4 H5]]; injection H4 as <-; now apply filter_In in H5|].
          assert (G : In o' l') by (apply (Hin o' q); destruct Ho' as [b [H4 H5]]; exists b; auto). apply filter_In in G. tauto. }
        rewrite H3' in Hd by assumption. discriminate.
      * destruct q as [|q]; [lia|]. apply -> Nat.succ_lt_mono. apply (E o o'); [| |exact Hd].
        -- destruct Ho as [b [H4 H5]]; exists b; auto.
        -- destruct Ho' as [b [H4 H5]]; exists b; auto.
    + intros o p Ho. destruct p as [|p].
      * assert (Ho0 : in_pass bins o 0) by (destruct Ho as [b [H1 H2]]; exists b; auto). apply D in Ho0. destruct Ho0 as [H1 H2].
        rewrite El' in H1. apply filter_In in H1. destruct H1 as [H1 H3]. apply negb_true_iff in H3. unfold ready in H3. apply negb_false_iff in H3.
        apply existsb_exists in H3. destruct H3 as [o' [H4 H5]]. apply in_others in H4. exists o'. split; [|exact H5].
        exists bin. split; [reflexivity|]. apply filter_In. split; [tauto|]. destruct (ready l o') eqn:Er; [reflexivity|]. exfalso.
        pose proof (proj1 (ready_iff l' o (Hl o H1) Hl') H2) as H2'. rewrite H2' in H5; [discriminate|]. rewrite El'. apply filter_In. split; [tauto|now rewrite Er].
      * destruct (F o p) as [o' [H1 H2]]; [destruct Ho as [b [H1 H2]]; exists b; auto|]. exists o'. split; [|exact H2]. destruct H1 as [b [H3 H4]]. exists b. auto.
Qed.
End Bins.
