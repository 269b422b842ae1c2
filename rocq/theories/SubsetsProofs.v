From Coq Require Import Sorted Permutation.
From Verif Require Import Base PySort RedundancyModel RedundancySpec.

Lemma enumerate_map {A B} (f : A -> B) l : enumerate (map f l) = map (fun p => (fst p, f (snd p))) (enumerate l).
Proof.
  unfold enumerate. rewrite map_length. generalize 0. induction l as [|x l IH]; cbn; intros n; [reflexivity|].
  now rewrite IH.
Qed.
Lemma enumerate_snd {A} (l : list A) : map snd (enumerate l) = l.
Proof.
  unfold enumerate. generalize 0. induction l as [|x l IH]; cbn; intros n; [reflexivity|]. now rewrite IH.
Qed.
Lemma enumerate_length {A} (l : list A) : length (enumerate l) = length l.
Proof. unfold enumerate. rewrite combine_length, seq_length. lia. Qed.

Lemma flat_map_map {A B C} (f : A -> B) (g : B -> list C) l : flat_map g (map f l) = flat_map (fun x => g (f x)) l.
Proof. induction l; cbn; [reflexivity|]. now rewrite IHl. Qed.
Lemma map_flat_map {A B C} (f : B -> C) (g : A -> list B) l : map f (flat_map g l) = flat_map (fun x => map f (g x)) l.
Proof. induction l; cbn; [reflexivity|]. now rewrite map_app, IHl. Qed.

Lemma subsets_map n : forall {A B} (f : A -> B) l,
  subsets_sorted_n n (map f l) = map (map f) (subsets_sorted_n n l).
Proof.
  induction n as [|n IH]; intros A B f l; [reflexivity|]. cbn [subsets_sorted_n].
  rewrite enumerate_map. set (g := fun p : nat * A => (fst p, f (snd p))).
  set (h := match enumerate l with [] => [[]] | obj :: rest =>
      flat_map (fun subset => [subset; obj :: subset]) (subsets_sorted_n n rest) end).
  assert (E : match map g (enumerate l) with [] => [[]] | obj :: rest =>
      flat_map (fun subset => [subset; obj :: subset]) (subsets_sorted_n n rest) end = map (map g) h).
  { subst h. destruct (enumerate l) as [|obj rest]; [reflexivity|]. cbn [map].
    rewrite IH, flat_map_map, map_flat_map. reflexivity. }
  rewrite E. rewrite (py_sort_map (map g) (fun a b => tuple_ltb (map fst a) (map fst b))).
  - rewrite (py_sort_map (map g) (fun a b => Nat.ltb (length a) (length b))).
    + rewrite !map_map. apply map_ext. intros s. rewrite !map_map. apply map_ext. reflexivity.
    + intros a b. now rewrite !map_length.
  - intros a b. rewrite !map_map. reflexivity.
Qed.

(** Order facts *)
Lemma tuple_ltb_lex a : forall b, tuple_ltb a b = true <-> lex a b.
Proof.
  induction a as [|x a IH]; intros [|y b]; cbn; split; intros H; try discriminate; try (now inversion H).
  - constructor.
  - destruct (Nat.eqb_spec x y); [subst; apply lex_tail; now apply IH|]. apply Nat.ltb_lt in H. now apply lex_head.
  - inversion H; subst.
    + destruct (Nat.eqb_spec x y); [lia|]. now apply Nat.ltb_lt.
    + rewrite Nat.eqb_refl. now apply IH.
Qed.
Lemma tuple_total a : forall b, tuple_ltb a b = false -> tuple_ltb b a = false -> a = b.
Proof.
  induction a as [|x a IH]; intros [|y b]; cbn; try congruence. destruct (Nat.eqb_spec x y).
  - subst. rewrite Nat.eqb_refl. intros. f_equal. auto.
  - destruct (Nat.eqb_spec y x); [lia|]. intros H1 H2. apply Nat.ltb_ge in H1, H2. lia.
Qed.
Lemma tuple_asym a : forall b, tuple_ltb a b = true -> tuple_ltb b a = false.
Proof.
  induction a as [|x a IH]; intros [|y b]; cbn; try congruence. destruct (Nat.eqb_spec x y).
  - subst. rewrite Nat.eqb_refl. auto.
  - destruct (Nat.eqb_spec y x); [lia|]. intros H. apply Nat.ltb_lt in H. apply Nat.ltb_ge. lia.
Qed.
Lemma tuple_trans a : forall b c, tuple_ltb a b = true -> tuple_ltb b c = true -> tuple_ltb a c = true.
Proof.
  intros b c. rewrite !tuple_ltb_lex. intros H. revert c. induction H; intros c H'; inversion H'; subst.
  - constructor.
  - constructor.
  - apply lex_head; lia.
  - now apply lex_head.
  - now apply lex_head.
  - apply lex_tail. auto.
Qed.
Lemma tuple_le_trans a b c : tuple_ltb b a = false -> tuple_ltb c b = false -> tuple_ltb c a = false.
Proof.
  intros H1 H2. destruct (tuple_ltb c a) eqn:E; [|reflexivity]. exfalso.
  destruct (tuple_ltb a b) eqn:E2.
  - pose proof (tuple_trans _ _ _ E E2). congruence.
  - pose proof (tuple_total _ _ E2 H1). subst. congruence.
Qed.

Lemma subset_sort_unfold n {A} (l : list A) : subsets_sorted_n (S n) l =
  map (map snd) (py_sort (fun a b => Nat.ltb (length a) (length b))
    (py_sort (fun a b => tuple_ltb (map fst a) (map fst b))
       (match enumerate l with [] => [[]] | obj :: rest =>
          flat_map (fun subset => [subset; obj :: subset]) (subsets_sorted_n n rest) end))).
Proof. reflexivity. Qed.

Lemma enumerate_seq a k : List.combine (seq a k) (seq a k) = map (fun i => (i, i)) (seq a k).
Proof. revert a; induction k as [|k IH]; intros a; cbn; [reflexivity|]. now rewrite IH. Qed.

Lemma positions_shift k s : positions (S k) (0 :: map S s) <-> positions k s.
Proof.
  unfold positions. split.
  - intros [Hs Hf]. inversion Hs; subst. inversion Hf; subst. split.
    + clear - H1. induction s as [|x s IH]; [constructor|]. cbn in H1. inversion H1; subst. constructor; auto.
      rewrite Forall_forall in *. intros y Hy. specialize (H3 (S y) (in_map S _ _ Hy)). lia.
    + rewrite Forall_forall in *. intros x Hx. specialize (H4 (S x) (in_map S _ _ Hx)). lia.
  - intros [Hs Hf]. split.
    + constructor; [|apply Forall_forall; intros y Hy; apply in_map_iff in Hy; destruct Hy as [z [<- _]]; lia].
      clear Hf. induction Hs; cbn; [constructor|]. constructor; auto. rewrite Forall_forall in *.
      intros y Hy. apply in_map_iff in Hy. destruct Hy as [z [<- Hz]]. apply H in Hz. lia.
    + constructor; [lia|]. rewrite Forall_forall in *. intros y Hy. apply in_map_iff in Hy.
      destruct Hy as [z [<- Hz]]. apply Hf in Hz. lia.
Qed.
Lemma positions_inv k s : positions (S k) s -> exists s', positions k s' /\ (s = map S s' \/ s = 0 :: map S s').
Proof.
  intros H.
  assert (P : forall t, Forall (fun i => 0 < i) t -> exists t', t = map S t').
  { induction 1 as [|x t Hx Ht [t' ->]]; [now exists []|]. destruct x; [lia|]. now exists (x :: t'). }
  destruct s as [|x s].
  - exists []. split; [repeat constructor|now left].
  - destruct H as [Hs Hf]. inversion Hs; subst. destruct (P s) as [t Et].
    { eapply Forall_impl; [|exact H2]. cbn. lia. }
    subst s. destruct x as [|x].
    + exists t. split; [|now right]. apply positions_shift. now split.
    + exists (x :: t). split; [|now left]. apply positions_shift. split.
      * constructor; [exact Hs|]. apply Forall_forall. intros y Hy. apply (in_map_iff S (x :: t)) in Hy.
        destruct Hy as [z [<- _]]. lia.
      * constructor; [lia|exact Hf].
Qed.

(** Strict sortedness from weak sortedness and distinctness. *)
Lemma sorted_strict {A} (ltb : A -> A -> bool) l :
  (forall a b, ltb a b = false -> ltb b a = false -> a = b) ->
  NoDup l -> StronglySorted (le ltb) l -> StronglySorted (fun a b => ltb a b = true) l.
Proof.
  intros Ht Hn Hs. induction Hs as [|x l Hs IH Hx]; [constructor|]. inversion Hn; subst. constructor; auto.
  rewrite Forall_forall in *. intros y Hy. destruct (ltb x y) eqn:E; [reflexivity|].
  exfalso. apply H1. rewrite (Ht x y); auto. now apply Hx.
Qed.
Lemma sorted_map {A B} (f : A -> B) (R : A -> A -> Prop) (Q : B -> B -> Prop) l :
  (forall a b, R a b -> Q (f a) (f b)) -> StronglySorted R l -> StronglySorted Q (map f l).
Proof.
  intros H. induction 1; cbn; [constructor|]. constructor; auto. rewrite Forall_forall in *.
  intros y Hy. apply in_map_iff in Hy. destruct Hy as [z [<- Hz]]. auto.
Qed.
Lemma sorted_nodup {A} (R : A -> A -> Prop) l : (forall a, ~ R a a) -> StronglySorted R l -> NoDup l.
Proof.
  intros Hi. induction 1; constructor; auto. intros Hin. rewrite Forall_forall in H0. apply (Hi a). auto.
Qed.
Lemma shortlex_irrefl a : ~ shortlex a a.
Proof.
  intros [H|[_ H]]; [lia|]. apply tuple_ltb_lex in H. pose proof (tuple_asym _ _ H). congruence.
Qed.

Definition dup (s : list nat) : list (nat * nat) := map (fun i => (i, i)) s.
Lemma map_fst_dup s : map fst (dup s) = s.
Proof. unfold dup. rewrite map_map. cbn. apply map_id. Qed.
Lemma map_snd_dup s : map snd (dup s) = s.
Proof. unfold dup. rewrite map_map. cbn. apply map_id. Qed.

Lemma subsets_seq k : forall n, k < n ->
  (forall s, In s (subsets_sorted_n n (seq 0 k)) <-> positions k s) /\
  StronglySorted shortlex (subsets_sorted_n n (seq 0 k)).
Proof.
  induction k as [|k IH]; intros n Hn; (destruct n as [|n]; [lia|]).
  - cbn. split.
    + intros s. split; [intros [<-|[]]; repeat constructor|]. intros [_ Hf]. destruct s as [|x s]; [now left|].
      apply Forall_inv in Hf. lia.
    + repeat constructor.
  - destruct (IH n) as [Hin Hso]; [lia|]. clear IH.
    rewrite subset_sort_unfold.
    assert (En : enumerate (seq 0 (S k)) = (0, 0) :: map (fun i => (S i, S i)) (seq 0 k)).
    { unfold enumerate. rewrite seq_length, enumerate_seq. cbn. f_equal. rewrite <- seq_shift, map_map. reflexivity. }
    rewrite En. rewrite (subsets_map n (fun i => (S i, S i))), flat_map_map.
    set (base := subsets_sorted_n n (seq 0 k)) in *.
    set (H := flat_map (fun s => [map S s; 0 :: map S s]) base).
    assert (EH : flat_map (fun x => [map (fun i => (S i, S i)) x; (0, 0) :: map (fun i => (S i, S i)) x]) base = map dup H).
    { subst H. rewrite map_flat_map. apply flat_map_ext. intros s. cbn. unfold dup. now rewrite map_map. }
    rewrite EH. clear EH En.
    rewrite (py_sort_map dup tuple_ltb) by (intros; now rewrite !map_fst_dup).
    rewrite (py_sort_map dup (fun a b => Nat.ltb (length a) (length b))) by (intros; unfold dup; now rewrite !map_length).
    rewrite map_map. rewrite (map_ext _ (fun s => s) map_snd_dup), map_id.
    assert (HH : forall s, In s H <-> positions (S k) s).
    { intros s. subst H. rewrite in_flat_map. split.
      - intros [x [Hx Hs]]. apply Hin in Hx. destruct Hs as [<-|[<-|[]]].
        + apply positions_shift in Hx. destruct Hx as [A B]. inversion A; inversion B; subst. now split.
        + now apply positions_shift.
      - intros Hs. apply positions_inv in Hs. destruct Hs as [x [Hx [->| ->]]]; exists x;
          (split; [now apply Hin|cbn; auto]). }
    assert (HN : NoDup H).
    { assert (Nb : NoDup base) by (eapply sorted_nodup; [apply shortlex_irrefl|exact Hso]).
      subst H. clear - Nb. induction Nb as [|x l Hx Hl IH]; cbn; [constructor|].
      assert (Inj : forall a b : list nat, map S a = map S b -> a = b).
      { induction a as [|u a IHa]; intros [|v b] E; try discriminate; [reflexivity|]. injection E as -> E. f_equal; auto. }
      constructor; [|constructor; [|exact IH]].
      - intros [E|Hi]; [destruct x; discriminate|]. apply in_flat_map in Hi. destruct Hi as [y [Hy [E|[E|[]]]]].
        + apply Inj in E. now subst.
        + destruct x; discriminate.
      - intros Hi. apply in_flat_map in Hi. destruct Hi as [y [Hy [E|[E|[]]]]].
        + destruct y; discriminate.
        + injection E as E. apply Inj in E. now subst. }
    split.
    + intros s. rewrite !py_sort_in. apply HH.
    + assert (S1 : StronglySorted (fun a b => tuple_ltb a b = true) (py_sort tuple_ltb H)).
      { apply sorted_strict; [apply tuple_total|eapply Permutation_NoDup; [apply py_sort_perm|exact HN]|].
        apply py_sort_sorted; [apply tuple_asym|]. intros a b c. unfold le. apply tuple_le_trans. }
      pose proof (py_sort_refine (fun a b => Nat.ltb (length a) (length b)) (fun a b => tuple_ltb a b = true) (py_sort tuple_ltb H)) as R.
      specialize (R ltac:(intros a b E; apply Nat.ltb_lt in E; apply Nat.ltb_ge; lia)
        ltac:(unfold le; intros a b c E1 E2; apply Nat.ltb_ge in E1, E2; apply Nat.ltb_ge; lia) S1).
      rewrite <- (map_id (py_sort _ (py_sort _ _))). eapply sorted_map; [|exact R]. cbn. intros a b [E|[E1 E2]].
      * left. now apply Nat.ltb_lt.
      * unfold le in E1. apply Nat.ltb_ge in E1. apply tuple_ltb_lex in E2.
        destruct (Nat.eq_dec (length a) (length b)); [right|left; lia]. auto.
Qed.

Lemma map_nth_seq {A} (d : A) l : map (fun i => nth i l d) (seq 0 (length l)) = l.
Proof.
  induction l as [|x l IH]; cbn; [reflexivity|]. f_equal. rewrite <- seq_shift, map_map. exact IH.
Qed.

(** C22 *)
Lemma subsets_sorted_lemma {A} (l : list A) : exists ps,
  Forall2 (pick_at l) ps (subsets_sorted l) /\ (forall s, In s ps <-> positions (length l) s) /\
  StronglySorted shortlex ps /\ NoDup ps.
Proof.
  unfold subsets_sorted. destruct (subsets_seq (length l) (S (length l))) as [Hin Hso]; [lia|].
  exists (subsets_sorted_n (S (length l)) (seq 0 (length l))).
  split; [|split; [exact Hin|split; [exact Hso|eapply sorted_nodup; [apply shortlex_irrefl|exact Hso]]]].
  destruct l as [|d l]; [repeat constructor|].
  assert (E : subsets_sorted_n (S (length (d :: l))) (d :: l) = map (map (fun i => nth i (d :: l) d))
    (subsets_sorted_n (S (length (d :: l))) (seq 0 (length (d :: l))))).
  { rewrite <- subsets_map. now rewrite map_nth_seq. }
  rewrite E. clear E.
  assert (G : forall s, In s (subsets_sorted_n (S (length (d :: l))) (seq 0 (length (d :: l)))) ->
    pick_at (d :: l) s (map (fun i => nth i (d :: l) d) s)).
  { intros s Hs. apply Hin in Hs. destruct Hs as [_ Hf]. induction Hf as [|i s Hi Hf IH]; cbn [map]; [constructor|].
    constructor; [|exact IH]. now apply nth_error_nth'. }
  revert G. generalize (subsets_sorted_n (S (length (d :: l))) (seq 0 (length (d :: l)))).
  intros L. induction L as [|s L IH]; intros G; cbn [map]; [constructor|]. constructor; [apply G; now left|].
  apply IH. intros x Hx. apply G. now right.
Qed.
