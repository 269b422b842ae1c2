(** Proofs about [make_subterm_infos]: the order of the terms and the number of columns. *)
From Coq Require Import Sorted Permutation.
From Verif Require Import Base PySort RankSpec RedundancyModel RedundancySpec RedundancyProofs PickProofs DescModel FormulaModel BuildModel BuildSpec BuildProofs BuildSubtermProofs BuildInfoProofs.

(** * "before" *)
Section Before.
Context {A : Type}.
Lemma before_cons (x : A) l a b : before (x :: l) a b <-> (x = a /\ In b l) \/ before l a b.
Proof.
  split.
  - intros [[|y p] [q [r E]]]; cbn in E; injection E as -> ->.
    + left. split; [reflexivity|]. apply in_or_app. right. now left.
    + right. exists p, q, r. reflexivity.
  - intros [[-> H]|[p [q [r ->]]]].
    + apply in_split in H. destruct H as [q [r ->]]. exists [], q, r. reflexivity.
    + exists (x :: p), q, r. reflexivity.
Qed.
Lemma before_nil (a b : A) : ~ before [] a b.
Proof. intros [[|? p] [q [r E]]]; discriminate. Qed.
Lemma before_in (l : list A) a b : before l a b -> In a l /\ In b l.
Proof. intros [p [q [r ->]]]. rewrite !in_app_iff. cbn. rewrite !in_app_iff. cbn. tauto. Qed.
Lemma before_app (l m : list A) a b : before (l ++ m) a b <-> before l a b \/ before m a b \/ (In a l /\ In b m).
Proof.
  induction l as [|x l IH]; cbn [app].
  - split; [auto|]. intros [H|[H|[[] _]]]; [now apply before_nil in H|exact H].
  - rewrite !before_cons, IH, in_app_iff. cbn. split; [intuition (subst; auto)|]. intuition (subst; auto).
Qed.
Lemma before_filter (P : A -> bool) l a b : before (filter P l) a b <-> before l a b /\ P a = true /\ P b = true.
Proof.
  induction l as [|x l IH]; cbn [filter].
  - split; [intros H|intros [H _]]; now apply before_nil in H.
  - rewrite before_cons. destruct (P x) eqn:E.
    + rewrite before_cons, IH, filter_In. split.
      * intros [[-> [H1 H2]]|[H1 H2]]; auto.
      * intros [[[-> H]|H] [H1 H2]]; auto.
    + rewrite IH. split; [tauto|]. intros [[[-> H]|H] [H1 H2]]; [congruence|auto].
Qed.
Lemma before_sorted (R : A -> A -> Prop) l : StronglySorted R l <-> forall a b, before l a b -> R a b.
Proof.
  induction l as [|x l IH].
  - split; [|constructor]. intros _ a b H. now apply before_nil in H.
  - split.
    + intros H. apply StronglySorted_inv in H. destruct H as [H1 H2]. intros a b. rewrite before_cons. intros [[-> H]|H].
      * rewrite Forall_forall in H2. auto.
      * now apply IH.
    + intros H. constructor.
      * apply IH. intros a b Hab. apply H, before_cons. now right.
      * apply Forall_forall. intros b Hb. apply H, before_cons. now left.
Qed.
End Before.
Lemma before_concat {A} (ls : list (list A)) a b : before (concat ls) a b ->
  (exists l, In l ls /\ before l a b) \/ exists l m, before ls l m /\ In a l /\ In b m.
Proof.
  induction ls as [|l ls IH]; cbn [concat]; [intros H; now apply before_nil in H|].
  rewrite before_app. intros [H|[H|[Ha Hb]]].
  - left. exists l. split; [now left|exact H].
  - destruct (IH H) as [[m [H1 H2]]|[m [k [H1 H2]]]]; [left; exists m; split; [now right|exact H2]|right].
    exists m, k. split; [apply before_cons; now right|exact H2].
  - right. apply in_concat in Hb. destruct Hb as [m [Hm Hb]]. exists l, m. split; [apply before_cons; now left|auto].
Qed.
Lemma before_map {A B} (f : A -> B) l x y : before (map f l) x y -> exists a b, before l a b /\ f a = x /\ f b = y.
Proof.
  induction l as [|z l IH]; cbn [map]; [intros H; now apply before_nil in H|]. rewrite before_cons. intros [[<- H]|H].
  - apply in_map_iff in H. destruct H as [b [<- Hb]]. exists z, b. split; [apply before_cons; auto|auto].
  - destruct (IH H) as [a [b [H1 H2]]]. exists a, b. split; [apply before_cons; auto|exact H2].
Qed.

(** * Stable sorting by length *)
Lemma by_degree_before ts a b : before (by_degree ts) a b ->
  length a < length b \/ (length a = length b /\ before ts a b).
Proof.
  intros H. unfold by_degree in *.
  assert (Has : forall x y : term, Nat.ltb (length x) (length y) = true -> Nat.ltb (length y) (length x) = false).
  { intros x y. rewrite Nat.ltb_lt, Nat.ltb_ge. lia. }
  assert (Htr : forall x y z : term, le (fun p q => Nat.ltb (length p) (length q)) x y ->
    le (fun p q => Nat.ltb (length p) (length q)) y z -> le (fun p q => Nat.ltb (length p) (length q)) x z).
  { unfold le. intros x y z. rewrite !Nat.ltb_ge. lia. }
  pose proof (py_sort_sorted _ Has Htr ts) as Hs. rewrite before_sorted in Hs. specialize (Hs a b H).
  unfold le in Hs. apply Nat.ltb_ge in Hs. destruct (Nat.lt_ge_cases (length a) (length b)) as [|Hge]; [now left|right].
  split; [lia|]. set (P := fun t : term => Nat.eqb (length t) (length a)).
  assert (HP : before (filter P (py_sort (fun x y : term => Nat.ltb (length x) (length y)) ts)) a b).
  { apply before_filter. unfold P. split; [exact H|]. rewrite !Nat.eqb_eq. lia. }
  rewrite py_sort_stable in HP.
  - now apply before_filter in HP.
  - unfold P. intros x y. rewrite !Nat.eqb_eq, Nat.ltb_ge. lia.
Qed.

Section Order.
Context {V : Type}.
Notation ctr := (@ctr V).
Notation subterm_info := (@subterm_info V).
Variable num_cols : list (factor * nat).
Variable code_cm : factor -> bool -> result ctr.
Variable hash : list (bool * factor) -> Z.
Notation bof := (bucket_of num_cols).
Notation beq := bucket_eqb.

Definition numeric (f : factor) : Prop := exists n, In (f, n) num_cols.
Lemma is_num_iff f : is_num num_cols f = true <-> numeric f.
Proof.
  unfold is_num. rewrite dmem_in. split.
  - intros [[k n] [H E]]. apply String.eqb_eq in E. cbn in E. subst. now exists n.
  - intros [n H]. exists (f, n). split; [exact H|apply String.eqb_refl].
Qed.
Lemma beq_spec a b : beq a b = true <-> (incl a b /\ incl b a).
Proof. unfold bucket_eqb. rewrite andb_true_iff, !subset_eqb_spec. tauto. Qed.
Lemma beq_refl a : beq a a = true.
Proof. apply beq_spec. split; apply incl_refl. Qed.
Lemma beq_sym a b : beq a b = beq b a.
Proof. unfold bucket_eqb. apply andb_comm. Qed.
Lemma beq_trans a b c : beq a b = true -> beq b c = true -> beq a c = true.
Proof. rewrite !beq_spec. intros [? ?] [? ?]. split; eapply incl_tran; eassumption. Qed.
Lemma beq_congr a b c : beq a b = true -> beq a c = beq b c.
Proof.
  intros H. destruct (beq a c) eqn:E1, (beq b c) eqn:E2; try reflexivity.
  - rewrite beq_sym in H. rewrite (beq_trans _ _ _ H E1) in E2. discriminate.
  - rewrite (beq_trans _ _ _ H E2) in E1. discriminate.
Qed.
Lemma same_bucket_iff a b : beq (bof a) (bof b) = true <-> same_bucket numeric a b.
Proof.
  rewrite beq_spec. unfold bucket_of, same_bucket, incl. setoid_rewrite filter_In. setoid_rewrite is_num_iff.
  split.
  - intros [H1 H2] f Hf. split; intros H; [apply (H1 f)|apply (H2 f)]; auto.
  - intros H. split; intros f [Hin Hf]; (split; [|exact Hf]); now apply (H f Hf).
Qed.
Lemma no_numeric_iff a : beq (bof a) [] = true <-> no_numeric numeric a.
Proof.
  rewrite beq_spec. unfold no_numeric, bucket_of. split.
  - intros [H _] f Hf Hn. apply (H f). apply filter_In. split; [exact Hf|now apply is_num_iff].
  - intros H. split; [|easy]. intros f Hf. apply filter_In in Hf. destruct Hf as [Hf Hn]. apply is_num_iff in Hn. destruct (H f Hf Hn).
Qed.

(** * Buckets *)
Definition first_seen (pre : list term) (b1 b2 : list factor) : Prop :=
  exists p a q, pre = p ++ a :: q /\ beq (bof a) b1 = true /\ forall t, In t p -> beq (bof t) b2 = false.
Record binv (pre : list term) (d : list (list factor * list term)) : Prop := {
  bi_ts : forall b ts, In (b, ts) d -> ts = filter (fun t => beq b (bof t)) pre;
  bi_all : forall t, In t pre -> exists b ts, In (b, ts) d /\ beq b (bof t) = true;
  bi_has : forall b ts, In (b, ts) d -> exists t, In t pre /\ beq b (bof t) = true;
  bi_before : forall x y, before d x y -> beq (fst x) (fst y) = false /\ first_seen pre (fst x) (fst y) }.

Lemma first_seen_snoc pre t b1 b2 : first_seen pre b1 b2 -> first_seen (pre ++ [t]) b1 b2.
Proof. intros [p [a [q [-> H]]]]. exists p, a, (q ++ [t]). split; [now rewrite <- app_assoc|exact H]. Qed.

Lemma filter_snoc {X} (P : X -> bool) l x : filter P (l ++ [x]) = filter P l ++ (if P x then [x] else []).
Proof. now rewrite filter_app. Qed.

Lemma filter_none {X} (P : X -> bool) l : (forall x, In x l -> P x = false) -> filter P l = [].
Proof.
  induction l as [|x l IH]; intros H; cbn; [reflexivity|]. rewrite (H x (or_introl eq_refl)). apply IH. intros y Hy. apply H. now right.
Qed.

Lemma bucket_add_cases t d : 
  (exists l b ts r, d = l ++ (b, ts) :: r /\ (forall x, In x l -> beq (fst x) (bof t) = false) /\ beq b (bof t) = true /\
     bucket_add num_cols t d = l ++ (b, ts ++ [t]) :: r) \/
  ((forall x, In x d -> beq (fst x) (bof t) = false) /\ bucket_add num_cols t d = d ++ [(bof t, [t])]).
Proof.
  induction d as [|[b ts] d IH].
  - right. split; [easy|reflexivity].
  - cbn [bucket_add]. destruct (beq b (bof t)) eqn:E.
    + left. exists [], b, ts, d. repeat split; [easy|exact E].
    + destruct IH as [[l [b' [ts' [r [-> [H1 [H2 H3]]]]]]]|[H1 H2]].
      * left. exists ((b, ts) :: l), b', ts', r. split; [reflexivity|]. split; [intros x [<-|Hx]; auto|]. split; [exact H2|].
        cbn. now rewrite H3.
      * right. split; [intros x [<-|Hx]; auto|]. cbn. now rewrite H2.
Qed.

Lemma binv_add pre d t : binv pre d -> binv (pre ++ [t]) (bucket_add num_cols t d).
Proof.
  intros H. destruct (bucket_add_cases t d) as [[l [b [ts [r [-> [H1 [H2 ->]]]]]]]|[H1 ->]].
  - assert (Hdis : forall x, In x (l ++ r) -> beq (fst x) b = false).
    { intros x Hx. apply in_app_iff in Hx. destruct Hx as [Hx|Hx].
      - apply (bi_before _ _ H x (b, ts)). rewrite before_app. right. right. split; [exact Hx|now left].
      - rewrite beq_sym. apply (bi_before _ _ H (b, ts) x). rewrite before_app. right. left. rewrite before_cons. now left. }
    split.
    + intros b0 ts0 Hin. rewrite filter_snoc. apply in_app_iff in Hin. cbn in Hin.
      destruct Hin as [Hin|[[= <- <-]|Hin]].
      * rewrite (bi_ts _ _ H b0 ts0) at 1 by (apply in_app_iff; now left). specialize (H1 _ Hin). cbn in H1. now rewrite H1, app_nil_r.
      * rewrite (bi_ts _ _ H b ts) at 1 by (apply in_app_iff; right; now left). now rewrite H2.
      * rewrite (bi_ts _ _ H b0 ts0) at 1 by (apply in_app_iff; right; now right).
        assert (E : beq b0 (bof t) = false).
        { specialize (Hdis (b0, ts0)). rewrite in_app_iff in Hdis. specialize (Hdis (or_intror Hin)). cbn in Hdis.
          rewrite <- Hdis, !(beq_sym b0). symmetry. now apply beq_congr. }
        now rewrite E, app_nil_r.
    + intros t0 Ht0. apply in_app_iff in Ht0. destruct Ht0 as [Ht0|[<-|[]]].
      * destruct (bi_all _ _ H t0 Ht0) as [b0 [ts0 [Hin E]]]. apply in_app_iff in Hin. cbn in Hin.
        destruct Hin as [Hin|[[= <- <-]|Hin]].
        -- exists b0, ts0. split; [apply in_app_iff; now left|exact E].
        -- exists b, (ts ++ [t]). split; [apply in_app_iff; right; now left|exact E].
        -- exists b0, ts0. split; [apply in_app_iff; right; now right|exact E].
      * exists b, (ts ++ [t]). split; [apply in_app_iff; right; now left|exact H2].
    + intros b0 ts0 Hin. apply in_app_iff in Hin. cbn in Hin. destruct Hin as [Hin|[[= <- <-]|Hin]].
      * destruct (bi_has _ _ H b0 ts0) as [t0 [Ht E]]; [apply in_app_iff; now left|]. exists t0. split; [apply in_app_iff; now left|exact E].
      * exists t. split; [apply in_app_iff; right; now left|exact H2].
      * destruct (bi_has _ _ H b0 ts0) as [t0 [Ht E]]; [apply in_app_iff; right; now right|]. exists t0. split; [apply in_app_iff; now left|exact E].
    + intros x y Hxy.
      assert (Hb : exists x' y', before (l ++ (b, ts) :: r) x' y' /\ fst x' = fst x /\ fst y' = fst y).
      { rewrite before_app, before_cons in Hxy. cbn [In] in Hxy. setoid_rewrite before_app. setoid_rewrite before_cons. cbn [In].
        destruct Hxy as [Hxy|[[[<- Hy]|Hxy]|[Hx [<-|Hy]]]].
        - exists x, y. auto.
        - exists (b, ts), y. auto 6.
        - exists x, y. auto.
        - exists x, (b, ts). auto 6.
        - exists x, y. auto 6. }
      destruct Hb as [x' [y' [Hb [E1 E2]]]]. destruct (bi_before _ _ H x' y' Hb) as [B1 B2]. rewrite E1, E2 in *.
      split; [exact B1|now apply first_seen_snoc].
  - split.
    + intros b0 ts0 Hin. rewrite filter_snoc. apply in_app_iff in Hin. cbn in Hin. destruct Hin as [Hin|[[= <- <-]|[]]].
      * rewrite (bi_ts _ _ H b0 ts0 Hin) at 1. specialize (H1 _ Hin). cbn in H1. now rewrite H1, app_nil_r.
      * rewrite beq_refl. assert (E : filter (fun t0 => beq (bof t) (bof t0)) pre = []).
        { apply filter_none. intros t0 Ht0. destruct (bi_all _ _ H t0 Ht0) as [b0 [ts0 [Hin E]]].
          specialize (H1 _ Hin). cbn in H1. destruct (beq (bof t) (bof t0)) eqn:E1; [|reflexivity].
          rewrite beq_sym in E1. rewrite (beq_trans _ _ _ E E1) in H1. discriminate. }
        now rewrite E.
    + intros t0 Ht0. apply in_app_iff in Ht0. destruct Ht0 as [Ht0|[<-|[]]].
      * destruct (bi_all _ _ H t0 Ht0) as [b0 [ts0 [Hin E]]]. exists b0, ts0. split; [apply in_app_iff; now left|exact E].
      * exists (bof t), [t]. split; [apply in_app_iff; right; now left|apply beq_refl].
    + intros b0 ts0 Hin. apply in_app_iff in Hin. cbn in Hin. destruct Hin as [Hin|[[= <- <-]|[]]].
      * destruct (bi_has _ _ H b0 ts0 Hin) as [t0 [Ht E]]. exists t0. split; [apply in_app_iff; now left|exact E].
      * exists t. split; [apply in_app_iff; right; now left|apply beq_refl].
    + intros x y. rewrite before_app. intros [Hxy|[Hxy|[Hx [<-|[]]]]].
      * destruct (bi_before _ _ H x y Hxy) as [B1 B2]. split; [exact B1|now apply first_seen_snoc].
      * rewrite before_cons in Hxy. destruct Hxy as [[_ []]|Hxy]. now apply before_nil in Hxy.
      * cbn [fst]. split; [now apply H1|]. destruct x as [b ts]. destruct (bi_has _ _ H b ts Hx) as [a [Ha E]].
        apply in_split in Ha. destruct Ha as [p [q ->]]. exists p, a, (q ++ [t]). split; [now rewrite <- app_assoc|].
        split; [now rewrite beq_sym|]. intros t0 Ht0. destruct (bi_all _ _ H t0) as [b0 [ts0 [Hin E0]]]; [apply in_app_iff; now left|].
        specialize (H1 _ Hin). cbn in H1. destruct (beq (bof t0) (bof t)) eqn:E1; [|reflexivity].
        rewrite (beq_trans _ _ _ E0 E1) in H1. discriminate.
Qed.
Lemma binv_buckets terms : binv terms (buckets num_cols terms).
Proof.
  unfold buckets. assert (G : forall l pre d, binv pre d -> binv (pre ++ l) (fold_left (fun d t => bucket_add num_cols t d) l d)).
  { induction l as [|t l IH]; intros pre d H; cbn [fold_left]; [now rewrite app_nil_r|].
    replace (pre ++ t :: l) with ((pre ++ [t]) ++ l) by (now rewrite <- app_assoc). apply IH. now apply binv_add. }
  apply (G terms [] []). split; try easy. intros x y H. now apply before_nil in H.
Qed.

(** Concatenating the buckets gives all the terms. *)
Lemma buckets_perm terms : Permutation (concat (map snd (buckets num_cols terms))) terms.
Proof.
  unfold buckets.
  assert (Add : forall t d, Permutation (concat (map snd (bucket_add num_cols t d))) (concat (map snd d) ++ [t])).
  { intros t d. induction d as [|[b ts] d IH]; cbn [bucket_add map concat snd app]; [reflexivity|]. destruct (beq b (bof t)); cbn [map concat snd].
    - rewrite <- !app_assoc. apply Permutation_app_head. apply Permutation_app_comm.
    - rewrite <- app_assoc. apply Permutation_app_head. exact IH. }
  assert (G : forall l d, Permutation (concat (map snd (fold_left (fun d t => bucket_add num_cols t d) l d))) (concat (map snd d) ++ l)).
  { induction l as [|t l IH]; intros d; cbn [fold_left]; [now rewrite app_nil_r|]. rewrite IH, Add, <- app_assoc. reflexivity. }
  exact (G terms []).
Qed.
Lemma filter_split_perm {X} (P : X -> bool) l : Permutation (filter P l ++ filter (fun x => negb (P x)) l) l.
Proof.
  induction l as [|x l IH]; cbn [filter]; [reflexivity|]. destruct (P x); cbn [negb app]; [now constructor|].
  rewrite <- Permutation_middle. now constructor.
Qed.
Lemma empty_first_perm d : Permutation (empty_first d) d.
Proof. apply filter_split_perm. Qed.
Lemma perm_concat {X} (l m : list (list X)) : Permutation l m -> Permutation (concat l) (concat m).
Proof.
  induction 1; cbn; [reflexivity|now apply Permutation_app_head| |etransitivity; eassumption].
  rewrite !app_assoc. apply Permutation_app_tail, Permutation_app_comm.
Qed.

Definition order_of (terms : list term) : list term :=
  concat (map (fun p => by_degree (snd p)) (empty_first (buckets num_cols terms))).
Lemma order_perm terms : Permutation (order_of terms) terms.
Proof.
  unfold order_of. transitivity (concat (map snd (empty_first (buckets num_cols terms)))).
  - generalize (empty_first (buckets num_cols terms)). intros d. induction d as [|p d IH]; cbn [map concat]; [reflexivity|].
    apply Permutation_app; [|exact IH]. symmetry. apply py_sort_perm.
  - rewrite <- (buckets_perm terms) at 2. apply perm_concat, Permutation_map, empty_first_perm.
Qed.
Lemma order_sorted terms : StronglySorted (comes_before numeric terms) (order_of terms).
Proof.
  apply before_sorted. intros a b H. pose proof (binv_buckets terms) as Hb. unfold order_of in H. apply before_concat in H.
  destruct H as [[l [Hl H]]|[l [m [H [Ha Hb']]]]].
  - apply in_map_iff in Hl. destruct Hl as [[k ts] [<- Hin]]. cbn [snd] in *.
    apply (Permutation_in _ (empty_first_perm _)) in Hin. pose proof (bi_ts _ _ Hb k ts Hin) as Ets.
    pose proof (before_in _ _ _ H) as Hab. unfold by_degree in Hab. rewrite !py_sort_in in Hab. apply by_degree_before in H.
    assert (Hs : same_bucket numeric a b).
    { rewrite Ets, !filter_In in Hab. destruct Hab as [[_ Ea] [_ Eb]]. apply same_bucket_iff. rewrite beq_sym in Ea. eapply beq_trans; eassumption. }
    left. split; [exact Hs|]. destruct H as [H|[H1 H2]]; [now left|right].
    split; [exact H1|]. rewrite Ets in H2. now apply before_filter in H2.
  - apply before_map in H. destruct H as [[b1 t1] [[b2 t2] [H [<- <-]]]]. cbn [snd] in *.
    unfold by_degree in Ha, Hb'. rewrite py_sort_in in Ha, Hb'.
    assert (Hin : In (b1, t1) (buckets num_cols terms) /\ In (b2, t2) (buckets num_cols terms)).
    { apply before_in in H. destruct H as [H1 H2]. split; eapply Permutation_in; try apply empty_first_perm; assumption. }
    destruct Hin as [Hin1 Hin2].
    assert (Ea : beq b1 (bof a) = true) by (rewrite (bi_ts _ _ Hb b1 t1 Hin1), filter_In in Ha; tauto).
    assert (Eb : beq b2 (bof b) = true) by (rewrite (bi_ts _ _ Hb b2 t2 Hin2), filter_In in Hb'; tauto).
    assert (Na : beq b1 [] = true <-> no_numeric numeric a) by (rewrite <- no_numeric_iff; now rewrite (beq_congr _ _ [] Ea)).
    assert (Nb : beq b2 [] = true <-> no_numeric numeric b) by (rewrite <- no_numeric_iff; now rewrite (beq_congr _ _ [] Eb)).
    assert (Hcase : (beq b1 b2 = false /\ beq b1 [] = true) \/ (beq b1 b2 = false /\ beq b2 [] = false /\ first_seen terms b1 b2)).
    { assert (Hd : before (buckets num_cols terms) (b1, t1) (b2, t2) -> beq b1 b2 = false) by (intros X; apply (bi_before _ _ Hb _ _ X)).
      unfold empty_first in H. rewrite before_app, !before_filter, !filter_In in H. cbn [fst] in H. rewrite !negb_true_iff in H.
      destruct H as [[H [H1 H2]]|[[H [H1 H2]]|[[_ H1] [_ H2]]]].
      - left. split; [now apply Hd|exact H1].
      - right. split; [now apply Hd|]. split; [exact H2|]. apply (bi_before _ _ Hb _ _ H).
      - left. split; [|exact H1]. rewrite (beq_congr _ _ b2 H1). now rewrite beq_sym. }
    assert (Hns : beq b1 b2 = false -> ~ same_bucket numeric a b).
    { intros E Hs. apply same_bucket_iff in Hs. rewrite (beq_congr _ _ b2 Ea), beq_sym, (beq_congr _ _ (bof a) Eb), beq_sym, Hs in E. discriminate. }
    right. destruct Hcase as [[E1 E2]|[E1 [E2 [p [a' [q [Et [Ea' Hp]]]]]]]].
    + split; [now apply Hns|]. left. now apply Na.
    + split; [now apply Hns|]. right. split; [rewrite <- Nb; congruence|]. exists p, a', q. split; [exact Et|]. split.
      * apply same_bucket_iff. eapply beq_trans; [exact Ea'|exact Ea].
      * intros t Ht Hs. apply same_bucket_iff in Hs. specialize (Hp t Ht). rewrite beq_sym in Eb. rewrite (beq_trans _ _ _ Hs Eb) in Hp. discriminate.
Qed.

(** * make_subterm_infos *)
Lemma infos_for_bucket_keys ts : forall used r, infos_for_bucket num_cols code_cm hash ts used = Ok r -> map fst r = ts.
Proof.
  induction ts as [|t ts IH]; intros used r; cbn [infos_for_bucket]; [intros [= <-]; reflexivity|].
  destruct (infos_for_term num_cols code_cm hash t used) as [p|]; cbn [bind]; [|discriminate].
  destruct (infos_for_bucket num_cols code_cm hash ts (snd p)) as [rest|] eqn:E; cbn [bind]; [|discriminate].
  intros [= <-]. cbn [map fst]. now rewrite (IH _ _ E).
Qed.
Lemma list_term_eqb_length a : forall b, list_term_eqb a b = true -> length a = length b.
Proof. induction a as [|x a IH]; intros [|y b]; cbn; try discriminate; [reflexivity|]. rewrite andb_true_iff. intros [_ H]. f_equal. auto. Qed.

Lemma make_inv terms d : make_subterm_infos num_cols code_cm hash terms = Ok d ->
  exists per, Forall2 (fun p r => infos_for_bucket num_cols code_cm hash (by_degree (snd p)) [] = Ok r)
      (empty_first (buckets num_cols terms)) per /\ d = concat per /\ distinct_keys term_eqb d.
Proof.
  unfold make_subterm_infos.
  destruct (mapM (fun p => infos_for_bucket num_cols code_cm hash (by_degree (snd p)) []) (empty_first (buckets num_cols terms))) as [per|] eqn:E;
    cbn [bind]; [|discriminate].
  unfold assert. destruct (list_term_eqb _ _) eqn:El; [|discriminate]. intros [= <-].
  apply list_term_eqb_length in El. rewrite !map_length in El.
  pose proof (proj2 (dict_of_length term_eqb (concat per)) (eq_sym El)) as Hd.
  rewrite (dict_of_distinct term_eqb) by exact Hd.
  exists per. split; [now apply mapM_ok_Forall2|auto].
Qed.
Lemma make_keys terms d : make_subterm_infos num_cols code_cm hash terms = Ok d -> map fst d = order_of terms.
Proof.
  intros H. destruct (make_inv terms d H) as [per [Hf [-> _]]]. unfold order_of. rewrite concat_map. f_equal. clear H.
  induction Hf as [|p r ps rs Hr Hf IH]; cbn [map]; [reflexivity|]. rewrite (infos_for_bucket_keys _ _ _ Hr). f_equal. exact IH.
Qed.

Lemma order_lemma terms d : make_subterm_infos num_cols code_cm hash terms = Ok d ->
  Permutation (map fst d) terms /\ StronglySorted (comes_before numeric terms) (map fst d) /\ distinct_keys term_eqb d.
Proof.
  intros H. rewrite (make_keys _ _ H). split; [apply order_perm|]. split; [apply order_sorted|].
  destruct (make_inv terms d H) as [per [_ [_ Hd]]]. exact Hd.
Qed.

(** * Which subterm a coding gives *)
Definition numc (f : factor) : nat := match dget String.eqb f num_cols with Some k => k | None => 0 end.
Definition coded (c : list (factor * bool)) (f : factor) : bool := negb (is_num num_cols f) && dmem String.eqb f c.
Section Count.
Variable levels : factor -> nat.
Definition width (p : factor * bool) : nat := if snd p then levels (fst p) else levels (fst p) - 1.
Definition width_in (c : list (factor * bool)) (f : factor) : nat :=
  match dget String.eqb f c with Some b => width (f, b) | None => 0 end.

Lemma subterm_for_ncols t c s : subterm_for num_cols code_cm t c = Ok s ->
  (forall f b m, In f t -> code_cm f b = Ok m -> ct_ncols m = width (f, b)) ->
  si_ncols s = prodn numc (filter (is_num num_cols) t) * prodn (width_in c) (filter (coded c) t).
Proof.
  unfold subterm_for. intros H Hw.
  match type of H with bind (foldM ?g t ([], [], 1)) _ = _ => set (step := g) in H end.
  assert (G : forall l st fs cms n, (forall f, In f l -> In f t) -> foldM step l st = Ok (fs, cms, n) ->
    n = snd st * (prodn numc (filter (is_num num_cols) l) * prodn (width_in c) (filter (coded c) l))).
  { induction l as [|f l IH]; intros [[fs0 cms0] n0] fs cms n Hin E; cbn [foldM] in E.
    - injection E as _ _ <-. cbn. lia.
    - destruct (step (fs0, cms0, n0) f) as [[[fs1 cms1] n1]|] eqn:E1; cbn [bind] in E; [|discriminate].
      rewrite (IH _ _ _ _ (fun x Hx => Hin x (or_intror Hx)) E). clear E IH. cbn [snd]. unfold step in E1.
      cbn [filter]. unfold coded at 2, is_num at 2 3, dmem at 1 2 3. unfold coded, is_num, dmem in *.
      destruct (dget String.eqb f num_cols) as [k|] eqn:En.
      + injection E1 as _ _ <-. cbn [negb andb prodn]. unfold numc at 2. rewrite En. lia.
      + cbn [negb andb]. destruct (dget String.eqb f c) as [b|] eqn:Ec.
        * destruct (code_cm f b) as [m|] eqn:Em; cbn [bind] in E1; [|discriminate]. injection E1 as _ _ <-.
          cbn [prodn]. unfold width_in at 2. rewrite Ec. rewrite <- (Hw f b m (Hin f (or_introl eq_refl)) Em). lia.
        * injection E1 as _ _ <-. lia. }
  destruct (foldM step t ([], [], 1)) as [[[fs cms] n]|] eqn:E; cbn [bind] in H; [|discriminate]. injection H as <-. cbn [si_ncols].
  rewrite (G t _ _ _ _ (fun f Hf => Hf) E). cbn [snd]. lia.
Qed.
Lemma coded_product t c : NoDup t -> NoDup (map fst c) -> (forall f, In f (map fst c) -> In f t /\ is_num num_cols f = false) ->
  prodn (width_in c) (filter (coded c) t) = prodn width c.
Proof.
  intros Ht Hc Hin. transitivity (prodn (width_in c) (map fst c)).
  - apply prodn_perm, NoDup_Permutation; [now apply NoDup_filter|exact Hc|]. intros f. rewrite filter_In. unfold coded.
    rewrite andb_true_iff, negb_true_iff, dmem_in. split.
    + intros [_ [_ [[k b] [H E]]]]. apply String.eqb_eq in E. cbn in E. subst. apply (in_map fst) in H. exact H.
    + intros H. destruct (Hin f H) as [H1 H2]. split; [exact H1|]. split; [exact H2|]. apply in_map_iff in H. destruct H as [p [<- H]].
      exists p. split; [exact H|apply String.eqb_refl].
  - assert (G : forall l, incl l c -> prodn (width_in c) (map fst l) = prodn width l).
    { induction l as [|[f b] l IH]; intros Hl; cbn [map prodn fst]; [reflexivity|].
      rewrite IH by (intros x Hx; apply Hl; now right). f_equal. unfold width_in.
      rewrite (dget_distinct String.eqb String.eqb_refl f b c); [reflexivity|now apply distinct_NoDup|apply Hl; now left]. }
    apply G, incl_refl.
Qed.

Lemma bucket_sum ts : forall used r, infos_for_bucket num_cols code_cm hash ts used = Ok r ->
  exists css, pick_all String.eqb hash ts (is_num num_cols) used = Ok css /\
    forall P, (forall i t cs, nth_error ts i = Some t -> nth_error css i = Some cs ->
        forall c s, In c cs -> subterm_for num_cols code_cm t c = Ok s -> si_ncols s = P * prodn width c) ->
      sumn (fun p => sumn (@si_ncols V) (snd p)) r = P * sumn (sumn (prodn width)) css.
Proof.
  induction ts as [|t ts IH]; intros used r; cbn [infos_for_bucket pick_all].
  - intros [= <-]. exists []. split; [reflexivity|]. intros. cbn. lia.
  - unfold infos_for_term. destruct (pick_contrasts_for_term String.eqb hash t (is_num num_cols) used) as [[cs used']|] eqn:Ep; cbn [bind fst snd]; [|discriminate].
    destruct (mapM (subterm_for num_cols code_cm t) cs) as [sis|] eqn:Es; cbn [bind fst snd]; [|discriminate].
    destruct (infos_for_bucket num_cols code_cm hash ts used') as [rest|] eqn:Er; cbn [bind]; [|discriminate].
    intros [= <-]. destruct (IH _ _ Er) as [css [Ec Hc]]. rewrite Ec. cbn [bind]. exists (cs :: css). split; [reflexivity|].
    intros P HP. cbn [sumn snd]. rewrite (Hc P).
    + assert (E : sumn (@si_ncols V) sis = P * sumn (prodn width) cs).
      { specialize (HP 0 t cs eq_refl eq_refl). apply mapM_ok_Forall2 in Es. clear - HP Es. induction Es as [|c s cs sis Hs Hf IHf]; cbn [sumn]; [lia|].
        rewrite IHf by (intros c' s' Hc'; apply HP; now right). rewrite (HP c s (or_introl eq_refl) Hs). lia. }
      rewrite E. lia.
    + intros i t' cs' H1 H2. apply (HP (S i) t' cs' H1 H2).
Qed.
End Count.

(** * The items of one bucket *)
Lemma ef_distinct terms x y : before (empty_first (buckets num_cols terms)) x y -> beq (fst x) (fst y) = false.
Proof.
  intros H. pose proof (binv_buckets terms) as Hb. unfold empty_first in H. rewrite before_app, !before_filter, !filter_In in H. rewrite !negb_true_iff in H.
  destruct H as [[H _]|[[H _]|[[_ H1] [_ H2]]]]; [apply (bi_before _ _ Hb _ _ H)..|].
  rewrite (beq_congr _ _ (fst y) H1). now rewrite beq_sym.
Qed.
Lemma filter_all {X} (P : X -> bool) l : (forall x, In x l -> P x = true) -> filter P l = l.
Proof.
  induction l as [|x l IH]; intros H; cbn; [reflexivity|]. rewrite (H x (or_introl eq_refl)). f_equal. apply IH. intros y Hy. apply H. now right.
Qed.
Lemma filter_concat_none {X} (P : X -> bool) ls : (forall l x, In l ls -> In x l -> P x = false) -> filter P (concat ls) = [].
Proof. intros H. apply filter_none. intros x Hx. apply in_concat in Hx. destruct Hx as [l [H1 H2]]. eauto. Qed.

Definition same_num (a b : term) : bool := beq (bof a) (bof b).
Lemma bucket_items terms d t0 : make_subterm_infos num_cols code_cm hash terms = Ok d -> In t0 terms ->
  exists ts, Permutation ts (filter (same_num t0) terms) /\
    infos_for_bucket num_cols code_cm hash ts [] = Ok (filter (fun p => same_num t0 (fst p)) d).
Proof.
  intros H Ht0. destruct (make_inv terms d H) as [per [Hf [-> _]]]. pose proof (binv_buckets terms) as Hb.
  destruct (bi_all _ _ Hb t0 Ht0) as [b [ts [Hin Eb]]].
  pose proof (bi_ts _ _ Hb b ts Hin) as Ets.
  apply (Permutation_in _ (Permutation_sym (empty_first_perm _))) in Hin. apply in_split in Hin. destruct Hin as [l1 [l2 El]].
  pose proof (ef_distinct terms) as Hd.
  assert (Hts : forall k us, In (k, us) (empty_first (buckets num_cols terms)) -> us = filter (fun t => beq k (bof t)) terms).
  { intros k us Hk. apply (Permutation_in _ (empty_first_perm _)) in Hk. exact (bi_ts _ _ Hb k us Hk). }
  rewrite El in *. apply Forall2_app_inv_l in Hf. destruct Hf as [per1 [per' [Hf1 [Hf' ->]]]].
  inversion Hf' as [|x r y per2 Hr Hf2 E1 E2]; subst x y. cbn [snd] in Hr.
  assert (Hkey : forall k us rs p, In (k, us) (l1 ++ (b, ts) :: l2) -> infos_for_bucket num_cols code_cm hash (by_degree us) [] = Ok rs -> In p rs -> beq k (bof (fst p)) = true).
  { intros k us rs p Hk Hrs Hp. apply infos_for_bucket_keys in Hrs. apply (in_map fst) in Hp. rewrite Hrs in Hp.
    unfold by_degree in Hp. rewrite py_sort_in in Hp. rewrite (Hts k us Hk), filter_In in Hp. tauto. }
  assert (Hout : forall l per0, Forall2 (fun p r => infos_for_bucket num_cols code_cm hash (by_degree (snd p)) [] = Ok r) l per0 ->
    incl l (l1 ++ (b, ts) :: l2) -> (forall x, In x l -> beq (fst x) b = false) -> filter (fun p => same_num t0 (fst p)) (concat per0) = []).
  { intros l per0 Hf0 Hl Hne. apply filter_concat_none. intros rs p Hrs Hp.
    destruct (Forall2_in_r _ _ _ Hf0 rs Hrs) as [[k us] [Hk E]]. cbn [snd] in E.
    pose proof (Hkey k us rs p (Hl _ Hk) E Hp) as Ek. specialize (Hne _ Hk). cbn in Hne. unfold same_num.
    destruct (beq (bof t0) (bof (fst p))) eqn:E0; [|reflexivity]. rewrite beq_sym in E0. rewrite beq_sym in Eb.
    rewrite (beq_trans _ _ _ (beq_trans _ _ _ Ek E0) Eb) in Hne. discriminate. }
  exists (by_degree ts). split.
  - unfold by_degree. rewrite <- py_sort_perm. rewrite Ets. erewrite filter_ext; [reflexivity|]. intros t. unfold same_num. symmetry. rewrite beq_sym in Eb. now rewrite (beq_congr _ _ (bof t) Eb).
  - rewrite concat_app, filter_app. cbn [concat]. rewrite filter_app.
    rewrite (Hout l1 per1 Hf1), (Hout l2 per2 Hf2), app_nil_r.
    + cbn [app]. rewrite filter_all; [exact Hr|]. intros p Hp. unfold same_num. rewrite <- (beq_congr _ _ (bof (fst p)) Eb).
      eapply Hkey; [|exact Hr|exact Hp]. apply in_app_iff. right. now left.
    + intros x Hx. apply in_app_iff. right. now right.
    + intros x Hx. rewrite beq_sym. apply (Hd (b, ts) x). rewrite before_app, before_cons. auto.
    + intros x Hx. apply in_app_iff. now left.
    + intros x Hx. apply (Hd x (b, ts)). rewrite before_app. right. right. split; [exact Hx|now left].
Qed.

Lemma num_product a b : NoDup a -> NoDup b -> same_num a b = true -> prodn numc (filter (is_num num_cols) b) = prodn numc (filter (is_num num_cols) a).
Proof.
  intros Ha Hb H. apply prodn_perm, NoDup_Permutation; [now apply NoDup_filter..|]. unfold same_num in H. apply beq_spec in H.
  destruct H as [H1 H2]. intros f. split; [apply H2|apply H1].
Qed.

Lemma column_count_lemma terms d t0 Ss levels :
  make_subterm_infos num_cols code_cm hash terms = Ok d -> In t0 terms -> Forall (@NoDup factor) terms -> collision_free hash (concat terms) ->
  (forall f b m, In f (concat terms) -> code_cm f b = Ok m -> ct_ncols m = if b then levels f else levels f - 1) ->
  (forall f, In f (concat terms) -> 1 <= levels f) ->
  lists_subsets (is_num num_cols) (filter (same_num t0) terms) Ss ->
  sumn (fun p => sumn (@si_ncols V) (snd p)) (filter (fun p => same_num t0 (fst p)) d) =
  prodn numc (filter (is_num num_cols) t0) * sumn (prodn (fun f => levels f - 1)) Ss.
Proof.
  intros H Ht0 Hnd Hcf Hw Hlev HSs. destruct (bucket_items terms d t0 H Ht0) as [ts [Hp Hb]].
  assert (Hts : forall t, In t ts -> In t terms /\ same_num t0 t = true).
  { intros t Ht. apply (Permutation_in _ Hp) in Ht. now apply filter_In in Ht. }
  assert (Hnd' : Forall (@NoDup factor) ts).
  { rewrite Forall_forall in *. intros t Ht. apply Hnd. now apply Hts. }
  assert (Hincl : incl (concat ts) (concat terms)).
  { intros f Hf. apply in_concat in Hf. destruct Hf as [t [H1 H2]]. apply in_concat. exists t. split; [now apply Hts|exact H2]. }
  assert (Hcf' : collision_free hash (concat ts)).
  { intros a b Ha Hb'. apply Hcf; eapply incl_tran; eassumption. }
  set (lv := fun f => levels f - 1 + 1).
  destruct (bucket_sum lv ts [] _ Hb) as [css [Ec Hc]].
  rewrite (Hc (prodn numc (filter (is_num num_cols) t0))).
  - f_equal.
    etransitivity; [|apply (pick_all_columns String.eqb hash (is_num num_cols) ts css lv (fun f => levels f - 1) Ss); [| | | |exact Ec|]].
    + clear. induction css as [|cs css IH]; cbn [sumn]; [reflexivity|]. rewrite IH. f_equal.
      clear. induction cs as [|c cs IH]; cbn [sumn]; [reflexivity|]. rewrite IH. f_equal.
      clear. induction c as [|[f b] c IH]; cbn [prodn]; [reflexivity|]. rewrite IH. f_equal. unfold width, lv. cbn. destruct b; lia.
    + intros a b. apply String.eqb_eq.
    + exact Hcf'.
    + exact Hnd'.
    + reflexivity.
    + destruct HSs as [S1 [S2 S3]]. split; [exact S1|]. split; [exact S2|]. intros S. rewrite S3. split; intros [t [Ht HS]]; exists t; (split; [|exact HS]).
      * now apply (Permutation_in _ (Permutation_sym Hp)).
      * now apply (Permutation_in _ Hp).
  - intros i t cs Hi Hcs c s Hin Hs. pose proof (nth_error_In _ _ Hi) as Hit. destruct (Hts t Hit) as [Htt Hsame].
    destruct (pick_all_codings String.eqb hash (is_num num_cols) ts (fun a b => String.eqb_eq a b) Hcf' Hnd') as [css' [Ec' [_ Hcod]]].
    pose proof (eq_trans (eq_sym Ec) Ec') as Ecc. injection Ecc as <-. destruct (Hcod i cs Hcs) as [Hk Hcov]. rewrite Forall_forall in Hk.
    assert (Hkeys : forall f, In f (map fst c) -> In f t /\ is_num num_cols f = false).
    { destruct (Hcov (map fst c)) as [_ Hn]. destruct (Hn c Hin) as [[t' [E' Hsub]] _].
      - split.
        + intros f Hf. apply in_map_iff in Hf. destruct Hf as [[f' b] [<- Hf]]. exists b. exact Hf.
        + intros f Hf. apply (in_map fst) in Hf. exact Hf.
      - pose proof (eq_trans (eq_sym Hi) E') as Eh. injection Eh as <-. exact Hsub. }
    assert (Hndt : NoDup t) by (rewrite Forall_forall in Hnd; auto).
    assert (Hnd0 : NoDup t0) by (rewrite Forall_forall in Hnd; auto).
    rewrite (subterm_for_ncols lv t c s Hs).
    + rewrite (coded_product lv t c Hndt (Hk c Hin) Hkeys). now rewrite (num_product t0 t Hnd0 Hndt Hsame).
    + intros f b m Hf Em. assert (Hft : In f (concat terms)) by (apply in_concat; eauto). rewrite (Hw f b m Hft Em).
      specialize (Hlev f Hft). unfold width, lv. cbn. destruct b; lia.
Qed.
End Order.
