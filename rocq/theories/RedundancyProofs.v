From Coq Require Import Sorted Permutation.
From Verif Require Import Base PySort RedundancyModel RedundancySpec SubsetsProofs.

Lemma positions_ext k a : forall b, positions k a -> positions k b -> (forall i, In i a <-> In i b) -> a = b.
Proof.
  intros b [Ha _] [Hb _]. revert b Hb. induction Ha as [|x a Ha IH Hx]; intros b Hb E.
  - destruct b as [|y b]; [reflexivity|]. exfalso. apply (E y). now left.
  - destruct Hb as [|y b Hb Hy].
    + exfalso. apply (E x). now left.
    + rewrite Forall_forall in Hx, Hy.
      assert (x = y).
      { destruct (proj1 (E x) (or_introl eq_refl)) as [->|H1]; [reflexivity|].
        destruct (proj2 (E y) (or_introl eq_refl)) as [->|H2]; [reflexivity|].
        specialize (Hx _ H2). specialize (Hy _ H1). lia. }
      subst y. f_equal. apply IH; [exact Hb|]. intros i. split; intros Hi.
      * destruct (proj1 (E i) (or_intror Hi)) as [->|H1]; [|exact H1]. specialize (Hx _ Hi). lia.
      * destruct (proj2 (E i) (or_intror Hi)) as [->|H1]; [|exact H1]. specialize (Hy _ Hi). lia.
Qed.

Lemma Forall2_nth {A B} (R : A -> B -> Prop) l m : Forall2 R l m ->
  forall i y, nth_error m i = Some y -> exists x, nth_error l i = Some x /\ R x y.
Proof.
  induction 1; intros [|i] z Hz; try discriminate; cbn in *.
  - injection Hz as <-. eauto.
  - eauto.
Qed.
Lemma Forall2_in_r {A B} (R : A -> B -> Prop) l m : Forall2 R l m -> forall y, In y m -> exists x, In x l /\ R x y.
Proof.
  induction 1; intros z Hz; [destruct Hz|]. destruct Hz as [<-|Hz]; [exists x; split; [now left|assumption]|].
  destruct (IHForall2 z Hz) as [x' [Hx' HR]]. exists x'. split; [now right|assumption].
Qed.
Lemma Forall2_in_l {A B} (R : A -> B -> Prop) l m : Forall2 R l m -> forall x, In x l -> exists y, In y m /\ R x y.
Proof.
  induction 1; intros z Hz; [destruct Hz|]. destruct Hz as [<-|Hz]; [exists y; split; [now left|assumption]|].
  destruct (IHForall2 z Hz) as [x' [Hx' HR]]. exists x'. split; [now right|assumption].
Qed.

Section Subsets.
Context {F : Type} (feqb : F -> F -> bool).
Hypothesis feqb_spec : forall a b, feqb a b = true <-> a = b.

Lemma f_dec (a b : F) : {a = b} + {a <> b}.
Proof.
  destruct (feqb a b) eqn:E; [left; now apply feqb_spec|right]. intros ->.
  assert (feqb b b = true) by now apply feqb_spec. congruence.
Qed.

Lemma pick_in (l : list F) p s f : pick_at l p s -> (In f s <-> exists i, In i p /\ nth_error l i = Some f).
Proof.
  intros H. split.
  - intros Hf. exact (Forall2_in_r _ _ _ H f Hf).
  - intros [i [Hi Hn]]. destruct (Forall2_in_l _ _ _ H i Hi) as [x [Hx Hn2]]. congruence.
Qed.
Lemma nodup_nth (l : list F) i j x : NoDup l -> nth_error l i = Some x -> nth_error l j = Some x -> i = j.
Proof.
  intros Hn Hi Hj. apply (proj1 (NoDup_nth_error l) Hn); [|congruence].
  apply nth_error_Some. congruence.
Qed.

Lemma subset_props (l : list F) : NoDup l ->
  (forall s, In s (subsets_sorted l) -> NoDup s /\ incl s l) /\
  (forall S, incl S l -> exists s, In s (subsets_sorted l) /\ same_factors S s) /\
  (forall i j a b, nth_error (subsets_sorted l) i = Some a -> nth_error (subsets_sorted l) j = Some b ->
     same_factors a b -> i = j).
Proof.
  intros Hn. destruct (subsets_sorted_lemma l) as [ps [HF [Hin [Hso Hnd]]]].
  split; [|split].
  - intros s Hs. destruct (Forall2_in_r _ _ _ HF s Hs) as [p [Hp Hps]]. apply Hin in Hp. split.
    + destruct Hp as [Hp _]. clear - Hp Hps Hn. induction Hps as [|i x p s Hi Hps IH]; [constructor|].
      inversion Hp; subst. constructor; [|now apply IH]. intros Hx. apply (pick_in l p s x Hps) in Hx.
      destruct Hx as [j [Hj Hj2]]. rewrite Forall_forall in H2. specialize (H2 j Hj).
      pose proof (nodup_nth l i j x Hn Hi Hj2). lia.
    + intros f Hf. apply (pick_in l p s f Hps) in Hf. destruct Hf as [i [_ Hi]]. eapply nth_error_In; eauto.
  - intros S HS.
    set (p := filter (fun i => match nth_error l i with Some x => if in_dec f_dec x S then true else false | None => false end)
                (seq 0 (length l))).
    assert (Hp : positions (length l) p).
    { split.
      - subst p. generalize 0. generalize (length l). intros m. induction m as [|m IH]; intros a; [constructor|].
        cbn. destruct (nth_error l a) as [x|]; [destruct (in_dec f_dec x S)|]; auto. constructor; auto.
        apply Forall_forall. intros y Hy. apply filter_In in Hy. destruct Hy as [Hy _]. apply in_seq in Hy. lia.
      - apply Forall_forall. intros i Hi. apply filter_In in Hi. destruct Hi as [Hi _]. apply in_seq in Hi. lia. }
    apply Hin in Hp. destruct (Forall2_in_l _ _ _ HF p Hp) as [s [Hs Hps]]. exists s. split; [exact Hs|].
    intros f. rewrite (pick_in l p s f Hps). subst p. split.
    + intros Hf. apply HS in Hf as Hl. apply In_nth_error in Hl. destruct Hl as [i Hi]. exists i. split; [|exact Hi].
      apply filter_In. split.
      * apply in_seq. assert (i < length l) by (apply nth_error_Some; congruence). lia.
      * rewrite Hi. destruct (in_dec f_dec f S); [reflexivity|contradiction].
    + intros [i [Hi Hi2]]. apply filter_In in Hi. destruct Hi as [_ Hi]. rewrite Hi2 in Hi.
      destruct (in_dec f_dec f S); [assumption|discriminate].
  - intros i j a b Ha Hb Hab.
    destruct (Forall2_nth _ _ _ HF i a Ha) as [p [Hpi Hpa]]. destruct (Forall2_nth _ _ _ HF j b Hb) as [q [Hqj Hqb]].
    assert (p = q).
    { apply (positions_ext (length l)).
      - apply Hin. eapply nth_error_In; eauto.
      - apply Hin. eapply nth_error_In; eauto.
      - assert (W : forall p q a b, pick_at l p a -> pick_at l q b -> same_factors a b -> positions (length l) p ->
            forall i, In i p -> In i q).
        { clear - Hn. intros p q a b Hp Hq Hab [_ Hlt] i Hi. rewrite Forall_forall in Hlt. specialize (Hlt i Hi).
          apply nth_error_Some in Hlt. destruct (nth_error l i) as [x|] eqn:E; [|congruence].
          assert (Hx : In x a) by (apply (pick_in l p a x Hp); eauto). apply Hab in Hx.
          apply (pick_in l q b x Hq) in Hx. destruct Hx as [j [Hj Hj2]]. now rewrite (nodup_nth l i j x Hn E Hj2). }
        intros k. split.
        + apply (W p q a b); auto. apply Hin. eapply nth_error_In; eauto.
        + apply (W q p b a); auto; [intros f; symmetry; apply Hab|]. apply Hin. eapply nth_error_In; eauto. }
    subst q. apply (proj1 (NoDup_nth_error ps) Hnd); [|congruence]. apply nth_error_Some. congruence.
Qed.
End Subsets.

Section Simplify.
Context {F : Type} (feqb : F -> F -> bool).
Hypothesis feqb_spec : forall a b, feqb a b = true <-> a = b.
Notation ef_in := (ef_in feqb).
Notation can_absorb := (can_absorb feqb).
Notation absorb := (absorb feqb).

Lemma ef_eqb_spec a b : ef_eqb feqb a b = true <-> a = b.
Proof.
  destruct a as [x f], b as [y g]. unfold ef_eqb. cbn. rewrite andb_true_iff, feqb_spec, Bool.eqb_true_iff.
  split; [intros [-> ->]; reflexivity|intros [= -> ->]; auto].
Qed.
Lemma ef_in_spec e s : ef_in e s = true <-> In e s.
Proof.
  unfold RedundancyModel.ef_in. rewrite existsb_exists. split.
  - intros [x [Hx E]]. apply ef_eqb_spec in E. now subst.
  - intros H. exists e. split; [exact H|now apply ef_eqb_spec].
Qed.
Lemma ef_in_false e s : ef_in e s = false <-> ~ In e s.
Proof. rewrite <- ef_in_spec. destruct (ef_in e s); split; congruence. Qed.

(** One step of simplification, as a relation. *)
Inductive step : list (list (bool * F)) -> list (list (bool * F)) -> Prop :=
| step_intro pre short mid long post new : can_absorb long short = true -> absorb long short = Ok new ->
    step (pre ++ short :: mid ++ long :: post) (pre ++ mid ++ new :: post).
Definition stuck (l : list (list (bool * F))) : Prop :=
  forall pre short mid long post, l = pre ++ short :: mid ++ long :: post -> can_absorb long short = false.

Lemma absorb_into_spec short rest :
  match absorb_into feqb short rest with
  | Ok None => forall p long q, rest = p ++ long :: q -> can_absorb long short = false
  | Ok (Some r') => exists mid long post new, rest = mid ++ long :: post /\ can_absorb long short = true /\
                      absorb long short = Ok new /\ r' = mid ++ new :: post
  | Err e => exists mid long post, rest = mid ++ long :: post /\ can_absorb long short = true /\
               absorb long short = Err e
  end.
Proof.
  induction rest as [|long r IH]; cbn.
  - intros [|? ?]; discriminate.
  - destruct (can_absorb long short) eqn:E.
    + destruct (absorb long short) as [new|e] eqn:E2; cbn.
      * exists [], long, r, new. auto.
      * exists [], long, r. auto.
    + destruct (absorb_into feqb short r) as [[r'|]|e]; cbn.
      * destruct IH as [mid [l [post [new [-> [H1 [H2 ->]]]]]]]. exists (long :: mid), l, post, new. auto.
      * intros [|y p] l q [= -> Hq]; [assumption|]. eauto.
      * destruct IH as [mid [l [post [-> [H1 H2]]]]]. exists (long :: mid), l, post. auto.
Qed.

Lemma simplify_one_spec sts :
  match simplify_one feqb sts with
  | Ok None => stuck sts
  | Ok (Some l) => step sts l
  | Err e => exists pre short mid long post, sts = pre ++ short :: mid ++ long :: post /\
               can_absorb long short = true /\ absorb long short = Err e
  end.
Proof.
  induction sts as [|short rest IH]; cbn.
  - intros [|? ?]; discriminate.
  - pose proof (absorb_into_spec short rest) as A. destruct (absorb_into feqb short rest) as [[r'|]|e]; cbn.
    + destruct A as [mid [l [post [new [-> [H1 [H2 ->]]]]]]]. now apply (step_intro [] short mid l post new).
    + destruct (simplify_one feqb rest) as [[r'|]|e]; cbn.
      * destruct IH as [pre sh mid l post new H1 H2]. now apply (step_intro (short :: pre)).
      * intros [|y pre] sh mid l post [= -> E]; [eauto|]. eapply IH. exact E.
      * destruct IH as [pre [sh [mid [l [post [-> H]]]]]]. exists (short :: pre), sh, mid, l, post. auto.
    + destruct A as [mid [l [post [-> H]]]]. exists [], short, mid, l, post. auto.
Qed.

Lemma step_length a b : step a b -> length a = S (length b).
Proof. destruct 1. rewrite !app_length. cbn. rewrite !app_length. cbn. lia. Qed.

Inductive steps : list (list (bool * F)) -> list (list (bool * F)) -> Prop :=
| steps_nil l : steps l l
| steps_cons a b c : step a b -> steps b c -> steps a c.

Lemma simplify_n_spec n : forall sts, length sts < n ->
  match simplify_n feqb n sts with
  | Ok l => steps sts l /\ stuck l
  | Err e => exists l pre short mid long post, steps sts l /\ l = pre ++ short :: mid ++ long :: post /\
               can_absorb long short = true /\ absorb long short = Err e
  end.
Proof.
  induction n as [|n IH]; intros sts Hn; [lia|]. cbn.
  pose proof (simplify_one_spec sts) as A. destruct (simplify_one feqb sts) as [[l|]|e]; cbn.
  - pose proof (step_length _ _ A). specialize (IH l ltac:(lia)).
    destruct (simplify_n feqb n l) as [l'|e].
    + destruct IH as [H1 H2]. split; [econstructor; eauto|exact H2].
    + destruct IH as [l' [p [s [m [lg [q [H1 H2]]]]]]]. exists l', p, s, m, lg, q. split; [econstructor; eauto|exact H2].
  - split; [constructor|exact A].
  - destruct A as [p [s [m [lg [q H]]]]]. exists sts, p, s, m, lg, q. split; [constructor|exact H].
Qed.
Lemma simplify_spec sts :
  match simplify feqb sts with
  | Ok l => steps sts l /\ stuck l
  | Err e => exists l pre short mid long post, steps sts l /\ l = pre ++ short :: mid ++ long :: post /\
               can_absorb long short = true /\ absorb long short = Err e
  end.
Proof. apply simplify_n_spec. lia. Qed.

(** Coverage by subterms. *)
Definition cov (s : list (bool * F)) (S : list F) : Prop :=
  (forall f, In f S -> exists b, In (b, f) s) /\ (forall f, In (false, f) s -> In f S).
Notation fdec := (f_dec feqb feqb_spec).
Definition covb (S : list F) (s : list (bool * F)) : bool :=
  forallb (fun f => existsb (fun e : bool * F => feqb (snd e) f) s) S &&
  forallb (fun e : bool * F => if fst e then true else if in_dec fdec (snd e) S then true else false) s.
Lemma covb_spec S s : covb S s = true <-> cov s S.
Proof.
  unfold covb, cov. rewrite andb_true_iff, !forallb_forall. split; intros [A B]; split.
  - intros f Hf. specialize (A f Hf). apply existsb_exists in A. destruct A as [[b g] [H1 H2]]. cbn in H2.
    apply feqb_spec in H2. subst. eauto.
  - intros f Hf. specialize (B _ Hf). cbn in B. destruct (in_dec fdec f S); [assumption|discriminate].
  - intros f Hf. destruct (A f Hf) as [b Hb]. apply existsb_exists. exists (b, f). split; [exact Hb|]. now apply feqb_spec.
  - intros [[|] g] Hg; cbn; [reflexivity|]. destruct (in_dec fdec g S); [reflexivity|]. exfalso. auto.
Qed.
Definition cnt (S : list F) (sts : list (list (bool * F))) : nat := length (filter (covb S) sts).
Lemma cnt_app S a b : cnt S (a ++ b) = cnt S a + cnt S b.
Proof. unfold cnt. now rewrite filter_app, app_length. Qed.
Lemma cnt_cons S x b : cnt S (x :: b) = (if covb S x then 1 else 0) + cnt S b.
Proof. unfold cnt. cbn. destruct (covb S x); reflexivity. Qed.

Definition keys_ok (s : list (bool * F)) : Prop := NoDup (map snd s).
Definition inv (sts : list (list (bool * F))) : Prop := Forall keys_ok sts /\ forall S, cnt S sts <= 1.

Lemma nodup_keys s : keys_ok s -> NoDup s.
Proof. intros H. eapply NoDup_map_inv. exact H. Qed.

(** [long] is [short] plus one efactor. *)
Lemma nodup_app {A} (a b : list A) : NoDup a -> NoDup b -> (forall x, In x a -> ~ In x b) -> NoDup (a ++ b).
Proof.
  induction 1 as [|x a Hx Ha IH]; cbn; intros Hb Hd; [exact Hb|]. constructor.
  - rewrite in_app_iff. intros [H|H]; [contradiction|]. apply (Hd x); auto.
  - apply IH; auto.
Qed.
Lemma absorb_shape long short : keys_ok long -> keys_ok short -> can_absorb long short = true ->
  exists b f, Permutation long ((b, f) :: short) /\ ~ In f (map snd short) /\
    absorb long short = if b then Err AssertionError else Ok (short ++ [(true, f)]).
Proof.
  intros Kl Ks H. unfold RedundancyModel.can_absorb in H. apply andb_true_iff in H. destruct H as [Hlen Hsub].
  apply Z.eqb_eq in Hlen. rewrite forallb_forall in Hsub.
  assert (Hinc : incl short long) by (intros e He; apply ef_in_spec; auto).
  pose proof (nodup_keys _ Kl) as Nl. pose proof (nodup_keys _ Ks) as Ns.
  set (diff := filter (fun e => negb (ef_in e short)) long).
  assert (P : Permutation long (diff ++ short)).
  { apply NoDup_Permutation; [exact Nl| |].
    - apply nodup_app; [now apply NoDup_filter|exact Ns|]. intros x Hx. apply filter_In in Hx. destruct Hx as [_ Hx].
      now apply ef_in_false, negb_true_iff.
    - intros e. rewrite in_app_iff. unfold diff. rewrite filter_In, negb_true_iff, ef_in_false.
      split; [|intros [[? _]|?]; auto]. intros He. destruct (ef_in e short) eqn:E; [right; now apply ef_in_spec|left].
      split; [exact He|]. now apply ef_in_false. }
  pose proof (Permutation_length P) as PL. rewrite app_length in PL.
  unfold RedundancyModel.absorb. fold diff. destruct diff as [|[b f] [|e' d]]; cbn in PL; try lia.
  exists b, f. split; [exact P|].
  assert (Kp : NoDup (map snd ((b, f) :: short))).
  { eapply Permutation_NoDup; [|exact Kl]. change (map snd ((b, f) :: short)) with (map snd ([(b, f)] ++ short)).
    now apply Permutation_map. }
  cbn in Kp. inversion Kp; subst. split; [assumption|]. cbn. destruct b; cbn; [reflexivity|].
  unfold set_add. replace (ef_in (true, f) short) with false; [reflexivity|].
  symmetry. apply ef_in_false. intros Hi. apply (in_map snd) in Hi. contradiction.
Qed.

Lemma cov_perm a b S : Permutation a b -> (cov a S <-> cov b S).
Proof.
  intros P. assert (forall e, In e a <-> In e b).
  { intros e; split; apply Permutation_in; [exact P|now symmetry]. }
  unfold cov. setoid_rewrite H. reflexivity.
Qed.
Lemma covb_perm a b S : Permutation a b -> covb S a = covb S b.
Proof. intros P. apply Bool.eq_iff_eq_true. rewrite !covb_spec. now apply cov_perm. Qed.

(** The heart: short + long = new. *)
Lemma cov_split short f S : ~ In f (map snd short) ->
  (if covb S (short ++ [(true, f)]) then 1 else 0) =
  (if covb S short then 1 else 0) + (if covb S ((false, f) :: short) then 1 else 0).
Proof.
  intros Hf.
  assert (E : (cov (short ++ [(true, f)]) S <-> cov short S \/ cov ((false, f) :: short) S) /\
              ~ (cov short S /\ cov ((false, f) :: short) S)).
  { unfold cov. split.
    - split.
      + intros [A B]. destruct (in_dec fdec f S) as [Hi|Hi].
        * right. split.
          -- intros g Hg. destruct (A g Hg) as [b Hb]. apply in_app_iff in Hb. destruct Hb as [Hb|[[= <- <-]|[]]].
             ++ exists b. now right.
             ++ exists false. now left.
          -- intros g [[= <-]|Hg]; [exact Hi|]. apply B. apply in_app_iff. now left.
        * left. split.
          -- intros g Hg. destruct (A g Hg) as [b Hb]. apply in_app_iff in Hb. destruct Hb as [Hb|[[= <- <-]|[]]]; [eauto|contradiction].
          -- intros g Hg. apply B. apply in_app_iff. now left.
      + intros [[A B]|[A B]]; split.
        * intros g Hg. destruct (A g Hg) as [b Hb]. exists b. apply in_app_iff. now left.
        * intros g Hg. apply in_app_iff in Hg. destruct Hg as [Hg|[[=]|[]]]. auto.
        * intros g Hg. destruct (A g Hg) as [b [[= <- <-]|Hb]].
          -- exists true. apply in_app_iff. right. now left.
          -- exists b. apply in_app_iff. now left.
        * intros g Hg. apply in_app_iff in Hg. destruct Hg as [Hg|[[=]|[]]]. apply B. now right.
    - intros [[A _] [_ B]]. destruct (A f (B f (or_introl eq_refl))) as [b Hb]. apply Hf.
      now apply (in_map snd) in Hb. }
  destruct E as [E1 E2]. pose proof (covb_spec S (short ++ [(true, f)])) as C1.
  pose proof (covb_spec S short) as C2. pose proof (covb_spec S ((false, f) :: short)) as C3.
  assert (FT : false <> true) by discriminate. assert (TT : true = true) by reflexivity.
  destruct (covb S (short ++ [(true, f)])), (covb S short), (covb S ((false, f) :: short)); try reflexivity;
    exfalso; tauto.
Qed.

Lemma short_covers_keys short : keys_ok short -> cov short (map snd short).
Proof.
  intros K. split.
  - intros f Hf. apply in_map_iff in Hf. destruct Hf as [[b g] [<- H]]. eauto.
  - intros f Hf. now apply (in_map snd) in Hf.
Qed.

Lemma inv_absorb pre short mid long post : inv (pre ++ short :: mid ++ long :: post) ->
  can_absorb long short = true -> exists f, Permutation long ((false, f) :: short) /\ ~ In f (map snd short) /\
    absorb long short = Ok (short ++ [(true, f)]).
Proof.
  intros [HK HC] Hab. apply Forall_app in HK. destruct HK as [_ HK]. inversion HK as [|? ? Ks HK2]; subst.
  apply Forall_app in HK2. destruct HK2 as [_ HK2]. inversion HK2 as [|? ? Kl _]; subst.
  destruct (absorb_shape long short Kl Ks Hab) as [b [f [P [Hf E]]]]. destruct b; [|eauto].
  exfalso. specialize (HC (map snd short)). rewrite cnt_app, cnt_cons, cnt_app, cnt_cons in HC.
  assert (C1 : covb (map snd short) short = true) by (apply covb_spec, short_covers_keys; exact Ks).
  assert (C2 : covb (map snd short) long = true).
  { rewrite (covb_perm _ _ _ P). apply covb_spec. destruct (short_covers_keys short Ks) as [A B]. split.
    - intros g Hg. destruct (A g Hg) as [b Hb]. exists b. now right.
    - intros g [[=]|Hg]. auto. }
  rewrite C1, C2 in HC. lia.
Qed.

Lemma step_cnt a b S : inv a -> step a b -> cnt S b = cnt S a.
Proof.
  intros Hi H. destruct H as [pre short mid long post new Hab E].
  destruct (inv_absorb _ _ _ _ _ Hi Hab) as [f [P [Hf E2]]]. rewrite E in E2. injection E2 as ->.
  rewrite !cnt_app, !cnt_cons, !cnt_app, !cnt_cons.
  pose proof (cov_split short f S Hf) as C. rewrite (covb_perm _ _ S P). lia.
Qed.
Lemma step_inv a b : inv a -> step a b -> inv b.
Proof.
  intros Hi H. split; [|intros S; rewrite (step_cnt a b S Hi H); apply Hi].
  destruct H as [pre short mid long post new Hab E].
  destruct (inv_absorb _ _ _ _ _ Hi Hab) as [f [P [Hf E2]]]. rewrite E in E2. injection E2 as ->.
  destruct Hi as [HK _]. apply Forall_app in HK. destruct HK as [H1 HK]. inversion HK as [|? ? Ks HK2]; subst.
  apply Forall_app in HK2. destruct HK2 as [H2 HK2]. inversion HK2 as [|? ? Kl H3]; subst.
  apply Forall_app. split; [exact H1|]. apply Forall_app. split; [exact H2|]. constructor; [|exact H3].
  unfold keys_ok. rewrite map_app. apply nodup_app; [exact Ks|repeat constructor; intros []|].
  intros x Hx [<-|[]]. contradiction.
Qed.
Lemma steps_inv a b : inv a -> steps a b -> inv b /\ forall S, cnt S b = cnt S a.
Proof.
  intros Hi H. induction H as [l|a b c Hab Hbc IH]; [split; auto|].
  destruct (IH (step_inv _ _ Hi Hab)) as [H1 H2]. split; [exact H1|]. intros S. rewrite H2. now apply step_cnt.
Qed.
Lemma simplify_inv sts : inv sts -> exists l, simplify feqb sts = Ok l /\ steps sts l /\ stuck l /\ inv l /\
  forall S, cnt S l = cnt S sts.
Proof.
  intros Hi. pose proof (simplify_spec sts) as H. destruct (simplify feqb sts) as [l|e].
  - destruct H as [H1 H2]. destruct (steps_inv _ _ Hi H1). exists l. auto.
  - exfalso. destruct H as [l [p [s [m [lg [q [H1 [-> [H2 H3]]]]]]]]]. destruct (steps_inv _ _ Hi H1) as [H4 _].
    destruct (inv_absorb _ _ _ _ _ H4 H2) as [f [_ [_ E]]]. congruence.
Qed.

(** Column counts. *)
Variables full red : F -> nat.
Hypothesis full_red : forall f, full f = red f + 1.
Definition ncols (s : list (bool * F)) : nat := prodn (fun e : bool * F => if fst e then full (snd e) else red (snd e)) s.
Lemma prodn_perm {X} (w : X -> nat) a b : Permutation a b -> prodn w a = prodn w b.
Proof. induction 1; cbn; [reflexivity|lia|lia|congruence]. Qed.
Lemma prodn_app {X} (w : X -> nat) a b : prodn w (a ++ b) = prodn w a * prodn w b.
Proof. induction a; cbn; [lia|]. rewrite IHa. lia. Qed.
Lemma sumn_app {X} (w : X -> nat) a b : sumn w (a ++ b) = sumn w a + sumn w b.
Proof. induction a; cbn; [lia|]. rewrite IHa. lia. Qed.
Lemma step_cols a b : inv a -> step a b -> sumn ncols b = sumn ncols a.
Proof.
  intros Hi H. destruct H as [pre short mid long post new Hab E].
  destruct (inv_absorb _ _ _ _ _ Hi Hab) as [f [P [Hf E2]]]. rewrite E in E2. injection E2 as ->.
  rewrite !sumn_app. cbn. rewrite !sumn_app. cbn.
  assert (E1 : ncols long = red f * ncols short) by (unfold ncols at 1; rewrite (prodn_perm _ _ _ P); reflexivity).
  assert (E2 : ncols (short ++ [(true, f)]) = ncols short * full f) by (unfold ncols at 1; rewrite prodn_app; cbn; fold (ncols short); lia).
  rewrite E1, E2, full_red. nia.
Qed.
Lemma steps_cols a b : inv a -> steps a b -> sumn ncols b = sumn ncols a.
Proof.
  intros Hi H. induction H as [l|a b c Hab Hbc IH]; [reflexivity|].
  rewrite (IH (step_inv _ _ Hi Hab)). now apply step_cols.
Qed.
End Simplify.
