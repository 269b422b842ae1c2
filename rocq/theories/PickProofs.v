From Coq Require Import Sorted Permutation.
From Verif Require Import Base PySort RedundancyModel RedundancySpec SubsetsProofs RedundancyProofs.

Section Pick.
Context {F : Type} (feqb : F -> F -> bool).
Hypothesis feqb_spec : forall a b, feqb a b = true <-> a = b.
Variable hash : list (bool * F) -> Z.
Variable is_numeric : F -> bool.
Variable fs : list F.
Hypothesis Hhash : collision_free hash fs.
Notation cnt := (cnt feqb feqb_spec).
Notation covb := (covb feqb feqb_spec).

Definition neg (s : list F) : list (bool * F) := map (fun f => (false, f)) s.
Definition sub (t S : list F) : Prop := sub_of is_numeric t S.

Lemma neg_snd s : map snd (neg s) = s.
Proof. unfold neg. rewrite map_map. cbn. apply map_id. Qed.
Lemma neg_keys s : NoDup s -> keys_ok (neg s).
Proof. unfold keys_ok. now rewrite neg_snd. Qed.
Lemma mk_neg s : NoDup s -> mk_subterm feqb (neg s) = neg s.
Proof.
  intros H. unfold mk_subterm.
  assert (G : forall acc l, NoDup (acc ++ l) -> fold_left (fun s e => set_add feqb e s) (neg l) (neg acc) = neg (acc ++ l)).
  { intros acc l. revert acc. induction l as [|x l IH]; intros acc Hn; [cbn; now rewrite app_nil_r|].
    change (neg (x :: l)) with ((false, x) :: neg l). cbn [fold_left].
    unfold set_add at 2. replace (ef_in feqb (false, x) (neg acc)) with false.
    - assert (En : neg acc ++ [(false, x)] = neg (acc ++ [x])) by (unfold neg; now rewrite map_app).
      replace (acc ++ x :: l) with ((acc ++ [x]) ++ l) in * by now rewrite <- app_assoc.
      etransitivity; [|apply IH; exact Hn]. f_equal. exact En.
    - symmetry. apply (ef_in_false feqb feqb_spec). intros Hi. apply in_map_iff in Hi. destruct Hi as [y [[= ->] Hy]].
      apply NoDup_remove_2 in Hn. apply Hn. apply in_app_iff. now left. }
  apply (G [] s H).
Qed.
Lemma cov_neg s S : cov (neg s) S <-> same_factors S s.
Proof.
  unfold cov, same_factors. split.
  - intros [A B] f. split; intros H.
    + destruct (A f H) as [b Hb]. apply in_map_iff in Hb. destruct Hb as [x [[= _ ->] Hx]]. exact Hx.
    + apply B. apply in_map_iff. eauto.
  - intros E. split.
    + intros f Hf. exists false. apply in_map_iff. exists f. split; [reflexivity|now apply E].
    + intros f Hf. apply in_map_iff in Hf. destruct Hf as [x [[= ->] Hx]]. now apply E.
Qed.

Definition pairwise {X} (P : X -> X -> Prop) (l : list X) : Prop := ForallOrdPairs P l.
Definition apart (a b : list F) : Prop := ~ same_factors a b.

Lemma nth_pairwise (l : list (list F)) :
  (forall i j a b, nth_error l i = Some a -> nth_error l j = Some b -> same_factors a b -> i = j) <-> pairwise apart l.
Proof.
  split.
  - induction l as [|x l IH]; intros H; constructor.
    + apply Forall_forall. intros y Hy E. apply In_nth_error in Hy. destruct Hy as [j Hj].
      specialize (H 0 (S j) x y eq_refl Hj E). discriminate.
    + apply IH. intros i j a b Ha Hb E. specialize (H (S i) (S j) a b Ha Hb E). now injection H.
  - induction 1 as [|x l Hx Hl IH]; intros [|i] [|j] a b Ha Hb E; try discriminate; try reflexivity; cbn in *.
    + injection Ha as <-. rewrite Forall_forall in Hx. exfalso. apply (Hx b); [eapply nth_error_In; eauto|exact E].
    + injection Hb as <-. rewrite Forall_forall in Hx. exfalso. apply (Hx a); [eapply nth_error_In; eauto|].
      intros f; symmetry; apply E.
    + f_equal. eauto.
Qed.
Lemma pairwise_filter {X} (P : X -> X -> Prop) p l : pairwise P l -> pairwise P (filter p l).
Proof.
  induction 1 as [|x l Hx Hl IH]; cbn; [constructor|]. destruct (p x); [|exact IH]. constructor; [|exact IH].
  apply Forall_forall. intros y Hy. apply filter_In in Hy. rewrite Forall_forall in Hx. apply Hx. apply Hy.
Qed.
Lemma pairwise_app {X} (P : X -> X -> Prop) a b : pairwise P a -> pairwise P b ->
  (forall x y, In x a -> In y b -> P x y) -> pairwise P (a ++ b).
Proof.
  induction 1 as [|x a Hx Ha IH]; cbn; intros Hb Hd; [exact Hb|]. constructor; [|apply IH; auto].
  apply Forall_app. split; [exact Hx|]. apply Forall_forall. intros y Hy. apply Hd; auto.
Qed.

Lemma cnt_neg S L : pairwise apart L -> cnt S (map neg L) <= 1 /\ (cnt S (map neg L) = 1 <-> exists s, In s L /\ same_factors S s).
Proof.
  induction 1 as [|x L Hx HL IH]; cbn [map].
  - split; [cbn; lia|]. split; [discriminate|]. intros [s [[] _]].
  - rewrite cnt_cons. destruct IH as [IH1 IH2]. destruct (covb S (neg x)) eqn:E.
    + apply covb_spec in E. apply cov_neg in E.
      assert (N : cnt S (map neg L) <> 1).
      { intros H. apply IH2 in H. destruct H as [s [Hs Es]]. rewrite Forall_forall in Hx. apply (Hx s Hs).
        intros f. rewrite <- (E f). apply Es. }
      split; [lia|]. split; [|intros _; lia]. intros _. exists x. split; [now left|exact E].
    + split; [lia|]. cbn. rewrite IH2. split.
      * intros [s [Hs Es]]. exists s. split; [now right|exact Es].
      * intros [s [[<-|Hs] Es]]; [|eauto]. apply cov_neg in Es. apply (covb_spec feqb feqb_spec) in Es. congruence.
Qed.

Definition used_ok (used : list (list (bool * F))) (dn : list (list F)) : Prop :=
  Forall (fun u => exists s, u = neg s /\ NoDup s /\ incl s fs) used /\
  forall S, NoDup S -> incl S fs -> (in_used hash (neg S) used = true <-> exists t, In t dn /\ sub t S).

Lemma in_update x used sts : in_used hash x (update_used hash used sts) = true <->
  in_used hash x used = true \/ exists s, In s sts /\ hash s = hash x.
Proof.
  unfold update_used. revert used. induction sts as [|s sts IH]; intros used; cbn [fold_left].
  - split; [auto|]. intros [H|[s [[] _]]]. exact H.
  - rewrite IH. clear IH. destruct (in_used hash s used) eqn:E.
    + split; [intros [H|[u [Hu H]]]; [now left|right; exists u; cbn; auto]|].
      intros [H1|[u [[Eu|Hu] H1]]]; [now left| |right; eauto]. subst u. left. unfold in_used in *.
      apply existsb_exists in E. destruct E as [v [Hv Ev]]. apply existsb_exists. exists v. split; [exact Hv|].
      apply Z.eqb_eq in Ev. apply Z.eqb_eq. congruence.
    + assert (A : in_used hash x (used ++ [s]) = true <-> in_used hash x used = true \/ hash s = hash x).
      { unfold in_used. rewrite existsb_app, orb_true_iff. cbn. rewrite orb_false_r, Z.eqb_eq. reflexivity. }
      rewrite A. split.
      * intros [[H|H]|[u [Hu H]]]; [now left|right; exists s; cbn; auto|right; exists u; cbn; auto].
      * intros [H1|[u [[Eu|Hu] H1]]]; [auto|subst u; auto|right; eauto].
Qed.

Lemma update_all (P : list (bool * F) -> Prop) m : forall used, Forall P used -> Forall P m ->
  Forall P (update_used hash used m).
Proof.
  unfold update_used. induction m as [|x m IH]; intros used Hu HF; cbn [fold_left]; [exact Hu|]. inversion HF; subst.
  apply IH; auto. destruct (in_used hash x used); [exact Hu|]. apply Forall_app. split; [exact Hu|]. now constructor.
Qed.

Lemma sub_ext t a b : same_factors a b -> sub t a -> sub t b.
Proof. intros E H f Hf. apply H. now apply E. Qed.

Lemma in_used_ext a b used dn : used_ok used dn -> NoDup a -> NoDup b -> incl a fs -> incl b fs ->
  same_factors a b -> in_used hash (neg a) used = in_used hash (neg b) used.
Proof.
  intros [_ H] Na Nb Ia Ib E. apply Bool.eq_iff_eq_true. rewrite !H by assumption.
  split; intros [t [Ht Hs]]; exists t; (split; [exact Ht|]); eapply sub_ext; eauto. intros f; symmetry; apply E.
Qed.

Definition fresh (dn : list (list F)) (t S : list F) : Prop := sub t S /\ ~ exists t', In t' dn /\ sub t' S.

(** One term. *)
Lemma pick_one t used dn : NoDup t -> incl t fs -> used_ok used dn ->
  exists L l used', pick_contrasts_for_term feqb hash t is_numeric used = Ok (map (factor_coding feqb) l, used') /\
    used_ok used' (dn ++ [t]) /\ Forall (@NoDup F) L /\ pairwise apart L /\
    (forall S, (exists s, In s L /\ same_factors S s) <-> fresh dn t S) /\
    inv feqb feqb_spec (map neg L) /\ steps feqb (map neg L) l.
Proof.
  intros Nt It Hu. unfold pick_contrasts_for_term.
  set (cat := filter (fun f => negb (is_numeric f)) t).
  assert (Nc : NoDup cat) by now apply NoDup_filter.
  assert (Ic : forall S, incl S cat <-> sub t S).
  { intros S. split.
    - intros H f Hf. apply H in Hf. apply filter_In in Hf. destruct Hf as [H1 H2]. split; [exact H1|]. now apply negb_true_iff.
    - intros H f Hf. destruct (H f Hf) as [H1 H2]. apply filter_In. split; [exact H1|now apply negb_true_iff]. }
  destruct (subset_props feqb feqb_spec cat Nc) as [B1 [B2 B3]].
  set (Bs := subsets_sorted cat) in *. apply nth_pairwise in B3.
  assert (Bf : forall s, In s Bs -> incl s fs).
  { intros s Hs f Hf. apply It. apply (B1 s Hs) in Hf. apply filter_In in Hf. apply Hf. }
  set (L := filter (fun s => negb (in_used hash (neg s) used)) Bs).
  assert (E : filter (fun s => negb (in_used hash s used)) (map (fun subset => mk_subterm feqb (map (fun f => (false, f)) subset)) Bs)
              = map neg L).
  { subst L. assert (H : forall s, In s Bs -> NoDup s) by (intros s Hs; apply B1; exact Hs). revert H. clear - feqb_spec.
    induction Bs as [|s Bs IH]; intros H; cbn; [reflexivity|]. fold (neg s). rewrite mk_neg by (apply H; now left).
    destruct (in_used hash (neg s) used); cbn; rewrite IH; auto; intros x Hx; apply H; now right. }
  rewrite E.
  assert (PL : pairwise apart L) by now apply pairwise_filter.
  assert (NL : Forall (@NoDup F) L).
  { apply Forall_forall. intros s Hs. apply filter_In in Hs. apply B1. apply Hs. }
  assert (LL : forall S, (exists s, In s L /\ same_factors S s) <-> fresh dn t S).
  { intros S. split.
    - intros [s [Hs Es]]. apply filter_In in Hs. destruct Hs as [Hs Hnu]. apply negb_true_iff in Hnu. split.
      + apply (sub_ext t s S); [intros f; symmetry; apply Es|]. apply Ic. now apply B1.
      + intros [t' [Ht' Hsub]].
        assert (in_used hash (neg s) used = true).
        { apply Hu; [now apply B1|now apply Bf|]. exists t'. split; [exact Ht'|]. eapply sub_ext; eauto. }
        congruence.
    - intros [Hs Hn]. apply Ic in Hs. destruct (B2 S Hs) as [s [Hsb Es]]. exists s. split; [|exact Es].
      apply filter_In. split; [exact Hsb|]. apply negb_true_iff. destruct (in_used hash (neg s) used) eqn:Eu; [|reflexivity].
      exfalso. apply Hn. apply Hu in Eu; [|now apply B1|now apply Bf]. destruct Eu as [t' [Ht' Hsub]]. exists t'.
      split; [exact Ht'|]. eapply sub_ext; [|exact Hsub]. intros f; symmetry; apply Es. }
  assert (I0 : inv feqb feqb_spec (map neg L)).
  { split.
    - apply Forall_forall. intros u Hu'. apply in_map_iff in Hu'. destruct Hu' as [s [<- Hs]]. apply neg_keys.
      rewrite Forall_forall in NL. auto.
    - intros S. apply cnt_neg. exact PL. }
  destruct (simplify_inv feqb feqb_spec _ I0) as [l [El [Hst _]]]. rewrite El. cbn [bind].
  exists L, l, (update_used hash used (map neg L)). split; [reflexivity|]. split; [|now auto].
  assert (LF : Forall (fun u => exists s, u = neg s /\ NoDup s /\ incl s fs) (map neg L)).
  { apply Forall_forall. intros u Hu'. apply in_map_iff in Hu'. destruct Hu' as [s [<- Hs]]. exists s.
    apply filter_In in Hs. destruct Hs as [Hs _]. split; [reflexivity|]. split; [now apply B1|now apply Bf]. }
  split.
  - destruct Hu as [Hu _]. now apply update_all.
  - intros S NS IS. rewrite in_update. destruct Hu as [_ Hu]. rewrite Hu by assumption. split.
    + intros [[t' [Ht' Hs]]|[u [Hin Hh]]].
      * exists t'. split; [apply in_app_iff; now left|exact Hs].
      * apply in_map_iff in Hin. destruct Hin as [s [<- Hs]].
        exists t. split; [apply in_app_iff; right; now left|].
        assert (Es : same_factors s S).
        { apply filter_In in Hs. destruct Hs as [Hs _]. exact (proj1 (Hhash s S (Bf s Hs) IS (proj1 (B1 s Hs)) NS) Hh). }
        apply (sub_ext t s S Es). apply Ic. apply filter_In in Hs. now apply B1.
    + intros [t' [Ht' Hs]]. apply in_app_iff in Ht'. destruct Ht' as [Ht'|[<-|[]]]; [left; eauto|].
      destruct (in_used hash (neg S) used) eqn:Eu; [left; now apply Hu|]. right.
      assert (Hfr : fresh dn t S).
      { split; [exact Hs|]. intros Hex. apply Hu in Hex; [congruence|assumption|assumption]. }
      apply LL in Hfr. destruct Hfr as [s [Hs' Es]]. exists (neg s). split; [now apply in_map|].
      apply filter_In in Hs'. destruct Hs' as [Hs' _]. apply (proj2 (Hhash s S (Bf s Hs') IS (proj1 (B1 s Hs')) NS)).
      intros f; symmetry; apply Es.
Qed.

(** factor_coding *)
Lemma coding_swap s : keys_ok s -> factor_coding feqb s = map (fun e => (snd e, fst e)) s.
Proof.
  intros K. unfold factor_coding.
  assert (G : forall acc l, NoDup (map fst acc ++ map snd l) ->
    fold_left (fun d e => dict_set feqb d (snd e) (fst e)) l acc = acc ++ map (fun e : bool * F => (snd e, fst e)) l).
  { intros acc l. revert acc. induction l as [|[b f] l IH]; intros acc Hn; cbn; [now rewrite app_nil_r|].
    unfold dict_set at 2. replace (existsb (fun p => feqb (fst p) f) acc) with false.
    - rewrite IH; [now rewrite <- app_assoc|]. rewrite map_app. cbn. rewrite <- app_assoc. exact Hn.
    - symmetry. destruct (existsb (fun p => feqb (fst p) f) acc) eqn:E; [|reflexivity]. exfalso.
      apply existsb_exists in E. destruct E as [[g b'] [Hg E]]. apply feqb_spec in E. cbn in E. subst g.
      cbn in Hn. apply NoDup_remove_2 in Hn. apply Hn. apply in_app_iff. left. now apply (in_map fst) in Hg. }
  apply (G [] s). exact K.
Qed.
Lemma covers_swap s S : keys_ok s -> (covers (factor_coding feqb s) S <-> cov s S).
Proof.
  intros K. rewrite coding_swap by exact K. unfold covers, cov.
  assert (E : forall f b, In (f, b) (map (fun e : bool * F => (snd e, fst e)) s) <-> In (b, f) s).
  { intros f b. rewrite in_map_iff. split; [intros [[x y] [[= -> ->] H]]; exact H|intros H; now exists (b, f)]. }
  setoid_rewrite E. reflexivity.
Qed.
Lemma swap_keys s : keys_ok s -> NoDup (map fst (factor_coding feqb s)).
Proof. intros K. rewrite coding_swap by exact K. rewrite map_map. exact K. Qed.

Lemma cnt_exactly l S : Forall keys_ok l -> cnt S l = 1 -> exactly_one (fun c => covers c S) (map (factor_coding feqb) l).
Proof.
  intros K H. induction K as [|x l Kx K IH]; [discriminate|]. rewrite cnt_cons in H. cbn [map].
  destruct (covb S x) eqn:E.
  - apply covb_spec in E. exists [], (factor_coding feqb x), (map (factor_coding feqb) l). split; [reflexivity|].
    split; [now apply covers_swap|]. cbn. assert (H0 : cnt S l = 0) by lia. clear - K H0 feqb_spec. induction K as [|y l Ky K IH]; cbn; [constructor|].
    rewrite cnt_cons in H0. destruct (covb S y) eqn:E; [lia|]. constructor; [|apply IH; lia].
    intros Hc. apply covers_swap in Hc; [|exact Ky]. apply (covb_spec feqb feqb_spec) in Hc. congruence.
  - destruct IH as [p [y [q [-> [Hy Hf]]]]]; [lia|]. exists (factor_coding feqb x :: p), y, q. split; [reflexivity|].
    split; [exact Hy|]. constructor; [|exact Hf].
    intros Hc. apply covers_swap in Hc; [|exact Kx]. apply (covb_spec feqb feqb_spec) in Hc. congruence.
Qed.
Lemma cnt_pos l S c : Forall keys_ok l -> In c (map (factor_coding feqb) l) -> covers c S -> 1 <= cnt S l.
Proof.
  intros K Hc Hs. apply in_map_iff in Hc. destruct Hc as [s [<- Hi]]. rewrite Forall_forall in K.
  apply covers_swap in Hs; [|auto]. apply (covb_spec feqb feqb_spec) in Hs. apply in_split in Hi. destruct Hi as [p [q ->]].
  rewrite cnt_app, cnt_cons, Hs. lia.
Qed.

Variables full red : F -> nat.
Hypothesis full_red : forall f, full f = red f + 1.
Definition ccols (c : list (F * bool)) : nat := prodn (fun p : F * bool => if snd p then full (fst p) else red (fst p)) c.
Lemma ccols_swap s : keys_ok s -> ccols (factor_coding feqb s) = ncols full red s.
Proof.
  intros K. rewrite coding_swap by exact K. unfold ccols, ncols. clear. induction s as [|[b f] s IH]; cbn; [reflexivity|].
  now rewrite IH.
Qed.

Lemma pick_all_spec : forall terms used dn, Forall (@NoDup F) terms -> Forall (fun t => incl t fs) terms -> used_ok used dn ->
  exists css L, pick_all feqb hash terms is_numeric used = Ok css /\ length css = length terms /\
    (forall i t cs, nth_error terms i = Some t -> nth_error css i = Some cs ->
       Forall (fun c => NoDup (map fst c)) cs /\
       forall S, (fresh (dn ++ firstn i terms) t S -> exactly_one (fun c => covers c S) cs) /\
                 (forall c, In c cs -> covers c S -> fresh (dn ++ firstn i terms) t S)) /\
    Forall (@NoDup F) L /\ pairwise apart L /\
    (forall S, (exists s, In s L /\ same_factors S s) <->
       (exists t, In t terms /\ sub t S) /\ ~ exists t, In t dn /\ sub t S) /\
    sumn (sumn ccols) css = sumn (prodn red) L.
Proof.
  induction terms as [|t terms IH]; intros used dn HN HI Hu.
  - exists [], []. split; [reflexivity|]. split; [reflexivity|]. split; [intros [|i]; discriminate|].
    split; [constructor|]. split; [constructor|]. split; [|reflexivity].
    intros S. split; [intros [s [[] _]]|intros [[t [[] _]] _]].
  - inversion HN as [|? ? Nt HN']; subst. inversion HI as [|? ? It HI']; subst.
    destruct (pick_one t used dn Nt It Hu) as [L [l [used' [Ep [Hu' [NL [PL [LL [I0 Hst]]]]]]]]].
    destruct (IH used' (dn ++ [t]) HN' HI' Hu') as [css [L' [Ea [Hlen [Hi [NL' [PL' [LL' Hsum]]]]]]]].
    destruct (steps_inv feqb feqb_spec _ _ I0 Hst) as [[Kl _] Hcnt].
    exists (map (factor_coding feqb) l :: css), (L ++ L'). cbn [pick_all]. rewrite Ep. cbn [bind snd fst]. rewrite Ea. cbn [bind].
    split; [reflexivity|]. split; [cbn; now f_equal|]. split.
    { intros [|i] u cs Hn Hc; cbn in Hn, Hc.
      - injection Hn as <-. injection Hc as <-. split.
        + apply Forall_forall. intros c Hc. apply in_map_iff in Hc. destruct Hc as [s [<- Hs]]. apply swap_keys.
          rewrite Forall_forall in Kl. auto.
        + intros S. cbn [firstn]. rewrite app_nil_r. split.
          * intros Hf. apply cnt_exactly; [exact Kl|]. rewrite Hcnt. apply cnt_neg; [exact PL|]. now apply LL.
          * intros c Hc Hs. apply LL. apply cnt_neg; [exact PL|]. pose proof (cnt_pos _ _ _ Kl Hc Hs).
            rewrite Hcnt in H. pose proof (proj1 (cnt_neg S L PL)). lia.
      - destruct (Hi i u cs Hn Hc) as [A B]. split; [exact A|]. cbn [firstn].
        rewrite <- app_assoc in B. exact B. }
    split; [apply Forall_app; auto|]. split.
    { apply pairwise_app; auto. intros a b Ha Hb E.
      assert (F1 : fresh dn t a) by (apply LL; exists a; split; [exact Ha|intros f; reflexivity]).
      assert (F2 : ~ exists t', In t' (dn ++ [t]) /\ sub t' b).
      { apply LL'. exists b. split; [exact Hb|intros f; reflexivity]. }
      apply F2. exists t. split; [apply in_app_iff; right; now left|]. eapply sub_ext; [exact E|]. apply F1. }
    split.
    { intros S. split.
      - intros [s [Hs Es]]. apply in_app_iff in Hs. destruct Hs as [Hs|Hs].
        + destruct (proj1 (LL S)) as [H1 H2]; [eauto|]. split; [|exact H2]. exists t. split; [now left|exact H1].
        + destruct (proj1 (LL' S)) as [[t' [Ht' H1]] H2]; [eauto|]. split; [exists t'; split; [now right|exact H1]|].
          intros [t2 [Ht2 H3]]. apply H2. exists t2. split; [apply in_app_iff; now left|exact H3].
      - intros [[t' [Ht' Hs]] Hn].
        assert (D : sub t S \/ ~ sub t S).
        { unfold sub, sub_of. clear - feqb_spec. induction S as [|f S [IH|IH]].
          - left. intros f [].
          - destruct (in_dec (f_dec feqb feqb_spec) f t) as [Hf|Hf]; [destruct (is_numeric f) eqn:E|].
            + right. intros H. destruct (H f (or_introl eq_refl)). congruence.
            + left. intros g [<-|Hg]; auto.
            + right. intros H. apply Hf. apply (H f). now left.
          - right. intros H. apply IH. intros g Hg. apply H. now right. }
        destruct D as [D|D].
        + destruct (proj2 (LL S)) as [s [H1 H2]]; [split; assumption|]. exists s. split; [apply in_app_iff; now left|exact H2].
        + destruct (proj2 (LL' S)) as [s [H1 H2]].
          { split.
            - destruct Ht' as [<-|Ht']; [contradiction|eauto].
            - intros [t2 [Ht2 H3]]. apply in_app_iff in Ht2. destruct Ht2 as [Ht2|[<-|[]]]; [|contradiction].
              apply Hn. eauto. }
          exists s. split; [apply in_app_iff; now right|exact H2]. }
    cbn [sumn]. rewrite sumn_app, Hsum. f_equal.
    transitivity (sumn (ncols full red) l).
    + clear - Kl feqb_spec. induction Kl as [|x l Kx K IH]; cbn; [reflexivity|]. rewrite IH. f_equal. now apply ccols_swap.
    + rewrite (steps_cols feqb feqb_spec full red full_red _ _ I0 Hst). clear. induction L as [|s L IH]; cbn; [reflexivity|].
      rewrite IH. f_equal. unfold ncols. clear. induction s as [|f s IH]; [reflexivity|]. cbn [neg map prodn fst snd]. f_equal. exact IH.
Qed.

Lemma used_ok_nil : used_ok [] [].
Proof. split; [constructor|]. intros S _ _. cbn. split; [discriminate|intros [t [[] _]]]. Qed.

(** Any two lists of the same distinct sets weigh the same. *)
Lemma same_prod a b : NoDup a -> NoDup b -> same_factors a b -> prodn red a = prodn red b.
Proof. intros Na Nb E. apply prodn_perm. now apply NoDup_Permutation. Qed.
Lemma sum_unique L : forall L', Forall (@NoDup F) L -> Forall (@NoDup F) L' -> pairwise apart L -> pairwise apart L' ->
  (forall S, (exists s, In s L /\ same_factors S s) <-> (exists s, In s L' /\ same_factors S s)) ->
  sumn (prodn red) L = sumn (prodn red) L'.
Proof.
  induction L as [|a L IH]; intros L' NL NL' PL PL' E.
  - destruct L' as [|b L']; [reflexivity|]. destruct (proj2 (E b)) as [s [[] _]]. exists b. split; [now left|intros f; reflexivity].
  - destruct (proj1 (E a)) as [b [Hb Eb]]; [exists a; split; [now left|intros f; reflexivity]|].
    apply in_split in Hb. destruct Hb as [p [q ->]]. inversion NL as [|? ? Na NL2]; subst. inversion PL as [|? ? Ha PL2]; subst.
    rewrite Forall_forall in Ha.
    assert (PQ : pairwise apart (p ++ q) /\ forall x, In x (p ++ q) -> ~ same_factors a x).
    { clear - PL' Eb. assert (Sy : forall x y, apart x y -> apart y x) by (intros x y H E; apply H; intros f; symmetry; apply E).
      induction p as [|x p IHp]; cbn in *; inversion PL' as [|? ? Hx PL2]; subst; rewrite Forall_forall in Hx.
      - split; [exact PL2|]. intros x Hx' E. apply (Hx x Hx'). intros f. rewrite <- (Eb f). apply E.
      - destruct (IHp PL2) as [H1 H2]. split.
        + constructor; [|exact H1]. apply Forall_forall. intros y Hy. apply Hx. apply in_app_iff in Hy. apply in_app_iff. cbn. tauto.
        + intros y [<-|Hy]; [|auto]. intros E. apply (Hx b); [apply in_app_iff; cbn; tauto|].
          intros f. rewrite <- (Eb f). symmetry. apply E. }
    destruct PQ as [PQ HQ]. rewrite Forall_app in NL'. destruct NL' as [Np Nq]. inversion Nq as [|? ? Nb Nq2]; subst.
    transitivity (prodn red a + sumn (prodn red) (p ++ q)).
    + cbn. f_equal. apply IH; auto; [apply Forall_app; auto|]. intros S. split.
      * intros [s [Hs Es]]. destruct (proj1 (E S)) as [u [Hu Eu]]; [exists s; split; [now right|exact Es]|].
        apply in_app_iff in Hu. destruct Hu as [Hu|[->|Hu]].
        -- exists u. split; [apply in_app_iff; now left|exact Eu].
        -- exfalso. apply (Ha s Hs). intros f. rewrite (Eb f), <- (Eu f). apply Es.
        -- exists u. split; [apply in_app_iff; now right|exact Eu].
      * intros [u [Hu Eu]]. destruct (proj2 (E S)) as [s [Hs Es]].
        { exists u. split; [apply in_app_iff in Hu; apply in_app_iff; cbn; tauto|exact Eu]. }
        destruct Hs as [->|Hs]; [|eauto]. exfalso. apply (HQ u Hu). intros f. rewrite <- (Es f). apply Eu.
    + rewrite !sumn_app. cbn. rewrite (same_prod a b Na Nb Eb). lia.
Qed.
End Pick.

(** C18 *)
Lemma pick_all_codings {F} (feqb : F -> F -> bool) hash is_numeric terms :
  (forall a b, feqb a b = true <-> a = b) -> collision_free hash (List.concat terms) -> Forall (@NoDup F) terms ->
  exists css, pick_all feqb hash terms is_numeric [] = Ok css /\ length css = length terms /\
    forall i cs, nth_error css i = Some cs ->
      Forall (fun c => NoDup (map fst c)) cs /\
      forall S, (new_at is_numeric terms i S -> exactly_one (fun c => covers c S) cs) /\
                (forall c, In c cs -> covers c S -> new_at is_numeric terms i S).
Proof.
  intros Hf Hh HN.
  assert (HI : Forall (fun t => incl t (List.concat terms)) terms).
  { apply Forall_forall. intros t Ht f Hf'. apply in_concat. eauto. }
  destruct (pick_all_spec feqb Hf hash is_numeric (List.concat terms) Hh (fun _ => 1) (fun _ => 0) (fun _ => eq_refl)
              terms [] [] HN HI (used_ok_nil hash is_numeric (List.concat terms))) as [css [L [E [Hl [H _]]]]].
  exists css. split; [exact E|]. split; [exact Hl|]. intros i cs Hcs.
  assert (exists t, nth_error terms i = Some t) as [t Ht].
  { destruct (nth_error terms i) eqn:En; [eauto|]. apply nth_error_None in En.
    assert (i < length css) by (apply nth_error_Some; congruence). lia. }
  destruct (H i t cs Ht Hcs) as [A B]. split; [exact A|]. intros S. cbn [app] in B.
  assert (NF : new_at is_numeric terms i S <-> fresh is_numeric (firstn i terms) t S).
  { unfold new_at, fresh, sub. split.
    - intros [[t' [Ht' Hs]] Hn]. replace t' with t in Hs by congruence. split; [exact Hs|].
      intros [u [Hu Hs']]. apply In_nth_error in Hu. destruct Hu as [j Hj].
      assert (j < i) by (assert (j < length (firstn i terms)) by (apply nth_error_Some; congruence); rewrite firstn_length in *; lia).
      apply (Hn j u H0); [|exact Hs']. rewrite <- Hj. rewrite <- (firstn_skipn i terms) at 1. apply nth_error_app1.
      apply nth_error_Some. congruence.
    - intros [Hs Hn]. split; [eauto|]. intros j u Hj Hu Hs'. apply Hn. exists u. split; [|exact Hs'].
      apply nth_error_In with j. rewrite <- Hu. rewrite <- (firstn_skipn i terms) at 2. symmetry. apply nth_error_app1.
      rewrite firstn_length. assert (j < length terms) by (apply nth_error_Some; congruence). lia. }
  destruct (B S) as [B1 B2]. split.
  - intros Hn. apply B1. now apply NF.
  - intros c Hc Hs. apply NF. eauto.
Qed.

(** C20 (counts) *)
Lemma pick_all_columns {F} (feqb : F -> F -> bool) hash is_numeric terms css (full red : F -> nat) Ss :
  (forall a b, feqb a b = true <-> a = b) -> collision_free hash (List.concat terms) -> Forall (@NoDup F) terms ->
  (forall f, full f = red f + 1) ->
  pick_all feqb hash terms is_numeric [] = Ok css -> lists_subsets is_numeric terms Ss ->
  sumn (sumn (fun c => prodn (fun p : F * bool => if snd p then full (fst p) else red (fst p)) c)) css = sumn (prodn red) Ss.
Proof.
  intros Hf Hh HN Hfr E [S1 [S2 S3]].
  assert (HI : Forall (fun t => incl t (List.concat terms)) terms).
  { apply Forall_forall. intros t Ht f Hf'. apply in_concat. eauto. }
  destruct (pick_all_spec feqb Hf hash is_numeric (List.concat terms) Hh full red Hfr
              terms [] [] HN HI (used_ok_nil hash is_numeric (List.concat terms))) as [css' [L [E' [_ [_ [NL [PL [LL Hs]]]]]]]].
  rewrite E in E'. injection E' as <-.
  change (sumn (sumn (ccols full red)) css = sumn (prodn red) Ss). rewrite Hs.
  apply sum_unique; auto; [now apply nth_pairwise|].
  intros S. rewrite LL, S3. unfold sub. split; [intros [H _]; exact H|intros H; split; [exact H|intros [t [[] _]]]].
Qed.

