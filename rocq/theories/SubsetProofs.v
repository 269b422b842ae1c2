(** When [subset] succeeds, and what it does on designs without terms. *)
From Verif Require Import Base RankSpec DescModel FormulaModel BuildModel BuildSpec BuildProofs BuildSubtermProofs BuildInfoProofs BuildMatrixProofs BuildAllProofs BuildSubsetProofs SubsetSpec.

(** * Lists *)
Lemma nodup_flat_disjoint {A B} (g : A -> list B) l p q x : NoDup (flat_map g l) -> In p l -> In q l -> p <> q -> In x (g p) -> In x (g q) -> False.
Proof.
  induction l as [|a l IH]; cbn [flat_map]; intros H Hp Hq Hne Hx Hy; [easy|].
  assert (Happ : forall u v : list B, NoDup (u ++ v) -> In x u -> In x v -> False).
  { intros u v. induction u as [|y u IHu]; cbn; intros H1 H2 H3; [easy|]. inversion H1 as [|z r Hn Hr]; subst.
    destruct H2 as [->|H2]; [apply Hn, in_app_iff; now right|auto]. }
  assert (Hr : NoDup (flat_map g l)).
  { clear -H. induction (g a) as [|y u IHu]; [exact H|]. cbn in H. inversion H; auto. }
  destruct Hp as [->|Hp], Hq as [->|Hq].
  - congruence.
  - apply (Happ _ _ H Hx). apply in_flat_map. eauto.
  - apply (Happ _ _ H Hy). apply in_flat_map. eauto.
  - now apply IH.
Qed.
Lemma nodup_flat_part {A B} (g : A -> list B) l p : NoDup (flat_map g l) -> In p l -> NoDup (g p).
Proof.
  induction l as [|a l IH]; cbn [flat_map]; intros H Hp; [easy|]. destruct Hp as [->|Hp]; [now apply nodup_app_l in H|].
  apply IH; [|exact Hp]. clear -H. induction (g a) as [|y u IHu]; [exact H|]. cbn in H. inversion H; auto.
Qed.
Lemma nodup_app_intro {A} (u v : list A) : NoDup u -> NoDup v -> (forall x, In x u -> In x v -> False) -> NoDup (u ++ v).
Proof.
  induction u as [|a u IH]; cbn; intros H1 H2 H3; [exact H2|]. inversion H1; subst. constructor.
  - rewrite in_app_iff. intros [H|H]; [easy|]. exact (H3 a (or_introl eq_refl) H).
  - apply IH; try assumption. intros x Hx. apply H3. now right.
Qed.
Lemma nodup_flat_sub {A B} (g : A -> list B) l m : NoDup (flat_map g l) -> incl m l -> NoDup m -> NoDup (flat_map g m).
Proof.
  intros H. induction m as [|p m IH]; cbn [flat_map]; intros Hi Hm; [constructor|]. inversion Hm as [|? ? Hn Hr]; subst.
  apply nodup_app_intro.
  - eapply nodup_flat_part; [exact H|]. apply Hi. now left.
  - apply IH; [|exact Hr]. intros x Hx. apply Hi. now right.
  - intros x Hx Hy. apply in_flat_map in Hy. destruct Hy as [q [Hq Hy]].
    eapply (nodup_flat_disjoint g l p q x H); try eassumption; [apply Hi; now left|apply Hi; now right|]. intros ->. easy.
Qed.

Section Succeed.
Context {V : Type}.
Notation subterm_info := (@subterm_info V).
Notation design_info := (@design_info V).

(** The checks of the constructor, as a sufficient condition. *)
Lemma mk_intro names fis (cs : list (term * list subterm_info)) sl :
  NoDup names -> distinct_keys term_eqb cs -> check_codings fis cs = Ok tt -> slices_from 0 cs = (sl, length names) ->
  NoDup (map (fun p => term_name (fst p)) cs) ->
  (forall t p i, In (t, p) sl -> nth_error names i = Some (term_name t) -> p = (i, i + 1)) ->
  exists d, mk_design_info names (Some fis) (Some cs) = Ok d.
Proof.
  intros Hnd Hcs Hck Hsl Hnames Hcoll. unfold mk_design_info. rewrite Hck. cbn [bind].
  destruct (slices_from_spec _ _ _ _ Hsl) as [Hk [Hc Hsz]].
  assert (Hds : distinct_keys term_eqb sl) by (eapply distinct_keys_fst; [symmetry; exact Hk|exact Hcs]).
  unfold mk_slices. rewrite Hsl, (columns_dict names Hnd), (dict_of_distinct _ sl Hds).
  set (nl := map (fun p : term * pslice => (term_name (fst p), snd p)) sl).
  assert (Hnl : distinct_keys String.eqb nl).
  { apply distinct_NoDup. unfold nl. rewrite map_map. cbn [fst]. rewrite <- (map_map fst term_name), Hk, map_map. exact Hnames. }
  rewrite (dict_of_distinct _ nl Hnl).
  assert (Hlen : length (combine names (seq 0 (length names))) = length names) by (rewrite combine_length, seq_length; lia).
  unfold check at 1. rewrite Hlen, Nat.eqb_refl. cbn [bind].
  assert (Hsnd : map snd nl = map snd sl) by (unfold nl; rewrite map_map; reflexivity).
  rewrite Hsnd. unfold assert at 1. rewrite (proj2 (list_eqb_eq pslice_eqb pslice_eqb_eq _ _) eq_refl).
  rewrite (consecutive_covers _ _ _ _ Hc) by lia. unfold assert. rewrite Nat.eqb_refl. unfold check.
  match goal with |- context [if ?b then _ else _] => assert (E : b = true) end; [|rewrite E; eauto].
  apply forallb_forall. intros [s i] Hin. cbn [fst snd].
  destruct (dget String.eqb s nl) as [p|] eqn:E; [|reflexivity]. apply dget_in in E. destruct E as [s' [Hs E]].
  apply String.eqb_eq in E. subst s'. unfold nl in Hs. apply in_map_iff in Hs. destruct Hs as [[t q] [[= <- <-] Hq]].
  apply pslice_eqb_eq. eapply Hcoll; [exact Hq|].
  clear -Hin. assert (G : forall o, In (term_name t, i) (combine names (seq o (length names))) -> o <= i /\ nth_error names (i - o) = Some (term_name t)).
  { clear Hin. induction names as [|x names IH]; intros o H; cbn in H; [easy|]. destruct H as [H|H].
    - injection H as -> ->. rewrite Nat.sub_diag. split; [lia|reflexivity].
    - apply IH in H. destruct H as [H1 H2]. split; [lia|]. replace (i - o) with (S (i - S o)) by lia. exact H2. }
  apply G in Hin. now rewrite Nat.sub_0_r in Hin.
Qed.

(** * check_codings for a part of the terms *)
Lemma foldM_ext_in {S A} (f g : S -> A -> result S) l : (forall s a, In a l -> f s a = g s a) -> forall s, foldM f l s = foldM g l s.
Proof.
  induction l as [|a l IH]; intros H s; cbn [foldM]; [reflexivity|]. rewrite <- (H s a (or_introl eq_refl)).
  destruct (f s a); cbn [bind]; [|reflexivity]. apply IH. intros. apply H. now right.
Qed.
Lemma check_subterm_ext fis fis' (s : subterm_info) : (forall f, In f (si_factors s) -> dget String.eqb f fis = dget String.eqb f fis') ->
  check_subterm fis s = check_subterm fis' s.
Proof.
  intros H. unfold check_subterm. erewrite foldM_ext_in; [reflexivity|]. intros [e c] f Hf. cbn beta iota. now rewrite (H f Hf).
Qed.
Lemma check_codings_part fis fis' (cs ps : list (term * list subterm_info)) :
  check_codings fis cs = Ok tt -> incl ps cs -> distinct_keys String.eqb fis ->
  (forall f fi, In (f, fi) fis' -> In (f, fi) fis) ->
  (forall f, In f (map fst fis') <-> exists p, In p ps /\ In f (fst p)) ->
  (forall p f, In p ps -> In f (fst p) -> dget String.eqb f fis = dget String.eqb f fis') ->
  check_codings fis' ps = Ok tt.
Proof.
  intros H Hi Hdk Hsub Hkeys Hag. pose proof (check_codings_checked _ _ H) as Hck. revert H. unfold check_codings, check.
  match goal with |- context [if ?b then _ else _] => destruct b eqn:E1; [|discriminate] end.
  match goal with |- context [if ?b then _ else _] => destruct b eqn:E2; [|discriminate] end.
  match goal with |- context [if ?b then _ else _] => destruct b eqn:E3; [|discriminate] end.
  match goal with |- context [bind ?b _] => destruct b as [us|] eqn:E4; cbn [bind]; [|discriminate] end. intros _.
  rewrite forallb_forall in E1, E3.
  match goal with |- context [if ?b then _ else _] => assert (G1 : b = true) end.
  { apply forallb_forall. intros p Hp. apply E1. now apply Hi. }
  rewrite G1.
  match goal with |- context [if ?b then _ else _] => assert (G2 : b = true) end.
  { unfold set_eqb. apply andb_true_iff. rewrite !subset_eqb_spec. split; intros f Hf.
    - apply Hkeys. apply in_concat in Hf. destruct Hf as [t [Ht Hf]]. apply in_map_iff in Ht. destruct Ht as [p [<- Hp]]. eauto.
    - apply Hkeys in Hf. destruct Hf as [p [Hp Hf]]. apply in_concat. exists (fst p). split; [now apply in_map|exact Hf]. }
  rewrite G2.
  match goal with |- context [if ?b then _ else _] => assert (G3 : b = true) end.
  { apply forallb_forall. intros [f fi] Hf. apply E3. now apply Hsub. }
  rewrite G3.
  destruct (mapM_all_ok (fun p : term * list subterm_info => mapM (check_subterm fis') (snd p)) ps) as [ys ->]; [|reflexivity].
  intros [t ss] Hp. cbn [snd]. apply mapM_all_ok. intros s Hs. exists tt.
  rewrite <- (check_subterm_ext fis).
  - apply mapM_ok_Forall2 in E4. apply Hi in Hp.
    assert (G : exists u, mapM (check_subterm fis) ss = Ok u).
    { clear -E4 Hp. induction E4 as [|p u l r E]; [easy|]. destruct Hp as [->|Hp]; [eauto|auto]. }
    destruct G as [u G]. eapply mapM_unit_ok; eassumption.
  - intros f Hf. apply (Hag (t, ss) f Hp). cbn [fst]. apply (ck_incl _ _ Hck t ss s (Hi _ Hp) Hs). exact Hf.
Qed.

(** * Collecting the factor infos never fails on terms of the design *)
Lemma add_infos_total fis l : (forall f, In f l -> dget String.eqb f fis <> None) -> forall a, exists b, foldM (add_info fis) l a = Ok b.
Proof.
  induction l as [|f l IH]; intros H a; cbn [foldM]; [eauto|]. unfold add_info at 1.
  destruct (dget String.eqb f fis) as [fi|] eqn:E; [|exfalso; now apply (H f (or_introl eq_refl))]. cbn [lookup bind].
  apply IH. intros. apply H. now right.
Qed.
Lemma dset_keys {A} f (fi : A) a k : In k (map fst (dset String.eqb f fi a)) <-> In k (map fst a) \/ k = f.
Proof.
  induction a as [|[k' v] a IH]; cbn [dset map fst]; [cbn; intuition|]. destruct (String.eqb_spec k' f) as [->|Hn]; cbn [map fst In].
  - intuition.
  - rewrite IH. intuition.
Qed.
Lemma add_infos_keys fis l : forall a b, foldM (add_info fis) l a = Ok b -> forall k, In k (map fst b) <-> In k (map fst a) \/ In k l.
Proof.
  induction l as [|f l IH]; intros a b E k; cbn [foldM] in E; [injection E as <-; cbn; intuition|].
  unfold add_info at 1 in E. destruct (dget String.eqb f fis) as [fi|]; cbn [lookup bind] in E; [|discriminate].
  rewrite (IH _ _ E k). rewrite dset_keys. cbn [In]. intuition.
Qed.

Lemma dget_in_pair {A} k (v : A) d : distinct_keys String.eqb d -> In (k, v) d -> dget String.eqb k d = Some v.
Proof. intros. apply dget_distinct; [apply String.eqb_refl|assumption|assumption]. Qed.

(** * Success *)
Section Of.
Variables (d : design_info) (names : list string) (fis : finfos) (cs : list (term * list subterm_info)).
Hypothesis Hmk : mk_design_info names (Some fis) (Some cs) = Ok d.
Hypothesis Hfis : distinct_keys String.eqb fis.
Hypothesis Hcs : distinct_keys term_eqb cs.

Definition part (p : term * list subterm_info) : list string := pick names (term_at d (fst p)).

Lemma slice_of p : In p cs -> exists sl s, di_term_slices d = Some sl /\ slices_from 0 cs = (sl, length names) /\
  dget term_eqb (fst p) sl = Some s /\ positions_in s = term_at d (fst p) /\ snd s <= length names /\ length (part p) = term_columns (snd p) /\
  snd s = fst s + term_columns (snd p) /\ dget term_eqb (fst p) cs = Some (snd p).
Proof.
  destruct p as [t ss]. intros Hp. destruct (d_facts d names fis cs Hmk Hfis Hcs) as [Hn [Hnd [Hck [sl [E1 [E2 [E3 [E4 E5]]]]]]]].
  destruct (slices_from_spec _ _ _ _ E2) as [Hk [Hc Hsz]].
  assert (Hds : distinct_keys term_eqb sl) by (eapply distinct_keys_fst; [symmetry; exact Hk|exact Hcs]).
  assert (Hq : exists s, In (t, s) sl /\ snd s = fst s + term_columns ss).
  { clear -Hsz Hk Hp. revert Hk. induction Hsz as [|[t1 s1] [t2 s2] l r H Hr IH]; intros Hk; [easy|]. cbn in Hk. injection Hk as -> Hk.
    destruct Hp as [[= -> ->]|Hp]; [exists s2; split; [now left|exact H]|]. destruct (IH Hp Hk) as [s [G1 G2]]. exists s. split; [now right|exact G2]. }
  destruct Hq as [s [Hq Hs]]. pose proof (dget_distinct term_eqb teqb_refl _ _ _ Hds Hq) as Eg.
  pose proof (term_at_slice d names cs sl t t ss s E1 E2 Hp (teqb_refl t) Eg) as Ep.
  assert (Hle : snd s <= length names).
  { apply (in_map snd) in Hq. cbn [snd] in Hq. clear -Hc Hq. revert Hc. generalize 0. induction (map snd sl) as [|[x y] r IH]; cbn [consecutive]; intros a H; [easy|].
    destruct H as [-> [H1 H2]]. destruct Hq as [<-|Hq]; [cbn; now apply consecutive_le in H2|]. eapply IH; eassumption. }
  exists sl, s. cbn [fst snd]. repeat (split; [assumption|]). split; [|split; [exact Hs|]].
  - unfold part. cbn [fst]. rewrite <- Ep. rewrite pick_length; [unfold positions_in; rewrite seq_length; lia|].
    intros i Hi. unfold positions_in in Hi. apply in_seq in Hi. lia.
  - now apply dget_distinct; [apply teqb_refl|assumption|].
Qed.

Lemma parts_names : flat_map part cs = names.
Proof.
  destruct (d_facts d names fis cs Hmk Hfis Hcs) as [Hn [Hnd [Hck [sl [E1 [E2 [E3 [E4 E5]]]]]]]].
  destruct (slices_from_spec _ _ _ _ E2) as [Hk [Hc Hsz]].
  assert (Hds : distinct_keys term_eqb sl) by (eapply distinct_keys_fst; [symmetry; exact Hk|exact Hcs]).
  transitivity (pick names (flat_map positions_in (map snd sl))).
  2:{ rewrite (consecutive_positions _ _ _ Hc), Nat.sub_0_r. apply pick_all. }
  assert (G : map part cs = map (fun q => pick names (positions_in (snd q))) sl).
  { unfold part. rewrite <- (map_map fst (fun t => pick names (term_at d t))), <- Hk, map_map. apply map_ext_in. intros [t s] Hq. cbn [fst snd].
    assert (Ht : In t (map fst cs)) by (rewrite <- Hk; apply (in_map fst) in Hq; exact Hq).
    apply in_map_iff in Ht. destruct Ht as [[t' ss] [E Ht]]. cbn in E. subst t'.
    rewrite (term_at_slice d names cs sl t t ss s E1 E2 Ht (teqb_refl t) (dget_distinct term_eqb teqb_refl _ _ _ Hds Hq)). reflexivity. }
  rewrite flat_map_concat_map, G. clear. induction sl as [|q sl IH]; cbn [map concat flat_map]; [reflexivity|]. rewrite pick_cat. now f_equal.
Qed.

Lemma nodup_cs : NoDup cs.
Proof.
  assert (G : NoDup (map fst cs)).
  { destruct (d_facts d names fis cs Hmk Hfis Hcs) as [_ [_ [_ [sl [_ [_ [_ [_ E5]]]]]]]]. rewrite <- (map_map fst term_name) in E5. now apply NoDup_map_inv in E5. }
  now apply NoDup_map_inv in G.
Qed.

Lemma which_chosen w t : chosen d w t -> which_term cs w = Ok t.
Proof.
  destruct (d_facts d names fis cs Hmk Hfis Hcs) as [Hn [Hnd [Hck [sl [E1 [E2 [E3 [E4 E5]]]]]]]].
  intros [Ht Hw]. unfold codings_of in Ht. rewrite E4 in Ht. destruct w as [s|u]; cbn [which_term]; [|now subst].
  apply in_map_iff in Ht. destruct Ht as [[t' ss] [E Ht]]. cbn in E. subst t'.
  rewrite dict_of_distinct by (apply distinct_NoDup; rewrite map_map; exact E5).
  rewrite (dget_distinct String.eqb String.eqb_refl s t); [reflexivity|apply distinct_NoDup; rewrite map_map; exact E5|].
  apply in_map_iff. exists (t, ss). subst s. auto.
Qed.

Lemma fold_chosen sl : di_term_slices d = Some sl -> forall ws ps, Forall2 (fun w p => In p cs /\ chosen d w (fst p)) ws ps -> NoDup ps ->
  forall nm nfis ncod, agrees fis nfis -> (forall p q, In p ncod -> In q ps -> p <> q) -> incl ncod cs ->
  exists nfis', foldM (sub_step d fis cs sl) ws (nm, nfis, ncod) = Ok (nm ++ flat_map part ps, nfis', ncod ++ ps) /\
    agrees fis nfis' /\ (forall f fi, dget String.eqb f nfis = Some fi -> dget String.eqb f nfis' = Some fi) /\
    (forall k, In k (map fst nfis') <-> In k (map fst nfis) \/ exists p, In p ps /\ In k (fst p)) /\
    (forall p f, In p ps -> In f (fst p) -> dget String.eqb f nfis' = dget String.eqb f fis).
Proof.
  intros Esl ws ps HF. destruct (d_facts d names fis cs Hmk Hfis Hcs) as [Hn [Hnd [Hck [sl0 [E1 [E2 [E3 [E4 E5]]]]]]]].
  assert (sl0 = sl) by congruence. subst sl0.
  induction HF as [|w p ws ps [Hin Hw] HF IH]; intros Hps nm nfis ncod Ha Hdis Hi; cbn [foldM].
  - exists nfis. cbn [flat_map]. rewrite !app_nil_r. split; [reflexivity|]. split; [exact Ha|]. split; [auto|]. split; [|easy].
    intros k. split; [now left|]. intros [H|[p [[] _]]]; exact H.
  - inversion Hps as [|? ? Hnin Hps']; subst. unfold sub_step at 1. rewrite (which_chosen _ _ Hw). cbn [bind].
    destruct (slice_of p Hin) as [sl1 [s [F1 [F2 [F3 [F4 [F5 [F6 [F7 F8]]]]]]]]]. assert (sl1 = sl) by congruence. subst sl1.
    rewrite F3. cbn [lookup bind].
    assert (Hsome : forall f, In f (fst p) -> dget String.eqb f fis <> None).
    { intros f Hf. assert (Hk : In f (map fst fis)). { apply (ck_keys _ _ Hck). destruct p as [t ss]. exists t, ss. auto. }
      apply in_map_iff in Hk. destruct Hk as [[f' fi] [E Hk]]. cbn in E. subst f'. rewrite (dget_in_pair _ _ _ Hfis Hk). discriminate. }
    destruct (add_infos_total fis (fst p) Hsome nfis) as [nf1 En]. rewrite En. cbn [bind]. rewrite F8. cbn [lookup bind].
    assert (Enew : dget term_eqb (fst p) ncod = None).
    { destruct (dget term_eqb (fst p) ncod) as [v|] eqn:E; [|reflexivity]. exfalso. apply dget_in in E. destruct E as [k [Hk Ek]].
      destruct p as [t ss]. cbn [fst] in Ek. pose proof (distinct_unique cs k v t ss Hcs (Hi _ Hk) Hin Ek) as Eq. apply (Hdis (k, v) (t, ss)); [exact Hk|now left|exact Eq]. }
    rewrite (dset_new term_eqb (fst p) (snd p) ncod Enew).
    assert (Etake : take_slice s (column_names d) = part p). { rewrite Hn, take_slice_pick by exact F5. unfold part. now rewrite F4. }
    rewrite Etake. destruct (add_infos fis (fst p) nfis nf1 Ha En) as [A1 [A2 A3]].
    replace (fst p, snd p) with p by now destruct p.
    destruct (IH Hps' (nm ++ part p) nf1 (ncod ++ [p]) A1) as [nf2 [G1 [G2 [G3 [G4 G5]]]]].
    { intros a b Ha' Hb. apply in_app_iff in Ha'. destruct Ha' as [Ha'|[<-|[]]]; [apply Hdis; [exact Ha'|now right]|intros ->; easy]. }
    { intros x Hx. apply in_app_iff in Hx. destruct Hx as [Hx|[<-|[]]]; [now apply Hi|exact Hin]. }
    exists nf2. rewrite G1. cbn [flat_map]. rewrite <- !app_assoc. cbn [app]. split; [reflexivity|]. split; [exact G2|].
    split; [intros f fi H; apply G3, A2, H|]. split.
    + intros k. rewrite (G4 k), (add_infos_keys _ _ _ _ En k). split.
      * intros [[H|H]|[q [H1 H2]]]; [now left|right; exists p; split; [now left|exact H]|right; exists q; split; [now right|exact H2]].
      * intros [H|[q [[<-|H1] H2]]]; [now left; left|now left; right|right; eauto].
    + intros q f [<-|Hq] Hf; [|now apply (G5 q)]. destruct (A3 f Hf) as [B1 B2]. destruct (dget String.eqb f fis) as [fi|] eqn:E; [|congruence].
      apply G3. exact B1.
Qed.

Lemma forallb_chosen ws ts : Forall2 (chosen d) ws ts -> exists ps, map fst ps = ts /\ Forall2 (fun w p => In p cs /\ chosen d w (fst p)) ws ps.
Proof.
  destruct (d_facts d names fis cs Hmk Hfis Hcs) as [Hn [Hnd [Hck [sl [E1 [E2 [E3 [E4 E5]]]]]]]].
  induction 1 as [|w t ws ts Hw HF [ps [IH1 IH2]]]; [exists []; split; [reflexivity|constructor]|].
  destruct Hw as [Ht Hw]. pose proof Ht as Ht'. unfold codings_of in Ht'. rewrite E4 in Ht'. apply in_map_iff in Ht'. destruct Ht' as [p [E Hp]].
  exists (p :: ps). cbn [map]. split; [congruence|]. constructor; [|exact IH2]. split; [exact Hp|]. rewrite E. split; assumption.
Qed.

Lemma subset_ok_of ws ts : Forall2 (chosen d) ws ts -> NoDup ts -> exists d', subset d ws = Ok d' /\ map fst (codings_of d') = ts.
Proof.
  intros Hch Hts. destruct (d_facts d names fis cs Hmk Hfis Hcs) as [Hn [Hnd [Hck [sl [E1 [E2 [E3 [E4 E5]]]]]]]].
  destruct (forallb_chosen ws ts Hch) as [ps [Eps HF]].
  assert (Hps : NoDup ps) by (rewrite <- Eps in Hts; now apply NoDup_map_inv in Hts).
  assert (Hinc : incl ps cs). { clear -HF. induction HF as [|w p ws ps [H _] HF IH]; [easy|]. intros x [<-|Hx]; auto. }
  destruct (fold_chosen sl E1 ws ps HF Hps [] [] []) as [nfis [F1 [[F2 F2'] [_ [F4 F5]]]]]; [split; [exact I|easy]|easy|easy|]. cbn [app] in F1.
  assert (Hpd : distinct_keys term_eqb ps).
  { clear -Hps Hinc Hcs. induction ps as [|[t ss] ps IH]; [exact I|]. inversion Hps as [|? ? Hn Hr]; subst. cbn [distinct_keys]. split.
    - intros [t2 s2] Hq. cbn [fst]. destruct (term_eqb t t2) eqn:E; [|reflexivity]. exfalso. apply Hn.
      rewrite (distinct_unique cs t ss t2 s2 Hcs); [exact Hq|apply Hinc; now left|apply Hinc; now right|exact E].
    - apply IH; [exact Hr|]. intros x Hx. apply Hinc. now right. }
  assert (Hnd' : NoDup (flat_map part ps)).
  { apply (nodup_flat_sub part cs ps); [rewrite parts_names; exact Hnd|exact Hinc|exact Hps]. }
  pose proof (mk_inv names (Some fis) (Some cs) d (conj Hfis Hcs) Hmk) as [_ [_ [_ [_ [_ [_ [Hcoll [Hcc [sl2 [S1 [S2 S3]]]]]]]]]]].
  assert (sl2 = sl) by congruence. subst sl2.
  assert (Hlen : forall p, In p ps -> length (part p) = term_columns (snd p)).
  { intros p Hp. destruct (slice_of p (Hinc _ Hp)) as [? [? [_ [_ [_ [_ [_ [H _]]]]]]]]. exact H. }
  destruct (slices_from 0 ps) as [sl' fin] eqn:Efrom.
  assert (Hfin : fin = length (flat_map part ps)).
  { clear -Hlen Efrom. revert Efrom.
    assert (G : forall a s f, slices_from a ps = (s, f) -> f = a + length (flat_map part ps)).
    { induction ps as [|[t ss] ps IH]; cbn [slices_from flat_map]; intros a s f E; [injection E as <- <-; cbn; lia|].
      destruct (slices_from (a + term_columns ss) ps) as [r g] eqn:E2. injection E as <- <-. apply IH in E2; [|intros; apply Hlen; now right].
      rewrite app_length, (Hlen (t, ss) (or_introl eq_refl)). cbn [snd]. lia. }
    intros E. apply G in E. exact E. }
  subst fin. destruct (slices_from_spec _ _ _ _ Efrom) as [Hk' [Hc' Hsz']].
  destruct (mk_intro (flat_map part ps) nfis ps sl') as [d' Hd'].
  - exact Hnd'.
  - exact Hpd.
  - eapply check_codings_part; [exact Hcc|exact Hinc|exact Hfis| | |].
    + intros f fi Hf. apply (dget_in_pair _ _ _ F2) in Hf. apply F2' in Hf. apply dget_in in Hf. destruct Hf as [k [Hf E]]. apply String.eqb_eq in E. now subst k.
    + intros f. rewrite (F4 f). cbn [map In]. split; [intros [[]|H]; exact H|intros H; now right].
    + intros p f Hp Hf. symmetry. now apply (F5 p).
  - exact Efrom.
  - rewrite <- (map_map fst term_name). assert (G : NoDup (map term_name (map fst cs))) by (rewrite map_map; exact E5).
    clear -G Hinc Hps Eps Hts. assert (Hi : incl (map fst ps) (map fst cs)). { intros t Ht. apply in_map_iff in Ht. destruct Ht as [p [<- Hp]]. now apply in_map, Hinc. }
    rewrite Eps in *. clear -G Hi Hts. induction ts as [|t ts IH]; cbn [map]; [constructor|]. inversion Hts as [|? ? Hn Hr]; subst. constructor.
    + intros H. apply in_map_iff in H. destruct H as [u [E Hu]]. apply Hn.
      assert (Inj : forall l, NoDup (map term_name l) -> In t l -> In u l -> term_name u = term_name t -> t = u).
      { clear. induction l as [|x l IH]; cbn [map]; intros H H1 H2 E; [easy|]. inversion H as [|? ? Hn Hr]; subst.
        destruct H1 as [->|H1], H2 as [->|H2]; [reflexivity| | |auto].
        - exfalso. apply Hn. rewrite <- E. now apply in_map.
        - exfalso. apply Hn. rewrite E. now apply in_map. }
      rewrite (Inj (map fst cs) G); [exact Hu|apply Hi; now left|apply Hi; now right|exact E].
    + apply IH; [exact Hr|]. intros x Hx. apply Hi. now right.
  - intros t q i Hq Hi.
    assert (Ht : In t (map fst ps)) by (rewrite <- Hk'; apply (in_map fst) in Hq; exact Hq).
    apply in_map_iff in Ht. destruct Ht as [[t' ss] [E Hp]]. cbn in E. subst t'.
    destruct (slice_of (t, ss) (Hinc _ Hp)) as [sl3 [s [G1 [G2 [G3 [G4 [G5 [G6 [G7 G8]]]]]]]]]. assert (sl3 = sl) by congruence. subst sl3. cbn [fst snd] in *.
    (* the name is a column of the original design *)
    assert (Hin : In (term_name t) names).
    { apply nth_error_In in Hi. rewrite <- parts_names. apply in_flat_map in Hi. destruct Hi as [p [Hp' Hi]]. apply in_flat_map. exists p. split; [now apply Hinc|exact Hi]. }
    apply In_nth_error in Hin. destruct Hin as [j Hj].
    assert (Hs : s = (j, j + 1)).
    { eapply Hcoll; [|exact Hj]. rewrite S3. apply in_map_iff. exists (t, s). split; [reflexivity|].
      apply dget_in in G3. destruct G3 as [k [Hks Ek]].
      assert (Hkc : In k (map fst cs)). { destruct (slices_from_spec _ _ _ _ E2) as [Hkk _]. rewrite <- Hkk. apply (in_map fst) in Hks. exact Hks. }
      apply in_map_iff in Hkc. destruct Hkc as [[k' kk] [E Hkc]]. cbn in E. subst k'.
      pose proof (distinct_unique cs k kk t ss Hcs Hkc (Hinc _ Hp) Ek) as Eq. injection Eq as -> ->. exact Hks. }
    assert (Hpart : part (t, ss) = [term_name t]).
    { unfold part. cbn [fst]. rewrite <- G4, Hs. unfold positions_in. cbn [fst snd]. replace (j + 1 - j) with 1 by lia. cbn [seq pick flat_map]. now rewrite Hj. }
    assert (Hds' : distinct_keys term_eqb sl') by (eapply distinct_keys_fst; [symmetry; exact Hk'|exact Hpd]).
    destruct (slice_part part ps Hlen [] sl' _ Efrom Hpd t t ss q Hp (teqb_refl t) (dget_distinct term_eqb teqb_refl _ _ _ Hds' Hq)) as [P1 [P2 P3]].
    cbn [app] in P1, P2. rewrite Hpart in P1. destruct q as [a b]. cbn [fst snd] in *.
    unfold positions_in in P1. cbn [fst snd] in P1.
    assert (Hl : b - a = 1).
    { rewrite <- (seq_length (b - a) a). rewrite <- (pick_length (flat_map part ps)); [now rewrite P1|]. intros k Hk. apply in_seq in Hk. lia. }
    rewrite Hl in P1. cbn [seq pick flat_map] in P1. destruct (nth_error (flat_map part ps) a) as [x|] eqn:Ea; [|discriminate]. injection P1 as ->.
    assert (a = i). { apply (proj1 (NoDup_nth_error (flat_map part ps)) Hnd'); [apply nth_error_Some; congruence|congruence]. }
    subst a. f_equal. lia.
  - exists d'. split.
    + unfold subset. rewrite E1, E3, E4.
      change (bind (foldM (sub_step d fis cs sl) ws ([], [], [])) (fun p => let '(nm, nfis, ncod) := p in mk_design_info nm (Some nfis) (Some ncod)) = Ok d').
      exact (eq_trans (f_equal (fun z => bind z (fun p => let '(nm, nfis, ncod) := p in mk_design_info nm (Some nfis) (Some ncod))) F1) Hd').
    + destruct (mk_inv _ (Some nfis) (Some ps) d' (conj F2 Hpd) Hd') as [_ [_ [_ [Hc2 _]]]]. unfold codings_of. now rewrite Hc2.
Qed.

(** * Failure *)
Lemma subset_unknown ws w : In w ws -> (forall t, In t (map fst (codings_of d)) -> ~ selects w t) -> subset d ws = Err KeyError.
Proof.
  intros Hw Hno. destruct (d_facts d names fis cs Hmk Hfis Hcs) as [Hn [Hnd [Hck [sl [E1 [E2 [E3 [E4 E5]]]]]]]].
  unfold codings_of in Hno. rewrite E4 in Hno. unfold subset. rewrite E1, E3, E4.
  change (bind (foldM (sub_step d fis cs sl) ws ([], [], [])) (fun p => let '(nm, nfis, ncod) := p in mk_design_info nm (Some nfis) (Some ncod)) = Err KeyError).
  assert (Herr : forall st w e, sub_step d fis cs sl st w = Err e -> e = KeyError).
  { intros [[nm nf] nc] w0 e. unfold sub_step.
    assert (Hf : forall l a e', foldM (add_info fis) l a = Err e' -> e' = KeyError).
    { induction l as [|f l IH]; intros a e' E; cbn [foldM] in E; [discriminate|]. unfold add_info at 1 in E.
      destruct (dget String.eqb f fis); cbn [lookup bind] in E; [eauto|congruence]. }
    destruct (which_term cs w0) as [t|e1] eqn:Ew; cbn [bind].
    2:{ intros [= <-]. destruct w0 as [s|u]; cbn in Ew; [|discriminate]. destruct (dget _ _ _); cbn in Ew; congruence. }
    destruct (dget term_eqb t sl); cbn [lookup bind]; [|congruence].
    destruct (foldM (add_info fis) t nf) eqn:Ef; cbn [bind]; [|intros [= <-]; eauto].
    destruct (dget term_eqb t cs); cbn [lookup bind]; [discriminate|congruence]. }
  assert (G : forall st, foldM (sub_step d fis cs sl) ws st = Err KeyError).
  { induction ws as [|w0 ws IH]; intros st; [easy|]. cbn [foldM]. destruct (sub_step d fis cs sl st w0) as [st1|e] eqn:Es; cbn [bind].
    - destruct Hw as [->|Hw]; [|now apply IH]. exfalso. destruct st as [[nm nf] nc]. unfold sub_step in Es.
      destruct (which_term cs w) as [t|] eqn:Ew; cbn [bind] in Es; [|discriminate].
      destruct (dget term_eqb t sl) as [s|] eqn:Et; cbn [lookup bind] in Es; [|discriminate].
      destruct (foldM (add_info fis) t nf); cbn [bind] in Es; [|discriminate].
      destruct (dget term_eqb t cs) as [ss|] eqn:Ec; cbn [lookup bind] in Es; [|discriminate].
      destruct (which_term_spec d names fis cs Hmk Hfis Hcs w t Ew sl s ss E2 Et Ec) as [t' [H1 [H2 H3]]].
      apply (Hno t'); [apply (in_map fst) in H1; exact H1|exact H3].
    - now rewrite (Herr _ _ _ Es). }
  now rewrite G.
Qed.
End Of.

Lemma subset_succeeds_lemma (d : design_info) ws ts : constructed d -> Forall2 (chosen d) ws ts -> NoDup ts ->
  exists d', subset d ws = Ok d' /\ map fst (codings_of d') = ts.
Proof. intros [names [fis [cs [Hmk [H1 H2]]]]]. now apply (subset_ok_of d names fis cs). Qed.
Lemma subset_unknown_lemma (d : design_info) ws w : constructed d -> In w ws -> (forall t, In t (map fst (codings_of d)) -> ~ selects w t) ->
  subset d ws = Err KeyError.
Proof. intros [names [fis [cs [Hmk [H1 H2]]]]]. now apply (subset_unknown d names fis cs Hmk H1 H2). Qed.
Lemma subset_repeated_lemma (d : design_info) ws1 ws2 ws3 w w' t : constructed d -> In t (map fst (codings_of d)) -> term_at d t <> [] ->
  selects w t -> selects w' t -> forall d', subset d (ws1 ++ w :: ws2 ++ w' :: ws3) <> Ok d'.
Proof.
  intros Hc Ht Hne Hw Hw' d' H. pose proof Hc as [names [fis [cs [Hmk [H1 H2]]]]].
  destruct (d_facts d names fis cs Hmk H1 H2) as [_ [Hnd [Hck [sl [E1 [E2 [E3 [E4 E5]]]]]]]].
  destruct (subset_inv d d' _ names fis cs Hmk H1 H2 H) as [sel [nfis [ncod [Hm [D1 [D2 [HF [Hi _]]]]]]]].
  apply Forall2_app_inv_l in HF. destruct HF as [s1 [s2 [F1 [F2 ->]]]]. inversion F2 as [|? p ? s2' Hp F3]; subst.
  apply Forall2_app_inv_l in F3. destruct F3 as [s3 [s4 [F4 [F5 ->]]]]. inversion F5 as [|? q ? s5 Hq F6]; subst.
  unfold codings_of in Ht. rewrite E4 in Ht.
  assert (Same : forall v r, In r cs -> selects v t -> selects v (fst r) -> fst r = t).
  { intros v [t' ss] Hr Hv Hv'. cbn [fst] in *. apply in_map_iff in Ht. destruct Ht as [[t0 s0] [E Ht]]. cbn in E. subst t0. destruct v as [s|u]; cbn [selects] in *.
    - assert (Inj : forall l : list (term * list subterm_info), NoDup (map (fun p => term_name (fst p)) l) -> In (t', ss) l -> In (t, s0) l -> term_name t = term_name t' -> t' = t).
      { clear. induction l as [|x l IH]; cbn [map]; intros H A B E; [easy|]. inversion H as [|? ? Hn Hr]; subst.
        destruct A as [->|A], B as [B|B].
        - congruence.
        - exfalso. apply Hn. apply in_map_iff. exists (t, s0). auto.
        - subst x. exfalso. apply Hn. apply in_map_iff. exists (t', ss). cbn. auto.
        - auto. }
      apply (Inj cs E5 Hr Ht). congruence.
    - assert (Et : term_eqb t' t = true) by (eapply teqb_trans; [exact Hv'|now rewrite teqb_sym]).
      pose proof (distinct_unique cs t' ss t s0 H2 Hr Ht Et) as Eq. congruence. }
  assert (Ep : fst p = t). { apply (Same w); [apply Hi; apply in_app_iff; right; now left|exact Hw|exact Hp]. }
  assert (Eq : fst q = t). { apply (Same w'); [apply Hi; apply in_app_iff; right; right; apply in_app_iff; right; now left|exact Hw'|exact Hq]. }
  pose proof (proj1 (mk_inv _ (Some nfis) (Some ncod) _ (conj D1 D2) Hm)) as D.
  rewrite flat_map_app in D. cbn [flat_map] in D. rewrite flat_map_app in D. cbn [flat_map] in D. rewrite Ep, Eq in D.
  rewrite !pick_cat in D. apply in_map_iff in Ht. destruct Ht as [r [Er Ht]].
  destruct (slice_of d names fis cs Hmk H1 H2 r Ht) as [_ [s [_ [_ [_ [G4 [G5 [G6 [G7 _]]]]]]]]]. rewrite Er in G4.
  destruct (pick names (term_at d t)) as [|x xs] eqn:Ex.
  - unfold part in G6. rewrite Er, Ex in G6. cbn [length] in G6. apply Hne. rewrite <- G4. unfold positions_in. replace (snd s - fst s) with 0 by lia. reflexivity.
  - cbn [app] in D. apply NoDup_remove_2 in D. apply D. rewrite !in_app_iff. right. right. right. now left.
Qed.

(** * Designs without terms *)
Lemma mk_minimal names (d : design_info) : mk_design_info names None None = Ok d ->
  NoDup names /\ column_names d = names /\ di_codings d = None /\ di_infos d = None /\
  di_name_slices d = combine names (map (fun i => (i, i + 1)) (seq 0 (length names))).
Proof.
  intros H. assert (Dd : dicts (V := V) None None) by (split; exact I).
  destruct (mk_inv names None None d Dd H) as [H1 [H2 [H3 [H4 [_ [_ [_ [_ H5]]]]]]]].
  repeat (split; [assumption|]); try exact H5. split; [|auto]. unfold column_names. rewrite H2, combine_fst; [reflexivity|now rewrite seq_length].
Qed.
Lemma mk_minimal_ok names : NoDup names -> exists d : design_info, mk_design_info names None None = Ok d.
Proof.
  intros Hnd. unfold mk_design_info. cbn [bind mk_slices]. rewrite (columns_dict names Hnd).
  set (nl := combine names (map (fun i => (i, i + 1)) (seq 0 (length names)))).
  assert (Hl : length names = length (map (fun i => (i, i + 1)) (seq 0 (length names)))) by now rewrite map_length, seq_length.
  assert (Hnl : distinct_keys String.eqb nl) by (apply distinct_NoDup; unfold nl; rewrite combine_fst; [exact Hnd|exact Hl]).
  rewrite (dict_of_distinct _ nl Hnl). unfold assert at 1.
  assert (Hs : map snd nl = map (fun i => (i, i + 1)) (seq 0 (length names))) by (unfold nl; apply combine_snd, Hl).
  assert (Hcov : covers_from (length names) 0 (map snd nl) = Some (length names)).
  { rewrite Hs. apply consecutive_covers; [|lia]. exact (unit_slices_consecutive (length names) 0). }
  match goal with |- context [covers_from ?a ?b ?c] => change (covers_from a b c) with (covers_from (length names) 0 (map snd nl)) end. rewrite Hcov. unfold assert. rewrite Nat.eqb_refl. unfold check.
  match goal with |- context [if ?b then _ else _] => assert (E : b = true) end; [|rewrite E; eauto].
  apply forallb_forall. intros [s i] Hin. cbn [fst snd].
  assert (G : In (s, (i, i + 1)) nl); [|pose proof (dget_distinct String.eqb String.eqb_refl s (i, i + 1) nl Hnl G) as Eg;
    match goal with |- match ?x with _ => _ end = _ => replace x with (Some (i, i + 1)) by (symmetry; exact Eg) end; now apply pslice_eqb_eq].
  unfold nl. clear -Hin.
  assert (G : forall o, In (s, i) (combine names (seq o (length names))) -> In (s, (i, i + 1)) (combine names (map (fun i => (i, i + 1)) (seq o (length names))))).
  { clear Hin. induction names as [|x names IH]; intros o H; cbn [length seq combine map In] in *; [easy|].
    destruct H as [[= -> ->]|H]; [now left|right]. now apply IH. }
  now apply G.
Qed.
Lemma minimal_step names (d : design_info) s : mk_design_info names None None = Ok d -> In s names -> minimal_names d (WName s) = Ok [s].
Proof.
  intros H Hs. destruct (mk_minimal _ _ H) as [Hnd [Hn [_ [_ Hsl]]]]. apply In_nth_error in Hs. destruct Hs as [i Hi].
  assert (Hl : length names = length (map (fun i => (i, i + 1)) (seq 0 (length names)))) by now rewrite map_length, seq_length.
  assert (Eg : dget String.eqb s (di_name_slices d) = Some (i, i + 1)).
  { apply dget_distinct; [apply String.eqb_refl|apply distinct_NoDup; rewrite Hsl, combine_fst; [exact Hnd|exact Hl]|]. rewrite Hsl.
    clear -Hi.
    assert (G : forall o, In (s, (o + i, o + i + 1)) (combine names (map (fun i => (i, i + 1)) (seq o (length names))))).
    { revert i Hi. induction names as [|x names IH]; intros [|i] Hi o; cbn [nth_error length seq combine map In] in *; try discriminate.
      - injection Hi as ->. left. f_equal. f_equal; lia.
      - right. replace (o + S i) with (S o + i) by lia. now apply IH. }
    exact (G 0). }
  unfold minimal_names. rewrite Eg. cbn [lookup bind]. rewrite Hn. assert (Hlt : i < length names) by (apply nth_error_Some; congruence).
  rewrite take_slice_pick by (cbn; lia). unfold positions_in. cbn [fst snd]. replace (i + 1 - i) with 1 by lia. cbn [seq pick flat_map]. now rewrite Hi.
Qed.
Lemma minimal_unknown names (d : design_info) w : mk_design_info names None None = Ok d ->
  match w with WName s => ~ In s names | WTerm _ => True end -> minimal_names d w = Err KeyError.
Proof.
  intros H Hw. destruct (mk_minimal _ _ H) as [Hnd [Hn [_ [_ Hsl]]]]. destruct w as [s|t]; [|reflexivity]. unfold minimal_names.
  destruct (dget String.eqb s (di_name_slices d)) as [p|] eqn:E; [|reflexivity]. exfalso. apply Hw. apply dget_in in E. destruct E as [k [Hk E]].
  apply String.eqb_eq in E. subst k. rewrite Hsl in Hk. now apply in_combine_l in Hk.
Qed.
Lemma subset_minimal_eq names (d : design_info) ws : mk_design_info names None None = Ok d ->
  subset d ws = (let* ns := mapM (minimal_names d) ws in mk_design_info (concat ns) None None).
Proof. intros H. destruct (mk_minimal _ _ H) as [_ [_ [Hc _]]]. unfold subset. now rewrite Hc. Qed.

Lemma subset_minimal_lemma names (d : design_info) ws : mk_design_info names None None = Ok d ->
  (forall sel, ws = map WName sel -> incl sel names ->
     (NoDup sel -> exists d', subset d ws = Ok d' /\ mk_design_info sel None None = Ok d' /\ column_names d' = sel) /\
     (~ NoDup sel -> forall d', subset d ws <> Ok d')) /\
  (forall w, In w ws -> (forall s, In s names -> w <> WName s) -> subset d ws = Err KeyError).
Proof.
  intros H. rewrite (subset_minimal_eq names d ws H). split.
  - intros sel -> Hi. assert (E : mapM (minimal_names d) (map WName sel) = Ok (map (fun s => [s]) sel)).
    { induction sel as [|s sel IH]; cbn [map mapM]; [reflexivity|]. rewrite (minimal_step names d s H) by (apply Hi; now left). cbn [bind].
      rewrite IH by (intros x Hx; apply Hi; now right). reflexivity. }
    rewrite E. cbn [bind]. assert (E2 : concat (map (fun s : string => [s]) sel) = sel) by (clear; induction sel as [|s sel IH]; cbn; [reflexivity|now rewrite IH]).
    rewrite E2. split.
    + intros Hnd. destruct (mk_minimal_ok sel Hnd) as [d' Hd']. exists d'. split; [exact Hd'|]. split; [exact Hd'|]. now destruct (mk_minimal _ _ Hd') as [_ [Hn _]].
    + intros Hnd d' Hd'. apply Hnd. now destruct (mk_minimal _ _ Hd').
  - intros w Hw Hno. assert (E : mapM (minimal_names d) ws = Err KeyError); [|now rewrite E].
    induction ws as [|w0 ws IH]; [easy|]. cbn [mapM].
    assert (D : (exists s, w0 = WName s /\ In s names) \/ minimal_names d w0 = Err KeyError).
    { destruct w0 as [s|t]; [|right; reflexivity]. destruct (in_dec string_dec s names) as [Hs|Hs]; [left; eauto|right; now apply (minimal_unknown names)]. }
    destruct D as [[s [-> Hs]]|E]; [|now rewrite E]. rewrite (minimal_step names d s H Hs). cbn [bind].
    destruct Hw as [<-|Hw]; [exfalso; now apply (Hno s)|]. now rewrite IH.
Qed.

(** * Formulas *)
Lemma subset_formula_ok (d : design_info) md ts : constructed d -> lhs_termlist md = [] ->
  Forall2 (fun u t => In t (map fst (codings_of d)) /\ term_name t = term_name u) (rhs_termlist md) ts -> NoDup ts ->
  exists d', subset_formula d md = Ok d' /\ map fst (codings_of d') = ts.
Proof.
  intros Hc Hl HF Hn. unfold subset_formula. rewrite Hl. apply subset_succeeds_lemma; [exact Hc| |exact Hn].
  clear -HF. induction HF as [|u t us ts H HF IH]; cbn [map]; constructor; [exact H|exact IH].
Qed.
Lemma subset_formula_unknown (d : design_info) md u : constructed d -> lhs_termlist md = [] -> In u (rhs_termlist md) ->
  (forall t, In t (map fst (codings_of d)) -> term_name t <> term_name u) -> subset_formula d md = Err KeyError.
Proof.
  intros Hc Hl Hu Hno. unfold subset_formula. rewrite Hl. apply (subset_unknown_lemma d _ (WName (term_name u)) Hc); [|exact Hno].
  apply in_map_iff. eauto.
Qed.
End Succeed.
