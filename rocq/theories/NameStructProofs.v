(** What [make_subterm_infos] makes, and that it makes it. *)
From Coq Require Import Sorted Permutation.
From Verif Require Import Base PySort RankSpec RedundancyModel RedundancySpec RedundancyProofs PickProofs DescModel FormulaModel BuildModel BuildSpec BuildProofs BuildSubtermProofs BuildInfoProofs BuildMatrixProofs BuildAllProofs BuildOrderProofs BuildSubsetProofs NameSpec.

Section Struct.
Context {V : Type}.
Notation subterm_info := (@subterm_info V).
Variables (num_cols : list (factor * nat)) (code_cm : factor -> bool -> result (@ctr V)) (hash : list (bool * factor) -> Z).
Notation isn := (is_num num_cols).

(** * One subterm *)
(** [s] is the subterm for the coding [c] of [t]. *)
Record subterm_is (t : term) (c : list (factor * bool)) (s : subterm_info) : Prop := {
  su_factors : si_factors s = filter (fun f => isn f || dmem String.eqb f c) t;
  su_cat : forall f b, In f t -> isn f = false -> dget String.eqb f c = Some b ->
    exists m, code_cm f b = Ok m /\ dget String.eqb f (si_contrasts s) = Some m;
  su_num : forall f, isn f = true -> dget String.eqb f (si_contrasts s) = None;
  su_keys : forall f, In f (map fst (si_contrasts s)) -> In f t /\ isn f = false /\ dmem String.eqb f c = true;
  su_ncols : si_ncols s = fold_left (fun n f => n * match dget String.eqb f num_cols with
      | Some k => k
      | None => match dget String.eqb f (si_contrasts s) with Some m => ct_ncols m | None => 1 end end) t 1 }.

Definition sstep (c : list (factor * bool)) (st : list factor * list (factor * @ctr V) * nat) (f : factor) :=
  let '(fs, cms, n) := st in
  match dget String.eqb f num_cols with
  | Some k => Ok (fs ++ [f], cms, n * k)
  | None =>
      match dget String.eqb f c with
      | Some b => let* m := code_cm f b in Ok (fs ++ [f], dset String.eqb f m cms, n * ct_ncols m)
      | None => Ok (fs, cms, n)
      end
  end.
Lemma sstep_fold c l : NoDup l -> forall fs cms n fs' cms' n', (forall f, In f l -> dget String.eqb f cms = None) ->
  foldM (sstep c) l (fs, cms, n) = Ok (fs', cms', n') ->
  fs' = fs ++ filter (fun f => isn f || dmem String.eqb f c) l /\
  (forall f b, In f l -> isn f = false -> dget String.eqb f c = Some b -> exists m, code_cm f b = Ok m /\ dget String.eqb f cms' = Some m) /\
  (forall f, (In f l -> isn f = true \/ dget String.eqb f c = None) -> dget String.eqb f cms' = dget String.eqb f cms) /\
  (forall f, In f (map fst cms') -> In f (map fst cms) \/ In f l /\ isn f = false /\ dmem String.eqb f c = true) /\
  n' = fold_left (fun n f => n * match dget String.eqb f num_cols with
      | Some k => k
      | None => match dget String.eqb f cms' with Some m => ct_ncols m | None => 1 end end) l n.
Proof.
  induction l as [|g l IH]; intros Hnd fs cms n fs' cms' n' Hnew E; cbn [foldM] in E.
  - injection E as <- <- <-. cbn. rewrite app_nil_r. repeat split; try easy. intros f Hf. now left.
  - inversion Hnd as [|? ? Hg Hnd']; subst. destruct (sstep c (fs, cms, n) g) as [[[fs1 cms1] n1]|] eqn:E1; cbn [bind] in E; [|discriminate].
    unfold sstep in E1. cbn [filter fold_left]. unfold is_num, dmem in *.
    destruct (dget String.eqb g num_cols) as [k|] eqn:En.
    + injection E1 as <- <- <-. destruct (IH Hnd' _ _ _ _ _ _ (fun f Hf => Hnew f (or_intror Hf)) E) as [A [B [C [D F]]]].
      cbn [orb]. split; [now rewrite A, <- app_assoc|]. split; [|split; [|split; [|exact F]]].
      * intros f b [<-|Hf] Hi; [now rewrite En in Hi|now apply B].
      * intros f Hf. apply C. intros Hl. apply Hf. now right.
      * intros f Hf. destruct (D f Hf) as [H|[H1 H2]]; [now left|right; split; [now right|exact H2]].
    + cbn [orb]. destruct (dget String.eqb g c) as [b|] eqn:Ec.
      * destruct (code_cm g b) as [m|] eqn:Em; cbn [bind] in E1; [|discriminate]. injection E1 as <- <- <-.
        assert (G : forall k, dget String.eqb k (dset String.eqb g m cms) = if String.eqb g k then Some m else dget String.eqb k cms)
          by (intros k; apply dget_dset; [apply seqb_sym|apply seqb_trans]).
        destruct (IH Hnd' (fs ++ [g]) (dset String.eqb g m cms) (n * ct_ncols m) fs' cms' n') as [A [B [C [D F]]]]; [|exact E|].
        { intros f Hf. rewrite G. destruct (String.eqb_spec g f) as [->|]; [contradiction|]. apply Hnew. now right. }
        assert (Gm : dget String.eqb g cms' = Some m).
        { rewrite C; [rewrite G, String.eqb_refl; reflexivity|]. intros H. contradiction. }
        split; [now rewrite A, <- app_assoc|]. split; [|split; [|split]].
        -- intros f b' [<-|Hf] Hi Hb; [|now apply B]. rewrite Ec in Hb. injection Hb as <-. exists m. auto.
        -- intros f Hf. rewrite C.
           ++ rewrite G. destruct (String.eqb_spec g f) as [<-|]; [|reflexivity]. destruct (Hf (or_introl eq_refl)) as [H|H]; [rewrite En in H; discriminate|congruence].
           ++ intros Hl. apply Hf. now right.
        -- intros f Hf. destruct (D f Hf) as [H|[H1 H2]]; [|right; split; [now right|exact H2]].
           rewrite (BuildProofs.dset_keys String.eqb) in H. destruct (dmem String.eqb g cms); [now left|]. apply in_app_iff in H. destruct H as [H|[<-|[]]]; [now left|].
           right. split; [now left|]. rewrite En, Ec. auto.
        -- rewrite F. rewrite Gm. reflexivity.
      * injection E1 as <- <- <-. destruct (IH Hnd' _ _ _ _ _ _ (fun f Hf => Hnew f (or_intror Hf)) E) as [A [B [C [D F]]]].
        assert (Gn : dget String.eqb g cms' = None).
        { rewrite C; [apply Hnew; now left|]. intros H. contradiction. }
        split; [exact A|]. split; [|split; [|split]].
        -- intros f b [<-|Hf] Hi Hb; [congruence|now apply B].
        -- intros f Hf. apply C. intros Hl. apply Hf. now right.
        -- intros f Hf. destruct (D f Hf) as [H|[H1 H2]]; [now left|right; split; [now right|exact H2]].
        -- rewrite F, Gn, Nat.mul_1_r. reflexivity.
Qed.
Lemma subterm_for_is t c s : NoDup t -> subterm_for num_cols code_cm t c = Ok s -> subterm_is t c s.
Proof.
  intros Hnd H. unfold subterm_for in H. change (bind (foldM (sstep c) t ([], [], 1)) (fun p => let '(fs, cms, n) := p in Ok (mkSI fs cms n)) = Ok s) in H.
  destruct (foldM (sstep c) t ([], [], 1)) as [[[fs cms] n]|] eqn:E; cbn [bind] in H; [|discriminate]. injection H as <-.
  destruct (sstep_fold c t Hnd [] [] 1 fs cms n (fun f _ => eq_refl) E) as [A [B [C [D F]]]]. constructor; cbn [si_factors si_contrasts si_ncols].
  - exact A.
  - exact B.
  - intros f Hf. rewrite C; [reflexivity|]. auto.
  - intros f Hf. destruct (D f Hf) as [[]|H]. exact H.
  - exact F.
Qed.
Lemma subterm_for_total t c : (forall f b, In f t -> isn f = false -> exists m, code_cm f b = Ok m) -> exists s, subterm_for num_cols code_cm t c = Ok s.
Proof.
  intros H. unfold subterm_for. change (exists s, bind (foldM (sstep c) t ([], [], 1)) (fun p => let '(fs, cms, n) := p in Ok (mkSI fs cms n)) = Ok s).
  assert (G : forall l st, (forall f, In f l -> In f t) -> exists st', foldM (sstep c) l st = Ok st').
  { induction l as [|g l IH]; intros [[fs cms] n] Hl; cbn [foldM]; [eauto|].
    assert (E : exists st', sstep c (fs, cms, n) g = Ok st').
    { unfold sstep. destruct (dget String.eqb g num_cols) as [k|] eqn:En; [eauto|]. destruct (dget String.eqb g c) as [b|]; [|eauto].
      destruct (H g b (Hl g (or_introl eq_refl))) as [m ->]; [unfold is_num, dmem; now rewrite En|]. cbn [bind]. eauto. }
    destruct E as [st' ->]. cbn [bind]. apply IH. intros f Hf. apply Hl. now right. }
  destruct (G t ([], [], 1) (fun f Hf => Hf)) as [[[fs cms] n] ->]. cbn [bind]. eauto.
Qed.

(** * The terms of a bucket *)
Lemma bucket_struct ts : forall used r, infos_for_bucket num_cols code_cm hash ts used = Ok r ->
  exists css, RedundancyModel.pick_all String.eqb hash ts isn used = Ok css /\
    forall i t ss, nth_error r i = Some (t, ss) -> nth_error ts i = Some t /\
      exists cs, nth_error css i = Some cs /\ Forall2 (fun c s => subterm_for num_cols code_cm t c = Ok s) cs ss.
Proof.
  induction ts as [|t ts IH]; intros used r; cbn [infos_for_bucket RedundancyModel.pick_all].
  - intros [= <-]. exists []. split; [reflexivity|]. intros [|i]; discriminate.
  - unfold infos_for_term. destruct (pick_contrasts_for_term String.eqb hash t isn used) as [[cs used']|] eqn:Ep; cbn [bind fst snd]; [|discriminate].
    destruct (mapM (subterm_for num_cols code_cm t) cs) as [sis|] eqn:Es; cbn [bind fst snd]; [|discriminate].
    destruct (infos_for_bucket num_cols code_cm hash ts used') as [rest|] eqn:Er; cbn [bind]; [|discriminate].
    intros [= <-]. destruct (IH _ _ Er) as [css [Ec Hc]]. rewrite Ec. cbn [bind]. exists (cs :: css). split; [reflexivity|].
    intros [|i] t' ss; cbn [nth_error]; [|apply Hc]. intros [= <- <-]. split; [reflexivity|]. exists cs. split; [reflexivity|]. now apply mapM_ok_Forall2.
Qed.
Lemma bucket_total ts : forall used css, RedundancyModel.pick_all String.eqb hash ts isn used = Ok css ->
  (forall t f b, In t ts -> In f t -> isn f = false -> exists m, code_cm f b = Ok m) ->
  exists r, infos_for_bucket num_cols code_cm hash ts used = Ok r.
Proof.
  induction ts as [|t ts IH]; intros used css; cbn [infos_for_bucket RedundancyModel.pick_all]; [eauto|].
  unfold infos_for_term. destruct (pick_contrasts_for_term String.eqb hash t isn used) as [[cs used']|] eqn:Ep; cbn [bind fst snd]; [|discriminate].
  destruct (RedundancyModel.pick_all String.eqb hash ts isn used') as [css'|] eqn:Ec; cbn [bind]; [|discriminate]. intros _ H.
  destruct (mapM_all_ok (subterm_for num_cols code_cm t) cs) as [sis ->].
  { intros c _. apply subterm_for_total. intros f b. apply H. now left. }
  cbn [bind fst snd]. destruct (IH used' css' Ec) as [r ->]; [intros t' f b Ht'; apply H; now right|]. cbn [bind]. eauto.
Qed.

Variables (terms : list term).
Hypothesis Hdiff : different_terms terms.
Hypothesis Hcf : collision_free hash (concat terms).

Lemma keys_distinct l : Permutation l terms -> forall r : list (term * list subterm_info), map fst r = l -> distinct_keys term_eqb r.
Proof.
  intros Hp. assert (Hl : ForallOrdPairs (fun t u => term_eqb t u = false) l).
  { destruct Hdiff as [_ Hd]. apply Permutation_sym in Hp. clear -Hd Hp. induction Hp as [|x l m Hp IH|x y l|a b c H1 IH1 H2 IH2].
    - constructor.
    - inversion Hd as [|? ? A B]; subst. constructor; [|now apply IH]. rewrite Forall_forall in *. intros z Hz. apply A. now apply (Permutation_in _ (Permutation_sym Hp)).
    - inversion Hd as [|? ? A B]; subst. inversion B as [|? ? C D]; subst. inversion A as [|? ? A1 A2]; subst.
      constructor; [constructor; [now rewrite teqb_sym|exact C]|]. constructor; assumption.
    - auto. }
  clear Hp. induction r as [|[t ss] r IH] in l, Hl |- *; intros E; cbn [distinct_keys]; [exact Logic.I|]. subst l. cbn [map fst] in Hl.
  inversion Hl as [|? ? A B]; subst. split; [|eapply IH; [exact B|reflexivity]]. intros p Hp. rewrite Forall_forall in A. apply A. now apply in_map.
Qed.
Lemma list_term_eqb_refl l : list_term_eqb l l = true.
Proof. induction l as [|t l IH]; cbn; [reflexivity|]. now rewrite teqb_refl, IH. Qed.

Lemma make_total : (forall f b, In f (concat terms) -> isn f = false -> exists m, code_cm f b = Ok m) ->
  exists cs, make_subterm_infos num_cols code_cm hash terms = Ok cs.
Proof.
  intros Hc. unfold make_subterm_infos.
  destruct (mapM_all_ok (fun p => infos_for_bucket num_cols code_cm hash (by_degree (snd p)) []) (empty_first (buckets num_cols terms))) as [per Ep].
  { intros [b ts] Hin. cbn [snd]. pose proof (binv_buckets num_cols terms) as Hb.
    apply (Permutation_in _ (empty_first_perm _)) in Hin. pose proof (bi_ts _ _ _ Hb b ts Hin) as Ets.
    assert (Hts : forall t, In t (by_degree ts) -> In t terms).
    { intros t Ht. unfold by_degree in Ht. rewrite py_sort_in in Ht. rewrite Ets in Ht. now apply filter_In in Ht. }
    destruct (pick_all_codings String.eqb hash isn (by_degree ts)) as [css [Ec _]].
    - intros x y. apply String.eqb_eq.
    - intros x y Hx Hy. apply Hcf; (eapply incl_tran; [eassumption|]); intros f Hf; apply in_concat in Hf; destruct Hf as [t [H1 H2]]; apply in_concat; exists t; auto.
    - destruct Hdiff as [Hn _]. rewrite Forall_forall in *. auto.
    - eapply bucket_total; [exact Ec|]. intros t f b' Ht Hf. apply Hc. apply in_concat. exists t. auto. }
  rewrite Ep. cbn [bind].
  assert (Hk : map fst (concat per) = order_of num_cols terms).
  { unfold order_of. rewrite concat_map. f_equal. apply mapM_ok_Forall2 in Ep. clear -Ep.
    induction Ep as [|p r ps rs Hr Hf IH]; cbn [map]; [reflexivity|]. rewrite (infos_for_bucket_keys _ _ _ _ _ _ Hr). f_equal. exact IH. }
  rewrite (dict_of_distinct term_eqb) by (eapply keys_distinct; [apply (order_perm num_cols)|exact Hk]).
  unfold assert. rewrite list_term_eqb_refl. eauto.
Qed.

(** * Two subterms of a design do not have the same factors *)
Definition same_set (a b : list factor) : Prop := forall f, In f a <-> In f b.
Variable cs : list (term * list subterm_info).
Hypothesis Hmake : make_subterm_infos num_cols code_cm hash terms = Ok cs.

Lemma cs_term t ss : In (t, ss) cs -> In t terms /\ NoDup t.
Proof.
  intros H. destruct (order_lemma num_cols code_cm hash terms cs Hmake) as [Hp _]. apply (in_map fst) in H. cbn [fst] in H.
  apply (Permutation_in _ Hp) in H. split; [exact H|]. destruct Hdiff as [Hn _]. rewrite Forall_forall in Hn. auto.
Qed.
(** The bucket of [t0]: its terms in order, with their codings. *)
Lemma bucket_of_term t0 : In t0 terms -> exists ts css,
  (forall i t ss, nth_error (filter (fun p => same_num num_cols t0 (fst p)) cs) i = Some (t, ss) -> nth_error ts i = Some t /\
     exists c, nth_error css i = Some c /\ Forall2 (subterm_is t) c ss /\
       (forall S, (new_at isn ts i S -> exactly_one (fun c => covers c S) c)) /\
       (forall k, In k c -> NoDup (map fst k) /\ (forall f, In f (map fst k) -> In f t /\ isn f = false) /\ forall S, covers k S -> new_at isn ts i S)).
Proof.
  intros Ht0. destruct (bucket_items num_cols code_cm hash terms cs t0 Hmake Ht0) as [ts [Hp Hb]].
  assert (Hts : forall t, In t ts -> In t terms) by (intros t Ht; apply (Permutation_in _ Hp) in Ht; now apply filter_In in Ht).
  assert (Hnd' : Forall (@NoDup factor) ts) by (destruct Hdiff as [Hn _]; rewrite Forall_forall in *; auto).
  assert (Hcf' : collision_free hash (concat ts)).
  { intros x y Hx Hy. apply Hcf; (eapply incl_tran; [eassumption|]); intros f Hf; apply in_concat in Hf; destruct Hf as [t [H1 H2]]; apply in_concat; exists t; auto. }
  destruct (bucket_struct ts [] _ Hb) as [css [Ec Hs]].
  destruct (pick_all_codings String.eqb hash isn ts (fun a b => String.eqb_eq a b) Hcf' Hnd') as [css' [Ec' [_ Hcod]]].
  pose proof (eq_trans (eq_sym Ec) Ec') as Ecc. injection Ecc as <-. exists ts, css.
  intros i t ss Hi. destruct (Hs i t ss Hi) as [Hit [c [Hci Hf]]]. split; [exact Hit|]. exists c. split; [exact Hci|].
  destruct (Hcod i c Hci) as [Hk Hcov]. rewrite Forall_forall in Hk, Hnd'.
  split; [eapply f2_impl; [|exact Hf]; intros k s H; apply subterm_for_is; [apply Hnd'; eapply nth_error_In; exact Hit|exact H]|].
  split; [intros S; apply (proj1 (Hcov S))|]. intros k Hin. split; [now apply Hk|]. split; [|intros S; now apply (proj2 (Hcov S))].
  intros f Hfk. destruct (Hcov (map fst k)) as [_ Hn]. destruct (Hn k Hin) as [[t' [E' Hsub]] _].
  - split.
    + intros g Hg. apply in_map_iff in Hg. destruct Hg as [[g' b] [<- Hg]]. exists b. exact Hg.
    + intros g Hg. apply (in_map fst) in Hg. exact Hg.
  - pose proof (eq_trans (eq_sym Hit) E') as Eh. injection Eh as <-. now apply Hsub.
Qed.

Lemma su_in t c s f : subterm_is t c s -> (In f (si_factors s) <-> In f t /\ (isn f = true \/ In f (map fst c))).
Proof.
  intros H. rewrite (su_factors _ _ _ H), filter_In, orb_true_iff. apply and_iff_compat_l. apply or_iff_compat_l.
  rewrite dmem_in. split.
  - intros [[k b] [Hp E]]. apply String.eqb_eq in E. cbn in E. subst k. apply (in_map fst) in Hp. exact Hp.
  - intros Hf. apply in_map_iff in Hf. destruct Hf as [p [<- Hp]]. exists p. split; [exact Hp|apply String.eqb_refl].
Qed.
Lemma su_covers t c s S : subterm_is t c s -> (forall f, In f (map fst c) -> In f t /\ isn f = false) ->
  (forall f, In f S <-> In f (si_factors s) /\ isn f = false) -> covers c S.
Proof.
  intros H Hk HS. split.
  - intros f Hf. apply HS in Hf. destruct Hf as [Hf Hn]. apply (su_in _ _ _ _ H) in Hf. destruct Hf as [_ [Hf|Hf]]; [congruence|].
    apply in_map_iff in Hf. destruct Hf as [[g b] [<- Hf]]. exists b. exact Hf.
  - intros f Hf. apply (in_map fst) in Hf. cbn [fst] in Hf. destruct (Hk f Hf) as [H1 H2]. apply HS. split; [|exact H2].
    apply (su_in _ _ _ _ H). auto.
Qed.
Definition cats (l : list factor) : list factor := filter (fun f => negb (isn f)) l.
Lemma cats_in l f : In f (cats l) <-> In f l /\ isn f = false.
Proof. unfold cats. now rewrite filter_In, negb_true_iff. Qed.

Lemma su_bucket t c s t' c' s' : subterm_is t c s -> subterm_is t' c' s' -> (forall f, In f (map fst c) -> isn f = false) -> (forall f, In f (map fst c') -> isn f = false) ->
  same_set (si_factors s) (si_factors s') -> same_num num_cols t t' = true.
Proof.
  intros H H' Hk Hk' Hs. unfold same_num. apply beq_spec. unfold bucket_of. split; intros f Hf; apply filter_In in Hf; destruct Hf as [Hf Hn]; apply filter_In; (split; [|exact Hn]).
  - assert (G : In f (si_factors s)) by (apply (su_in _ _ _ _ H); auto). apply Hs in G. now apply (su_in _ _ _ _ H') in G.
  - assert (G : In f (si_factors s')) by (apply (su_in _ _ _ _ H'); auto). apply Hs in G. now apply (su_in _ _ _ _ H) in G.
Qed.
End Struct.
