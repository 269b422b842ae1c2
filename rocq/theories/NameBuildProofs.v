(** A design can be made exactly if names do not clash. *)
From Coq Require Import Sorted Permutation.
From Verif Require Import Base PySort RankSpec RedundancyModel RedundancySpec RedundancyProofs PickProofs DescModel FormulaModel BuildModel BuildSpec BuildProofs BuildSubtermProofs BuildInfoProofs BuildMatrixProofs BuildAllProofs BuildOrderProofs BuildSubsetProofs BuildDesignProofs SubsetProofs NameSpec NameStructProofs.

Lemma before_nth {A} (l : list A) a b : before l a b -> exists i j, i < j /\ nth_error l i = Some a /\ nth_error l j = Some b.
Proof.
  intros [p [q [r ->]]]. exists (length p), (length p + S (length q)). split; [lia|]. split.
  - rewrite nth_error_app2, Nat.sub_diag by lia. reflexivity.
  - rewrite nth_error_app2 by lia. replace (length p + S (length q) - length p) with (S (length q)) by lia. cbn [nth_error].
    rewrite nth_error_app2, Nat.sub_diag by lia. reflexivity.
Qed.
Lemma f2_nth {A B} (R : A -> B -> Prop) l m i y : Forall2 R l m -> nth_error m i = Some y -> exists x, nth_error l i = Some x /\ R x y.
Proof. intros H. revert i. induction H as [|a b l m Hab H IH]; intros [|i]; cbn; try discriminate; [intros [= <-]; eauto|auto]. Qed.
Lemma exactly_one_nth {X} (P : X -> Prop) l i j x y : exactly_one P l -> nth_error l i = Some x -> nth_error l j = Some y -> P x -> P y -> i = j.
Proof.
  intros [p [z [q [-> [Pz Hn]]]]] Hi Hj Px Py. rewrite Forall_forall in Hn.
  assert (G : forall k w, nth_error (p ++ z :: q) k = Some w -> P w -> k = length p).
  { intros k w Hk Pw. destruct (Nat.lt_trichotomy k (length p)) as [H|[H|H]]; [|exact H|].
    - rewrite nth_error_app1 in Hk by exact H. exfalso. apply (Hn w); [|exact Pw]. apply in_or_app. left. eapply nth_error_In; exact Hk.
    - rewrite nth_error_app2 in Hk by lia. destruct (k - length p) as [|n] eqn:E; [lia|]. cbn [nth_error] in Hk. exfalso. apply (Hn w); [|exact Pw].
      apply in_or_app. right. eapply nth_error_In; exact Hk. }
  rewrite (G i x), (G j y) by assumption. reflexivity.
Qed.
Lemma product_fold {A} (w : A -> nat) l : forall n, fold_left (fun n f => n * w f) l n = n * product_of (map w l).
Proof. induction l as [|x l IH]; intros n; cbn [fold_left map product_of]; [lia|]. rewrite IH. lia. Qed.
Lemma product_filter {A} (w : A -> nat) (P : A -> bool) l : (forall x, In x l -> P x = false -> w x = 1) -> product_of (map w (filter P l)) = product_of (map w l).
Proof.
  induction l as [|x l IH]; intros H; cbn [filter map product_of]; [reflexivity|]. specialize (IH (fun y Hy => H y (or_intror Hy))).
  destruct (P x) eqn:E; cbn [map product_of]; rewrite IH; [reflexivity|]. rewrite (H x (or_introl eq_refl) E). lia.
Qed.

Section Build.
Context {V : Type}.
Notation subterm_info := (@subterm_info V).
Variables (num_cols : list (factor * nat)) (code_cm : factor -> bool -> result (@ctr V)) (hash : list (bool * factor) -> Z).
Notation isn := (is_num num_cols).
Variables (terms : list term).
Hypothesis Hdiff : different_terms terms.
Hypothesis Hcf : collision_free hash (concat terms).
Variable cs : list (term * list subterm_info).
Hypothesis Hmake : make_subterm_infos num_cols code_cm hash terms = Ok cs.

Lemma item_struct t ss : In (t, ss) cs -> exists c, Forall2 (subterm_is num_cols code_cm t) c ss /\
  forall k, In k c -> NoDup (map fst k) /\ forall f, In f (map fst k) -> In f t /\ isn f = false.
Proof.
  intros H. destruct (cs_term num_cols code_cm hash terms Hdiff cs Hmake t ss H) as [Ht _].
  destruct (bucket_of_term num_cols code_cm hash terms Hdiff Hcf cs Hmake t Ht) as [ts [css Hb]].
  assert (Hf : In (t, ss) (filter (fun p => same_num num_cols t (fst p)) cs)).
  { apply filter_In. split; [exact H|]. cbn [fst]. unfold same_num. apply beq_spec. split; apply incl_refl. }
  apply In_nth_error in Hf. destruct Hf as [i Hi]. destruct (Hb i t ss Hi) as [_ [c [_ [H1 [_ H2]]]]]. exists c. split; [exact H1|].
  intros k Hk. destruct (H2 k Hk) as [G1 [G2 _]]. auto.
Qed.
Lemma item_sub t ss s : In (t, ss) cs -> In s ss -> exists k, subterm_is num_cols code_cm t k s /\ NoDup (map fst k) /\ forall f, In f (map fst k) -> In f t /\ isn f = false.
Proof.
  intros H Hs. destruct (item_struct t ss H) as [c [Hc Hk]]. apply In_nth_error in Hs. destruct Hs as [i Hi].
  destruct (f2_nth _ _ _ _ _ Hc Hi) as [k [Hki Hsu]]. exists k. split; [exact Hsu|]. apply Hk. eapply nth_error_In; exact Hki.
Qed.

(** * Two subterms do not have the same factors *)
Definition occurrences : list (term * subterm_info) := flat_map (fun p => map (pair (fst p)) (snd p)) cs.
Lemma in_occurrences t s : In (t, s) occurrences <-> exists ss, In (t, ss) cs /\ In s ss.
Proof.
  unfold occurrences. rewrite in_flat_map. split.
  - intros [[t' ss] [H1 H2]]. cbn [fst snd] in H2. apply in_map_iff in H2. destruct H2 as [s' [[= -> ->] H2]]. eauto.
  - intros [ss [H1 H2]]. exists (t, ss). split; [exact H1|]. cbn [fst snd]. now apply in_map.
Qed.
Lemma same_num_refl t : same_num num_cols t t = true.
Proof. unfold same_num. apply beq_spec. split; apply incl_refl. Qed.
Lemma subterms_differ t s t' s' : before occurrences (t, s) (t', s') -> ~ same_set (si_factors s) (si_factors s').
Proof.
  intros Hb Hsame. pose proof (before_in _ _ _ Hb) as [I1 I2]. apply in_occurrences in I1, I2.
  destruct I1 as [ss0 [P1 Q1]], I2 as [ss0' [P2 Q2]].
  destruct (item_sub _ _ _ P1 Q1) as [k [Hk [_ Hkk]]]. destruct (item_sub _ _ _ P2 Q2) as [k' [Hk' [_ Hkk']]].
  assert (Hsn : same_num num_cols t t' = true).
  { eapply (su_bucket num_cols code_cm t k s t' k' s'); try eassumption; [intros f Hf; now apply Hkk|intros f Hf; now apply Hkk']. }
  destruct (cs_term num_cols code_cm hash terms Hdiff cs Hmake t ss0 P1) as [Ht _].
  destruct (bucket_of_term num_cols code_cm hash terms Hdiff Hcf cs Hmake t Ht) as [ts [css Hbk]].
  set (S := cats num_cols (si_factors s)).
  assert (HS : forall f, In f S <-> In f (si_factors s) /\ isn f = false) by (intros f; apply cats_in).
  assert (HS' : forall f, In f S <-> In f (si_factors s') /\ isn f = false) by (intros f; rewrite HS, (Hsame f); reflexivity).
  unfold occurrences in Hb. rewrite flat_map_concat_map in Hb. apply before_concat in Hb. destruct Hb as [[l [Hl Hb]]|[l [m [Hb [H1 H2]]]]].
  - apply in_map_iff in Hl. destruct Hl as [[t1 ss] [<- Hp]]. cbn [fst snd] in Hb. apply before_map in Hb. destruct Hb as [x [y [Hb [E1 E2]]]].
    injection E1 as -> ->. injection E2 as <- ->.
    assert (Hf : In (t, ss) (filter (fun p => same_num num_cols t (fst p)) cs)) by (apply filter_In; split; [exact Hp|apply same_num_refl]).
    apply In_nth_error in Hf. destruct Hf as [i Hi]. destruct (Hbk i t ss Hi) as [_ [c [_ [Hc [Hone Hck]]]]].
    apply before_nth in Hb. destruct Hb as [a [b [Hab [Ha Hb]]]].
    destruct (f2_nth _ _ _ _ _ Hc Ha) as [ka [Hka Hsa]]. destruct (f2_nth _ _ _ _ _ Hc Hb) as [kb [Hkb Hsb]].
    destruct (Hck ka (nth_error_In _ _ Hka)) as [_ [Fa Na]]. destruct (Hck kb (nth_error_In _ _ Hkb)) as [_ [Fb Nb]].
    assert (Ca : covers ka S) by (eapply su_covers; eassumption). assert (Cb : covers kb S) by (eapply su_covers; eassumption).
    pose proof (exactly_one_nth _ _ _ _ _ _ (Hone S (Na S Ca)) Hka Hkb Ca Cb). lia.
  - apply before_map in Hb. destruct Hb as [[t1 ss] [[t2 ss'] [Hb [E1 E2]]]]. subst l m. cbn [fst snd] in H1, H2.
    apply in_map_iff in H1, H2. destruct H1 as [s1 [E1 H1]], H2 as [s2 [E2 H2]]. injection E1 as -> ->. injection E2 as -> ->.
    assert (Hb' : before (filter (fun p => same_num num_cols t (fst p)) cs) (t, ss) (t', ss')).
    { apply before_filter. split; [exact Hb|]. split; [apply same_num_refl|exact Hsn]. }
    apply before_nth in Hb'. destruct Hb' as [i [j [Hij [Hi Hj]]]].
    destruct (Hbk i t ss Hi) as [Hti [c [_ [Hc [_ Hck]]]]]. destruct (Hbk j t' ss' Hj) as [Htj [c' [_ [Hc' [_ Hck']]]]].
    apply In_nth_error in H1, H2. destruct H1 as [a Ha], H2 as [b Hb2].
    destruct (f2_nth _ _ _ _ _ Hc Ha) as [ka [Hka Hsa]]. destruct (f2_nth _ _ _ _ _ Hc' Hb2) as [kb [Hkb Hsb]].
    destruct (Hck ka (nth_error_In _ _ Hka)) as [_ [Fa Na]]. destruct (Hck' kb (nth_error_In _ _ Hkb)) as [_ [Fb Nb]].
    assert (Ca : covers ka S) by (eapply su_covers; eassumption). assert (Cb : covers kb S) by (eapply su_covers; eassumption).
    destruct (Nb S Cb) as [_ Hnew]. apply (Hnew i t Hij Hti). intros f Hf. apply HS in Hf. destruct Hf as [Hf Hn]. split; [|exact Hn].
    apply (su_in _ _ _ _ _ _ Hsa) in Hf. tauto.
Qed.

(** * The checks of one subterm *)
Variable fis : finfos.
Hypothesis Htyped : typed num_cols code_cm fis terms.

Lemma item_factor t ss f : In (t, ss) cs -> In f t -> In f (concat terms).
Proof. intros H Hf. apply in_concat. exists t. split; [|exact Hf]. now apply (cs_term num_cols code_cm hash terms Hdiff cs Hmake t ss). Qed.
Lemma sub_incl t ss s f : In (t, ss) cs -> In s ss -> In f (si_factors s) -> In f t.
Proof. intros H Hs Hf. destruct (item_sub t ss s H Hs) as [k [Hk _]]. apply (su_in _ _ _ _ _ _ Hk) in Hf. tauto. Qed.
Lemma isn_kind f : In f (concat terms) -> exists fi, dget String.eqb f fis = Some fi /\ fi_factor fi = f /\
  match fi_kind fi with
  | FNum n => isn f = true /\ dget String.eqb f num_cols = Some n
  | FCat k => isn f = false /\ dget String.eqb f num_cols = None /\ forall full, exists c, code_cm f full = Ok c /\ length (ct_rows c) = k
  end.
Proof.
  intros Hf. destruct (Htyped f Hf) as [fi [E1 [E2 E3]]]. exists fi. split; [exact E1|]. split; [exact E2|]. unfold is_num, dmem.
  destruct (fi_kind fi); [now rewrite E3|]. destruct E3 as [E3 E4]. rewrite E3. auto.
Qed.
Lemma coded_in (k : list (factor * bool)) f : In f (map fst k) -> exists b, dget String.eqb f k = Some b.
Proof.
  intros H. destruct (dget String.eqb f k) as [b|] eqn:E; [eauto|]. exfalso. apply in_map_iff in H. destruct H as [[g b] [<- H]]. cbn [fst] in E.
  clear -H E. induction k as [|[g' b'] k IH]; cbn in *; [easy|]. destruct H as [[= -> ->]|H]; [now rewrite String.eqb_refl in E|].
  destruct (String.eqb_spec g' g); [discriminate|auto].
Qed.
Lemma sub_factor_ok t ss s f : In (t, ss) cs -> In s ss -> In f (si_factors s) -> factor_ok fis s f.
Proof.
  intros H Hs Hf. destruct (item_sub t ss s H Hs) as [k [Hk [_ Hkk]]]. pose proof (sub_incl _ _ _ _ H Hs Hf) as Hft.
  destruct (isn_kind f (item_factor _ _ _ H Hft)) as [fi [E1 [_ E2]]]. exists fi. split; [exact E1|]. destruct (fi_kind fi) as [n|n].
  - apply (su_num _ _ _ _ _ Hk). tauto.
  - destruct E2 as [E2 [_ E3]]. apply (su_in _ _ _ _ _ _ Hk) in Hf. destruct Hf as [_ [Hf|Hf]]; [congruence|]. destruct (coded_in k f Hf) as [b Eb].
    destruct (su_cat _ _ _ _ _ Hk f b Hft E2 Eb) as [m [Em1 Em2]]. exists m. split; [exact Em2|]. destruct (E3 b) as [m' [Em' El]]. congruence.
Qed.
Lemma sub_ok t ss s : In (t, ss) cs -> In s ss -> subterm_ok fis s.
Proof.
  intros H Hs. split; [intros f; now apply (sub_factor_ok t ss)|]. destruct (item_sub t ss s H Hs) as [k [Hk [_ Hkk]]].
  rewrite (su_ncols _ _ _ _ _ Hk). rewrite (product_fold (fun f => match dget String.eqb f num_cols with
      | Some k => k
      | None => match dget String.eqb f (si_contrasts s) with Some m => ct_ncols m | None => 1 end end)), Nat.mul_1_l.
  rewrite <- (product_filter _ (fun f => isn f || dmem String.eqb f k)).
  - unfold counts_of. rewrite <- (su_factors _ _ _ _ _ Hk). f_equal. apply map_ext_in. intros f Hf.
    destruct (sub_factor_ok t ss s f H Hs Hf) as [fi [E1 E2]]. destruct (isn_kind f (item_factor _ _ _ H (sub_incl _ _ _ _ H Hs Hf))) as [fi' [E1' [_ E3]]].
    rewrite E1 in E1'. injection E1' as <-. unfold count_of. rewrite E1. destruct (fi_kind fi) as [n|n].
    + destruct E3 as [_ ->]. now rewrite E2.
    + destruct E3 as [_ [-> _]]. destruct E2 as [c [-> _]]. reflexivity.
  - intros f Hf E. apply orb_false_iff in E. destruct E as [En Ed]. unfold is_num, dmem in En. destruct (dget String.eqb f num_cols) eqn:E1; [discriminate|].
    destruct (dget String.eqb f (si_contrasts s)) as [m|] eqn:E2; [|reflexivity]. exfalso. apply dget_in in E2. destruct E2 as [f' [E2 E3]]. apply String.eqb_eq in E3. subst f'.
    apply (in_map fst) in E2. destruct (su_keys _ _ _ _ _ Hk f E2) as [_ [_ Hd]]. congruence.
Qed.

Definition is_cat (f : factor) : bool := match dget String.eqb f fis with Some fi => match fi_kind fi with FCat _ => true | FNum _ => false end | None => false end.
Lemma check_subterm_run (g : finfos) (s : subterm_info) fs : (forall f, In f fs -> factor_ok fis s f) -> (forall f, In f fs -> dget String.eqb f g = dget String.eqb f fis) ->
  forall n cats, foldM (fun st f =>
      let '(exp_cols, cats) := st in
      let* fi := lookup (dget String.eqb f g) in
      match fi_kind fi with
      | FNum n => Ok (exp_cols * n, cats)
      | FCat ncat =>
          let* c := lookup (dget String.eqb f (si_contrasts s)) in
          check (Nat.eqb (List.length (ct_rows c)) ncat) "Mismatched contrast matrix for factor"%string
            (Ok (exp_cols * ct_ncols c, f :: cats))
      end) fs (n, cats) = Ok (n * product_of (map (count_of fis s) fs), rev (filter is_cat fs) ++ cats).
Proof.
  induction fs as [|f fs IH]; intros Hok Hag n cats; cbn [foldM map product_of filter].
  - cbn. f_equal. f_equal. lia.
  - rewrite (Hag f (or_introl eq_refl)). destruct (Hok f (or_introl eq_refl)) as [fi [E1 E2]]. unfold count_of at 1, is_cat at 1. rewrite E1. cbn [lookup bind].
    destruct (fi_kind fi) as [m|m].
    + cbn [bind]. rewrite IH by (intros; auto with datatypes). rewrite E2. f_equal. f_equal. lia.
    + destruct E2 as [c [-> El]]. cbn [lookup bind]. unfold check. rewrite El, Nat.eqb_refl. cbn [bind].
      rewrite IH by (intros; auto with datatypes). cbn [rev]. rewrite <- app_assoc. cbn [app]. f_equal. f_equal. lia.
Qed.
Lemma sub_check g t ss s : In (t, ss) cs -> In s ss -> (forall f, In f (concat terms) -> dget String.eqb f g = dget String.eqb f fis) -> check_subterm g s = Ok tt.
Proof.
  intros H Hs Hg. destruct (sub_ok t ss s H Hs) as [Hok Hn]. unfold check_subterm. rewrite check_subterm_run; [|exact Hok|].
  - cbn [bind fst snd]. rewrite app_nil_r.
    assert (E : set_eqb (rev (filter is_cat (si_factors s))) (map fst (si_contrasts s)) = true).
    { unfold set_eqb. apply andb_true_iff. rewrite !subset_eqb_spec. split; intros f Hf.
      - apply in_rev, filter_In in Hf. destruct Hf as [Hf Hc]. destruct (Hok f Hf) as [fi [E1 E2]]. unfold is_cat in Hc. rewrite E1 in Hc.
        destruct (fi_kind fi); [discriminate|]. destruct E2 as [c [E2 _]]. apply dget_in in E2. destruct E2 as [f' [E2 E3]]. apply String.eqb_eq in E3. subst f'.
        apply (in_map fst) in E2. exact E2.
      - apply -> in_rev. apply filter_In. destruct (item_sub t ss s H Hs) as [k [Hk [_ Hkk]]]. destruct (su_keys _ _ _ _ _ Hk f Hf) as [Hft [Hni Hd]]. split.
        + rewrite (su_factors _ _ _ _ _ Hk). apply filter_In. split; [exact Hft|]. rewrite Hd. apply orb_true_r.
        + destruct (isn_kind f (item_factor _ _ _ H Hft)) as [fi [E1 [_ E2]]]. unfold is_cat. rewrite E1. destruct (fi_kind fi); [|reflexivity]. destruct E2. congruence. }
    unfold check. rewrite E. rewrite Nat.mul_1_l. fold (counts_of fis s). rewrite Hn, Nat.eqb_refl. reflexivity.
  - intros f Hf. apply Hg. eapply item_factor; [exact H|]. eapply sub_incl; eassumption.
Qed.

(** * The design *)
Definition labels : list string := map (column_label fis) (columns_of fis cs).
Lemma names_total : exists names, mapM (fun p => mapM (subterm_column_names fis) (snd p)) cs = Ok names /\ concat (map (@concat string) names) = labels.
Proof.
  destruct (mapM_all_ok (fun p : term * list subterm_info => mapM (subterm_column_names fis) (snd p)) cs) as [names E].
  - intros [t ss] H. cbn [snd]. apply mapM_all_ok. intros s Hs. eexists. apply subterm_ok_names. eapply sub_ok; eassumption.
  - exists names. split; [exact E|]. exact (all_labels _ _ _ E).
Qed.
Lemma slices_at a l sl b : (forall p, In p l -> In p cs) -> slices_from a l = (sl, b) ->
  b = a + length (columns_of fis l) /\
  (forall t q, In (t, q) sl -> exists pre ss post, l = pre ++ (t, ss) :: post /\ q = (a + length (columns_of fis pre), a + length (columns_of fis pre) + length (columns_of_term fis (t, ss)))) /\
  (forall pre t ss post, l = pre ++ (t, ss) :: post -> In (t, (a + length (columns_of fis pre), a + length (columns_of fis pre) + length (columns_of_term fis (t, ss)))) sl).
Proof.
  revert a sl b. induction l as [|[t ss] l IH]; intros a sl b Hin E; cbn [slices_from] in E.
  - injection E as <- <-. split; [cbn; lia|]. split; [easy|]. intros [|? ?]; discriminate.
  - destruct (slices_from (a + term_columns ss) l) as [rest fin] eqn:Er. injection E as <- <-.
    assert (Hc : term_columns ss = length (columns_of_term fis (t, ss))).
    { unfold term_columns, columns_of_term. cbn [fst snd]. pose proof (fun s => sub_ok t ss s (Hin _ (or_introl eq_refl))) as Hok. clear -Hok.
      assert (G : forall n, fold_left (fun n s => n + si_ncols s) ss n = n + length (flat_map (fun s => map (fun c => (t, s, c)) (combos (counts_of fis s))) ss)).
      { induction ss as [|s ss IHs]; intros n; cbn [fold_left flat_map]; [cbn; lia|]. rewrite IHs by (intros; apply Hok; now right).
        rewrite app_length, map_length, combos_length. destruct (Hok s (or_introl eq_refl)) as [_ ->]. lia. }
      apply G. }
    destruct (IH _ _ _ (fun p Hp => Hin p (or_intror Hp)) Er) as [I1 [I2 I3]]. unfold columns_of in *. cbn [flat_map]. rewrite app_length.
    change (@length (@column_id V)) with (@length (term * subterm_info * list nat)) in *.
    split; [lia|]. split.
    + intros t' q [[= <- <-]|Hq].
      * exists [], ss, l. split; [reflexivity|]. cbn [flat_map length]. rewrite Nat.add_0_r. f_equal. lia.
      * destruct (I2 t' q Hq) as [pre [ss' [post [-> ->]]]]. exists ((t, ss) :: pre), ss', post. split; [reflexivity|].
        cbn [flat_map]. rewrite app_length. cbn [fst snd] in *. f_equal; rewrite Hc; unfold column_id in *; lia.
    + intros [|p pre] t' ss' post El; cbn [app] in El; injection El as E1 E2.
      * subst. cbn [flat_map length]. rewrite Nat.add_0_r. left. f_equal. f_equal. lia.
      * subst p. right. specialize (I3 pre t' ss' post E2). cbn [flat_map]. rewrite app_length.
        rewrite Hc, <- Nat.add_assoc in I3. exact I3.
Qed.

Definition collected : finfos := match foldM (add_info fis) (concat terms) [] with Ok this => this | Err _ => [] end.
Lemma collected_facts : foldM (add_info fis) (concat terms) [] = Ok collected /\ distinct_keys String.eqb collected /\
  (forall f, In f (concat terms) -> dget String.eqb f collected = dget String.eqb f fis) /\ (forall f, In f (map fst collected) <-> In f (concat terms)).
Proof.
  unfold collected. destruct (add_infos_total fis (concat terms)) with (a := @nil (factor * finfo)) as [this E].
  { intros f Hf. destruct (Htyped f Hf) as [fi [-> _]]. discriminate. }
  rewrite E. destruct (add_infos fis (concat terms) [] this) as [[H1 H2] [_ H3]]; [split; [exact Logic.I|discriminate]|exact E|].
  split; [reflexivity|]. split; [exact H1|]. split; [intros f Hf; exact (proj1 (H3 f Hf))|]. intros f. rewrite (add_infos_keys _ _ _ _ E). cbn. tauto.
Qed.
Lemma cs_dict : distinct_keys term_eqb cs.
Proof. destruct (make_inv num_cols code_cm hash terms cs Hmake) as [_ [_ [_ Hd]]]. exact Hd. Qed.
Lemma collected_checked : check_codings collected cs = Ok tt.
Proof.
  destruct collected_facts as [_ [Hd [Hag Hk]]]. destruct (order_lemma num_cols code_cm hash terms cs Hmake) as [Hperm _]. unfold check_codings, check.
  match goal with |- context [if ?b then _ else _] => assert (G1 : b = true) end.
  { apply forallb_forall. intros [t ss] Hp. cbn [fst snd]. apply forallb_forall. intros s Hs. apply subset_eqb_spec. intros f Hf. eapply sub_incl; eassumption. }
  rewrite G1.
  match goal with |- context [if ?b then _ else _] => assert (G2 : b = true) end.
  { unfold set_eqb. apply andb_true_iff. rewrite !subset_eqb_spec. split; intros f Hf.
    - apply Hk. apply in_concat in Hf. destruct Hf as [t [Ht Hf]]. apply in_concat. exists t. split; [|exact Hf]. eapply Permutation_in; eassumption.
    - apply Hk in Hf. apply in_concat in Hf. destruct Hf as [t [Ht Hf]]. apply in_concat. exists t. split; [|exact Hf]. eapply Permutation_in; [apply Permutation_sym; exact Hperm|exact Ht]. }
  rewrite G2.
  match goal with |- context [if ?b then _ else _] => assert (G3 : b = true) end.
  { apply forallb_forall. intros [f fi] Hf. cbn [fst snd]. apply String.eqb_eq. pose proof (dget_in_pair _ _ _ Hd Hf) as E.
    assert (Hc : In f (concat terms)) by (apply Hk; apply (in_map fst) in Hf; exact Hf). rewrite (Hag f Hc) in E. destruct (Htyped f Hc) as [fi' [E1 [E2 _]]]. congruence. }
  rewrite G3.
  destruct (mapM_all_ok (fun p : term * list subterm_info => mapM (check_subterm collected) (snd p)) cs) as [ys ->]; [|reflexivity].
  intros [t ss] Hp. cbn [snd]. apply mapM_all_ok. intros s Hs. exists tt. eapply sub_check; eassumption.
Qed.
Lemma design_for_eq : design_for num_cols code_cm hash fis terms = mk_design_info labels (Some collected) (Some cs).
Proof.
  unfold design_for. rewrite Hmake. cbn [bind]. destruct (order_lemma num_cols code_cm hash terms cs Hmake) as [Hperm _].
  assert (Ti : forall t l, In t l -> term_in t l = true).
  { intros t l H. unfold term_in. apply existsb_exists. exists t. split; [exact H|apply teqb_refl]. }
  match goal with |- assert ?b _ = _ => assert (E : b = true) end.
  { apply andb_true_iff. rewrite !forallb_forall. split; intros t Ht; apply Ti.
    - eapply Permutation_in; eassumption.
    - eapply Permutation_in; [apply Permutation_sym; exact Hperm|exact Ht]. }
  unfold assert. rewrite E.
  change (foldM (fun a f => let* fi := lookup (dget String.eqb f fis) in Ok (dset String.eqb f fi a)) (concat terms) [])
    with (foldM (add_info fis) (concat terms) []).
  rewrite (proj1 collected_facts). cbn [bind]. destruct names_total as [names [-> Hl]]. cbn [bind]. now rewrite Hl.
Qed.
Lemma labels_nth i x : nth_error labels i = Some x <-> exists id, nth_error (columns_of fis cs) i = Some id /\ column_label fis id = x.
Proof.
  unfold labels. rewrite nth_error_map. destruct (nth_error (columns_of fis cs) i) as [id|]; cbn; split.
  - intros [= <-]. eauto.
  - intros [id' [[= <-] <-]]. reflexivity.
  - discriminate.
  - intros [id' [H _]]. discriminate.
Qed.
Lemma columns_split pre (p : term * list subterm_info) post : columns_of fis (pre ++ p :: post) = columns_of fis pre ++ columns_of_term fis p ++ columns_of fis post.
Proof. unfold columns_of. now rewrite flat_map_app. Qed.

Lemma clear_of_design d : design_for num_cols code_cm hash fis terms = Ok d -> clear_names fis cs.
Proof.
  rewrite design_for_eq. intros H. destruct collected_facts as [_ [Hd _]].
  destruct (mk_inv labels (Some collected) (Some cs) d (conj Hd cs_dict) H) as (Hnd & _ & _ & _ & _ & Hnn & Hcoll & _ & sl & Hsl & _ & Hns).
  destruct (slices_at 0 cs sl _ (fun p Hp => Hp) Hsl) as [_ [_ Hat]]. destruct (slices_from_spec _ _ _ _ Hsl) as [Hk _].
  split; [exact Hnd|]. split.
  - rewrite Hns, map_map in Hnn. cbn [fst] in Hnn. rewrite <- (map_map fst term_name) in Hnn. rewrite Hk, map_map in Hnn. exact Hnn.
  - intros t ss id Hp Hid El. apply in_split in Hp. destruct Hp as [pre [post E]]. specialize (Hat pre t ss post E). cbn [plus] in Hat.
    apply In_nth_error in Hid. destruct Hid as [i Hi].
    assert (Hni : nth_error labels i = Some (term_name t)) by (apply labels_nth; eauto).
    assert (Hin : In (term_name t, (length (columns_of fis pre), length (columns_of fis pre) + length (columns_of_term fis (t, ss)))) (di_name_slices d)).
    { rewrite Hns. apply in_map_iff. eexists. split; [|exact Hat]. reflexivity. }
    specialize (Hcoll _ _ _ Hin Hni). injection Hcoll as E1 E2. subst i.
    rewrite E, columns_split, nth_error_app2, Nat.sub_diag in Hi by lia.
    destruct (columns_of_term fis (t, ss)) as [|x [|y l]]; cbn in E2, Hi; try lia. now injection Hi as ->.
Qed.
Lemma design_of_clear : clear_names fis cs -> exists d, design_for num_cols code_cm hash fis terms = Ok d.
Proof.
  intros [Hnd [Hn Hc]]. rewrite design_for_eq. destruct (slices_from 0 cs) as [sl b] eqn:Hsl. destruct (slices_at 0 cs sl b (fun p Hp => Hp) Hsl) as [Hb [Hat _]].
  apply (mk_intro labels collected cs sl); [exact Hnd|exact cs_dict|exact collected_checked| |exact Hn|].
  - rewrite Hsl. f_equal. unfold labels. rewrite map_length. exact Hb.
  - intros t p i Hin Hi. destruct (Hat t p Hin) as [pre [ss [post [E ->]]]]. cbn [plus].
    apply labels_nth in Hi. destruct Hi as [id [Hi El]].
    assert (Et : columns_of_term fis (t, ss) = [id]).
    { apply Hc; [rewrite E; apply in_elt|eapply nth_error_In; exact Hi|exact El]. }
    rewrite Et. cbn [length].
    assert (Hj : nth_error (columns_of fis cs) (length (columns_of fis pre)) = Some id) by (rewrite E, columns_split, nth_error_app2, Nat.sub_diag, Et by lia; reflexivity).
    assert (G : i = length (columns_of fis pre)); [|subst; reflexivity].
    apply (proj1 (NoDup_nth_error labels) Hnd).
    + unfold labels. rewrite map_length. apply nth_error_Some. congruence.
    + transitivity (Some (column_label fis id)); [|symmetry]; apply labels_nth; eauto.
Qed.
Lemma design_error e : design_for num_cols code_cm hash fis terms = Err e -> e = AssertionError \/ exists m, e = ValueError m.
Proof.
  rewrite design_for_eq. unfold mk_design_info. rewrite collected_checked. cbn [bind]. unfold mk_slices. destruct (slices_from 0 cs) as [sl b].
  unfold check at 1. destruct (Nat.eqb b _); cbn [bind]; [|intros [= <-]; eauto].
  unfold assert at 1. match goal with |- (if ?b then _ else _) = _ -> _ => destruct b end; [|intros [= <-]; auto].
  match goal with |- match ?b with Some _ => _ | None => _ end = _ -> _ => destruct b end; [|intros [= <-]; auto].
  unfold assert. match goal with |- (if ?b then _ else _) = _ -> _ => destruct b end; [|intros [= <-]; auto].
  unfold check. match goal with |- (if ?b then _ else _) = _ -> _ => destruct b end; [discriminate|intros [= <-]; eauto].
Qed.
End Build.
