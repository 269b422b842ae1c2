(** Plain names do not clash. *)
From Coq Require Import Sorted Permutation Ascii.
From Verif Require Import Base ConstraintSpec MiscProofs WriteProofs PySort RankSpec RedundancyModel RedundancySpec RedundancyProofs PickProofs DescModel FormulaModel BuildModel BuildSpec BuildProofs BuildSubtermProofs BuildInfoProofs BuildMatrixProofs BuildAllProofs BuildOrderProofs BuildSubsetProofs BuildDesignProofs SubsetProofs NameSpec NameTextProofs NameStructProofs NameBuildProofs.
Open Scope string_scope.
Open Scope list_scope.

Lemma digits_depth s : digits s -> forall d, depth d s = Some d.
Proof.
  unfold digits, chars_are. induction s as [|c s IH]; intros H d; [reflexivity|]. cbn in H. apply andb_true_iff in H. destruct H as [Hc Hs].
  cbn [depth].
  assert (Ho : opens c = false /\ closes c = false).
  { clear -Hc. destruct c as [[] [] [] [] [] [] [] []]; try discriminate Hc; split; reflexivity. }
  destruct Ho as [-> ->]. now apply IH.
Qed.
Lemma index_bracketed i : bracketed ("[" ++ nat_str i ++ "]")%string.
Proof. exists (nat_str i). split; [reflexivity|]. apply digits_depth. apply nat_str_digits. Qed.
Lemma nodup_flat_before {A B} (g : A -> list B) l : (forall x, In x l -> NoDup (g x)) -> (forall x y, before l x y -> forall z, In z (g x) -> In z (g y) -> False) -> NoDup (flat_map g l).
Proof.
  induction l as [|x l IH]; intros H1 H2; cbn [flat_map]; [constructor|]. apply nodup_app_intro.
  - apply H1. now left.
  - apply IH; [intros y Hy; apply H1; now right|]. intros a b Hab. apply H2. apply before_cons. now right.
  - intros z Hz Hz'. apply in_flat_map in Hz'. destruct Hz' as [y [Hy Hz']]. apply (H2 x y) with (z := z); [|exact Hz|exact Hz']. apply before_cons. now left.
Qed.
Lemma nodup_map_on {A B} (g : A -> B) l : NoDup l -> (forall x y, In x l -> In y l -> g x = g y -> x = y) -> NoDup (map g l).
Proof.
  induction 1 as [|x l Hx Hl IH]; intros H; cbn; constructor.
  - intros Hin. apply in_map_iff in Hin. destruct Hin as [y [E Hy]]. apply H in E; [subst; contradiction|now right|now left].
  - apply IH. intros a b Ha Hb. apply H; now right.
Qed.
Lemma concat_nil_bare l : Forall bare l -> String.concat ":" l = "Intercept" -> l = ["Intercept"].
Proof.
  intros Hl E. apply concat_inj; [exact Hl|repeat constructor; discriminate| |discriminate|exact E]. intros ->. discriminate.
Qed.

Section Plain.
Context {V : Type}.
Notation subterm_info := (@subterm_info V).
Variables (num_cols : list (factor * nat)) (code_cm : factor -> bool -> result (@ctr V)) (hash : list (bool * factor) -> Z).
Notation isn := (is_num num_cols).
Variables (terms : list term).
Hypothesis Hdiff : different_terms terms.
Hypothesis Hcf : collision_free hash (concat terms).
Variable cs : list (term * list subterm_info).
Hypothesis Hmake : make_subterm_infos num_cols code_cm hash terms = Ok cs.
Variable fis : finfos.
Hypothesis Htyped : typed num_cols code_cm fis terms.
Hypothesis Hplain : Forall plain (concat terms).
Hypothesis Hsuf : plain_suffixes code_cm (concat terms).

Definition ending (s : subterm_info) (f : factor) (i : nat) : string :=
  match dget String.eqb f fis with
  | Some fi =>
      match fi_kind fi with
      | FNum n => if Nat.leb n 1 then "" else ("[" ++ nat_str i ++ "]")%string
      | FCat _ => match dget String.eqb f (si_contrasts s) with Some c => nth i (ct_suffixes c) "" | None => "" end
      end
  | None => ""
  end.
Lemma sub_matrix t ss s f c : In (t, ss) cs -> In s ss -> In f (si_factors s) -> dget String.eqb f (si_contrasts s) = Some c -> NoDup (ct_suffixes c) /\ Forall bracketed (ct_suffixes c).
Proof.
  intros H Hs Hf Ec. destruct (item_sub num_cols code_cm hash terms Hdiff Hcf cs Hmake t ss s H Hs) as [k [Hk [_ Hkk]]].
  pose proof (proj1 (su_in _ _ _ _ _ _ Hk) Hf) as [Hft Hor]. destruct (isn f) eqn:En; [rewrite (su_num _ _ _ _ _ Hk f En) in Ec; discriminate|].
  destruct Hor as [|Hor]; [discriminate|]. destruct (coded_in k f Hor) as [b Eb]. destruct (su_cat _ _ _ _ _ Hk f b Hft En Eb) as [m [Em1 Em2]].
  rewrite Em2 in Ec. injection Ec as ->. eapply Hsuf; [|exact Em1]. eapply item_factor; eassumption.
Qed.
Lemma piece_ending t ss s f i : In (t, ss) cs -> In s ss -> In f (si_factors s) -> i < count_of fis s f ->
  piece fis s f i = (f ++ ending s f i)%string /\ suffix (ending s f i) /\ (forall j, j < count_of fis s f -> ending s f i = ending s f j -> i = j) /\
  (ending s f i = "" -> isn f = true /\ count_of fis s f = 1).
Proof.
  intros H Hs Hf Hi. pose proof (sub_matrix t ss s f) as Hm. destruct (sub_factor_ok num_cols code_cm hash terms Hdiff Hcf cs Hmake fis Htyped t ss s f H Hs Hf) as [fi [E1 E2]].
  destruct (isn_kind num_cols code_cm terms fis Htyped f) as [fi' [E1' [_ E3]]].
  { eapply item_factor; try eassumption. eapply sub_incl; eassumption. }
  rewrite E1 in E1'. injection E1' as <-. unfold piece, ending, count_of in *. rewrite E1 in *. destruct (fi_kind fi) as [n|n].
  - rewrite E2 in *. destruct (Nat.leb_spec n 1) as [Hn|Hn].
    + split; [now rewrite app_empty_r|]. split; [now left|]. split; [intros; lia|]. intros _. split; [tauto|lia].
    + split; [reflexivity|]. split; [right; apply index_bracketed|]. split; [|discriminate].
      intros j Hj E. injection E as E. apply app_last_inj in E. destruct E as [E _]. now apply nat_str_inj.
  - destruct E2 as [c [E2 _]]. rewrite E2 in *. destruct (Hm c H Hs Hf eq_refl) as [M1 M2]. unfold ct_ncols in *. split; [reflexivity|].
    assert (B : bracketed (nth i (ct_suffixes c) "")) by (rewrite Forall_forall in M2; apply M2, nth_In, Hi).
    split; [now right|]. split.
    + intros j Hj E. now apply (proj1 (NoDup_nth (ct_suffixes c) "") M1).
    + intros E. rewrite E in B. destruct (bracketed_scan _ B). congruence.
Qed.
Lemma sub_plain t ss s f : In (t, ss) cs -> In s ss -> In f (si_factors s) -> plain f.
Proof. intros H Hs Hf. rewrite Forall_forall in Hplain. apply Hplain. eapply item_factor; try eassumption. eapply sub_incl; eassumption. Qed.
Lemma term_plain t ss f : In (t, ss) cs -> In f t -> plain f.
Proof. intros H Hf. rewrite Forall_forall in Hplain. apply Hplain. eapply item_factor; eassumption. Qed.

Definition pieces (s : subterm_info) (c : list nat) : list string := map (fun p => piece fis s (fst p) (snd p)) (combine (si_factors s) c).
Lemma pieces_length s c : In c (combos (counts_of fis s)) -> length (pieces s c) = length (si_factors s).
Proof. intros H. unfold pieces. rewrite map_length, combine_length, (combo_length _ _ _ H). lia. Qed.
Lemma pieces_bare t ss s c : In (t, ss) cs -> In s ss -> In c (combos (counts_of fis s)) -> Forall bare (pieces s c).
Proof.
  intros H Hs Hc. apply Forall_forall. intros x Hx. unfold pieces in Hx. apply in_map_iff in Hx. destruct Hx as [[f i] [<- Hin]]. cbn [fst snd].
  apply combos_in_range in Hc. destruct (combine_in_range_nth _ _ _ _ _ Hc Hin) as [Hf Hi].
  destruct (piece_ending t ss s f i H Hs Hf Hi) as [-> [Hs' _]]. apply piece_bare; [eapply sub_plain; eassumption|exact Hs'].
Qed.
Lemma label_pieces s c : si_factors s <> [] -> label fis s c = String.concat ":" (pieces s c).
Proof. unfold label, pieces. destruct (si_factors s); [congruence|reflexivity]. Qed.
(** No column of a subterm with factors is called Intercept. *)
Lemma not_intercept t ss s c : In (t, ss) cs -> In s ss -> In c (combos (counts_of fis s)) -> label fis s c = "Intercept" -> si_factors s = [].
Proof.
  intros H Hs Hc E. destruct (si_factors s) as [|f fs] eqn:Ef; [reflexivity|exfalso]. rewrite label_pieces in E by (rewrite Ef; discriminate).
  pose proof (concat_nil_bare _ (pieces_bare t ss s c H Hs Hc) E) as Ep. pose proof (pieces_length s c Hc) as Hl. rewrite Ep, Ef in Hl.
  destruct fs as [|f2 fs]; [|discriminate]. unfold pieces in Ep. rewrite Ef in Ep. destruct c as [|i c]; [discriminate|]. cbn in Ep. injection Ep as Ep.
  assert (Hf : In f (si_factors s)) by (rewrite Ef; now left).
  assert (Hi : i < count_of fis s f).
  { apply combos_in_range in Hc. unfold counts_of in Hc. rewrite Ef in Hc. cbn in Hc. now inversion Hc. }
  destruct (piece_ending t ss s f i H Hs Hf Hi) as [E1 [[E2|E2] _]]; rewrite Ep in E1.
  - rewrite E2, app_empty_r in E1. destruct (sub_plain t ss s f H Hs Hf) as [_ [_ Hn]]. congruence.
  - destruct (bracketed_ends _ E2) as [r Er]. rewrite Er, <- app_assoc_s in E1. change "Intercept" with ("Intercep" ++ "t")%string in E1.
    apply app_last_inj in E1. destruct E1. discriminate.
Qed.
Lemma pieces_inj t ss s t' ss' s' : In (t, ss) cs -> In s ss -> In (t', ss') cs -> In s' ss' -> forall fs c fs' c',
  in_range c (map (count_of fis s) fs) -> in_range c' (map (count_of fis s') fs') -> incl fs (si_factors s) -> incl fs' (si_factors s') ->
  map (fun p => piece fis s (fst p) (snd p)) (combine fs c) = map (fun p => piece fis s' (fst p) (snd p)) (combine fs' c') ->
  fs = fs' /\ (s = s' -> c = c').
Proof.
  intros H Hs H' Hs'. induction fs as [|f fs IH]; intros c fs' c' Hc Hc' Hi Hi' E.
  - inversion Hc; subst. destruct fs' as [|f' fs']; [inversion Hc'; auto|]. inversion Hc'; subst. discriminate.
  - inversion Hc as [|i ? c1 ? Hlt Hr]; subst. destruct fs' as [|f' fs']; [inversion Hc'; subst; discriminate|]. inversion Hc' as [|i' ? c1' ? Hlt' Hr']; subst.
    cbn [combine map fst snd] in E. injection E as E1 E2.
    assert (Hf : In f (si_factors s)) by (apply Hi; now left). assert (Hf' : In f' (si_factors s')) by (apply Hi'; now left).
    destruct (piece_ending t ss s f i H Hs Hf Hlt) as [P1 [P2 [P3 _]]]. destruct (piece_ending t' ss' s' f' i' H' Hs' Hf' Hlt') as [Q1 [Q2 _]].
    rewrite P1, Q1 in E1. destruct (piece_inj _ _ _ _ (sub_plain t ss s f H Hs Hf) (sub_plain t' ss' s' f' H' Hs' Hf') P2 Q2 E1) as [<- E3]. clear E1. rename E3 into E1.
    destruct (IH c1 fs' c1' Hr Hr') as [<- Hcc]; [intros x Hx; apply Hi; now right|intros x Hx; apply Hi'; now right|exact E2|].
    split; [reflexivity|]. intros <-. f_equal; [|now apply Hcc]. apply P3; [exact Hlt'|exact E1].
Qed.
Lemma label_inj t ss s c t' ss' s' c' : In (t, ss) cs -> In s ss -> In c (combos (counts_of fis s)) -> In (t', ss') cs -> In s' ss' -> In c' (combos (counts_of fis s')) ->
  label fis s c = label fis s' c' -> si_factors s = si_factors s' /\ (s = s' -> c = c').
Proof.
  intros H Hs Hc H' Hs' Hc' E.
  assert (Z : forall (s : subterm_info), si_factors s = [] -> forall c, label fis s c = "Intercept") by (intros ? Ez ?; unfold label; now rewrite Ez).
  destruct (si_factors s) as [|f fs] eqn:Ef.
  - rewrite (Z s Ef) in E. symmetry in E. rewrite (not_intercept t' ss' s' c' H' Hs' Hc' E). split; [reflexivity|]. intros <-.
    unfold counts_of in Hc, Hc'. rewrite Ef in Hc, Hc'. cbn in Hc, Hc'. destruct Hc as [<-|[]]. destruct Hc' as [<-|[]]. reflexivity.
  - destruct (si_factors s') as [|f' fs'] eqn:Ef'.
    { rewrite (Z s' Ef') in E. pose proof (not_intercept t ss s c H Hs Hc E). congruence. }
    rewrite <- Ef, <- Ef' in *. rewrite !label_pieces in E by congruence.
    apply concat_inj in E; [|exact (pieces_bare t ss s c H Hs Hc)|exact (pieces_bare t' ss' s' c' H' Hs' Hc')| |].
    + unfold pieces in E. eapply (pieces_inj t ss s t' ss' s'); try eassumption; try apply incl_refl; now apply combos_in_range.
    + intros X. pose proof (pieces_length s c Hc) as L. rewrite X, Ef in L. discriminate.
    + intros X. pose proof (pieces_length s' c' Hc') as L. rewrite X, Ef' in L. discriminate.
Qed.

(** * Columns *)
Lemma labels_occurrences : map (column_label fis) (columns_of fis cs) = flat_map (fun o => map (label fis (snd o)) (combos (counts_of fis (snd o)))) (occurrences cs).
Proof.
  unfold columns_of, occurrences. induction cs as [|[t ss] l IH] in |- *; cbn [flat_map]; [reflexivity|]. rewrite map_app, flat_map_app, IH. f_equal.
  unfold columns_of_term. cbn [fst snd]. clear. induction ss as [|s ss IH]; cbn [flat_map map]; [reflexivity|]. rewrite map_app. f_equal; [rewrite map_map; reflexivity|exact IH].
Qed.
Lemma labels_nodup : NoDup (map (column_label fis) (columns_of fis cs)).
Proof.
  rewrite labels_occurrences. apply nodup_flat_before.
  - intros [t s] Ho. cbn [snd]. apply in_occurrences in Ho. destruct Ho as [ss [H Hs]]. apply nodup_map_on; [apply combos_NoDup|].
    intros c c' Hc Hc' E. apply (label_inj t ss s c t ss s c') in E; try assumption. now apply E.
  - intros [t s] [t' s'] Hb x Hx Hx'. cbn [snd] in *. pose proof (before_in _ _ _ Hb) as [I1 I2]. apply in_occurrences in I1, I2.
    destruct I1 as [ss [P1 Q1]], I2 as [ss' [P2 Q2]]. apply in_map_iff in Hx, Hx'. destruct Hx as [c [<- Hc]], Hx' as [c' [E Hc']]. symmetry in E.
    apply (label_inj t ss s c t' ss' s' c') in E; try assumption. destruct E as [E _].
    apply (subterms_differ num_cols code_cm hash terms Hdiff Hcf cs Hmake t s t' s' Hb). intros f. rewrite E. reflexivity.
Qed.

(** * Terms *)
Lemma term_name_inj t ss t' ss' : In (t, ss) cs -> In (t', ss') cs -> term_name t = term_name t' -> t = t'.
Proof.
  intros H H' E.
  assert (B : forall t ss, In (t, ss) cs -> Forall bare t).
  { intros u uu Hu. apply Forall_forall. intros f Hf. destruct (term_plain u uu f Hu Hf) as [Hb _]. exact Hb. }
  assert (Z : forall t ss, In (t, ss) cs -> term_name t = "Intercept" -> t = []).
  { intros u uu Hu Eu. destruct u as [|f u]; [reflexivity|exfalso]. apply (concat_nil_bare (f :: u) (B _ _ Hu)) in Eu. injection Eu as -> _.
    destruct (term_plain _ _ "Intercept" Hu (or_introl eq_refl)) as [_ [_ Hn]]. congruence. }
  destruct t as [|f t]; [symmetry in E; symmetry; eapply Z; eassumption|]. destruct t' as [|f' t']; [eapply Z; eassumption|].
  apply concat_inj; [eapply B; eassumption|eapply B; eassumption|discriminate|discriminate|exact E].
Qed.
Lemma keys_nodup : NoDup (map fst cs).
Proof.
  pose proof (cs_dict num_cols code_cm hash terms cs Hmake) as Hd. clear -Hd. induction cs as [|[t ss] l IH]; cbn [map fst]; constructor; destruct Hd as [H1 H2]; [|auto].
  intros Hin. apply in_map_iff in Hin. destruct Hin as [p [E Hp]]. specialize (H1 p Hp). rewrite E in H1. cbn in H1. now rewrite teqb_refl in H1.
Qed.
Lemma names_nodup : NoDup (map (fun p => term_name (fst p)) cs).
Proof.
  rewrite <- (map_map fst term_name). apply nodup_map_on; [exact keys_nodup|]. intros t t' Ht Ht'.
  apply in_map_iff in Ht, Ht'. destruct Ht as [[u uu] [<- Hu]], Ht' as [[v vv] [<- Hv]]. cbn [fst]. now apply (term_name_inj u uu v vv).
Qed.
Lemma same_item t ss t' ss' : In (t, ss) cs -> In (t', ss') cs -> term_eqb t t' = true -> (t, ss) = (t', ss').
Proof.
  intros H H' E. pose proof (cs_dict num_cols code_cm hash terms cs Hmake) as Hd. clear -H H' E Hd.
  induction cs as [|[u uu] l IH]; [easy|]. cbn [distinct_keys] in Hd. destruct Hd as [H1 H2]. destruct H as [H|H], H' as [H'|H'].
  - congruence.
  - injection H as -> ->. apply H1 in H'. cbn in H'. congruence.
  - injection H' as -> ->. apply H1 in H. cbn in H. rewrite teqb_sym in H. congruence.
  - auto.
Qed.

(** * A column called like a term *)
Lemma column_of_term t ss s c t' ss' : In (t, ss) cs -> In s ss -> In c (combos (counts_of fis s)) -> In (t', ss') cs -> label fis s c = term_name t' ->
  si_factors s = t' /\ forall f, In f t' -> isn f = true /\ count_of fis s f = 1.
Proof.
  intros H Hs Hc H' E. destruct t' as [|f' t'].
  - rewrite (not_intercept t ss s c H Hs Hc E). split; [reflexivity|easy].
  - destruct (si_factors s) as [|f fs] eqn:Ef.
    + exfalso. unfold label in E. rewrite Ef in E. symmetry in E. apply concat_nil_bare in E.
      * injection E as -> _. destruct (term_plain _ _ "Intercept" H' (or_introl eq_refl)) as [_ [_ Hn]]. congruence.
      * apply Forall_forall. intros g Hg. now destruct (term_plain _ _ g H' Hg).
    + rewrite <- Ef. rewrite label_pieces in E by congruence. apply concat_inj in E; [|exact (pieces_bare t ss s c H Hs Hc)| | |discriminate].
      * unfold pieces in E. pose proof (combos_in_range _ _ Hc) as Hr. unfold counts_of in Hr.
        assert (G : forall fs c l, in_range c (map (count_of fis s) fs) -> incl fs (si_factors s) -> incl l (f' :: t') ->
          map (fun p => piece fis s (fst p) (snd p)) (combine fs c) = l -> fs = l /\ forall g, In g l -> isn g = true /\ count_of fis s g = 1).
        { clear E Hr. induction fs0 as [|g gs IH]; intros d l Hr Hi Hl El; cbn [map] in Hr.
          - inversion Hr; subst. split; [reflexivity|easy].
          - inversion Hr as [|i ? d1 ? Hlt Hr1]; subst. cbn [combine map fst snd].
            assert (Hg : In g (si_factors s)) by (apply Hi; now left).
            destruct (piece_ending t ss s g i H Hs Hg Hlt) as [P1 [P2 [_ P4]]].
            assert (Pl : plain (piece fis s g i)) by (eapply term_plain; [exact H'|]; apply Hl; now left).
            assert (Pe : g = piece fis s g i /\ ending s g i = "").
            { apply piece_inj; [exact (sub_plain t ss s g H Hs Hg)|exact Pl|exact P2|now left|]. now rewrite app_empty_r, <- P1. }
            destruct Pe as [Pe1 Pe2]. rewrite <- Pe1 in *.
            destruct (IH d1 (map (fun p => piece fis s (fst p) (snd p)) (combine gs d1)) Hr1 (fun x Hx => Hi x (or_intror Hx)) (fun x Hx => Hl x (or_intror Hx)) eq_refl) as [I1 I2].
            rewrite <- I1 in I2 |- *. split; [reflexivity|].
            intros x [<-|Hx]; [now apply P4|now apply I2]. }
        apply (G _ _ _ Hr (incl_refl _) (incl_refl _) E).
      * apply Forall_forall. intros g Hg. now destruct (term_plain _ _ g H' Hg).
      * intros X. pose proof (pieces_length s c Hc) as L. rewrite X, Ef in L. discriminate.
Qed.
Lemma combos_ones l : (forall n, In n l -> n = 1) -> exists c, combos l = [c].
Proof.
  induction l as [|n l IH]; intros H; cbn [combos]; [eauto|]. destruct IH as [c ->]; [intros; apply H; now right|].
  rewrite (H n (or_introl eq_refl)). cbn. eauto.
Qed.
Lemma one_column t ss id : In (t, ss) cs -> In id (columns_of fis cs) -> column_label fis id = term_name t -> columns_of_term fis (t, ss) = [id].
Proof.
  intros H' Hid E. destruct id as [[u s] c]. unfold column_label in E. cbn [fst snd] in E.
  unfold columns_of in Hid. apply in_flat_map in Hid. destruct Hid as [[u' uu] [H Hid]]. unfold columns_of_term in Hid. cbn [fst snd] in Hid.
  apply in_flat_map in Hid. destruct Hid as [s0 [Hs Hid]]. apply in_map_iff in Hid. destruct Hid as [c0 [E0 Hc]]. injection E0 as -> -> ->.
  destruct (column_of_term u uu s c t ss H Hs Hc H' E) as [Ef Hnum].
  destruct (item_sub num_cols code_cm hash terms Hdiff Hcf cs Hmake u uu s H Hs) as [k0 [Hk0 [_ _]]].
  assert (Htu : incl t u) by (intros f Hf; rewrite <- Ef in Hf; apply (su_in _ _ _ _ _ _ Hk0) in Hf; tauto).
  assert (Hsn : same_num num_cols u t = true).
  { unfold same_num. apply beq_spec. unfold bucket_of. split; intros f Hf; apply filter_In in Hf; destruct Hf as [Hf Hn]; apply filter_In; (split; [|exact Hn]).
    - rewrite <- Ef. apply (su_in _ _ _ _ _ _ Hk0). auto.
    - now apply Htu. }
  assert (Eq : (u, uu) = (t, ss)).
  { destruct (term_eqb u t) eqn:Eq; [now apply same_item|exfalso].
    destruct (cs_term num_cols code_cm hash terms Hdiff cs Hmake u uu H) as [Hu Nu]. destruct (cs_term num_cols code_cm hash terms Hdiff cs Hmake t ss H') as [_ Nt].
    destruct (bucket_of_term num_cols code_cm hash terms Hdiff Hcf cs Hmake u Hu) as [ts [css Hbk]].
    assert (F1 : In (u, uu) (filter (fun p => same_num num_cols u (fst p)) cs)) by (apply filter_In; split; [exact H|apply same_num_refl]).
    assert (F2 : In (t, ss) (filter (fun p => same_num num_cols u (fst p)) cs)) by (apply filter_In; split; [exact H'|exact Hsn]).
    apply in_split in F1. destruct F1 as [pre [post Efl]]. rewrite Efl in F2, Hbk.
    apply in_app_iff in F2. destruct F2 as [F2|[F2|F2]].
    - (* the term comes before: then the empty set is not new *)
      assert (Hj : nth_error (pre ++ (u, uu) :: post) (length pre) = Some (u, uu)) by (rewrite nth_error_app2, Nat.sub_diag by lia; reflexivity).
      destruct (Hbk _ _ _ Hj) as [_ [cc [_ [Hc2 [_ Hck]]]]]. apply In_nth_error in Hs. destruct Hs as [a Ha].
      destruct (f2_nth _ _ _ _ _ Hc2 Ha) as [k [Hk Hsu]]. destruct (Hck k (nth_error_In _ _ Hk)) as [_ [Hkf Hnew]].
      assert (Hcov : covers k (@nil factor)).
      { eapply su_covers; [exact Hsu|exact Hkf|]. intros f. split; [easy|]. intros [Hf Hn]. rewrite Ef in Hf. apply Hnum in Hf. destruct Hf. congruence. }
      destruct (Hnew _ Hcov) as [_ Hno]. apply In_nth_error in F2. destruct F2 as [i Hi].
      assert (Hil : i < length pre) by (apply nth_error_Some; congruence).
      assert (Hi' : nth_error (pre ++ (u, uu) :: post) i = Some (t, ss)) by (rewrite nth_error_app1; assumption).
      destruct (Hbk _ _ _ Hi') as [Hti _]. apply (Hno i t Hil Hti). intros f [].
    - injection F2 as -> _. now rewrite teqb_refl in Eq.
    - (* it comes after: then it has as many factors *)
      assert (Hb : before (filter (fun p => same_num num_cols u (fst p)) cs) (u, uu) (t, ss)).
      { rewrite Efl. apply in_split in F2. destruct F2 as [q [r ->]]. exists pre, q, r. reflexivity. }
      apply before_filter in Hb. destruct Hb as [Hb _]. destruct (order_lemma num_cols code_cm hash terms cs Hmake) as [_ [Hsort _]].
      rewrite before_sorted in Hsort.
      assert (Hb2 : before (map fst cs) u t).
      { destruct Hb as [p [q [r ->]]]. exists (map fst p), (map fst q), (map fst r). rewrite map_app. cbn. rewrite map_app. reflexivity. }
      specialize (Hsort u t Hb2).
      assert (Hle : length u <= length t).
      { destruct Hsort as [[_ Hs2]|[Hns _]]; [lia|]. exfalso. apply Hns. apply same_bucket_iff. exact Hsn. }
      assert (Hut : incl u t) by (apply NoDup_length_incl; assumption).
      assert (X : term_eqb u t = true) by (apply BuildProofs.term_eqb_spec; auto). congruence. }
  injection Eq as -> ->.
  assert (Ess : ss = [s]).
  { assert (All : forall s', In s' ss -> same_set (si_factors s) (si_factors s')).
    { intros s' Hs' f. destruct (item_sub num_cols code_cm hash terms Hdiff Hcf cs Hmake t ss s' H' Hs') as [k' [Hk' _]]. rewrite Ef.
      rewrite (su_in _ _ _ _ _ _ Hk'). split; [|tauto]. intros Hf. split; [exact Hf|]. left. now apply Hnum. }
    assert (No : forall a b, before ss a b -> False).
    { intros a b Hb. apply (subterms_differ num_cols code_cm hash terms Hdiff Hcf cs Hmake t a t b).
      - unfold occurrences. apply in_split in H. destruct H as [p [r ->]]. rewrite flat_map_app. cbn [flat_map fst snd]. apply before_app. right. left. apply before_app. left.
        destruct Hb as [x [y [z ->]]]. exists (map (pair t) x), (map (pair t) y), (map (pair t) z). rewrite map_app. cbn. rewrite map_app. reflexivity.
      - pose proof (before_in _ _ _ Hb) as [Ha Hb']. intros f. rewrite <- (All a Ha f). apply (All b Hb' f). }
    destruct ss as [|x [|y l]]; [easy|destruct Hs as [->|[]]; reflexivity|exfalso]. apply (No x y). exists [], [], l. reflexivity. }
  subst ss. unfold columns_of_term. cbn [fst snd flat_map]. rewrite app_nil_r.
  destruct (combos_ones (counts_of fis s)) as [c1 Ec1].
  { intros n Hn. unfold counts_of in Hn. apply in_map_iff in Hn. destruct Hn as [f [<- Hf]]. rewrite Ef in Hf. now apply Hnum. }
  rewrite Ec1 in *. destruct Hc as [->|[]]. reflexivity.
Qed.
Lemma plain_clear : clear_names fis cs.
Proof. split; [exact labels_nodup|]. split; [exact names_nodup|]. intros t ss id. apply one_column. Qed.
End Plain.

(** * The suffixes of the built-in codings *)
From Verif Require Import NumModel ContrastModel.
Lemma name_strs_bracketed prefix l : (forall d, depth d prefix = Some d) -> (forall s, In s l -> depth 0 s = Some 0) -> Forall bracketed (name_strs prefix l).
Proof.
  intros Hp H. apply Forall_forall. intros x Hx. unfold name_strs in Hx. apply in_map_iff in Hx. destruct Hx as [s [<- Hs]].
  exists (prefix ++ s)%string. split; [now rewrite app_assoc_s|]. rewrite depth_app, Hp. now apply H.
Qed.
Lemma prefix_inj (p : string) a b : (p ++ a = p ++ b)%string -> a = b.
Proof. induction p as [|c p IH]; [auto|]. cbn. intros E. injection E as E. auto. Qed.
Lemma name_strs_nodup prefix l : NoDup l -> NoDup (name_strs prefix l).
Proof.
  intros H. unfold name_strs. apply nodup_map_on; [exact H|]. intros x y _ _ E. injection E as E. apply prefix_inj in E.
  apply app_last_inj in E. now destruct E.
Qed.
Lemma firstn_nodup {A} (l : list A) n : NoDup l -> NoDup (firstn n l).
Proof. intros H. rewrite <- (firstn_skipn n l) in H. revert H. generalize (firstn n l), (skipn n l). clear. intros a b. induction a; cbn; intros H; [constructor|]. inversion H; subst. constructor; [rewrite in_app_iff in *; tauto|auto]. Qed.
Lemma without_nodup {A} (l : list A) r : NoDup l -> NoDup (firstn r l ++ skipn (r + 1) l).
Proof.
  intros H. destruct (le_lt_dec (length l) r) as [Hr|Hr].
  - rewrite (skipn_all2 l) by lia. rewrite app_nil_r. now apply firstn_nodup.
  - rewrite <- (firstn_skipn r l) in H. destruct (skipn r l) as [|x q] eqn:E.
    + apply (f_equal (@length A)) in E. rewrite skipn_length in E. cbn in E. lia.
    + replace (skipn (r + 1) l) with q; [now apply NoDup_remove_1 in H|].
      clear -E. revert l E. induction r as [|r IH]; intros [|y l] E; cbn in *; try discriminate; [now injection E|now rewrite (IH l E)].
Qed.
Lemma in_firstn {A} (x : A) n l : In x (firstn n l) -> In x l.
Proof. intros H. rewrite <- (firstn_skipn n l). apply in_or_app. now left. Qed.
Lemma in_skipn {A} (x : A) n l : In x (skipn n l) -> In x l.
Proof. intros H. rewrite <- (firstn_skipn n l). apply in_or_app. now right. Qed.
Lemma skipn_nodup {A} (l : list A) n : NoDup l -> NoDup (skipn n l).
Proof. intros H. rewrite <- (firstn_skipn n l) in H. revert H. generalize (firstn n l), (skipn n l). clear. intros a b. induction a; cbn; intros H; [exact H|]. inversion H; subst. auto. Qed.
Lemma mk_suffixes n m l c : mk_contrast n m l = Ok c -> cm_suffixes c = l.
Proof. unfold mk_contrast. destruct (Nat.eqb n (length l)); [|discriminate]. now intros [= <-]. Qed.

Lemma builtin_plain_lemma (L : Type) leqb as_int readable argsort (b : @builtin L) (full : bool) (levels : list L) c :
  (if full then code_with_intercept leqb as_int readable argsort b levels else code_without_intercept leqb as_int readable argsort b levels) = Ok c ->
  NoDup (map readable levels) -> (forall l, In l levels -> depth 0 (readable l) = Some 0) ->
  (b = Helmert -> full = true -> ~ In "intercept" (map readable levels)) ->
  NoDup (cm_suffixes c) /\ Forall bracketed (cm_suffixes c).
Proof.
  intros E Hn Hd Hh.
  assert (D : forall p, chars_are (fun c => negb (opens c || closes c)) p -> forall d, depth d p = Some d).
  { induction p as [|x p IH]; intros H d; [reflexivity|]. unfold chars_are in H. cbn in H. apply andb_true_iff in H. destruct H as [H1 H2].
    apply negb_true_iff, orb_false_iff in H1. destruct H1 as [H1 H3]. cbn [depth]. rewrite H1, H3. now apply IH. }
  assert (NL : forall p ls, chars_are (fun c => negb (opens c || closes c)) p -> NoDup (map readable ls) -> (forall l, In l ls -> In l levels) ->
    NoDup (name_levels readable p ls) /\ Forall bracketed (name_levels readable p ls)).
  { intros p ls Hp H1 H2. split; [now apply name_strs_nodup|]. apply name_strs_bracketed; [now apply D|].
    intros s Hs. apply in_map_iff in Hs. destruct Hs as [l [<- Hl]]. auto. }
  assert (W : forall r, NoDup (map readable (firstn r levels ++ skipn (r + 1) levels)) /\ forall l, In l (firstn r levels ++ skipn (r + 1) levels) -> In l levels).
  { intros r. split.
    - rewrite map_app, <- firstn_map, <- skipn_map. now apply without_nodup.
    - intros l Hl. apply in_app_iff in Hl. destruct Hl as [Hl|Hl]; [now apply in_firstn in Hl|now apply in_skipn in Hl]. }
  assert (SR : forall o c, sum_reduced leqb as_int readable o levels = Ok c -> exists r, cm_suffixes c = name_levels readable "S." (firstn r levels ++ skipn (r + 1) levels)).
  { intros o c0 E0. unfold sum_reduced in E0. destruct (sum_contrast leqb as_int o levels) as [mx|]; cbn [bind] in E0; [|discriminate].
    destruct (omit_i leqb as_int o levels) as [r|]; cbn [bind] in E0; [|discriminate]. exists r. now apply mk_suffixes in E0. }
  destruct full.
  - destruct b as [r|o| |]; cbn [code_with_intercept] in E.
    + unfold treatment_full, dummy_code in E. apply mk_suffixes in E. rewrite E. now apply NL.
    + unfold sum_full in E. destruct (sum_reduced leqb as_int readable o levels) as [c0|] eqn:E0; cbn [bind] in E; [|discriminate].
      destruct (SR o c0 E0) as [r Er]. apply mk_suffixes in E. rewrite E, Er. destruct (NL "S."%string _ eq_refl (proj1 (W r)) (proj2 (W r))) as [N1 N2].
      split; [|constructor; [now exists "mean"|exact N2]]. constructor; [|exact N1]. intros X. unfold name_levels, name_strs in X. apply in_map_iff in X.
      destruct X as [s [X _]]. discriminate.
    + unfold helmert_full in E. destruct (helmert_contrast levels) as [mx|]; cbn [bind] in E; [|discriminate]. apply mk_suffixes in E. rewrite E.
      split.
      * apply name_strs_nodup. constructor; [|rewrite <- skipn_map; now apply skipn_nodup]. intros X. apply (Hh eq_refl eq_refl). rewrite <- skipn_map in X. now apply in_skipn in X.
      * apply name_strs_bracketed; [now apply D|]. intros s [<-|Hs]; [reflexivity|]. apply in_map_iff in Hs. destruct Hs as [l [<- Hl]]. apply Hd. now apply in_skipn in Hl.
    + unfold diff_full in E. destruct (diff_contrast argsort levels) as [mx|]; cbn [bind] in E; [|discriminate]. apply mk_suffixes in E. rewrite E. now apply NL.
  - destruct b as [r|o| |]; cbn [code_without_intercept] in E.
    + unfold treatment_reduced in E. destruct (match r with None => Ok 0 | Some x => get_level leqb as_int levels x end) as [i|]; cbn [bind] in E; [|discriminate].
      destruct (pred_dim (length levels)) as [m|]; cbn [bind] in E; [|discriminate]. apply mk_suffixes in E. rewrite E. apply NL; [reflexivity|apply W|apply W].
    + destruct (SR o c E) as [r Er]. rewrite Er. apply NL; [reflexivity|apply W|apply W].
    + unfold helmert_reduced in E. destruct (helmert_contrast levels) as [mx|]; cbn [bind] in E; [|discriminate]. apply mk_suffixes in E. rewrite E.
      apply NL; [reflexivity|rewrite <- skipn_map; now apply skipn_nodup|intros l; apply in_skipn].
    + unfold diff_reduced in E. destruct (diff_contrast argsort levels) as [mx|]; cbn [bind] in E; [|discriminate]. apply mk_suffixes in E. rewrite E.
      apply NL; [reflexivity|rewrite <- firstn_map; now apply firstn_nodup|intros l; apply in_firstn].
Qed.
