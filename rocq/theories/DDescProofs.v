(** Proofs about [DesignInfo.describe]. *)
From Coq Require Import Permutation Sorted.
From Verif Require Import Base OriginModel OriginSpec OriginProofs InfixModel InfixSpec InfixProofs UtilModel UtilSpec UtilProofs
  DescModel DescSpec DescProofs DescTopProofs TokensModel TokensProofs ParseFormulaModel ParseFormulaSpec ParseFormulaProofs
  FormulaModel FormulaSpec FormulaProofs DescribeProofs BuildModel BuildSpec BuildProps DDescModel.
Open Scope list_scope.

Section Read.
Variable norm : string -> string.
Variable is_float : string -> bool.

Lemma expr_no_tilde n e : eval_any norm n = Ok (VExpr e) -> is_type "~" n = false.
Proof.
  destruct n as [[| |ty] tok args o]; try reflexivity. unfold is_type. cbn [n_type ttype_eqb]. destruct (String.eqb_spec ty "~") as [->|H]; [|reflexivity].
  intros E. exfalso. destruct args as [|a [|b [|c args]]]; cbn in E; try discriminate.
  - apply bind_ok in E. destruct E as [r [_ E]]. discriminate.
  - apply bind_ok in E. destruct E as [l [_ E]]. apply bind_ok in E. destruct E as [r [_ E]]. discriminate.
Qed.

Lemma sum_parses code it us i : (i = true \/ us <> []) -> Forall (okterm norm is_float) us -> distinct term_eqb us ->
  from_tokenizer code it -> spells (sum_toks (map term_toks (maybe_add_intercept i us))) it ->
  from_formula norm is_float it None = Ok (MkModelDesc [] (INTERCEPT :: us)).
Proof.
  intros Hne Ho Hd Hft [gs [Hfl Hsp]]. rewrite <- Hfl in Hft.
  pose proof (alt_sum norm is_float (maybe_add_intercept i us)) as Ha.
  destruct (spells_seg _ _ Hsp false Ha) as [Hseg _].
  destruct (spells_tokens is_float code _ _ Hft Hsp false Ha) as [toks [F1 F2]].
  destruct (lhs_good norm is_float us i toks Hne Ho Hd F2) as [c [Hy [Hv [_ [_ Hc]]]]].
  change formula_ops with def_ops in *.
  assert (Etok : tokenize_formula is_float it None def_ops = (toks, None)).
  { rewrite Hfl in Hft. apply (tokenize_ok_lemma is_float def_ops code it Hft);
      [cbn; intuition discriminate|cbn; intuition discriminate|]. eauto. }
  assert (Hsrc : one_source code toks) by (eapply token_for_source; eauto).
  pose proof (good_extra_table [] (Forall_nil _)) as Hg. rewrite app_nil_r in Hg.
  destruct (parse_correct_lemma default_ops atomic_token_types code toks Hg Hsrc) as [_ Hcomp].
  destruct (Hcomp c Hv Hy) as [n [En Hr]].
  unfold infix_parse in En. pose proof (infix_org code _ _ _ _ _ En Hsrc) as Hw.
  destruct (Hc n code Hr Hw) as [o [Em _]].
  unfold from_formula, parse_formula. cbn [check_extra bind]. rewrite app_nil_r. fold def_ops. rewrite Etok.
  rewrite En. cbn [bind]. unfold wrap_tilde. rewrite (expr_no_tilde _ _ Em).
  apply from_tree_inv. rewrite (eval_model_1 norm _ _ _ _ Em).
  unfold sides_of. cbn [ie_intercept ie_terms ie_removed]. unfold mk_model_desc.
  cbn [negb]. rewrite !uniq_add by (apply (okterm_good norm is_float); assumption). reflexivity.
Qed.
End Read.

Lemma term_eqb_comm x y : term_eqb x y = term_eqb y x.
Proof. apply Bool.eq_iff_eq_true. rewrite !term_eqb_spec. split; intros H f; symmetry; apply H. Qed.
Lemma distinct_perm ts us : Permutation ts us -> distinct term_eqb ts -> distinct term_eqb us.
Proof.
  unfold distinct. induction 1 as [|x l l' Hp IH|x y l|l l' l'' H1 IH1 H2 IH2]; intros H; auto.
  - inversion H as [|? ? F D]; subst. constructor; [|auto]. eapply Permutation_Forall; eauto.
  - inversion H as [|? ? F D]; subst. inversion D as [|? ? F' D']; subst. inversion F as [|? ? Fy Fl]; subst.
    constructor; [|constructor; auto]. constructor; [|auto]. now rewrite term_eqb_comm.
Qed.

(** The intercept comes first. *)
Lemma intercept_first numeric tl ts : StronglySorted (comes_before numeric tl) ts -> In [] ts -> exists us, ts = [] :: us.
Proof.
  intros H Hin. destruct ts as [|x ts]; [contradiction|]. destruct Hin as [->|Hin]; [eauto|].
  inversion H as [|? ? _ HF]; subst. rewrite Forall_forall in HF. specialize (HF _ Hin).
  destruct HF as [[_ [L|[L _]]]|[Hb Hn]].
  - cbn in L. lia.
  - destruct x; [eauto|discriminate].
  - exfalso. assert (Z : no_numeric numeric x). { destruct Hn as [Hn|[Hn _]]; [exact Hn|]. exfalso. apply Hn. intros f []. }
    apply Hb. intros f Hf. split; [intros Hx; exfalso; exact (Z f Hx Hf)|intros []].
Qed.

Lemma terms_named {V} (ts : list term) (d : @design_info V) : map fst (di_name_slices d) = map term_name ts -> NoDup (map fst (di_name_slices d)) ->
  (In [] ts \/ forall t, In t ts -> term_name t <> "Intercept"%string) ->
  di_describe d = dlayout (sum_toks (map term_toks ts)).
Proof.
  intros E Hn H. unfold di_describe, di_term_names. rewrite E, map_map.
  transitivity (String.concat " + " (map term_code ts)).
  - f_equal. apply map_ext_in. intros t Ht. unfold term_code. rewrite term_eqb_intercept. destruct t as [|f t]; [reflexivity|].
    destruct (String.eqb_spec (term_name (f :: t)) "Intercept") as [Ef|]; [|reflexivity]. exfalso. destruct H as [H|H]; [|exact (H _ Ht Ef)].
    rewrite E in Hn. change "Intercept"%string with (term_name []) in Ef. apply in_split in Ht. destruct Ht as [a [b ->]].
    rewrite map_app in Hn. cbn [map] in Hn. apply NoDup_remove_2 in Hn. apply Hn. rewrite Ef, <- map_app. apply in_map.
    apply in_app_iff in H. apply in_app_iff. destruct H as [H|[H|H]]; auto. discriminate.
  - rewrite <- text_sum. unfold dlayout. destruct ts as [|t ts]; [reflexivity|].
    assert (X : exists s l, sum_toks (map term_toks (t :: ts)) = DExpr s :: l).
    { unfold sum_toks. cbn [map]. rewrite sep_by_cons. destruct t as [|f t]; [cbn; eauto|]. unfold term_toks at 1. cbn [map]. rewrite sep_by_cons. cbn. eauto. }
    destruct X as [s [l ->]]. reflexivity.
Qed.

(** One side of a formula and the design made of it. *)
Lemma side_described {V} norm is_float code it m num code_cm hash fis tl (d : @design_info V) :
  from_tokenizer code it -> it <> [] -> (forall s, embedded_in it s -> norm s = s) ->
  from_formula norm is_float it None = Ok m -> tl = lhs_termlist m \/ tl = rhs_termlist m ->
  design_for num code_cm hash fis tl = Ok d ->
  exists ts i us, ts = maybe_add_intercept i us /\ map fst (codings_of d) = ts /\ Permutation ts tl /\
    Forall (okterm norm is_float) us /\ distinct term_eqb us /\
    map fst (di_name_slices d) = map term_name ts /\ NoDup (map fst (di_name_slices d)).
Proof.
  intros Hft Hne Hn Hm Hs Hd. destruct (from_formula_sides _ _ _ _ _ Hft Hne Hm Hn) as [i [j [ls [rs [El [Er [Ol [Or [Dl Dr]]]]]]]]].
  destruct (design_column_names _ _ _ _ _ _ _ Hd) as [Hc [Hmk _]]. destruct (term_order _ _ _ _ _ _ Hmk) as [Hp [Hso _]].
  destruct Hc as [names [fs [cs [Ec [D1 D2]]]]].
  assert (Dd : dicts (Some fs) (Some cs)) by (split; assumption).
  pose proof (term_slices_partition_columns _ _ _ _ _ Dd Ec) as [_ [_ [_ [Hnd [_ [_ [sl [_ [_ [_ [Hnm _]]]]]]]]]]].
  destruct (BuildInfoProofs.mk_inv _ _ _ _ Dd Ec) as [_ [_ [_ [Hcod _]]]].
  assert (Ecs : codings_of d = cs) by (unfold codings_of; now rewrite Hcod). rewrite Ecs in *.
  assert (G : exists i us, tl = maybe_add_intercept i us /\ Forall (okterm norm is_float) us /\ distinct term_eqb us) by (destruct Hs; subst; eauto).
  destruct G as [b [us [-> [Ou Du]]]].
  destruct b.
  - destruct (intercept_first _ _ _ Hso) as [vs Ev]; [eapply Permutation_in; [apply Permutation_sym; exact Hp|now left]|].
    exists (map fst cs), true, vs. split; [exact Ev|]. split; [reflexivity|]. split; [exact Hp|].
    assert (Pv : Permutation us vs). { rewrite Ev in Hp. cbn in Hp. apply Permutation_cons_inv in Hp. now apply Permutation_sym. }
    split; [eapply Permutation_Forall; eauto|]. split; [eapply distinct_perm; eauto|]. split; [|exact Hnd]. now rewrite Hnm, map_map.
  - exists (map fst cs), false, (map fst cs). split; [reflexivity|]. split; [reflexivity|]. split; [exact Hp|]. cbn in Hp. apply Permutation_sym in Hp.
    split; [eapply Permutation_Forall; eauto|]. split; [eapply distinct_perm; eauto|]. split; [|exact Hnd]. now rewrite Hnm, map_map.
Qed.
