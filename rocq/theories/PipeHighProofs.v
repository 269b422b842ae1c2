(** Proofs about patsy/highlevel.py. *)
From Coq Require Import Permutation.
From Verif Require Import Base RankSpec UtilModel DescModel FormulaModel ParseFormulaModel BuildModel BuildSpec BuildProofs BuildSubtermProofs BuildInfoProofs BuildMatrixProofs BuildAllProofs BuildTopProofs BuildSubsetProofs BuildDesignProofs
  MemorizeModel MemorizeSpec CategoricalModel CategoricalSpec PipeModel PipeSpec PipeProofs.
Open Scope nat_scope.

Lemma some_index {V I} (es : list (@evaluated V I)) : (forall e, In e es -> ev_index e = None) \/ exists e i, In e es /\ ev_index e = Some i.
Proof.
  induction es as [|e es IH]; [left; easy|]. destruct (ev_index e) as [i|] eqn:E.
  - right. exists e, i. split; [now left|exact E].
  - destruct IH as [IH|[e' [i [A B]]]]; [left; intros x [<-|Hx]; auto|right; exists e', i; split; [now right|exact B]].
Qed.

Lemma forall2_len {A B} (P : A -> B -> Prop) l m : Forall2 P l m -> length l = length m.
Proof. induction 1; cbn; auto. Qed.

Lemma forall2_impl {A B} (P Q : A -> B -> Prop) l m : (forall a b, P a b -> Q a b) -> Forall2 P l m -> Forall2 Q l m.
Proof. intros H. induction 1; constructor; auto. Qed.
Lemma flat_map_ext_in {A B} (f g : A -> list B) l : (forall a, In a l -> f a = g a) -> flat_map f l = flat_map g l.
Proof. intros H. rewrite !flat_map_concat_map. f_equal. now apply map_ext_in. Qed.

Section High.
Context {V I C S D : Type}.
Variables (vone : V) (vmul : V -> V -> V) (visnan : V -> bool) (ilabel : nat -> I) (ieqb : I -> I -> bool).
Hypothesis ieqb_eq : forall a b, ieqb a b = true <-> a = b.
Variable passes : factor -> result (S * Z).
Variable chunk : factor -> S -> nat -> D -> result S.
Variable finish : factor -> S -> nat -> result S.
Variable eval : factor -> S -> D -> result (@fobj V I C).
Variable origin_of : factor -> option origin.
Variable code_cm : list pval -> option C -> bool -> result (@ctr V).
Variable hash : list (bool * factor) -> Z.
Variable set_order : list factor -> list factor.
Variables order_mem order_exam : nat -> list factor -> list factor.
Variable addr : pval -> nat.
Variable hash_order : list pval -> list pval.
Variable df_index : D -> option (list I).
Variable upcast : V -> V.
Variable vobj : V.
Variable tokenize : string -> list pytok * option exn.
Variable norm : string -> string.
Variable is_float : string -> bool.
Variable have_pandas : bool.
Hypothesis Hset : forall l, Permutation (set_order l) l.
Hypothesis Hmem : forall n l, Permutation (order_mem n l) l.
Hypothesis Hexam : forall n l, Permutation (order_exam n l) l.
Hypothesis Hidx : indexed eval.

Local Notation builders := (design_matrix_builders passes chunk finish eval origin_of code_cm hash set_order order_mem order_exam addr hash_order).
Local Notation eval_info := (eval_info visnan eval origin_of).
Local Notation build := (build vone vmul visnan ilabel ieqb eval origin_of df_index).
Local Notation try_incr := (try_incr_builders passes chunk finish eval origin_of code_cm hash set_order order_mem order_exam addr hash_order tokenize norm is_float).
Local Notation highlevel := (highlevel_design vone vmul visnan ilabel ieqb passes chunk finish eval origin_of code_cm hash set_order order_mem order_exam addr hash_order df_index upcast vobj tokenize norm is_float have_pandas).

Lemma eval_info_fits kn na d fi e : eval_info kn na d fi = Ok e -> fits fi e.
Proof.
  unfold PipeModel.eval_info. destruct (dget Nat.eqb (fi_id fi) kn) as [[s cats]|]; cbn [lookup bind]; [|discriminate].
  destruct (eval (fi_factor fi) s d) as [o|] eqn:Eo; cbn [bind]; [|discriminate].
  destruct (fi_kind fi) as [n|n] eqn:Ek; cbn [bind].
  - intros H. eapply eval_factor_lemma; [|exact H]. cbn. intros i Hi. now destruct (Hidx _ _ _ _ _ Eo Hi).
  - destruct (categorical_to_int (o_value o) cats na (origin_of (fi_factor fi))) as [codes|] eqn:Ec; cbn [bind]; [|discriminate].
    intros H. eapply eval_factor_lemma; [|exact H]. cbn. intros i Hi. destruct (Hidx _ _ _ _ _ Eo Hi) as [_ G]. eapply G, Ec.
Qed.

Lemma build_evals ev df act want_df dis res : Forall constructed dis -> identities (all_infos dis) ->
  build_design_matrices vone vmul ilabel ieqb origin_of ev df act want_df dis = Ok res -> forall fi, In fi (all_infos dis) -> exists e, ev fi = Ok e.
Proof.
  intros Hc Hid. unfold build_design_matrices. rewrite (builders_ok dis Hc). cbn [bind].
  rewrite (foldM_flat (eval_one ieqb origin_of ev) (fun b : @builder V => map snd (fst (fst b)))). rewrite builder_infos.
  destruct (foldM (eval_one ieqb origin_of ev) (all_infos dis) ([], option_map (@length I) df, df)) as [[[d rows] idx]|err] eqn:Ef; cbn [bind]; [|discriminate].
  intros _ fi Hfi. destruct (eval_fold_sound ieqb origin_of ieqb_eq ev df (all_infos dis) (all_infos dis) Hid (incl_refl _) _ _ (einv_init _ _ _) Ef) as [Hinv [_ Hcov]]. cbn [fst snd] in *.
  apply Hcov in Hfi. apply in_map_iff in Hfi. destruct Hfi as [[fi' e] [<- Hin]]. exists e. exact (ei_ev _ _ _ _ Hinv _ _ Hin).
Qed.

(** What a successful call of build_design_matrices gives. *)
Lemma build_built ds d na want_df ms labels : designs_ok ds -> build ds d na want_df = Ok (ms, labels) ->
  exists act, get_action na = Ok act /\
    built vone vmul ilabel (eval_info (concat (map ds_known ds)) (na_what act) d) (df_index d) (na_on act) want_df (map ds_info ds) ms labels /\
    forall fi, In fi (all_infos (map ds_info ds)) -> exists e, eval_info (concat (map ds_known ds)) (na_what act) d fi = Ok e /\ fits fi e.
Proof.
  intros [Hc Hid]. unfold PipeModel.build. destruct (get_action na) as [act|]; cbn [bind]; [|discriminate]. intros H.
  assert (Hc' : Forall constructed (map ds_info ds)) by (rewrite Forall_map; exact Hc).
  exists act. split; [reflexivity|].
  assert (Hf : forall fi, In fi (all_infos (map ds_info ds)) -> exists e, eval_info (concat (map ds_known ds)) (na_what act) d fi = Ok e /\ fits fi e).
  { intros fi Hfi. destruct (build_evals _ _ _ _ _ _ Hc' Hid H fi Hfi) as [e He]. exists e. split; [exact He|]. eapply eval_info_fits, He. }
  split; [|exact Hf]. apply (build_iff vone vmul ieqb origin_of ieqb_eq _ _ ilabel _ Hc' Hid Hf) in H. exact H.
Qed.

Lemma full_length (es : list (@evaluated V I)) df n full fis : rows_are df es n -> labels_are ilabel df es n full ->
  (forall e, In e es -> exists fi, In fi fis /\ fits fi e) -> length full = n.
Proof.
  intros [R1 R2] [L1 [L2 L3]] Hf. destruct df as [i|]; [rewrite <- (L1 i eq_refl); now apply R1|].
  destruct (some_index es) as [Hno|[e [i [He Ei]]]]; [rewrite (L3 eq_refl Hno), map_length, seq_length; reflexivity|].
  rewrite <- (L2 e i He Ei). destruct (Hf e He) as [fi [_ [_ [F _]]]]. rewrite (F i Ei). now apply R2.
Qed.

Lemma build_shape ds d na want_df ms labels : designs_ok ds -> ds <> [] -> build ds d na want_df = Ok (ms, labels) ->
  exists n, Forall2 (fun s m => m_rows m = n /\ rectangular m /\ length (m_cols m) = length (column_names (ds_info s))) ds ms /\
    (if want_df then exists i, labels = Some i /\ length i = n else labels = None).
Proof.
  intros Hok Hne H. destruct (build_built ds d na want_df ms labels Hok H) as [act [Ha [Hb Hf]]].
  destruct Hb as [n [full [H1 [H2 [H3 [H4 [H5 H6]]]]]]]. set (es := evals _ _) in *. exists (length (kept (na_on act) es n)). split.
  - destruct Hok as [Hc _]. generalize dependent (kept (na_on act) es n). intros ks H5 _. clear - H5 Hc.
    revert H5. generalize (eval_info (concat (map ds_known ds)) (na_what act) d). intros ev H5.
    remember (map ds_info ds) as l eqn:El. revert ds El Hc.
    induction H5 as [|x m l ms Hm H5 IH]; intros [|s ds]; cbn [map]; try discriminate; [constructor|]. intros [= -> ->] Hc. inversion Hc; subst. constructor; [|now apply IH].
    destruct Hm as [M1 M2]. split; [exact M1|]. split.
    + unfold rectangular. rewrite M1. clear - M2. induction M2 as [|id col ids cols E M2 IH]; constructor; [|exact IH]. now apply map_some_length in E.
    + apply forall2_len in M2. destruct (constructed_facts _ H1) as [fis [cs [E1 [E2 [_ [_ [_ E3]]]]]]]. unfold infos_of, codings_of in M2. rewrite E1, E2 in M2. lia.
  - destruct want_df; [|exact H6]. destruct H6 as [[E1 [E2 _]]|[_ ->]].
    + exfalso. apply Hne. apply (f_equal (@length _)) in H4; auto. rewrite map_length in H4. cbn in H4. now destruct ds.
    + eexists. split; [reflexivity|]. rewrite pick_length; [reflexivity|]. intros k Hk. apply kept_lt in Hk.
      rewrite (full_length es (df_index d) n full (all_infos (map ds_info ds)) H1 H2); [exact Hk|].
      intros e He. unfold es in He. apply evals_in in He; [|intros fi Hfi; destruct (Hf fi Hfi) as [x [Hx _]]; eauto].
      destruct He as [fi [Hfi Efi]]. exists fi. split; [exact Hfi|]. destruct (Hf fi Hfi) as [x [Hx Fx]]. congruence.
Qed.

(** * The designs *)
Lemma empty_design data na ds : builders data na [[]] = Ok ds -> exists l, ds = [l] /\ constructed (ds_info l) /\ infos_of (ds_info l) = [].
Proof.
  intros H. destruct (builders_good passes chunk finish eval origin_of code_cm hash set_order order_mem order_exam addr hash_order Hset Hmem Hexam _ _ _ _ H) as [HL [Hc [_ [act [_ Hf]]]]].
  destruct ds as [|l [|? ?]]; try discriminate. exists l. split; [reflexivity|]. inversion Hc; subst. split; [assumption|].
  destruct (infos_of (ds_info l)) as [|[f fi] fis] eqn:E; [reflexivity|]. destruct (Hf l (or_introl eq_refl) f fi) as [_ [[] _]]. rewrite E. now left.
Qed.

Lemma desc_builders_ok data na md l r :
  desc_builders passes chunk finish eval origin_of code_cm hash set_order order_mem order_exam addr hash_order data na md = Ok (Some (l, r)) ->
  builders data na [lhs_termlist md; rhs_termlist md] = Ok [l; r].
Proof.
  unfold desc_builders. destruct (builders data na [lhs_termlist md; rhs_termlist md]) as [[|a [|b [|c ds]]]|]; cbn; try discriminate. intros [= -> ->]. reflexivity.
Qed.

Lemma try_incr_designs fl data na l r : proper_input fl -> try_incr fl data na = Ok (Some (l, r)) -> designs_ok [l; r].
Proof.
  assert (HB : forall md, desc_builders passes chunk finish eval origin_of code_cm hash set_order order_mem order_exam addr hash_order data na md = Ok (Some (l, r)) -> designs_ok [l; r]).
  { intros md H. apply desc_builders_ok in H.
    destruct (builders_good passes chunk finish eval origin_of code_cm hash set_order order_mem order_exam addr hash_order Hset Hmem Hexam _ _ _ _ H) as [_ [Hc [Hid _]]]. split; assumption. }
  destruct fl as [d|sl sr|n|s|md|rm|a]; cbn [proper_input try_incr_builders].
  - intros [Hc Hid]. destruct (builders data na [[]]) as [ds|] eqn:E; cbn [bind]; [|discriminate].
    destruct (empty_design _ _ _ E) as [x [-> [Hx Hi]]]. intros [= -> ->]. split; [constructor; assumption|]. cbn [map all_infos flat_map]. rewrite Hi. exact Hid.
  - destruct sl, sr; try discriminate. intros H [= -> ->]. exact H.
  - discriminate.
  - destruct (formula_desc tokenize norm is_float s) as [md|]; cbn [bind]; [|discriminate]. intros _. apply HB.
  - intros _. apply HB.
  - destruct rm as [[md|]|]; cbn [bind]; try discriminate. intros _. apply HB.
  - discriminate.
Qed.

(** * Explicit matrices *)
Lemma map_mat_shape f (m : @dmat V) : m_rows (map_mat f m) = m_rows m /\ length (m_cols (map_mat f m)) = length (m_cols m) /\ (rectangular m -> rectangular (map_mat f m)).
Proof.
  unfold map_mat, rectangular. cbn. rewrite map_length. split; [reflexivity|]. split; [reflexivity|]. intros H. rewrite Forall_map. eapply Forall_impl; [|exact H]. intros c Hc. cbn. now rewrite map_length.
Qed.

Lemma check_ok {A} b s (k : result A) r : check b s k = Ok r -> b = true /\ k = Ok r.
Proof. destruct b; cbn; [auto|discriminate]. Qed.

Lemma regularize_ok rt prefix (a : @array V I S) m i : rt <> RUnknown -> proper_array a -> regularize ilabel upcast rt prefix a = Ok (m, i) ->
  i = a_index a /\ m_rows (x_mat m) = m_rows (a_mat a) /\ rectangular (x_mat m) /\ length (m_cols (x_mat m)) = length (column_names (ds_info (x_design m))) /\
  (rt = RMatrix -> x_index m = None) /\
  (rt = RDataFrame -> x_index m = Some (match a_index a with Some j => j | None => map ilabel (seq 0 (m_rows (a_mat a))) end)) /\
  length (m_cols (x_mat m)) = length (m_cols (a_mat a)).
Proof.
  intros Hrt [Hr [Hi Hd]]. unfold regularize. destruct (from_array prefix a) as [d|] eqn:Ed; cbn [bind]; [|discriminate].
  destruct rt; [| |easy].
  - destruct (to_design_matrix upcast a d) as [m'|] eqn:Em; cbn [bind]; [|discriminate]. intros [= <- <-]. split; [reflexivity|].
    revert Em. unfold to_design_matrix.
    assert (Hnew : check (negb (2 <? a_ndim a)) "DesignMatrix must be 2d"
         (check (length (column_names (ds_info d)) =? length (m_cols (match a_dtype a with DInt => map_mat upcast (a_mat a) | _ => a_mat a end))) "wrong number of column names for design matrix"
         (check (match a_dtype a with DOther => false | _ => true end) "design matrix must be real-valued floating point"
         (Ok (@mkMx V I S (match a_dtype a with DInt => map_mat upcast (a_mat a) | _ => a_mat a end) d None)))) = Ok m' ->
      m_rows (x_mat m') = m_rows (a_mat a) /\ rectangular (x_mat m') /\ length (m_cols (x_mat m')) = length (column_names (ds_info (x_design m'))) /\ x_index m' = None /\
      length (m_cols (x_mat m')) = length (m_cols (a_mat a))).
    { intros H. apply check_ok in H. destruct H as [_ H]. apply check_ok in H. destruct H as [H1 H]. apply check_ok in H. destruct H as [_ H]. injection H as <-. cbn [x_mat x_design x_index]. apply Nat.eqb_eq in H1.
      destruct (map_mat_shape upcast (a_mat a)) as [M1 [M2 M3]]. destruct (a_dtype a); auto 8. }
    destruct (a_is_dm a) eqn:Edm; [destruct (a_info a) as [own|] eqn:Eo|]; intros H.
    + injection H as <-. cbn. destruct (Hd eq_refl own eq_refl) as [G _]. repeat (split; auto). discriminate.
    + destruct (Hnew H) as [G1 [G2 [G3 [G4 G5]]]]. repeat (split; auto). discriminate.
    + destruct (Hnew H) as [G1 [G2 [G3 [G4 G5]]]]. repeat (split; auto). discriminate.
  - destruct (to_data_frame ilabel a d) as [m'|] eqn:Em; cbn [bind]; [|discriminate]. intros [= <- <-]. split; [reflexivity|].
    unfold to_data_frame in Em. apply check_ok in Em. destruct Em as [_ Em]. apply check_ok in Em. destruct Em as [G1 Em]. injection Em as <-. apply Nat.eqb_eq in G1. cbn.
    repeat (split; auto). discriminate.
Qed.

Lemma side_proper s : proper_side s -> proper_array (@side_array V I S vobj s).
Proof.
  destruct s as [d| |a]; cbn; [| |easy]; intros _; (split; [repeat constructor|split; [discriminate|discriminate]]).
Qed.
Lemma lone_proper (a : @array V I S) : proper_array a -> proper_array (lone_array a).
Proof.
  intros [H1 [H2 H3]]. unfold lone_array. destruct (a_index a) as [k|] eqn:E.
  - split; [exact H1|]. split; [|discriminate]. intros j Hj. apply H2. exact Hj.
  - split; [exact H1|]. split; [|exact H3]. intros j Hj. congruence.
Qed.
Lemma no_columns_proper n : proper_array (@no_columns V I S n).
Proof. split; [constructor|split; discriminate]. Qed.

Lemma explicit_ok rt (lhs : @side V I S) rhs l r : rt <> RUnknown -> proper_side lhs -> proper_array rhs -> explicit ilabel ieqb upcast vobj rt lhs rhs = Ok (l, r) ->
  m_rows (x_mat l) = m_rows (x_mat r) /\ well_shaped rt l /\ well_shaped rt r /\ x_index l = x_index r.
Proof.
  intros Hrt Hl Hr. unfold explicit. destruct (regularize ilabel upcast rt "x" rhs) as [[mr ri]|] eqn:Er; cbn [bind]; [|discriminate].
  set (la := match lhs with SNone => _ | _ => _ end). assert (Hla : proper_array la) by (destruct lhs; [apply (side_proper (SDesign d)), Logic.I|apply no_columns_proper|exact Hl]).
  destruct (regularize ilabel upcast rt "y" la) as [[ml li]|] eqn:El; cbn [bind]; [|discriminate].
  destruct (regularize_ok _ _ _ _ _ Hrt Hr Er) as [R1 [R2 [R3 [R4 [R5 [R6 _]]]]]]. destruct (regularize_ok _ _ _ _ _ Hrt Hla El) as [L1 [L2 [L3 [L4 [L5 [L6 _]]]]]].
  destruct (m_rows (x_mat ml) =? m_rows (x_mat mr)) eqn:En; cbn [negb]; [|discriminate]. apply Nat.eqb_eq in En.
  destruct (match ri, li with Some i, Some j => negb (list_eqb ieqb i j) | _, _ => false end) eqn:Ei; [discriminate|].
  destruct Hr as [_ [Hri _]]. destruct Hla as [_ [Hli _]]. rewrite <- R1 in Hri, R6. rewrite <- L1 in Hli, L6. unfold well_shaped.
  destruct rt; [| |easy]; intros [= E].
  - subst ml mr. rewrite (L5 eq_refl), (R5 eq_refl). repeat (split; auto); discriminate.
  - specialize (R6 eq_refl). specialize (L6 eq_refl). rewrite L2, R2 in *.
    destruct ri as [i|], li as [j|]; injection E as <- <-; cbn [x_mat x_design x_index].
    + apply negb_false_iff in Ei. apply (list_eqb_eq ieqb ieqb_eq) in Ei. subst j. rewrite L6, R6, L2, R2.
      repeat (split; auto); try discriminate; intros _; exists i; split; auto.
    + rewrite R6, L2, R2. repeat (split; auto); try discriminate; intros _; exists i; split; auto. rewrite En. auto.
    + rewrite L6, L2, R2. repeat (split; auto); try discriminate; intros _; exists j; split; auto. rewrite <- En. auto.
    + rewrite L6, R6, L2, R2. rewrite En. repeat (split; auto); try discriminate; intros _; eexists; (split; [reflexivity|]); now rewrite map_length, seq_length.
Qed.

Lemma highlevel_shape fl d na rt l r : proper_input fl -> highlevel fl d na rt = Ok (l, r) ->
  rt <> RUnknown /\ m_rows (x_mat l) = m_rows (x_mat r) /\ well_shaped rt l /\ well_shaped rt r /\ x_index l = x_index r.
Proof.
  intros Hp. unfold highlevel_design.
  destruct (match rt with RDataFrame => negb have_pandas | _ => false end); [discriminate|].
  assert (Hrt : rt = RUnknown \/ rt <> RUnknown) by (destruct rt; auto; right; discriminate). destruct Hrt as [->|Hrt]; [discriminate|].
  replace (match rt with RUnknown => true | _ => false end) with false by (destruct rt; congruence).
  destruct (try_incr fl (fun _ => [d]) na) as [[[dl dr]|]|] eqn:Et; cbn [bind]; [| |discriminate].
  - pose proof (try_incr_designs _ _ _ _ _ Hp Et) as Hok. set (w := match rt with RDataFrame => true | _ => false end).
    destruct (build [dl; dr] d na w) as [[ms labels]|] eqn:Eb; cbn [bind]; [|discriminate].
    destruct (build_shape _ _ _ _ _ _ Hok ltac:(discriminate) Eb) as [n [Hf Hlab]].
    destruct ms as [|ml [|mr [|? ?]]]; try discriminate. intros [= <- <-]. inversion Hf as [|? ? ? ? [A1 [A2 A3]] Hf']; subst. inversion Hf' as [|? ? ? ? [B1 [B2 B3]] _]; subst.
    split; [exact Hrt|]. unfold well_shaped. cbn [x_mat x_design x_index].
    assert (Hx : forall m : nat, m = m_rows ml -> (rt = RDataFrame -> exists i, labels = Some i /\ length i = m) /\ (rt = RMatrix -> labels = None)).
    { intros m ->. destruct rt; subst w; cbn in Hlab; (split; [|]); try discriminate; auto. }
    split; [auto|]. repeat (split; auto); apply Hx; auto.
  - destruct fl as [dd|sl sr|k|s|md|rm|a]; try discriminate.
    + intros H. split; [exact Hrt|]. assert (Hs : proper_side sl /\ proper_side sr) by (destruct sl, sr; try discriminate; exact Hp). destruct Hs as [Hsl Hsr].
      exact (explicit_ok _ _ _ _ _ Hrt Hsl (side_proper _ Hsr) H).
    + intros H. split; [exact Hrt|]. refine (explicit_ok _ _ _ _ _ Hrt _ (lone_proper _ Hp) H). exact Logic.I.
Qed.
(** * Both return types *)
Lemma built_df ev df act dis ms w : (exists labels, built vone vmul ilabel ev df act w dis ms labels) <-> built vone vmul ilabel ev df act false dis ms None.
Proof.
  unfold built. cbn zeta. set (es := evals ev (all_infos dis)). split.
  - intros [labels [n [full [H1 [H2 [H3 [H4 [H5 _]]]]]]]]. exists n, full. auto 8.
  - intros [n [full [H1 [H2 [H3 [H4 [H5 _]]]]]]]. destruct w; [|exists None, n, full; auto 8].
    destruct es as [|e es'] eqn:E; [destruct df as [i|]|].
    + eexists. exists n, full. do 5 (split; [eassumption|]). right. split; [intros [_ X]; discriminate|reflexivity].
    + exists None, n, full. do 5 (split; [eassumption|]). left. auto.
    + eexists. exists n, full. do 5 (split; [eassumption|]). right. split; [intros [X _]; discriminate|reflexivity].
Qed.

Lemma build_types ds d na w ms : designs_ok ds -> (exists labels, build ds d na w = Ok (ms, labels)) <-> build ds d na false = Ok (ms, None).
Proof.
  intros Hok.
  assert (Hc' : Forall constructed (map ds_info ds)) by (rewrite Forall_map; apply Hok).
  split.
  - intros [labels H]. destruct (build_built ds d na w ms labels Hok H) as [act [Ha [Hb Hf]]].
    unfold PipeModel.build. rewrite Ha. cbn [bind]. apply (build_iff vone vmul ieqb origin_of ieqb_eq _ _ ilabel _ Hc' (proj2 Hok) Hf). eapply built_df. eauto.
  - intros H. destruct (build_built ds d na false ms None Hok H) as [act [Ha [Hb Hf]]]. apply built_df with (w := w) in Hb. destruct Hb as [labels Hb]. exists labels.
    unfold PipeModel.build. rewrite Ha. cbn [bind]. now apply (build_iff vone vmul ieqb origin_of ieqb_eq _ _ ilabel _ Hc' (proj2 Hok) Hf).
Qed.

(** A formula, or designs. *)
Lemma highlevel_described fl d na rt : described fl -> 
  highlevel fl d na rt =
  if match rt with RDataFrame => negb have_pandas | _ => false end
  then Err (PatsyError "pandas.DataFrame was requested, but pandas is not installed" None)
  else if match rt with RUnknown => true | _ => false end
  then Err (PatsyError "unrecognized output type, should be 'matrix' or 'dataframe'" None)
  else let* o := try_incr fl (fun _ => [d]) na in
    match o with
    | Some (l, r) =>
        let* (ms, labels) := build [l; r] d na (match rt with RDataFrame => true | _ => false end) in
        match ms with
        | [ml; mr] => Ok (mkMx ml l labels, mkMx mr r labels)
        | _ => Err AssertionError
        end
    | None => Err AssertionError
    end.
Proof.
  intros Hd. unfold highlevel_design. destruct (match rt with RDataFrame => negb have_pandas | _ => false end); [reflexivity|].
  destruct (match rt with RUnknown => true | _ => false end); [reflexivity|].
  destruct fl as [dd|[dl| |al] [dr| |ar]|k|s|md|rm|a]; try destruct Hd; try reflexivity.
Qed.

Lemma described_types fl d na l r : described fl -> proper_input fl -> have_pandas = true ->
  highlevel fl d na RMatrix = Ok (l, r) <-> x_index l = None /\ x_index r = None /\ exists i, highlevel fl d na RDataFrame = Ok (with_index (Some i) l, with_index (Some i) r).
Proof.
  intros Hd Hp Hpan. rewrite !highlevel_described by exact Hd. rewrite Hpan. cbn [negb].
  destruct (try_incr fl (fun _ => [d]) na) as [[[dl dr]|]|] eqn:Et; cbn [bind]; [| |]; try (split; [discriminate|intros [_ [_ [i H]]]; discriminate]).
  pose proof (try_incr_designs _ _ _ _ _ Hp Et) as Hok. split.
  - destruct (build [dl; dr] d na false) as [[ms labels]|] eqn:Eb; cbn [bind]; [|discriminate].
    destruct ms as [|ml [|mr [|? ?]]]; try discriminate. intros [= <- <-]. cbn.
    destruct (build_shape _ _ _ _ _ _ Hok ltac:(discriminate) Eb) as [n [_ ->]].
    split; [reflexivity|]. split; [reflexivity|].
    destruct (proj2 (build_types [dl; dr] d na true [ml; mr] Hok) Eb) as [labels' Eb']. rewrite Eb'. cbn [bind].
    destruct (build_shape _ _ _ _ _ _ Hok ltac:(discriminate) Eb') as [n' [_ [i [-> _]]]]. exists i. reflexivity.
  - intros [Hl [Hr [i H]]]. destruct (build [dl; dr] d na true) as [[ms labels]|] eqn:Eb; cbn [bind] in H; [|discriminate].
    destruct ms as [|ml [|mr [|? ?]]]; try discriminate.
    assert (Eb' : build [dl; dr] d na false = Ok ([ml; mr], None)) by (apply (build_types [dl; dr] d na true [ml; mr] Hok); eauto).
    rewrite Eb'. cbn [bind]. destruct l as [lm ld li], r as [rm rd ri]. cbn in *. injection H as -> -> _ -> ->. subst. reflexivity.
Qed.

(** Explicit matrices of floats. *)
Lemma regularize_types prefix a m i : (a_dtype a = DFloat) -> (a_is_dm a = true -> forall g, a_info a = Some g -> length (column_names (ds_info g)) = length (m_cols (a_mat a)) /\ a_ndim a <= 2) ->
  regularize (S := S) ilabel upcast RMatrix prefix a = Ok (m, i) <->
  x_index m = None /\ regularize ilabel upcast RDataFrame prefix a = Ok (with_index (Some (match a_index a with Some j => j | None => map ilabel (seq 0 (m_rows (a_mat a))) end)) m, i).
Proof.
  intros Hf Hdm. unfold regularize. destruct (from_array prefix a) as [g|] eqn:Eg; cbn [bind]; [|split; [discriminate|intros [_ H]; discriminate]].
  set (idx := match a_index a with Some j => j | None => _ end).
  assert (Hnew : forall d, (let* m0 := check (negb (2 <? a_ndim a)) "DesignMatrix must be 2d"
         (check (length (column_names (ds_info d)) =? length (m_cols (a_mat a))) "wrong number of column names for design matrix"
         (check true "design matrix must be real-valued floating point"
         (Ok (@mkMx V I S (a_mat a) d None)))) in Ok (m0, a_index a)) = Ok (m, i) <-> x_index m = None /\ (let* m0 := to_data_frame ilabel a d in Ok (m0, a_index a)) = Ok (with_index (Some idx) m, i)).
  { intros d. unfold to_data_frame. destruct (negb (2 <? a_ndim a)); cbn [check bind]; [|split; [discriminate|intros [_ H]; discriminate]].
    destruct (length (column_names (ds_info d)) =? length (m_cols (a_mat a))); cbn [check bind]; [|split; [discriminate|intros [_ H]; discriminate]].
    destruct m as [mm md mi]. cbn. fold idx. split; [intros [= <- <- <- <-]; auto|intros [-> [= <- <- <-]]; reflexivity]. }
  unfold to_design_matrix. rewrite Hf. destruct (a_is_dm a) eqn:Edm; [|apply Hnew].
  destruct (a_info a) as [own|] eqn:Eo; [|apply Hnew]. destruct (Hdm eq_refl own eq_refl) as [G1 G2].
  unfold from_array in Eg. rewrite Eo in Eg. injection Eg as <-. unfold to_data_frame. rewrite G1, Nat.eqb_refl.
  assert (Hlt : (2 <? a_ndim a) = false) by (apply Nat.ltb_ge; lia). rewrite Hlt. cbn [negb check bind]. fold idx.
  destruct m as [mm md mi]. cbn. split; [intros [= <- <- <- <-]; auto|intros [-> [= <- <- <-]]; reflexivity].
Qed.
Lemma explicit_types lhs rhs l r : (lhs = SNone \/ exists a, lhs = SArray a /\ proper_array a /\ a_dtype a = DFloat) -> proper_array rhs -> a_dtype rhs = DFloat ->
  explicit (S := S) ilabel ieqb upcast vobj RMatrix lhs rhs = Ok (l, r) <->
  x_index l = None /\ x_index r = None /\ exists i, explicit ilabel ieqb upcast vobj RDataFrame lhs rhs = Ok (with_index (Some i) l, with_index (Some i) r).
Proof.
  intros Hl Hr Hf. assert (Hls : proper_side lhs) by (destruct Hl as [->|[a [-> [Ha _]]]]; [exact Logic.I|exact Ha]).
  assert (Hla : forall n, proper_array (match lhs with SNone => no_columns n | _ => side_array vobj lhs end) /\ a_dtype (match lhs with SNone => no_columns n | _ => side_array vobj lhs end) = DFloat).
  { intros n. destruct Hl as [->|[a [-> [Ha Hfa]]]]; cbn; [split; [apply no_columns_proper|reflexivity]|auto]. }
  split.
  - intros H. destruct (explicit_ok RMatrix lhs rhs l r ltac:(discriminate) Hls Hr H) as [_ [[_ [_ [_ L]]] [[_ [_ [_ R]]] _]]].
    split; [now apply L|]. split; [now apply R|].
    revert H. unfold explicit.
    destruct (regularize ilabel upcast RMatrix "x" rhs) as [[mr ri]|] eqn:Er; cbn [bind]; [|discriminate].
    destruct (proj1 (regularize_types _ _ _ _ Hf (proj2 (proj2 Hr))) Er) as [Nr Er']. rewrite Er'. cbn [bind x_mat with_index].
    destruct (Hla (m_rows (x_mat mr))) as [Pl Fl]. set (la := match lhs with SNone => _ | _ => _ end) in *.
    destruct (regularize ilabel upcast RMatrix "y" la) as [[ml li]|] eqn:El; cbn [bind]; [|discriminate].
    destruct (proj1 (regularize_types _ _ _ _ Fl (proj2 (proj2 Pl))) El) as [Nl El']. rewrite El'. cbn [bind x_mat with_index].
    destruct (m_rows (x_mat ml) =? m_rows (x_mat mr)) eqn:En; cbn [negb]; [|discriminate]. apply Nat.eqb_eq in En.
    destruct (match ri, li with Some i, Some j => negb (list_eqb ieqb i j) | _, _ => false end) eqn:Ei; [discriminate|].
    intros [= <- <-].
    destruct (regularize_ok RMatrix _ _ _ _ ltac:(discriminate) Hr Er) as [R1 [R2 _]]. destruct (regularize_ok RMatrix _ _ _ _ ltac:(discriminate) Pl El) as [L1 [L2 _]].
    rewrite <- R1, <- L1, <- L2, <- R2.
    destruct ri as [i|], li as [j|]; cbn [x_mat x_design x_index with_index].
    + apply negb_false_iff in Ei. apply (list_eqb_eq ieqb ieqb_eq) in Ei. subst j. exists i. reflexivity.
    + exists i. reflexivity.
    + exists j. reflexivity.
    + eexists. rewrite En. reflexivity.
  - intros [Nl [Nr [i H]]]. revert H. unfold explicit.
    destruct (regularize ilabel upcast RDataFrame "x" rhs) as [[mr ri]|] eqn:Er; cbn [bind]; [|discriminate].
    destruct (regularize_ok RDataFrame _ _ _ _ ltac:(discriminate) Hr Er) as [R1 [R2 [_ [_ [_ [R6 _]]]]]].
    assert (Er' : regularize ilabel upcast RMatrix "x" rhs = Ok (with_index None mr, ri)).
    { apply (regularize_types _ _ _ _ Hf (proj2 (proj2 Hr))). split; [reflexivity|]. rewrite Er. unfold with_index. cbn. rewrite <- (R6 eq_refl). now destruct mr. }
    rewrite Er'. cbn [bind x_mat with_index].
    destruct (Hla (m_rows (x_mat mr))) as [Pl Fl]. set (la := match lhs with SNone => _ | _ => _ end) in *.
    destruct (regularize ilabel upcast RDataFrame "y" la) as [[ml li]|] eqn:El; cbn [bind]; [|discriminate].
    destruct (regularize_ok RDataFrame _ _ _ _ ltac:(discriminate) Pl El) as [L1 [L2 [_ [_ [_ [L6 _]]]]]].
    assert (El' : regularize ilabel upcast RMatrix "y" la = Ok (with_index None ml, li)).
    { apply (regularize_types _ _ _ _ Fl (proj2 (proj2 Pl))). split; [reflexivity|]. rewrite El. unfold with_index. cbn. rewrite <- (L6 eq_refl). now destruct ml. }
    rewrite El'. cbn [bind x_mat with_index].
    destruct (m_rows (x_mat ml) =? m_rows (x_mat mr)) eqn:En; cbn [negb]; [|discriminate].
    destruct (match ri, li with Some i, Some j => negb (list_eqb ieqb i j) | _, _ => false end) eqn:Ei; [discriminate|].
    destruct l as [lm ld lx], r as [rm rd rx]. cbn in Nl, Nr. subst lx rx. unfold with_index in *. cbn in *.
    destruct mr as [a b c], ml as [a' b' c']; cbn in *. destruct ri, li; cbn; intros [= -> -> _ -> -> _]; reflexivity.
Qed.

(** * Designs used again *)
Lemma knowns_ext k1 k2 na d fi : dget Nat.eqb (fi_id fi) k1 = dget Nat.eqb (fi_id fi) k2 -> eval_info k1 na d fi = eval_info k2 na d fi.
Proof. intros H. unfold PipeModel.eval_info. now rewrite H. Qed.

Lemma dget_app {A} (k : nat) (l m : list (nat * A)) : dget Nat.eqb k (l ++ m) = match dget Nat.eqb k l with Some x => Some x | None => dget Nat.eqb k m end.
Proof. induction l as [|[k' x] l IH]; cbn; [reflexivity|]. destruct (Nat.eqb k' k) eqn:E; auto. Qed.
Lemma builders_nothing data na act : get_action na = Ok act -> exists di, builders data na [[]] = Ok [mkDesign di []] /\ infos_of di = [] /\ codings_of di = [] /\ column_names di = [].
Proof.
  intros Ha. unfold design_matrix_builders. rewrite Ha. cbn [bind].
  assert (E : all_factors set_order [[]] = []) by (apply Permutation_nil, Permutation_sym, Hset). rewrite E. cbn.
  assert (E' : order_exam 0 [] = []) by (apply Permutation_nil, Permutation_sym, Hexam).
  unfold examine_factor_types. cbn. destruct (data 0) as [|x xs]; cbn [examine_chunks ex_needed]; [|rewrite E']; cbn; eexists; (split; [reflexivity|]); auto.
Qed.

Lemma designs_of_nothing data na tls ds l : builders data na tls = Ok ds -> nth_error tls l = Some [] -> exists d, nth_error ds l = Some d /\ infos_of (ds_info d) = [] /\ codings_of (ds_info d) = [].
Proof.
  intros H Hn. destruct (builders_inv passes chunk finish eval origin_of code_cm hash set_order order_mem order_exam addr hash_order Hset Hmem Hexam data na tls ds H) as [act [num [cat [fis [kn [dis [Ha [-> [Hd _]]]]]]]]].
  apply mapM_ok_Forall2 in Hd. clear -Hd Hn. revert l Hn. induction Hd as [|tl d tls dis E Hd IH]; intros [|l]; cbn [nth_error map]; try discriminate; [|apply IH].
  intros [= ->]. exists (mkDesign d kn). split; [reflexivity|]. cbn in E. injection E as <-. auto.
Qed.

Lemma matrix_is_ext ev ev' ks (x : @design_info V) m : constructed x -> (forall fi, In fi (map snd (infos_of x)) -> ev fi = ev' fi) -> matrix_is (I := I) vone vmul ev ks x m -> matrix_is vone vmul ev' ks x m.
Proof.
  intros Hc He [H1 H2]. split; [exact H1|]. eapply forall2_impl; [|exact H2]. intros id col E. cbn in E. rewrite E. apply map_ext. intros k. apply entry_ext.
  intros f _. unfold values_in. destruct (dget String.eqb f (infos_of x)) as [fi|] eqn:Ef; [|reflexivity]. rewrite He; [reflexivity|]. apply dget_in in Ef. destruct Ef as [k' [Ef _]]. apply in_map_iff. exists (k', fi). split; [reflexivity|exact Ef].
Qed.

Lemma get_known (k1 k2 : @known S) fi s c : dget Nat.eqb (fi_id fi) k1 = Some (s, c) -> dget Nat.eqb (fi_id fi) (k1 ++ k2) = Some (s, c).
Proof. intros H. now rewrite dget_app, H. Qed.

(** The design of nothing in front may be exchanged. *)
Lemma build_swap l1 l2 r d na w ms labels : designs_ok [l1; r] -> designs_ok [l2; r] ->
  infos_of (ds_info l1) = [] -> codings_of (ds_info l1) = [] -> infos_of (ds_info l2) = [] -> codings_of (ds_info l2) = [] ->
  (forall fi, In fi (infos_in r) -> dget Nat.eqb (fi_id fi) (ds_known l1 ++ ds_known r) = dget Nat.eqb (fi_id fi) (ds_known l2 ++ ds_known r)) ->
  build [l1; r] d na w = Ok (ms, labels) -> build [l2; r] d na w = Ok (ms, labels).
Proof.
  intros H1 H2 I1 C1 I2 C2 Hk H. destruct (build_built [l1; r] d na w ms labels H1 H) as [act [Ha [Hb Hf]]].
  assert (Hev : forall fi, In fi (infos_in r) -> eval_info (concat (map ds_known [l1; r])) (na_what act) d fi = eval_info (concat (map ds_known [l2; r])) (na_what act) d fi).
  { intros fi Hfi. apply knowns_ext. cbn [map concat]. rewrite !app_nil_r. now apply Hk. }
  assert (A1 : all_infos (map ds_info [l1; r]) = infos_in r) by (unfold all_infos, infos_in; cbn; now rewrite I1, app_nil_r).
  assert (A2 : all_infos (map ds_info [l2; r]) = infos_in r) by (unfold all_infos, infos_in; cbn; now rewrite I2, app_nil_r).
  assert (Hc' : Forall constructed (map ds_info [l2; r])) by (rewrite Forall_map; apply H2).
  unfold PipeModel.build. rewrite Ha. cbn [bind].
  refine (proj2 (build_iff vone vmul ieqb origin_of ieqb_eq _ _ ilabel _ Hc' (proj2 H2) _ _ _ _ _) _).
  - intros fi Hfi. rewrite A2 in Hfi. rewrite <- A1 in Hfi. destruct (Hf fi Hfi) as [e [He1 He2]]. exists e. split; [|exact He2]. rewrite <- Hev; [exact He1|]. now rewrite <- A1.
  - unfold built in *. cbn zeta in *. rewrite A1 in Hb. rewrite A2.
    assert (Ee : evals (eval_info (concat (map ds_known [l1; r])) (na_what act) d) (infos_in r) = evals (eval_info (concat (map ds_known [l2; r])) (na_what act) d) (infos_in r)).
    { unfold evals. apply flat_map_ext_in. intros fi Hfi. now rewrite (Hev fi Hfi). }
    rewrite Ee in Hb. destruct Hb as [n [full [B1 [B2 [B3 [B4 [B5 B6]]]]]]]. exists n, full. do 3 (split; [assumption|]).
    split; [intros E1 E2; specialize (B4 E1 E2); discriminate|]. split; [|exact B6].
    cbn [map] in B5 |- *. inversion B5 as [|x ml xs ms' M1 B5']; subst. inversion B5' as [|y mr ys ms'' M2 B5'']; subst. inversion B5''; subst. constructor; [|constructor; [|constructor]].
    + destruct M1 as [M1 M1']. split; [exact M1|]. rewrite C1 in M1'. rewrite C2. cbn in M1' |- *. inversion M1'. constructor.
    + destruct H1 as [H1 _]. inversion H1 as [|? ? _ H1']; subst. inversion H1'; subst. eapply matrix_is_ext; [assumption| |exact M2]. exact Hev.
Qed.

Lemma desc_again md d na rt l r : lhs_termlist md = [] -> highlevel (FDesc md) d na rt = Ok (l, r) ->
  exists l', highlevel (FDesign (x_design r)) d na rt = Ok (l', r) /\ m_cols (x_mat l') = [].
Proof.
  intros Hmd. rewrite !highlevel_described by exact Logic.I.
  destruct (match rt with RDataFrame => negb have_pandas | _ => false end); [discriminate|]. destruct (match rt with RUnknown => true | _ => false end); [discriminate|].
  set (w := match rt with RDataFrame => true | _ => false end). cbn [try_incr_builders].
  destruct (desc_builders passes chunk finish eval origin_of code_cm hash set_order order_mem order_exam addr hash_order (fun _ => [d]) na md) as [[[dl dr]|]|] eqn:Et; cbn [bind]; try discriminate.
  apply desc_builders_ok in Et. rewrite Hmd in Et.
  destruct (build [dl; dr] d na w) as [[[|ml [|mr [|? ?]]] labels]|] eqn:Eb; cbn [bind]; try discriminate.
  intros [= <- <-]. cbn [x_design].
  assert (Hna : exists act, get_action na = Ok act) by (revert Eb; unfold PipeModel.build; destruct (get_action na); cbn; [eauto|discriminate]). destruct Hna as [act Hna].
  destruct (builders_nothing (fun _ => [d]) na act Hna) as [di [E0 [I0 [C0 N0]]]]. rewrite E0. cbn [bind].
  pose proof (builders_good passes chunk finish eval origin_of code_cm hash set_order order_mem order_exam addr hash_order Hset Hmem Hexam _ _ _ _ Et) as [_ [Hc [Hid [act' [_ Hf]]]]].
  pose proof (builders_good passes chunk finish eval origin_of code_cm hash set_order order_mem order_exam addr hash_order Hset Hmem Hexam _ _ _ _ E0) as [_ [Hc0 _]].
  destruct (designs_of_nothing _ _ _ _ 0 Et eq_refl) as [dl' [Edl [I1 C1]]]. cbn in Edl. injection Edl as <-.
  assert (Hok1 : designs_ok [dl; dr]) by (split; assumption).
  assert (Hok2 : designs_ok [mkDesign di []; dr]).
  { split; [constructor; [now inversion Hc0|now inversion Hc]|]. intros a b Ha Hb. apply Hid; [clear Hb|clear Ha]; [revert Ha|revert Hb]; unfold all_infos; cbn; rewrite I0, I1; auto. }
  rewrite (build_swap dl (mkDesign di []) dr d na w [ml; mr] labels Hok1 Hok2 I1 C1 I0 C0); [|intros fi Hfi; cbn [ds_known app]|exact Eb].
  - cbn [bind]. eexists. split; [reflexivity|]. cbn [x_mat].
    destruct (build_shape _ _ _ _ _ _ Hok1 ltac:(discriminate) Eb) as [n [F _]]. inversion F as [|? ? ? ? [_ [_ G]] _]; subst.
    assert (Hcl : constructed (ds_info dl)) by now inversion Hc.
    destruct (constructed_facts _ Hcl) as [fis [cs [E1 [E2 [_ [_ [_ E3]]]]]]]. unfold infos_of in I1. unfold codings_of in C1. rewrite E1 in I1. rewrite E2 in C1. subst fis cs. cbn in E3. rewrite E3 in G. now destruct (m_cols ml).
  - unfold infos_in in Hfi. apply in_map_iff in Hfi. destruct Hfi as [[f fi'] [<- Hfi]]. cbn [snd].
    destruct (Hf dr (or_intror (or_introl eq_refl)) f fi' Hfi) as [_ [_ [s [lv [c [_ Hk]]]]]].
    rewrite (get_known _ _ _ s lv (Hk dl (or_introl eq_refl))). symmetry. exact (Hk dr (or_intror (or_introl eq_refl))).
Qed.

(** * Formula strings are ModelDescs *)
Lemma str_desc s md d na rt : formula_desc tokenize norm is_float s = Ok md -> highlevel (FStr s) d na rt = highlevel (FDesc md) d na rt.
Proof. intros H. rewrite !highlevel_described by exact Logic.I. cbn [try_incr_builders]. now rewrite H. Qed.
(** * Matrices without a design *)
Lemma covers_seq n : forall k a, a + k <= n -> covers_from n a (map (fun i => (i, i + 1)) (seq a k)) = Some (a + k).
Proof.
  induction k as [|k IH]; intros a H; cbn; [now rewrite Nat.add_0_r|].
  replace (Nat.min a n) with a by lia. rewrite Nat.eqb_refl. replace (Nat.min (a + 1) n) with (Datatypes.S a) by lia. rewrite IH by lia. f_equal. lia.
Qed.
Lemma combine_map_r {A B B'} (f : B -> B') (x : list A) : forall y, combine x (map f y) = map (fun p => (fst p, f (snd p))) (combine x y).
Proof. induction x as [|a x IH]; intros [|b y]; cbn; auto. now rewrite IH. Qed.

Lemma minimal_ok names : (exists di, mk_design_info (V := V) names None None = Ok di /\ column_names di = names) <-> NoDup names.
Proof.
  split; [intros [di [H _]]; apply mk_inv in H; [exact (proj1 H)|split; exact Logic.I]|]. intros Hn. unfold mk_design_info. rewrite (columns_dict names Hn). cbn [bind mk_slices].
  set (sl := combine names (map (fun i => (i, i + 1)) (seq 0 (length names)))).
  assert (Hd : distinct_keys String.eqb sl) by (apply distinct_NoDup; unfold sl; rewrite combine_fst; [exact Hn|now rewrite map_length, seq_length]).
  rewrite (dict_of_distinct String.eqb sl Hd).
  assert (E2 : @map (string * pslice) pslice snd sl = map (fun i => (i, i + 1)) (seq 0 (length names))) by (apply combine_snd; now rewrite map_length, seq_length).
  cbv beta iota zeta delta [Base.assert bind]. rewrite E2, covers_seq by lia. cbn [Nat.add]. rewrite Nat.eqb_refl. cbn [Base.assert].
  match goal with |- context [forallb ?f ?l] => assert (E3 : forallb f l = true) end.
  { apply forallb_forall. intros [s i] Hin. cbn [fst snd].
    rewrite (dget_distinct (A := pslice) String.eqb String.eqb_refl s (i, i + 1) sl Hd); [unfold pslice_eqb; cbn; now rewrite !Nat.eqb_refl|].
    unfold sl. rewrite combine_map_r. apply in_map_iff. exists (s, i). auto. }
  rewrite E3. cbn [check]. eexists. split; [reflexivity|]. unfold column_names. cbn [di_columns]. apply combine_fst. now rewrite seq_length.
Qed.

(** A lone array: what comes out, and when. *)
Lemma lone_ok (a : @array V I S) d na r : a_info a = None ->
  dmatrix vone vmul visnan ilabel ieqb passes chunk finish eval origin_of code_cm hash set_order order_mem order_exam addr hash_order df_index upcast vobj tokenize norm is_float have_pandas (FArray a) d na RMatrix = Ok r <->
  a_ndim a <= 2 /\ a_dtype a <> DOther /\ NoDup (array_names "x" a) /\ length (array_names "x" a) = length (m_cols (a_mat a)) /\
  exists di, mk_design_info (array_names "x" a) None None = Ok di /\
    r = mkMx (match a_dtype a with DInt => map_mat upcast (a_mat a) | _ => a_mat a end) (mkDesign di []) None.
Proof.
  intros Hi. unfold dmatrix, highlevel_design. cbn [negb try_incr_builders bind]. unfold explicit, regularize.
  assert (Hf : forall p, from_array p (lone_array a) = from_array p a).
  { intros p. unfold from_array, lone_array. destruct (a_index a); cbn; [rewrite Hi|]; reflexivity. }
  rewrite Hf. unfold from_array at 1. rewrite Hi.
  assert (Ht : forall g, to_design_matrix (S := S) upcast (lone_array a) g = 
     check (negb (2 <? a_ndim a)) "DesignMatrix must be 2d"
      (check (length (column_names (ds_info g)) =? length (m_cols (match a_dtype a with DInt => map_mat upcast (a_mat a) | _ => a_mat a end))) "wrong number of column names for design matrix"
      (check (match a_dtype a with DOther => false | _ => true end) "design matrix must be real-valued floating point"
      (Ok (mkMx (match a_dtype a with DInt => map_mat upcast (a_mat a) | _ => a_mat a end) g None))))).
  { intros g. unfold to_design_matrix, lone_array. destruct (a_index a); cbn; [reflexivity|]. rewrite Hi. destruct (a_is_dm a); reflexivity. }
  set (mm := match a_dtype a with DInt => map_mat upcast (a_mat a) | _ => a_mat a end) in *.
  assert (Hmm : length (m_cols mm) = length (m_cols (a_mat a))) by (unfold mm; destruct (a_dtype a); cbn; rewrite ?map_length; reflexivity).
  rewrite Hmm in Ht.
  destruct (2 <? a_ndim a) eqn:En.
  { cbn [bind]. split; [discriminate|]. intros [H _]. apply Nat.ltb_lt in En. lia. }
  apply Nat.ltb_ge in En.
  destruct (mk_design_info (array_names "x" a) None None) as [di|e] eqn:Edi; cbn [bind].
  2: { split; [discriminate|]. intros [_ [_ [Hn _]]]. apply minimal_ok in Hn. destruct Hn as [di [H _]]. congruence. }
  assert (Hn : NoDup (array_names "x" a)) by (apply mk_inv in Edi; [exact (proj1 Edi)|split; exact Logic.I]).
  assert (Hc : column_names di = array_names "x" a) by (destruct (proj2 (minimal_ok _) Hn) as [di' [E1 E2]]; congruence).
  rewrite Ht. cbn [ds_info]. rewrite Hc. cbn [negb check].
  destruct (length (array_names "x" a) =? length (m_cols (a_mat a))) eqn:El; cbn [check bind].
  2: { split; [discriminate|]. intros [_ [_ [_ [H _]]]]. apply Nat.eqb_neq in El. contradiction. }
  apply Nat.eqb_eq in El.
  assert (Hdt : (match a_dtype a with DOther => false | _ => true end) = true <-> a_dtype a <> DOther) by (destruct (a_dtype a); split; congruence).
  destruct (match a_dtype a with DOther => false | _ => true end) eqn:Ed; cbn [check bind].
  2: { split; [discriminate|]. intros [_ [H _]]. apply Hdt in H. discriminate. }
  cbn. rewrite Nat.eqb_refl. cbn. destruct (match a_index (lone_array a) with Some _ => false | None => false end) eqn:Ex; [destruct (a_index (lone_array a)); discriminate|].
  split.
  - intros [= <-]. split; [exact En|]. split; [now apply Hdt|]. split; [exact Hn|]. split; [exact El|]. exists di. auto.
  - intros [_ [_ [_ [_ [di' [[= <-] ->]]]]]]. reflexivity.
Qed.
End High.
