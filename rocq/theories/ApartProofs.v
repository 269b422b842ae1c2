(** Designs and matrices made together and apart. *)
From Coq Require Import Permutation Sorted.
From Verif Require Import Base RedundancySpec DescModel DescProofs BuildModel BuildSpec BuildProofs BuildAllProofs BuildTopProofs MemorizeModel MemorizeSpec CategoricalModel CategoricalSpec PipeModel PipeSpec PipeProofs PipeHighProofs
  PipeSeedSpec PipeSeedProofs PipeSeedTopProofs EntrySpec PipeErrSpec PipeErrProofs IncrSpec IncrProofs ArrangeSpec ArrangeProofs DropSpec DropProofs SubsetAloneProofs BuildMatrixProofs MadeHighProofs RedundancyProofs.
Open Scope nat_scope.
Open Scope list_scope.

Lemma pick_in {A} (l : list A) js x : In x (pick l js) <-> exists j, In j js /\ nth_error l j = Some x.
Proof.
  unfold pick. rewrite in_flat_map. split; intros [j [H1 H2]]; exists j; (split; [exact H1|]).
  - destruct (nth_error l j) as [y|]; [destruct H2 as [->|[]]; reflexivity|destruct H2].
  - rewrite H2. now left.
Qed.
Lemma pick_sub {A} (l : list A) js : incl (pick l js) l.
Proof. intros x Hx. apply pick_in in Hx. destruct Hx as [j [_ E]]. eapply nth_error_In, E. Qed.
Lemma f2_nth {A B} (P : A -> B -> Prop) l m : Forall2 P l m -> forall j, match nth_error l j, nth_error m j with Some a, Some b => P a b | None, None => True | _, _ => False end.
Proof. induction 1; intros [|j]; cbn; auto. apply IHForall2. Qed.
Lemma pick_f2 {A B} (P : A -> B -> Prop) l m js : Forall2 P l m -> Forall2 P (pick l js) (pick m js).
Proof.
  intros H. induction js as [|j js IH]; [constructor|]. rewrite !pick_cons. apply Forall2_app; [|exact IH]. pose proof (f2_nth P l m H j) as G.
  destruct (nth_error l j), (nth_error m j); try contradiction; repeat constructor; assumption.
Qed.
Lemma f2_mapM {A B} (f : A -> result B) l m : Forall2 (fun a b => f a = Ok b) l m -> mapM f l = Ok m.
Proof. induction 1 as [|a b l m E H IH]; [reflexivity|]. cbn [mapM]. now rewrite E, IH. Qed.

Section Top.
Context {V I C S D : Type}.
Variables (vone : V) (vmul : V -> V -> V) (visnan : V -> bool) (ilabel : nat -> I) (ieqb : I -> I -> bool).
Hypothesis ieqb_eq : forall a b, ieqb a b = true <-> a = b.
Variable passes : factor -> result (S * Z).
Variable chunk : factor -> S -> nat -> D -> result S.
Variable finish : factor -> S -> nat -> result S.
Variable eval : factor -> S -> D -> result (@fobj V I C).
Variable origin_of : factor -> option origin.
Variable code_cm : list pval -> option C -> bool -> result (@ctr V).
Variable df_index : D -> option (list I).
Hypothesis Hidx : indexed eval.
Variable w : run_of_python.
Local Notation builders := (design_matrix_builders passes chunk finish eval origin_of code_cm (py_hash w) (py_set_order w) (py_order_mem w) (py_order_exam w) (py_addr w) (py_hash_order w)).
Local Notation build := (build vone vmul visnan ilabel ieqb eval origin_of df_index).
Local Notation learned := (learned passes chunk finish eval origin_of (py_addr w) (py_hash_order w)).
Local Notation prepare := (prepare passes chunk finish eval origin_of (py_set_order w) (py_order_mem w) (py_order_exam w) (py_addr w) (py_hash_order w)).
Local Notation ready := (ready passes chunk finish eval origin_of (py_addr w) (py_hash_order w)).
Local Notation eval_info := (eval_info visnan eval origin_of).
Variable chunks : list D.
Local Notation data := (fun _ : nat => chunks).

(** The chunks are the same each time, so it does not matter which other factors there are. *)
Lemma learned_others na fs fs' f s k lv c : learned na data fs f s k lv c -> learned na data fs' f s k lv c.
Proof. intros [a n Ta Ya|a sn la ca Ta Ya La]; [now constructor|now econstructor; eauto]. Qed.
Lemma factors_sub tls tls' : incl tls' tls -> incl (factors_of tls') (factors_of tls).
Proof. intros H f Hf. unfold factors_of in *. apply in_concat in Hf. destruct Hf as [l [Hl Hf]]. apply in_concat. exists l. split; [|exact Hf]. apply in_map_iff in Hl. destruct Hl as [tl [<- Htl]]. apply in_map, H, Htl. Qed.
Lemma lawful_sub tls tls' : incl tls' tls -> lawful tls w -> lawful tls' w.
Proof. intros H [A1 [A2 [A3 [A4 A5]]]]. repeat (split; [assumption|]). rewrite Forall_forall in *. auto. Qed.

Lemma ready_both act tls tls' num1 cat1 fis1 kn1 num2 cat2 fis2 kn2 :
  ready data act tls num1 cat1 fis1 kn1 -> ready data act tls' num2 cat2 fis2 kn2 ->
  forall f, In f (factors_of tls) -> In f (factors_of tls') -> dget String.eqb f num1 = dget String.eqb f num2 /\ dget String.eqb f cat1 = dget String.eqb f cat2 /\
    exists fi1 fi2 s lv, dget String.eqb f fis1 = Some fi1 /\ dget String.eqb f fis2 = Some fi2 /\ anon_info fi1 = anon_info fi2 /\
      dget Nat.eqb (fi_id fi1) kn1 = Some (s, lv) /\ dget Nat.eqb (fi_id fi2) kn2 = Some (s, lv).
Proof.
  intros [_ R1] [_ R2] f Hf Hf'. destruct (R1 f Hf) as [fi1 [s1 [k1 [lv1 [c1 [A1 [A2 [A3 [A4 [A5 [A6 A7]]]]]]]]]]]. destruct (R2 f Hf') as [fi2 [s2 [k2 [lv2 [c2 [B1 [B2 [B3 [B4 [B5 [B6 B7]]]]]]]]]]].
  destruct (learned_det _ _ _ _ _ _ _ _ _ _ _ _ _ _ _ _ _ _ (learned_others _ _ (factors_of tls') _ _ _ _ _ A1) B1) as [-> [-> [-> ->]]].
  split; [congruence|]. split; [congruence|]. exists fi1, fi2, s2, lv2. unfold anon_info. rewrite A3, A4, B3, B4. auto 10.
Qed.
(** One design, with either preparation. *)
Lemma design_both act tls tls' num1 cat1 fis1 kn1 num2 cat2 fis2 kn2 tl d1 : lawful tls w ->
  ready data act tls num1 cat1 fis1 kn1 -> ready data act tls' num2 cat2 fis2 kn2 -> In tl tls -> In tl tls' ->
  design_for num1 (contrast_for code_cm cat1) (py_hash w) fis1 tl = Ok d1 ->
  exists d2, design_for num2 (contrast_for code_cm cat2) (py_hash w) fis2 tl = Ok d2 /\ same_design (mkDesign d1 kn1) (mkDesign d2 kn2).
Proof.
  intros [_ [_ [_ [_ L]]]] R1 R2 I1 I2 Ed. rewrite Forall_forall in L.
  assert (F1 : forall f, In f (concat tl) -> In f (factors_of tls)) by (intros f Hf; unfold factors_of; apply in_concat; exists (concat tl); split; [now apply in_map|exact Hf]).
  assert (F2 : forall f, In f (concat tl) -> In f (factors_of tls')) by (intros f Hf; unfold factors_of; apply in_concat; exists (concat tl); split; [now apply in_map|exact Hf]).
  assert (Hs := fun f Hf => ready_both act tls tls' _ _ _ _ _ _ _ _ R1 R2 f (F1 f Hf) (F2 f Hf)).
  destruct (design_same num1 num2 (contrast_for code_cm cat1) (contrast_for code_cm cat2) (py_hash w) (py_hash w) fis1 fis2 tl d1) as [d2 [E2 An]]; auto.
  - intros f Hf. now apply Hs.
  - intros f b Hf _. unfold contrast_for. destruct (Hs f Hf) as [_ [-> _]]. reflexivity.
  - intros f Hf. destruct (Hs f Hf) as [_ [_ [fi1 [fi2 [s [lv [X1 [X2 [X3 _]]]]]]]]]. unfold PipeSeedProofs.alike. rewrite X1, X2. cbn. now rewrite X3.
  - exists d2. split; [exact E2|]. split; [exact An|]. cbn [ds_info ds_known].
    eapply forall2_impl; [|exact (f2_in _ _ _ (infos_pairs _ _ (proj1 (infos_anon _ _ An))))]. intros [f fi1] [g fi2] [[Efg _] [Hi1 Hi2]]. cbn in Efg. subst g. cbn [snd].
    destruct (design_for_infos _ _ _ _ _ _ Ed f fi1 Hi1) as [G1 G2]. destruct (design_for_infos _ _ _ _ _ _ E2 f fi2 Hi2) as [_ G3].
    destruct (Hs f G1) as [_ [_ [a1 [a2 [s [lv [X1 [X2 [_ [X3 X4]]]]]]]]]]. rewrite G2 in X1. injection X1 as <-. rewrite G3 in X2. injection X2 as <-. congruence.
Qed.

Lemma apart_builders na tls js ds : lawful tls w -> builders data na tls = Ok ds ->
  exists ds', builders data na (pick tls js) = Ok ds' /\ Forall2 same_design (pick ds js) ds'.
Proof.
  intros L. pose proof L as [A1 [A2 [A3 _]]]. rewrite !builders_prepare. destruct (get_action na) as [act|]; cbn [bind]; [|discriminate].
  destruct (prepare data act tls) as [[[[num1 cat1] fis1] kn1]|] eqn:E1; cbn [bind]; [|discriminate].
  pose proof (prepare_inv _ _ _ _ _ _ _ _ _ _ A1 A2 A3 _ _ _ _ _ _ _ E1) as R1.
  pose proof (factors_sub tls (pick tls js) (pick_sub tls js)) as Hsub.
  destruct (prepare_ok passes chunk finish eval origin_of (py_set_order w) (py_order_mem w) (py_order_exam w) (py_addr w) (py_hash_order w) A1 A2 A3 data act (pick tls js)) as [[[[num2 cat2] fis2] kn2] E2].
  { intros f Hf. destruct R1 as [_ R1]. destruct (R1 f (Hsub f Hf)) as [fi1 [s1 [k1 [lv1 [c1 [X _]]]]]]. exists s1, k1, lv1, c1. eapply learned_others, X. }
  pose proof (prepare_inv _ _ _ _ _ _ _ _ _ _ A1 A2 A3 _ _ _ _ _ _ _ E2) as R2. rewrite E2. cbn [bind].
  destruct (mapM (design_for num1 (contrast_for code_cm cat1) (py_hash w) fis1) tls) as [dis1|] eqn:Ed1; cbn [bind]; [|discriminate]. intros [= <-].
  apply mapM_ok_Forall2 in Ed1. apply (pick_f2 _ _ _ js) in Ed1. rewrite pick_map.
  assert (G : forall tls1 dis, incl tls1 (pick tls js) -> Forall2 (fun tl d => design_for num1 (contrast_for code_cm cat1) (py_hash w) fis1 tl = Ok d) tls1 dis ->
    exists dis2, mapM (design_for num2 (contrast_for code_cm cat2) (py_hash w) fis2) tls1 = Ok dis2 /\ Forall2 same_design (map (fun d => mkDesign d kn1) dis) (map (fun d => mkDesign d kn2) dis2)).
  { intros tls1 dis Hi F. induction F as [|tl d tls1 dis E F IH]; [exists []; split; [reflexivity|constructor]|].
    destruct IH as [dis2 [M2 F2]]; [intros x Hx; apply Hi; now right|].
    destruct (design_both act tls (pick tls js) num1 cat1 fis1 kn1 num2 cat2 fis2 kn2 tl d L R1 R2 (pick_sub _ _ _ (Hi tl (or_introl eq_refl))) (Hi tl (or_introl eq_refl)) E) as [d2 [E' S2]].
    exists (d2 :: dis2). cbn [mapM]. rewrite E', M2. split; [reflexivity|]. cbn [map]. now constructor. }
  destruct (G (pick tls js) (pick dis1 js) (incl_refl _) Ed1) as [dis2 [-> F2]]. cbn [bind]. eexists. split; [reflexivity|exact F2].
Qed.

Lemma together_builders na tls : lawful tls w -> tls <> [] -> (forall tl, In tl tls -> exists ds, builders data na [tl] = Ok ds) -> exists ds, builders data na tls = Ok ds.
Proof.
  intros L Hne H. pose proof L as [A1 [A2 [A3 _]]]. rewrite builders_prepare.
  assert (Ha : exists act, get_action na = Ok act).
  { destruct tls as [|tl tls]; [contradiction|]. destruct (H tl (or_introl eq_refl)) as [ds E]. rewrite builders_prepare in E. destruct (get_action na); [eauto|discriminate]. }
  destruct Ha as [act Ha].
  assert (P : forall tl, In tl tls -> exists num cat fis kn d, ready data act [tl] num cat fis kn /\ design_for num (contrast_for code_cm cat) (py_hash w) fis tl = Ok d).
  { intros tl Ht. destruct (H tl Ht) as [ds E]. rewrite builders_prepare, Ha in E. cbn [bind] in E. destruct (prepare data act [tl]) as [[[[num cat] fis] kn]|] eqn:Ep; cbn [bind] in E; [|discriminate].
    pose proof (prepare_inv _ _ _ _ _ _ _ _ _ _ A1 A2 A3 _ _ _ _ _ _ _ Ep) as R. cbn [mapM] in E. destruct (design_for num (contrast_for code_cm cat) (py_hash w) fis tl) as [d|] eqn:Ed; cbn [bind] in E; [|discriminate].
    exists num, cat, fis, kn, d. auto. }
  rewrite Ha. cbn [bind].
  destruct (prepare_ok passes chunk finish eval origin_of (py_set_order w) (py_order_mem w) (py_order_exam w) (py_addr w) (py_hash_order w) A1 A2 A3 data act tls) as [[[[num2 cat2] fis2] kn2] E2].
  { intros f Hf. unfold factors_of in Hf. apply in_concat in Hf. destruct Hf as [l [Hl Hf]]. apply in_map_iff in Hl. destruct Hl as [tl [<- Ht]].
    destruct (P tl Ht) as [num [cat [fis [kn [d [[_ R] _]]]]]]. destruct (R f) as [fi1 [s1 [k1 [lv1 [c1 [X _]]]]]]; [unfold factors_of; cbn; now rewrite app_nil_r|]. exists s1, k1, lv1, c1. eapply learned_others, X. }
  pose proof (prepare_inv _ _ _ _ _ _ _ _ _ _ A1 A2 A3 _ _ _ _ _ _ _ E2) as R2. rewrite E2. cbn [bind].
  assert (G : forall tls1, incl tls1 tls -> exists dis, mapM (design_for num2 (contrast_for code_cm cat2) (py_hash w) fis2) tls1 = Ok dis).
  { induction tls1 as [|tl tls1 IH]; intros Hi; [exists []; reflexivity|]. destruct IH as [dis M]; [intros x Hx; apply Hi; now right|]. pose proof (Hi tl (or_introl eq_refl)) as Ht.
    destruct (P tl Ht) as [num [cat [fis [kn [d [R Ed]]]]]].
    assert (L1 : lawful [tl] w) by (apply (lawful_sub tls); [intros x [<-|[]]; exact Ht|exact L]).
    destruct (design_both act [tl] tls num cat fis kn num2 cat2 fis2 kn2 tl d L1 R R2 (or_introl eq_refl) Ht Ed) as [d2 [E' _]].
    exists (d2 :: dis). cbn [mapM]. now rewrite E', M. }
  destruct (G tls (incl_refl _)) as [dis ->]. cbn [bind]. eauto.
Qed.

(** * Matrices *)
Hypothesis Htidy : forall f s d o, eval f s d = Ok o -> PipeErrSpec.tidy o.
Hypothesis Hcm : forall levels c full m, code_cm levels c full = Ok m -> forall row, In row (ct_rows m) -> length row = ct_ncols m.

Lemma kept_sub act (es es' : list (@evaluated V I)) n : incl es' es -> incl (kept act es n) (kept act es' n).
Proof.
  intros H k. unfold kept. destruct act; [|auto]. rewrite !filter_In. intros [A B]. split; [exact A|]. apply negb_true_iff in B. apply negb_true_iff. unfold missing_in in *.
  destruct (existsb _ es') eqn:E; [|reflexivity]. exfalso. apply existsb_exists in E. destruct E as [e [X Y]].
  assert (existsb (fun e : @evaluated V I => nth k (ev_isna e) false) es = true); [apply existsb_exists; exists e; auto|congruence].
Qed.


Lemma codes_rows (v : @value C) levels na org codes : categorical_to_int v levels na org = Ok codes -> length codes = match v with Boxed d _ _ | Plain d => data_rows d end.
Proof.
  intros H. assert (Sc : forall b x, code_data levels na org (DScalar b x) = Ok codes -> length codes = 1).
  { intros b x. unfold code_data. destruct (shape_fix (DScalar b x)) as [vals|] eqn:E; cbn [bind]; [|discriminate]. pose proof (shape_length _ _ E) as L. destruct (negb _); [discriminate|]. cbv zeta.
    intros M. apply mapM_len in M. cbn in L. congruence. }
  destruct v as [d c l|d]; destruct d; try (eapply (codes_arranged levels na org []) in H; [exact (proj2 H)|solve [constructor; first [apply (da_seq _ _ true)|constructor]]]).
  - destruct l as [l|]; [|eapply Sc, H]. match type of H with categorical_to_int (Boxed ?d _ _) _ _ _ = _ => change ((if tuple_eqb l levels then code_data levels na org d else Err (PatsyError "mismatching levels" org)) = Ok codes) in H end.
    destruct (tuple_eqb l levels); [|discriminate]. eapply Sc, H.
  - eapply Sc, H.
Qed.
Lemma info_rows kn na d fi e : eval_info kn na d fi = Ok e ->
  exists s c o, dget Nat.eqb (fi_id fi) kn = Some (s, c) /\ eval (fi_factor fi) s d = Ok o /\ vrows (ev_value e) = value_rows (fi_kind fi) o /\ ev_index e = o_index o.
Proof.
  unfold PipeModel.eval_info. destruct (dget Nat.eqb (fi_id fi) kn) as [[s c]|]; cbn [lookup bind]; [|discriminate].
  destruct (eval (fi_factor fi) s d) as [o|] eqn:Eo; cbn [bind]; [|discriminate]. destruct (fi_kind fi) as [n|n] eqn:Ek; cbn [bind].
  - unfold eval_factor. rewrite Ek. destruct (Nat.ltb 2 (o_ndim o)); [discriminate|]. destruct (negb (Nat.eqb _ _)); [discriminate|]. destruct (negb (o_isnum o)); [destruct (o_index o); discriminate|].
    intros [= <-]. exists s, c, o. cbn. auto.
  - destruct (categorical_to_int (o_value o) c na (origin_of (fi_factor fi))) as [codes|] eqn:Ec; cbn [bind]; [|discriminate]. unfold eval_factor. rewrite Ek. intros [= <-]. exists s, c, o. pose proof (codes_rows _ _ _ _ _ Ec). cbn. auto.
Qed.
Lemma evals_sub (ev ev' : finfo -> result (@evaluated V I)) l l' : incl l' l -> (forall fi, In fi l' -> ev' fi = ev fi) -> incl (evals ev' l') (evals ev l).
Proof. intros Hi He e H. unfold evals in *. apply in_flat_map in H. destruct H as [fi [Hfi H]]. apply in_flat_map. exists fi. rewrite <- He by exact Hfi. auto. Qed.

Lemma apart_build na tls js ds d na' want n r : lawful tls w -> builders data na tls = Ok ds -> (factors_in (pick ds js) <> [] \/ df_index d <> None) ->
  has_rows eval df_index ds d n -> build ds d na' want = Ok r ->
  exists act r' rows, get_action na' = Ok act /\ build (pick ds js) d na' want = Ok r' /\
    positions (staying eval visnan origin_of act (pick ds js) d n) (staying eval visnan origin_of act ds d n) rows /\
    Forall2 (fun m m' => m_rows m = length rows /\ m_rows m' = length (staying eval visnan origin_of act (pick ds js) d n) /\ m_cols m = map (fun col => pick col rows) (m_cols m')) (pick (fst r) js) (fst r') /\
    (labelled eval df_index (pick ds js) d -> snd r = option_map (fun l => pick l rows) (snd r')).
Proof.
  intros L Eb Hsome [Hr1 Hr2] Hb. pose proof L as [A1 [A2 [A3 _]]]. destruct r as [ms labels].
  set (us := pick ds js) in *. assert (Hu : incl us ds) by apply pick_sub.
  assert (Hok : designs_ok ds) by (eapply (used_ok _ _ _ _ _ _ _ _ _ _ _ _ A1 A2 A3), incl_refl; exact Eb).
  assert (Huk : designs_ok us) by (eapply (used_ok _ _ _ _ _ _ _ _ _ _ _ _ A1 A2 A3); [exact Eb|exact Hu]).
  destruct (build_built vone vmul visnan ilabel ieqb ieqb_eq eval origin_of df_index Hidx ds d na' want ms labels Hok Hb) as [act [Ha [B Hf]]].
  set (ev := eval_info (concat (map ds_known ds)) (na_what act) d) in *. set (ev' := eval_info (concat (map ds_known us)) (na_what act) d).
  set (fis := all_infos (map ds_info ds)) in *. set (fis' := all_infos (map ds_info us)).
  assert (Hfi : incl fis' fis).
  { intros fi H. unfold fis', fis, all_infos in *. apply in_flat_map in H. destruct H as [x [H1 H2]]. apply in_flat_map. exists x. split; [|exact H2]. apply in_map_iff in H1. destruct H1 as [y [<- Hy]]. apply in_map, Hu, Hy. }
  destruct (get_action na) as [act0|] eqn:Ena; [|rewrite builders_prepare, Ena in Eb; discriminate].
  assert (Kn : forall fi, In fi fis' -> dget Nat.eqb (fi_id fi) (concat (map ds_known us)) = dget Nat.eqb (fi_id fi) (concat (map ds_known ds))).
  { intros fi H.
    destruct (info_learned _ _ _ _ _ _ _ _ _ _ _ _ A1 A2 A3 data na tls ds us act0 Eb Hu Ena fi H) as [_ [s [lv [c [L1 K1]]]]].
    destruct (info_learned _ _ _ _ _ _ _ _ _ _ _ _ A1 A2 A3 data na tls ds ds act0 Eb (incl_refl _) Ena fi (Hfi fi H)) as [_ [s2 [lv2 [c2 [L2 K2]]]]].
    rewrite K1, K2. destruct (learned_det _ _ _ _ _ _ _ _ _ _ _ _ _ _ _ _ _ _ L1 L2) as [-> [_ [-> _]]]. reflexivity. }
  assert (Ev : forall fi, In fi fis' -> ev' fi = ev fi) by (intros fi H; unfold ev, ev', PipeModel.eval_info; now rewrite (Kn fi H)).
  pose proof (evals_sub ev ev' fis fis' Hfi Ev) as Hes.
  unfold built in B. cbn zeta in B. fold fis in B. destruct B as [n0 [full [B1 [B2 [B3 [B4 [B5 B6]]]]]]].
  assert (In_es : forall e, In e (evals ev fis) -> exists fi, In fi fis /\ ev fi = Ok e).
  { intros e He. unfold evals in He. apply in_flat_map in He. destruct He as [fi [H1 He]]. exists fi. split; [exact H1|]. destruct (ev fi); [|destruct He]. destruct He as [->|[]]. reflexivity. }
  assert (Hne : evals ev' fis' <> [] \/ df_index d <> None).
  { destruct Hsome as [H|H]; [left|now right]. unfold factors_in in H. intros E. apply H. clear H.
    assert (Z : fis' = []).
    { destruct fis' as [|fi l] eqn:Ef; [reflexivity|]. exfalso. unfold evals in E. cbn [flat_map] in E. rewrite (Ev fi (or_introl eq_refl)) in E. destruct (Hf fi (Hfi fi (or_introl eq_refl))) as [e [X _]]. rewrite X in E. discriminate. }
    unfold fis', all_infos in Z. clear - Z. induction us as [|x us IH]; [reflexivity|]. cbn [map flat_map] in *. apply app_eq_nil in Z. destruct Z as [Z1 Z2]. rewrite (IH Z2), app_nil_r. destruct (infos_of (ds_info x)); [reflexivity|discriminate]. }
  assert (n0 = n) as ->.
  { destruct (df_index d) as [i|] eqn:Ed; [rewrite <- (proj1 B1 i eq_refl); now apply Hr1|]. destruct Hne as [Hne|Hne]; [|contradiction]. destruct (evals ev' fis') as [|e es] eqn:Ee; [contradiction|].
    assert (He : In e (evals ev fis)) by (apply Hes; now left). destruct (In_es e He) as [fi [H1 H2]]. destruct (info_rows _ _ _ _ _ H2) as [s [c [o [G1 [G2 [G3 _]]]]]].
    rewrite <- (proj2 B1 e He), G3. apply Hr2. split; [exact H1|eauto]. }
  assert (Hc' : Forall constructed (map ds_info us)) by (rewrite Forall_map; apply Huk).
  assert (Hf' : forall fi, In fi fis' -> exists e, ev' fi = Ok e /\ fits fi e) by (intros fi H; rewrite (Ev fi H); apply Hf, Hfi, H).
  assert (Lab : (exists i, df_index d = Some i) \/ (exists e i, In e (evals ev' fis') /\ ev_index e = Some i) \/ df_index d = None /\ forall e, In e (evals ev' fis') -> ev_index e = None).
  { destruct (df_index d) as [i|]; [left; eauto|right]. generalize (evals ev' fis'). clear. intros es. induction es as [|e es IH]; [right; split; [reflexivity|intros e []]|].
    destruct (ev_index e) as [i|] eqn:Ei; [left; exists e, i; split; [now left|exact Ei]|]. destruct IH as [[e' [i [X Y]]]|[X Y]]; [left; exists e', i; split; [now right|exact Y]|right; split; [exact X|]]. intros e' [<-|He']; auto. }
  assert (Full : exists full', labels_are ilabel (df_index d) (evals ev' fis') n full' /\ (labelled eval df_index us d -> full' = full)).
  { destruct B2 as [C1 [C2 C3]]. destruct Lab as [[i Ei]|[[e [i [He Ei]]]|[X Y]]].
    - exists full. split; [|reflexivity]. split; [exact C1|]. split; [intros e j He; apply C2, Hes, He|]. intros Z. congruence.
    - exists full. split; [|reflexivity]. split; [exact C1|]. split; [intros e' j He'; apply C2, Hes, He'|]. intros _ Z. specialize (Z e He). congruence.
    - exists (map ilabel (seq 0 n)). split; [split; [intros i; congruence|split; [intros e i He; rewrite (Y e He); discriminate|reflexivity]]|].
      intros [[i Z]|[fi [o [i [[Z1 [s [c [Z2 Z3]]]] Z4]]]]]; [congruence|]. exfalso. destruct (Hf' fi Z1) as [e [Ee _]]. destruct (info_rows _ _ _ _ _ Ee) as [s' [c' [o' [G1 [G2 [_ G4]]]]]].
      rewrite Z2 in G1. injection G1 as <- <-. rewrite Z3 in G2. injection G2 as <-. assert (In e (evals ev' fis')); [|rewrite (Y e H) in G4; congruence].
      unfold evals. apply in_flat_map. exists fi. split; [exact Z1|]. rewrite Ee. now left. }
  destruct Full as [full' [Fl Fe]].
  assert (Rw : rows_are (df_index d) (evals ev' fis') n) by (split; [apply B1|intros e He; apply (proj2 B1), Hes, He]).
  destruct (proj2 (succeeds_iff vone vmul visnan ilabel ieqb origin_of ieqb_eq ev' (df_index d) (map ds_info us) Hc' (proj2 Huk) Hf' (na_on act) want
     (used_proper _ _ _ _ _ _ _ _ _ _ _ _ A1 A2 A3 Hcm data na tls ds us Eb Hu)
     (fun fi e H He => proj1 (proj2 (info_ok visnan _ _ _ _ _ _ _ _ _ _ _ _ A1 A2 A3 Hidx Htidy data na tls ds us act0 Eb Hu Ena (na_what act) d fi e H He))))) as [[ms' labels'] Er'].
  { exists n, full'. split; [exact Rw|]. split; [exact Fl|]. split.
    - intros X k Hk. specialize (B3 X k Hk). unfold missing_in in *. destruct (existsb _ (evals ev' _)) eqn:E; [|reflexivity]. exfalso. apply existsb_exists in E. destruct E as [e [E1 E2]].
      assert (existsb (fun e : @evaluated V I => nth k (ev_isna e) false) (evals ev fis) = true); [apply existsb_exists; exists e; split; [apply Hes, E1|exact E2]|congruence].
    - intros X Y. exfalso. destruct Hne as [Hne|Hne]; [apply Hne, X|apply Hne, Y]. }
  exists act, (ms', labels').
  pose proof (kept_sub (na_on act) _ _ n Hes) as Hkk. destruct (positions_exist _ _ Hkk) as [rows Hrows]. exists rows.
  split; [exact Ha|]. split; [unfold PipeModel.build; rewrite Ha; exact Er'|]. rewrite <- !staying_kept. fold ev ev' fis fis'. split; [exact Hrows|].
  apply (proj1 (build_iff vone vmul ieqb origin_of ieqb_eq ev' (df_index d) ilabel (map ds_info us) Hc' (proj2 Huk) Hf' (na_on act) want ms' labels')) in Er'.
  unfold built in Er'. cbn zeta in Er'. fold fis' in Er'. destruct Er' as [n1 [full1 [D1 [D2 [_ [_ [D5 D6]]]]]]].
  assert (n1 = n) as ->.
  { destruct (df_index d) as [i|] eqn:Ed; [rewrite <- (proj1 D1 i eq_refl); now apply Hr1|]. destruct Hne as [Hne|Hne]; [|contradiction]. destruct (evals ev' fis') as [|e es]; [contradiction|].
    rewrite <- (proj2 D1 e (or_introl eq_refl)). apply (proj2 Rw). now left. }
  cbn [fst snd]. split.
  - apply (pick_f2 _ _ _ js) in B5. rewrite pick_map in B5. fold us in B5.
    assert (Hin : forall x, In x (map ds_info us) -> forall f fi, dget String.eqb f (infos_of x) = Some fi -> ev' fi = ev fi).
    { intros x Hx f fi E. apply Ev. apply in_flat_map. exists x. split; [exact Hx|]. apply dget_in in E. destruct E as [k [E _]]. apply in_map_iff. exists (k, fi). auto. }
    clear - B5 D5 Hrows Hin. revert B5. generalize (pick ms js). clearbody ev ev'. clear ms.
    assert (Lr : length (kept (na_on act) (evals ev fis) n) = length rows) by (eapply forall2_len, Hrows).
    revert Hrows Lr D5. generalize (kept (na_on act) (evals ev fis) n) (kept (na_on act) (evals ev' fis') n). intros kp kp' Hrows Lr D5.
    induction D5 as [|x m' xs ms' [M1 M2] F IH]; intros ms B5; inversion B5 as [|? m ? ms0 [N1 N2] F2]; subst; constructor; [|apply IH; auto; intros z Hz; apply Hin; now right].
    split; [congruence|]. split; [exact M1|]. specialize (Hin x (or_introl eq_refl)). clear - Hrows M2 N2 Hin.
    revert N2. generalize (m_cols m). induction M2 as [|id col' ids cols' E' F' IH]; intros cols N2; inversion N2 as [|? col ? cols0 E F]; subst; [reflexivity|]. cbn [map]. rewrite <- (IH _ F). f_equal.
    apply (f_equal (fun l => pick l rows)) in E'. rewrite !pick_map, (positions_pick _ _ _ Hrows) in E'.
    assert (X : map Some col = map Some (pick col' rows)).
    { rewrite E, E'. apply map_ext. intros k. apply entry_ext. intros f _. unfold values_in. destruct (dget String.eqb f (infos_of x)) as [fi|] eqn:Ef; [|reflexivity]. now rewrite (Hin f fi Ef). }
    clear - X. revert X. generalize (pick col' rows). induction col as [|a col IH]; intros [|b l]; cbn; try discriminate; [reflexivity|]. intros [= -> H]. f_equal. now apply IH.
  - intros Hl. destruct want; [|subst; reflexivity].
    destruct B6 as [[X [Y _]]|[_ ->]]; [exfalso; destruct Hne as [Hne|Hne]; [|contradiction]; apply Hne; destruct (evals ev' fis') as [|e es]; [reflexivity|]; specialize (Hes e (or_introl eq_refl)); rewrite X in Hes; destruct Hes|].
    destruct D6 as [[X [Y _]]|[_ ->]]; [exfalso; destruct Hne as [Hne|Hne]; contradiction|]. cbn [option_map]. f_equal.
    assert (full1 = full) as ->.
    { destruct Lab as [[i Ei]|[[e [i [He Ei]]]|[X Y]]].
      - rewrite <- (proj1 D2 i Ei). now apply (proj1 B2).
      - rewrite <- (proj1 (proj2 D2) e i He Ei). apply (proj1 (proj2 B2) e i (Hes e He) Ei).
      - destruct D2 as [_ [_ D3]]. rewrite (D3 X Y). rewrite <- (Fe Hl). symmetry. now apply (proj2 (proj2 Fl)). }
    rewrite <- (positions_pick _ _ _ Hrows) at 1. symmetry.
    assert (Ll : length full = n).
    { eapply PipeHighProofs.full_length with (fis := fis); [exact B1|exact B2|]. intros e He. destruct (In_es e He) as [fi [H1 E]]. exists fi. split; [exact H1|]. destruct (Hf fi H1) as [e' [E' F]]. assert (e' = e) by congruence. now subst. }
    apply pick_pick. intros k Hk. rewrite Ll. eapply kept_lt, Hk.
Qed.

(** The designs made apart do the same. *)
Lemma picked_values na tls js ds ds' : lawful tls w -> builders data na tls = Ok ds -> builders data na (pick tls js) = Ok ds' -> Forall2 same_design (pick ds js) ds' ->
  Forall2 (values_same (concat (map ds_known (pick ds js))) (concat (map ds_known ds'))) (pick ds js) ds'.
Proof.
  intros L Eb Eb' F. pose proof L as [A1 [A2 [A3 _]]].
  destruct (get_action na) as [act0|] eqn:Ena; [|rewrite builders_prepare, Ena in Eb; discriminate].
  destruct (builders_good _ _ _ _ _ _ _ _ _ _ _ _ A1 A2 A3 _ _ _ _ Eb) as [_ [_ [_ [act1 [_ G1]]]]].
  destruct (builders_good _ _ _ _ _ _ _ _ _ _ _ _ A1 A2 A3 _ _ _ _ Eb') as [_ [_ [_ [act2 [_ G2]]]]].
  assert (Kn : forall us (all : list (@design V S)) x v fi, In x us -> incl us all -> (forall y, In y all -> knows y fi (fst v) (snd v)) -> dget Nat.eqb (fi_id fi) (concat (map ds_known us)) = Some v /\ dget Nat.eqb (fi_id fi) (ds_known x) = Some v).
  { intros us all x [s lv] fi Hx Hi Hk. split; [|apply Hk, Hi, Hx]. destruct us as [|u us]; [destruct Hx|]. cbn [map concat]. apply get_known, Hk, Hi. now left. }
  eapply forall2_impl; [|exact (f2_in _ _ _ F)]. intros x y [[S1 S2] [Hx Hy]]. split; [exact S1|].
  eapply forall2_impl; [|exact (f2_in _ _ _ S2)]. intros [f fi] [g gi] [E [I1 I2]]. cbn [snd] in *.
  destruct (G1 x (pick_sub _ _ _ Hx) f fi I1) as [_ [_ [s1 [lv1 [c1 [_ Kn1]]]]]]. destruct (G2 y Hy g gi I2) as [_ [_ [s2 [lv2 [c2 [_ Kn2]]]]]].
  destruct (Kn (pick ds js) ds x (s1, lv1) fi Hx (pick_sub _ _) Kn1) as [X1 X2]. destruct (Kn ds' ds' y (s2, lv2) gi Hy (incl_refl _) Kn2) as [Y1 Y2]. congruence.
Qed.
Lemma values_pairs k1 k2 (ds1 ds2 : list (@design V S)) : Forall2 (values_same k1 k2) ds1 ds2 ->
  Forall2 (fun a b => anon_info a = anon_info b /\ dget Nat.eqb (fi_id a) k1 = dget Nat.eqb (fi_id b) k2) (all_infos (map ds_info ds1)) (all_infos (map ds_info ds2)) /\ factors_in ds1 = factors_in ds2.
Proof.
  intros F. unfold all_infos, factors_in. induction F as [|x y ds1 ds2 [H1 H2] F [IH1 IH2]]; cbn [map flat_map]; [split; [constructor|reflexivity]|].
  pose proof (infos_pairs _ _ (proj1 (infos_anon _ _ H1))) as P. split.
  - apply Forall2_app; [|exact IH1]. pose proof (f2_and _ _ _ _ H2 P) as Q. clear - Q. induction Q as [|p q l m [A [_ B]] F IH]; cbn [map]; constructor; auto.
  - rewrite IH2. f_equal. clear - P. induction P as [|p q l m [A _] F IH]; cbn [map]; [reflexivity|now rewrite A, IH].
Qed.
Lemma values_staying ds1 ds2 act d n : Forall2 (values_same (concat (map ds_known ds1)) (concat (map ds_known ds2))) ds1 ds2 ->
  staying eval visnan origin_of act ds1 d n = staying eval visnan origin_of act ds2 d n /\ (labelled eval df_index ds2 d -> labelled eval df_index ds1 d).
Proof.
  intros F. destruct (values_pairs _ _ _ _ F) as [P _]. split.
  - unfold staying. destruct (na_on act); [|reflexivity]. apply filter_ext. intros k.
    revert P. generalize (all_infos (map ds_info ds1)) (all_infos (map ds_info ds2)). intros l m P.
    induction P as [|a b l m [A B] P IH]; [reflexivity|]. cbn [forallb]. rewrite IH, (eval_info_same visnan eval origin_of _ _ (na_what act) d a b A B). reflexivity.
  - intros [H|[fi [o [i [[Hfi [s [c [H1 H2]]]] H3]]]]]; [now left|right].
    destruct (Forall2_in_r _ _ _ P fi Hfi) as [fi1 [Hin [A B]]]. exists fi1, o, i. split; [|exact H3]. split; [exact Hin|]. exists s, c. split; [congruence|]. destruct fi1, fi. injection A as -> ->. exact H2.
Qed.
Lemma apart_matrices na tls js ds d na' want n r : lawful tls w -> builders data na tls = Ok ds -> (factors_of (pick tls js) <> [] \/ df_index d <> None) ->
  has_rows eval df_index ds d n -> build ds d na' want = Ok r ->
  exists ds' act r' rows, builders data na (pick tls js) = Ok ds' /\ get_action na' = Ok act /\ build ds' d na' want = Ok r' /\
    positions (staying eval visnan origin_of act ds' d n) (staying eval visnan origin_of act ds d n) rows /\
    Forall2 (fun m m' => m_rows m = length rows /\ m_rows m' = length (staying eval visnan origin_of act ds' d n) /\ m_cols m = map (fun col => pick col rows) (m_cols m')) (pick (fst r) js) (fst r') /\
    (labelled eval df_index ds' d -> snd r = option_map (fun l => pick l rows) (snd r')).
Proof.
  intros L Eb Hsome Hr Hb. pose proof L as [A1 [A2 [A3 _]]]. destruct (apart_builders na tls js ds L Eb) as [ds' [Eb' F]]. pose proof (picked_values na tls js ds ds' L Eb Eb' F) as Fv.
  assert (Hs' : factors_in (pick ds js) <> [] \/ df_index d <> None).
  { destruct Hsome as [H|H]; [left|now right]. rewrite (proj2 (values_pairs _ _ _ _ Fv)). intros E. apply H. clear H.
    destruct (factors_of (pick tls js)) as [|f fs] eqn:Ef; [reflexivity|]. exfalso.
    assert (Hin : In f (factors_in ds')) by (apply (builders_factors _ _ _ _ _ _ _ _ _ _ _ _ A1 A2 A3 _ _ _ _ Eb'); rewrite Ef; now left). rewrite E in Hin. destruct Hin. }
  destruct (apart_build na tls js ds d na' want n r L Eb Hs' Hr Hb) as [act [r' [rows [Ha [Er' [P1 [P2 P3]]]]]]].
  destruct (values_staying _ _ act d n Fv) as [V1 V2]. exists ds', act, r', rows. split; [exact Eb'|]. split; [exact Ha|].
  assert (O1 : designs_ok (pick ds js)) by (eapply (used_ok _ _ _ _ _ _ _ _ _ _ _ _ A1 A2 A3); [exact Eb|apply pick_sub]).
  assert (O2 : designs_ok ds') by (eapply (used_ok _ _ _ _ _ _ _ _ _ _ _ _ A1 A2 A3); [exact Eb'|apply incl_refl]).
  split; [destruct r' as [ms' labels']; now apply (build_same vone vmul visnan ilabel ieqb ieqb_eq eval origin_of df_index Hidx _ _ d na' want ms' labels' O1 O2 Fv)|].
  rewrite <- V1. split; [exact P1|]. split; [exact P2|]. intros Hl. apply P3, V2, Hl.
Qed.

(** A design without terms. *)
Lemma nothing_design num (cm : factor -> bool -> result (@ctr V)) hash fis : exists d, design_for num cm hash fis [] = Ok d.
Proof. eexists. vm_compute. reflexivity. Qed.
Lemma nothing_builders na ds tls : lawful tls w -> builders data na tls = Ok ds -> exists ds', builders data na [[]] = Ok ds'.
Proof.
  intros [A1 [A2 [A3 _]]] Eb. rewrite builders_prepare in Eb. rewrite builders_prepare. destruct (get_action na) as [act|]; cbn [bind] in *; [|discriminate].
  destruct (prepare_ok passes chunk finish eval origin_of (py_set_order w) (py_order_mem w) (py_order_exam w) (py_addr w) (py_hash_order w) A1 A2 A3 data act [[]]) as [[[[num cat] fis] kn] E]; [intros f []|].
  rewrite E. cbn [bind mapM]. destruct (nothing_design num (contrast_for code_cm cat) (py_hash w) fis) as [d ->]. cbn [bind]. eauto.
Qed.
(** It does not matter for the others. *)
Lemma add_nothing (e : @design V S) x d na want r : designs_ok [e; x] -> ds_known e = ds_known x -> infos_of (ds_info e) = [] -> columns_of (infos_of (ds_info e)) (codings_of (ds_info e)) = [] ->
  build [x] d na want = Ok r -> exists m m', fst r = [m] /\ build [e; x] d na want = Ok ([m'; m], snd r).
Proof.
  intros Hok Hk Hi Hc Hb. destruct r as [ms labels].
  assert (Hx : designs_ok [x]).
  { destruct Hok as [C1 C2]. inversion C1; subst. split; [assumption|]. intros a b Ha Hb'. apply C2; unfold all_infos in *; cbn [map flat_map] in *; rewrite Hi; assumption. }
  destruct (build_built vone vmul visnan ilabel ieqb ieqb_eq eval origin_of df_index Hidx [x] d na want ms labels Hx Hb) as [act [Ha [B Hf]]].
  set (ev := eval_info (concat (map ds_known [x])) (na_what act) d) in *. set (ev' := eval_info (concat (map ds_known [e; x])) (na_what act) d).
  assert (Ai : all_infos (map ds_info [e; x]) = all_infos (map ds_info [x])) by (unfold all_infos; cbn [map flat_map]; now rewrite Hi).
  assert (Ev : forall fi, In fi (all_infos (map ds_info [x])) -> ev' fi = ev fi).
  { intros fi H. destruct (Hf fi H) as [v [Ev _]]. unfold ev, ev', PipeModel.eval_info in *. cbn [map concat] in *. rewrite Hk, app_nil_r in *. destruct (dget Nat.eqb (fi_id fi) (ds_known x)) as [[s c]|] eqn:E; [|discriminate].
    now rewrite (get_known _ _ _ s c E). }
  assert (Es : evals ev' (all_infos (map ds_info [x])) = evals ev (all_infos (map ds_info [x]))) by (unfold evals; apply PipeHighProofs.flat_map_ext_in; intros fi H; now rewrite (Ev fi H)).
  unfold built in B. cbn zeta in B. destruct B as [n [full [B1 [B2 [B3 [B4 [B5 B6]]]]]]].
  inversion B5 as [|? m ? ms0 M F]; subst. inversion F; subst. clear B5 F.
  exists m, (mkMat (length (kept (na_on act) (evals ev (all_infos (map ds_info [x]))) n)) []). split; [reflexivity|]. cbn [snd].
  unfold PipeModel.build. rewrite Ha. cbn [bind]. fold ev'.
  assert (Hc' : Forall constructed (map ds_info [e; x])) by (rewrite Forall_map; apply Hok).
  refine (proj2 (build_iff vone vmul ieqb origin_of ieqb_eq _ _ ilabel _ Hc' (proj2 Hok) _ _ _ _ _) _).
  - intros fi H. rewrite Ai in H. rewrite (Ev fi H). now apply Hf.
  - unfold built. cbn zeta. rewrite Ai, Es. exists n, full. split; [exact B1|]. split; [exact B2|]. split; [exact B3|]. split; [intros X Y; discriminate (B4 X Y)|]. split; [|exact B6].
    constructor; [split; [reflexivity|rewrite Hc; constructor]|]. constructor; [|constructor]. cbn [map] in *. destruct M as [M1 M2]. split; [exact M1|].
    eapply forall2_impl; [|exact M2]. intros id col E. cbn in E. rewrite E. apply map_ext. intros k. apply entry_ext. intros f _. unfold values_in. destruct (dget String.eqb f (infos_of (ds_info x))) as [fi|] eqn:Ef; [|reflexivity].
    rewrite (Ev fi); [reflexivity|]. unfold all_infos. cbn [map flat_map]. rewrite app_nil_r. apply dget_in in Ef. destruct Ef as [k' [Ef _]]. apply in_map_iff. now exists (k', fi).
Qed.

Lemma same_design_sym (a b : @design V S) : same_design a b -> same_design b a.
Proof. intros [H1 H2]. split; [now symmetry|]. clear H1. induction H2; constructor; auto. Qed.
Lemma same_design_trans (a b c : @design V S) : same_design a b -> same_design b c -> same_design a c.
Proof.
  intros [H1 H2] [G1 G2]. split; [congruence|]. clear H1 G1. revert G2. generalize (infos_of (ds_info c)). induction H2 as [|p q l m E F IH]; intros n G2; inversion G2; subst; constructor; [congruence|auto].
Qed.
(** The right-hand side alone. *)
Lemma right_alone na L R l r : lawful [L; R] w -> builders data na [L; R] = Ok [l; r] -> exists e r', builders data na [[]; R] = Ok [e; r'] /\ same_design r r' /\
  forall d na' want n res, (factors_of [R] <> [] \/ df_index d <> None) -> has_rows eval df_index [l; r] d n -> build [l; r] d na' want = Ok res ->
    exists act ml mr me mr' labels rows, get_action na' = Ok act /\ fst res = [ml; mr] /\ build [e; r'] d na' want = Ok ([me; mr'], labels) /\
      positions (staying eval visnan origin_of act [e; r'] d n) (staying eval visnan origin_of act [l; r] d n) rows /\
      m_rows mr = length rows /\ m_cols mr = map (fun col => pick col rows) (m_cols mr') /\
      (labelled eval df_index [e; r'] d -> snd res = option_map (fun x => pick x rows) labels).
Proof.
  intros Lw Eb. pose proof Lw as [A1 [A2 [A3 [A4 A5]]]].
  assert (Lw' : lawful [[]; R] w). { apply lawful_more. eapply lawful_sub; [|exact Lw]. intros x [<-|[]]; cbn; auto. }
  destruct (apart_builders na _ [1] _ Lw Eb) as [ds1 [Eb1 F1]]. change (builders data na [R] = Ok ds1) in Eb1. change (Forall2 same_design [r] ds1) in F1. inversion F1 as [|? r1 ? z S1 Fz]; subst. inversion Fz; subst. clear F1 Fz.
  destruct (nothing_builders na _ _ Lw Eb) as [ds0 Eb0].
  destruct (together_builders na [[]; R] Lw') as [ds' Eb']; [discriminate|intros tl [<-|[<-|[]]]; eauto|].
  destruct (builders_good _ _ _ _ _ _ _ _ _ _ _ _ A1 A2 A3 _ _ _ _ Eb') as [Hlen _]. destruct ds' as [|e [|r' [|]]]; try discriminate. clear Hlen.
  destruct (apart_builders na _ [1] _ Lw' Eb') as [ds2 [Eb2 F2]]. change (builders data na [R] = Ok ds2) in Eb2. change (Forall2 same_design [r'] ds2) in F2.
  assert (ds2 = [r1]) by congruence. subst ds2. inversion F2 as [|? ? ? ? S2 _]; subst.
  exists e, r'. split; [exact Eb'|]. split; [eapply same_design_trans; [exact S1|now apply same_design_sym]|].
  intros d na' want n res Hs Hr Hb.
  destruct (apart_matrices na _ [1] _ d na' want n res Lw Eb Hs Hr Hb) as [ds'' [act [r'' [rows [E1 [E2 [E3 [E4 [E5 E6]]]]]]]]].
  change (builders data na [R] = Ok ds'') in E1. assert (ds'' = [r1]) by congruence. subst ds''. clear E1.
  pose proof (picked_values na _ [1] _ _ Lw' Eb' Eb2 F2) as Fv. change (pick [e; r'] [1]) with [r'] in Fv.
  assert (Fv' : Forall2 (values_same (concat (map ds_known [r1])) (concat (map ds_known [r']))) [r1] [r']).
  { inversion Fv as [|? ? ? ? [V1 V2] _]; subst. constructor; [|constructor]. split; [now symmetry|]. clear - V2. induction V2; constructor; auto. }
  assert (O1 : designs_ok [r1]) by (eapply (used_ok _ _ _ _ _ _ _ _ _ _ _ _ A1 A2 A3); [exact Eb1|apply incl_refl]).
  assert (O2 : designs_ok [e; r']) by (eapply (used_ok _ _ _ _ _ _ _ _ _ _ _ _ A1 A2 A3); [exact Eb'|apply incl_refl]).
  assert (O3 : designs_ok [r']) by (eapply (used_ok _ _ _ _ _ _ _ _ _ _ _ _ A1 A2 A3); [exact Eb'|intros x [<-|[]]; cbn; auto]).
  destruct (designs_of_nothing _ _ _ _ _ _ _ _ _ _ _ _ A1 A2 A3 _ _ _ _ 0 Eb' eq_refl) as [e' [Ee [I1 I2]]]. cbn in Ee. injection Ee as <-.
  assert (Hk : ds_known e = ds_known r').
  { rewrite builders_prepare in Eb'. destruct (get_action na) as [act'|]; cbn [bind] in Eb'; [|discriminate]. destruct (prepare data act' _) as [[[[? ?] ?] ?]|]; cbn [bind] in Eb'; [|discriminate].
    destruct (mapM _ _) as [[|? [|? [|]]]|]; cbn in Eb'; try discriminate. now injection Eb' as <- <-. }
  destruct r'' as [ms'' labels]. pose proof (build_same vone vmul visnan ilabel ieqb ieqb_eq eval origin_of df_index Hidx [r1] [r'] d na' want ms'' labels O1 O3 Fv' E3) as Er'.
  destruct (add_nothing e r' d na' want (ms'', labels) O2 Hk I1) as [mr' [me [Em Ebb]]]; [now rewrite I1, I2|exact Er'|]. cbn [fst snd] in Em, Ebb, E5, E6. subst ms''.
  assert (Hms : exists ml mr, fst res = [ml; mr]).
  { destruct res as [ms lb]. assert (O0 : designs_ok [l; r]) by (eapply (used_ok _ _ _ _ _ _ _ _ _ _ _ _ A1 A2 A3); [exact Eb|apply incl_refl]).
    destruct (build_built vone vmul visnan ilabel ieqb ieqb_eq eval origin_of df_index Hidx [l; r] d na' want ms lb O0 Hb) as [? [_ [[? [? [_ [_ [_ [_ [M _]]]]]]] _]]]. cbn [fst].
    inversion M as [|? ml ? z1 ? M']; subst. inversion M' as [|? mr ? z2 ? M'']; subst. inversion M''; subst. eauto. }
  destruct Hms as [ml [mr Hms]]. rewrite Hms in E5. change (pick [ml; mr] [1]) with [mr] in E5. inversion E5 as [|? ? ? ? [Q1 [Q2 Q3]] _]; subst.
  exists act, ml, mr, me, mr', labels, rows. split; [exact E2|]. split; [exact Hms|]. split; [exact Ebb|].
  destruct (values_staying _ _ act d n Fv') as [W1 W2].
  assert (Ev : forall fi, In fi (all_infos (map ds_info [r'])) -> dget Nat.eqb (fi_id fi) (concat (map ds_known [e; r'])) = dget Nat.eqb (fi_id fi) (concat (map ds_known [r']))).
  { intros fi H. cbn [map concat]. rewrite Hk, app_nil_r. rewrite dget_app. now destruct (dget Nat.eqb (fi_id fi) (ds_known r')). }
  assert (Ai : all_infos (map ds_info [e; r']) = all_infos (map ds_info [r'])) by (unfold all_infos; cbn [map flat_map]; now rewrite I1).
  assert (W3 : staying eval visnan origin_of act [e; r'] d n = staying eval visnan origin_of act [r1] d n).
  { rewrite W1. rewrite <- !staying_kept, Ai. f_equal. unfold evals. apply PipeHighProofs.flat_map_ext_in. intros fi H. unfold PipeModel.eval_info. now rewrite (Ev fi H). }
  rewrite W3. split; [exact E4|]. split; [exact Q1|]. split; [exact Q3|]. intros Hl. apply E6.
  assert (Hl' : labelled eval df_index [r'] d).
  { destruct Hl as [H|[fi [o [i [[H1 [s [c [H2 H3]]]] H4]]]]]; [now left|right]. rewrite Ai in H1. exists fi, o, i. split; [|exact H4]. split; [exact H1|]. exists s, c. split; [|exact H3]. now rewrite <- (Ev fi H1). }
  exact (W2 Hl').
Qed.
End Top.
