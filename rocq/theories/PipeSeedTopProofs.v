(** Designs and matrices do not depend on what Python leaves open. *)
From Coq Require Import Permutation.
From Verif Require Import Base ParseFormulaModel PySort RankSpec RedundancyModel RedundancySpec UtilModel DescModel FormulaModel BuildModel BuildSpec BuildProofs BuildSubtermProofs BuildInfoProofs
  BuildMatrixProofs BuildAllProofs BuildTopProofs BuildOrderProofs BuildSubsetProofs BuildDesignProofs
  MemorizeModel MemorizeSpec CategoricalModel CategoricalSpec PipeModel PipeSpec PipeProofs PipeHighProofs PipeSeedSpec PipeSeedProofs.
Open Scope nat_scope.

Section Top.
Context {V I C S D : Type}.
Variables (vone : V) (vmul : V -> V -> V) (visnan : V -> bool) (ilabel : nat -> I) (ieqb : I -> I -> bool).
Hypothesis ieqb_eq : forall a b, ieqb a b = true <-> a = b.
Variable passes : factor -> result (S * Z).
Variable chunk : factor -> S -> nat -> D -> result S.
Variable finish : factor -> S -> nat -> result S.
Variable eval : factor -> S -> D -> result (@fobj V I C).
Variable origin_of : factor -> option origin.
Variable code_cm : list pval -> option C -> bool -> result (@ctr V).
Variable df_index : D -> option (list I).
Hypothesis Hidx : indexed eval.
Variables w1 w2 : run_of_python.

Local Notation builders w := (design_matrix_builders passes chunk finish eval origin_of code_cm (py_hash w) (py_set_order w) (py_order_mem w) (py_order_exam w) (py_addr w) (py_hash_order w)).
Local Notation learned w := (learned passes chunk finish eval origin_of (py_addr w) (py_hash_order w)).
Local Notation prepare w := (prepare passes chunk finish eval origin_of (py_set_order w) (py_order_mem w) (py_order_exam w) (py_addr w) (py_hash_order w)).
Local Notation build := (build vone vmul visnan ilabel ieqb eval origin_of df_index).
Local Notation eval_info := (eval_info visnan eval origin_of).

Lemma trained_det data f s s' : trained passes chunk finish data f s -> trained passes chunk finish data f s' -> s = s'.
Proof. intros [s0 [k [P R]]] [s1 [k' [P' R']]]. rewrite P in P'. injection P' as <- <-. rewrite R in R'. now injection R'. Qed.
Lemma learned_det w na data fs f s k lv c s' k' lv' c' : learned w na data fs f s k lv c -> learned w na data fs f s' k' lv' c' -> s = s' /\ k = k' /\ lv = lv' /\ c = c'.
Proof.
  intros [a n Ta Ya|a sn la ca Ta Ya La] [b m Tb Yb|b sm lb cb Tb Yb Lb]; pose proof (trained_det data f a b Ta Tb) as <-; pose proof (eq_trans (eq_sym Ya) Yb) as E; try discriminate; injection E as <-; auto.
  pose proof (eq_trans (eq_sym La) Lb) as E. injection E as <- <-. auto.
Qed.
Lemma learned_same na data tls f s k lv c : lawful tls w1 -> lawful tls w2 -> levels_fixed passes chunk finish eval origin_of w1 w2 na data tls -> In f (factors_of tls) ->
  learned w1 na data (factors_of tls) f s k lv c -> learned w2 na data (factors_of tls) f s k lv c.
Proof.
  intros [_ [_ [_ [P1 _]]]] [_ [_ [_ [P2 _]]]] Hl Hf [a n Ta Ya|a sn la ca Ta Ya La]; [now constructor|]. econstructor; [exact Ta|exact Ya|].
  rewrite <- La. unfold levels_contrast. destruct (sn_levels sn) as [l|] eqn:E; [reflexivity|]. f_equal. symmetry. apply sorted_same; auto; [eapply type_distinct, Ya|]. eapply Hl; eassumption.
Qed.

(** Everything known about the FactorInfo objects is the same; [R]: states that are alike. *)
Section Learned.
Variable R : factor -> S -> S -> Prop.
Variables data1 data2 : nat -> list D.
Definition learned_alike (na : na_types) (tls : list (list term)) : Prop := forall f s k lv c, In f (factors_of tls) ->
  learned w1 na data1 (factors_of tls) f s k lv c -> exists s', R f s s' /\ learned w2 na data2 (factors_of tls) f s' k lv c.
Lemma ready_alike act tls num1 cat1 fis1 kn1 num2 cat2 fis2 kn2 : learned_alike (na_what act) tls ->
  ready passes chunk finish eval origin_of (py_addr w1) (py_hash_order w1) data1 act tls num1 cat1 fis1 kn1 ->
  ready passes chunk finish eval origin_of (py_addr w2) (py_hash_order w2) data2 act tls num2 cat2 fis2 kn2 ->
  forall f, In f (factors_of tls) -> dget String.eqb f num1 = dget String.eqb f num2 /\ dget String.eqb f cat1 = dget String.eqb f cat2 /\
    exists fi1 fi2 s1 s2 lv, dget String.eqb f fis1 = Some fi1 /\ dget String.eqb f fis2 = Some fi2 /\ anon_info fi1 = anon_info fi2 /\
      dget Nat.eqb (fi_id fi1) kn1 = Some (s1, lv) /\ dget Nat.eqb (fi_id fi2) kn2 = Some (s2, lv) /\ R f s1 s2.
Proof.
  intros Hl [_ R1] [_ R2] f Hf. destruct (R1 f Hf) as [fi1 [s1 [k1 [lv1 [c1 [A1 [A2 [A3 [A4 [A5 [A6 A7]]]]]]]]]]]. destruct (R2 f Hf) as [fi2 [s2 [k2 [lv2 [c2 [B1 [B2 [B3 [B4 [B5 [B6 B7]]]]]]]]]]].
  destruct (Hl f s1 k1 lv1 c1 Hf A1) as [s' [HR A1']]. destruct (learned_det _ _ _ _ _ _ _ _ _ _ _ _ _ A1' B1) as [-> [-> [-> ->]]].
  split; [congruence|]. split; [congruence|]. exists fi1, fi2, s1, s2, lv2. unfold anon_info. rewrite A3, A4, B3, B4. auto 10.
Qed.
End Learned.

Lemma in_infos {A} f (fi : A) (fis : list (factor * A)) : In (f, fi) fis -> exists fi', dget String.eqb f fis = Some fi'.
Proof. induction fis as [|[g gi] fis IH]; [intros []|]. cbn. intros [[= -> ->]|H]; [rewrite String.eqb_refl; eauto|]. destruct (String.eqb g f); eauto. Qed.

Lemma infos_anon (d1 d2 : @design_info V) : anonymous d1 = anonymous d2 -> anon_infos (infos_of d1) = anon_infos (infos_of d2) /\ codings_of d1 = codings_of d2.
Proof.
  intros H. injection H as H1 H2 H3 H4 H5. unfold infos_of, codings_of. rewrite H3. split; [|reflexivity]. destruct (di_infos d1), (di_infos d2); cbn in H2; try discriminate; [now injection H2|reflexivity].
Qed.
(** The infos of two designs, one by one. *)
Lemma infos_pairs fis1 fis2 : anon_infos fis1 = anon_infos fis2 -> Forall2 (fun p q => fst p = fst q /\ anon_info (snd p) = anon_info (snd q)) fis1 fis2.
Proof. revert fis2. induction fis1 as [|[f fi] fis1 IH]; intros [|[g gi] fis2]; cbn; try discriminate; [constructor|]. intros [= -> E1 E2 H]. constructor; [|now apply IH]. cbn. unfold anon_info. now rewrite E1, E2. Qed.

Lemma forall2_and_in {A B} (P : A -> B -> Prop) l m : Forall2 P l m -> Forall2 (fun a b => P a b /\ In a l /\ In b m) l m.
Proof. induction 1 as [|a b l m H F IH]; constructor; [cbn; auto|]. eapply forall2_impl; [|exact IH]. cbn. tauto. Qed.
Lemma forall2_conj {A B} (P Q : A -> B -> Prop) l m : Forall2 P l m -> Forall2 Q l m -> Forall2 (fun a b => P a b /\ Q a b) l m.
Proof. induction 1; intros H'; inversion H'; subst; constructor; auto. Qed.
Lemma dget_forall2 {A} (R : A -> A -> Prop) f (l m : list (factor * A)) : Forall2 (fun p q => fst p = fst q /\ R (snd p) (snd q)) l m -> forall a b, dget String.eqb f l = Some a -> dget String.eqb f m = Some b -> R a b.
Proof. induction 1 as [|[g x] [h y] l m [E Hr] F IH]; [discriminate|]. cbn in *. subst h. intros a b. destruct (String.eqb g f); [intros [= <-] [= <-]; exact Hr|apply IH]. Qed.

(** The same design, with states that are alike. *)
Definition design_alike (R : factor -> S -> S -> Prop) (d1 d2 : @design V S) : Prop :=
  anonymous (ds_info d1) = anonymous (ds_info d2) /\
  Forall2 (fun p q => exists s1 s2 lv, dget Nat.eqb (fi_id (snd p)) (ds_known d1) = Some (s1, lv) /\ dget Nat.eqb (fi_id (snd q)) (ds_known d2) = Some (s2, lv) /\ R (fst p) s1 s2)
    (infos_of (ds_info d1)) (infos_of (ds_info d2)).
Lemma builders_alike R data1 data2 na tls ds1 : lawful tls w1 -> lawful tls w2 ->
  (forall act, get_action na = Ok act -> learned_alike R data1 data2 (na_what act) tls) ->
  builders w1 data1 na tls = Ok ds1 -> exists ds2, builders w2 data2 na tls = Ok ds2 /\ Forall2 (design_alike R) ds1 ds2 /\
    (forall d, In d ds1 -> ds_known d = ds_known (hd d ds1)) /\ (forall d, In d ds2 -> ds_known d = ds_known (hd d ds2)).
Proof.
  intros L1 L2 Hl. pose proof L1 as [A1 [A2 [A3 [A4 A5]]]]. pose proof L2 as [B1 [B2 [B3 [B4 B5]]]].
  rewrite !builders_prepare. destruct (get_action na) as [act|]; cbn [bind]; [|discriminate]. specialize (Hl act eq_refl).
  destruct (prepare w1 data1 act tls) as [[[[num1 cat1] fis1] kn1]|] eqn:E1; cbn [bind]; [|discriminate].
  pose proof (prepare_inv _ _ _ _ _ _ _ _ _ _ A1 A2 A3 _ _ _ _ _ _ _ E1) as R1.
  destruct (prepare_ok passes chunk finish eval origin_of (py_set_order w2) (py_order_mem w2) (py_order_exam w2) (py_addr w2) (py_hash_order w2) B1 B2 B3 data2 act tls) as [[[[num2 cat2] fis2] kn2] E2].
  { intros f Hf. destruct R1 as [_ R1]. destruct (R1 f Hf) as [fi1 [s1 [k1 [lv1 [c1 [X _]]]]]]. destruct (Hl f s1 k1 lv1 c1 Hf X) as [s' [_ X']]. exists s', k1, lv1, c1. exact X'. }
  pose proof (prepare_inv _ _ _ _ _ _ _ _ _ _ B1 B2 B3 _ _ _ _ _ _ _ E2) as R2. rewrite E2. cbn [bind].
  pose proof (ready_alike R data1 data2 act tls num1 cat1 fis1 kn1 num2 cat2 fis2 kn2 Hl R1 R2) as Hs.
  destruct (mapM (design_for num1 (contrast_for code_cm cat1) (py_hash w1) fis1) tls) as [dis1|] eqn:Ed1; cbn [bind]; [|discriminate]. intros [= <-].
  destruct (designs_same num1 num2 (contrast_for code_cm cat1) (contrast_for code_cm cat2) (py_hash w1) (py_hash w2) fis1 fis2 tls dis1) as [dis2 [Ed2 Hd]]; auto.
  - intros f Hf. now apply Hs.
  - intros f b Hf _. unfold contrast_for. destruct (Hs f Hf) as [_ [-> _]]. reflexivity.
  - intros f Hf. destruct (Hs f Hf) as [_ [_ [fi1 [fi2 [s1 [s2 [lv [X1 [X2 [X3 _]]]]]]]]]]. unfold alike. rewrite X1, X2. cbn. now rewrite X3.
  - rewrite Ed2. cbn [bind]. eexists. split; [reflexivity|]. split; [|split; intros d Hin; apply in_map_iff in Hin; destruct Hin as [x [<- Hin]]; [destruct dis1|destruct dis2]; cbn; auto; destruct Hin].
    apply mapM_ok_Forall2 in Ed1, Ed2.
    assert (G : forall tls', incl tls' tls -> forall dis1 dis2, Forall2 (fun tl d => design_for num1 (contrast_for code_cm cat1) (py_hash w1) fis1 tl = Ok d) tls' dis1 ->
      Forall2 (fun tl d => design_for num2 (contrast_for code_cm cat2) (py_hash w2) fis2 tl = Ok d) tls' dis2 -> Forall2 (fun d1 d2 => anonymous d1 = anonymous d2) dis1 dis2 ->
      Forall2 (design_alike R) (map (fun d => mkDesign d kn1) dis1) (map (fun d => mkDesign d kn2) dis2)).
    { intros tls' Hi x1 x2 F1. revert x2. induction F1 as [|tl d1 tls' x1 E F1 IH]; intros x2 F2 F3; inversion F2; subst; inversion F3; subst; cbn [map]; constructor; [|apply IH; auto; intros z Hz; apply Hi; now right].
      split; [assumption|]. cbn [ds_info ds_known].
      match goal with Han : anonymous d1 = anonymous ?y |- _ => pose proof (forall2_and_in _ _ _ (infos_pairs _ _ (proj1 (infos_anon d1 y Han)))) as Fp end.
      eapply forall2_impl; [|exact Fp]. intros [f fi1] [g fi2] [[Efg _] [Hi1 Hi2]]. cbn in Efg. subst g. cbn [snd].
      destruct (design_for_infos _ _ _ _ _ _ E f fi1 Hi1) as [G1 G2]. destruct (design_for_infos _ _ _ _ _ _ H1 f fi2 Hi2) as [_ G3].
      assert (Hf : In f (factors_of tls)) by (unfold factors_of; apply in_concat; exists (concat tl); split; [apply in_map, Hi; now left|exact G1]).
      destruct (Hs f Hf) as [_ [_ [a1 [a2 [s1 [s2 [lv [X1 [X2 [_ X3]]]]]]]]]]. rewrite G2 in X1. injection X1 as <-. rewrite G3 in X2. injection X2 as <-. cbn [fst]. eauto. }
    exact (G tls (incl_refl _) dis1 dis2 Ed1 Ed2 Hd).
Qed.
Lemma builders_same data na tls ds1 : lawful tls w1 -> lawful tls w2 ->
  (forall act, get_action na = Ok act -> levels_fixed passes chunk finish eval origin_of w1 w2 (na_what act) data tls) ->
  builders w1 data na tls = Ok ds1 -> exists ds2, builders w2 data na tls = Ok ds2 /\ Forall2 same_design ds1 ds2 /\
    (forall d, In d ds1 -> ds_known d = ds_known (hd d ds1)) /\ (forall d, In d ds2 -> ds_known d = ds_known (hd d ds2)).
Proof.
  intros L1 L2 Hl H. destruct (builders_alike (fun _ a b => a = b) data data na tls ds1 L1 L2) as [ds2 [E [F K]]]; [|exact H|].
  - intros act Ha f s k lv c Hf Hs. exists s. split; [reflexivity|]. exact (learned_same (na_what act) data tls f s k lv c L1 L2 (Hl act Ha) Hf Hs).
  - exists ds2. split; [exact E|]. split; [|exact K]. eapply forall2_impl; [|exact F]. intros x y [X1 X2]. split; [exact X1|].
    eapply forall2_impl; [|exact X2]. intros p q [s1 [s2 [lv [G1 [G2 G3]]]]]. cbn in G3. subst s2. congruence.
Qed.

(** * Building *)
Lemma eval_info_same k1 k2 na d fi1 fi2 : anon_info fi1 = anon_info fi2 -> dget Nat.eqb (fi_id fi1) k1 = dget Nat.eqb (fi_id fi2) k2 -> eval_info k1 na d fi1 = eval_info k2 na d fi2.
Proof. destruct fi1 as [i1 f1 n1], fi2 as [i2 f2 n2]. intros [= -> ->] H. unfold PipeModel.eval_info. cbn [fi_id fi_factor fi_kind] in *. now rewrite H. Qed.
Lemma matrix_same (ev1 ev2 : finfo -> result (@evaluated V I)) ks (d1 d2 : @design_info V) m : anonymous d1 = anonymous d2 ->
  (forall f fi1 fi2, dget String.eqb f (infos_of d1) = Some fi1 -> dget String.eqb f (infos_of d2) = Some fi2 -> ev1 fi1 = ev2 fi2) ->
  matrix_is vone vmul ev1 ks d1 m -> matrix_is vone vmul ev2 ks d2 m.
Proof.
  intros Ha He [H1 H2]. destruct (infos_anon d1 d2 Ha) as [Hi Hc]. split; [exact H1|]. rewrite <- Hc. revert H2 He. generalize (infos_of d1) (infos_of d2) Hi. clear. intros f1 f2 Hi H2 He.
  assert (Hk : forall f, option_map anon_info (dget String.eqb f f1) = option_map anon_info (dget String.eqb f f2)) by (intros f; now apply anon_alike).
  assert (E : columns_of f1 (codings_of d1) = columns_of f2 (codings_of d1)).
  { unfold columns_of. apply flat_map_ext. intros p. unfold columns_of_term. apply flat_map_ext. intros s. f_equal. f_equal. unfold counts_of. apply map_ext. intros f. unfold count_of.
    destruct (dget String.eqb f (si_contrasts s)); [reflexivity|]. specialize (Hk f). destruct (dget String.eqb f f1) as [[i a k]|], (dget String.eqb f f2) as [[j b l]|]; cbn in *; try discriminate; [|reflexivity]. now injection Hk as -> ->. }
  rewrite <- E. eapply forall2_impl; [|exact H2]. intros [[t s] c] col Hcol. cbn in Hcol. rewrite Hcol. apply map_ext. intros k. cbn [entry]. f_equal. apply map_ext. intros [f i]. cbn [fst snd].
  unfold contrib, values_in. specialize (Hk f). specialize (He f).
  destruct (dget String.eqb f f1) as [fi1|], (dget String.eqb f f2) as [fi2|]; cbn in *; try discriminate; [|reflexivity].
  rewrite (He fi1 fi2 eq_refl eq_refl). destruct fi1 as [i1 a1 k1], fi2 as [i2 a2 k2]. cbn in *. now injection Hk as -> ->.
Qed.

(** Corresponding infos give the same values. *)
Definition values_same (k1 k2 : @known S) (x y : @design V S) : Prop := anonymous (ds_info x) = anonymous (ds_info y) /\
    Forall2 (fun p q => dget Nat.eqb (fi_id (snd p)) k1 = dget Nat.eqb (fi_id (snd q)) k2) (infos_of (ds_info x)) (infos_of (ds_info y)).
Lemma build_values ds1 ds2 d na want ms labels : designs_ok ds1 -> designs_ok ds2 ->
  Forall2 (fun x y => anonymous (ds_info x) = anonymous (ds_info y) /\ Forall2 (fun p q => forall nw, eval_info (concat (map ds_known ds1)) nw d (snd p) = eval_info (concat (map ds_known ds2)) nw d (snd q)) (infos_of (ds_info x)) (infos_of (ds_info y))) ds1 ds2 ->
  build ds1 d na want = Ok (ms, labels) -> build ds2 d na want = Ok (ms, labels).
Proof.
  intros O1 O2 Hs Hb. destruct (build_built vone vmul visnan ilabel ieqb ieqb_eq eval origin_of df_index Hidx ds1 d na want ms labels O1 Hb) as [act [Ha [B Hf]]].
  set (ev1 := eval_info (concat (map ds_known ds1)) (na_what act) d) in *. set (ev2 := eval_info (concat (map ds_known ds2)) (na_what act) d).
  assert (P : Forall2 (fun x y => anonymous x = anonymous y /\ Forall2 (fun p q => fst p = fst q /\ (anon_info (snd p) = anon_info (snd q) /\ ev1 (snd p) = ev2 (snd q))) (infos_of x) (infos_of y)) (map ds_info ds1) (map ds_info ds2)).
  { clear - Hs. unfold ev1, ev2. clear ev1 ev2. revert Hs. generalize (concat (map ds_known ds1)) (concat (map ds_known ds2)). intros k1 k2 Hs.
    induction Hs as [|x y ds1 ds2 [H1 H2] Hs IH]; cbn [map]; constructor; [|exact IH]. split; [exact H1|].
    pose proof (forall2_conj _ _ _ _ H2 (infos_pairs _ _ (proj1 (infos_anon _ _ H1)))) as F. eapply forall2_impl; [|exact F].
    intros p q [A [B E]]. split; [exact B|]. split; [exact E|]. apply A. }
  assert (A : Forall2 (fun a b => anon_info a = anon_info b /\ ev1 a = ev2 b) (all_infos (map ds_info ds1)) (all_infos (map ds_info ds2))).
  { clear - P. unfold all_infos. induction P as [|x y l1 l2 [H1 H2] P IH]; cbn [flat_map]; [constructor|]. apply Forall2_app; [|exact IH].
    clear - H2. induction H2 as [|p q l m [_ H] F IH]; cbn [map]; constructor; assumption. }
  assert (Ee : evals ev1 (all_infos (map ds_info ds1)) = evals ev2 (all_infos (map ds_info ds2))).
  { clear - A. induction A as [|a b l1 l2 [_ E] A IH]; [reflexivity|]. unfold evals in *. cbn [flat_map]. now rewrite E, IH. }
  assert (Hc2 : Forall constructed (map ds_info ds2)) by (rewrite Forall_map; apply O2).
  assert (Hc1 : Forall constructed (map ds_info ds1)) by (rewrite Forall_map; apply O1).
  unfold PipeModel.build. rewrite Ha. cbn [bind]. fold ev2.
  refine (proj2 (build_iff vone vmul ieqb origin_of ieqb_eq _ _ ilabel _ Hc2 (proj2 O2) _ _ _ _ _) _).
  - clear - A Hf. intros fi Hfi. induction A as [|a b l1 l2 [E1 E2] A IH]; [destruct Hfi|]. destruct Hfi as [<-|Hfi].
    + destruct (Hf a (or_introl eq_refl)) as [e [X Y]]. exists e. split; [congruence|]. destruct a, b. injection E1 as -> ->. exact Y.
    + apply IH; [|exact Hfi]. intros x Hx. apply Hf. now right.
  - unfold built in *. cbn zeta in *. rewrite Ee in B. destruct B as [n [full [B1 [B2 [B3 [B4 [B5 B6]]]]]]]. exists n, full. do 3 (split; [assumption|]).
    split; [intros X1 X2; specialize (B4 X1 X2); inversion P as [X Y|]; [reflexivity|congruence]|]. split; [|exact B6].
    clear - P B5 Hc1 Hc2. revert B5. generalize (kept (na_on act) (evals ev2 (all_infos (map ds_info ds2))) n). intros ks. revert ms.
    induction P as [|x y l1 l2 [H1 H2] P IH]; intros ms B5; inversion B5; subst; constructor; inversion Hc1; inversion Hc2; subst; [|now apply IH].
    eapply matrix_same; [exact H1| |eassumption]. intros f fi1 fi2 G1 G2.
    exact (proj2 (dget_forall2 (fun a b => anon_info a = anon_info b /\ ev1 a = ev2 b) f _ _ H2 fi1 fi2 G1 G2)).
Qed.
Lemma build_same ds1 ds2 d na want ms labels : designs_ok ds1 -> designs_ok ds2 ->
  Forall2 (values_same (concat (map ds_known ds1)) (concat (map ds_known ds2))) ds1 ds2 ->
  build ds1 d na want = Ok (ms, labels) -> build ds2 d na want = Ok (ms, labels).
Proof.
  intros O1 O2 Hs. apply build_values; auto. eapply forall2_impl; [|exact Hs]. intros x y [H1 H2]. split; [exact H1|].
  eapply forall2_impl; [|exact (forall2_conj _ _ _ _ H2 (infos_pairs _ _ (proj1 (infos_anon _ _ H1))))]. intros p q [A [_ B]] nw. now apply eval_info_same.
Qed.

(** * highlevel.py *)
Variable upcast : V -> V.
Variable vobj : V.
Variable tokenize : string -> list pytok * option exn.
Variable norm : string -> string.
Variable is_float : string -> bool.
Variable have_pandas : bool.
Local Notation highlevel w := (highlevel_design vone vmul visnan ilabel ieqb passes chunk finish eval origin_of code_cm (py_hash w) (py_set_order w) (py_order_mem w) (py_order_exam w) (py_addr w) (py_hash_order w) df_index upcast vobj tokenize norm is_float have_pandas).
Local Notation try_incr w := (try_incr_builders passes chunk finish eval origin_of code_cm (py_hash w) (py_set_order w) (py_order_mem w) (py_order_exam w) (py_addr w) (py_hash_order w) tokenize norm is_float).
Local Notation desc w := (desc_builders passes chunk finish eval origin_of code_cm (py_hash w) (py_set_order w) (py_order_mem w) (py_order_exam w) (py_addr w) (py_hash_order w)).
Local Notation fixed na data tls := (forall act, get_action na = Ok act -> levels_fixed passes chunk finish eval origin_of w1 w2 (na_what act) data tls).

Lemma same_design_refl (d : @design V S) : same_design d d.
Proof. split; [reflexivity|]. induction (infos_of (ds_info d)); constructor; auto. Qed.
Lemma same_matrix_refl (m : @matrix V I S) : same_matrix m m.
Proof. split; [reflexivity|]. split; [reflexivity|]. apply same_design_refl. Qed.
Lemma lawful_more tls w : lawful tls w -> lawful ([] :: tls) w.
Proof.
  intros [A1 [A2 [A3 [A4 A5]]]]. repeat split; try assumption; try (constructor; [|exact A5]); intros a b Ha Hb _ _;
    (destruct a as [|x a]; [|destruct (Ha x (or_introl eq_refl))]); (destruct b as [|y b]; [|destruct (Hb y (or_introl eq_refl))]); split; auto; intros; split; auto.
Qed.

(** The designs, and that building with them gives the same. *)
Lemma desc_same data na md l1 r1 : lawful [lhs_termlist md; rhs_termlist md] w1 -> lawful [lhs_termlist md; rhs_termlist md] w2 -> fixed na data [lhs_termlist md; rhs_termlist md] ->
  desc w1 data na md = Ok (Some (l1, r1)) -> exists l2 r2, desc w2 data na md = Ok (Some (l2, r2)) /\ same_design l1 l2 /\ same_design r1 r2 /\
    Forall2 (values_same (concat (map ds_known [l1; r1])) (concat (map ds_known [l2; r2]))) [l1; r1] [l2; r2].
Proof.
  intros L1 L2 Hf H. apply desc_builders_ok in H.
  pose proof L1 as [A1 [A2 [A3 _]]]. pose proof L2 as [B1 [B2 [B3 _]]].
  destruct (builders_same data na _ _ L1 L2 Hf H) as [ds2 [E2 [Hs [K1 K2]]]].
  inversion Hs as [|? l2 ? ds2' Sl Hs']; subst. inversion Hs' as [|? r2 ? ds2'' Sr Hs'']; subst. inversion Hs''; subst. exists l2, r2.
  unfold desc_builders. rewrite E2. cbn [bind]. split; [reflexivity|]. split; [exact Sl|]. split; [exact Sr|].
  pose proof (K1 r1 (or_intror (or_introl eq_refl))) as E1. pose proof (K2 r2 (or_intror (or_introl eq_refl))) as E3. cbn [hd] in E1, E3. cbn [map concat]. rewrite E1, E3, !app_nil_r.
  destruct (builders_good _ _ _ _ _ _ _ _ _ _ _ _ A1 A2 A3 _ _ _ _ H) as [_ [_ [_ [act1 [_ G1]]]]].
  destruct (builders_good _ _ _ _ _ _ _ _ _ _ _ _ B1 B2 B3 _ _ _ _ E2) as [_ [_ [_ [act2 [_ G2]]]]].
  assert (X : forall x y, In x [l1; r1] -> In y [l2; r2] -> same_design x y -> values_same (ds_known l1 ++ ds_known l1) (ds_known l2 ++ ds_known l2) x y).
  { intros x y Hx Hy [S1 S2]. split; [exact S1|]. apply forall2_and_in in S2. eapply forall2_impl; [|exact S2]. intros [f fi] [g gi] [E [I1 I2]]. cbn [snd] in *.
    destruct (G1 x Hx f fi I1) as [_ [_ [s1 [lv1 [c1 [_ Kn1]]]]]]. destruct (G2 y Hy g gi I2) as [_ [_ [s2 [lv2 [c2 [_ Kn2]]]]]].
    rewrite (get_known _ _ _ s1 lv1 (Kn1 l1 (or_introl eq_refl))), (get_known _ _ _ s2 lv2 (Kn2 l2 (or_introl eq_refl))).
    pose proof (Kn1 x Hx) as Y1. pose proof (Kn2 y Hy) as Y2. unfold knows in Y1, Y2. rewrite Y1, Y2 in E. exact E. }
  constructor; [apply X; cbn; auto|constructor; [apply X; cbn; auto|constructor]].
Qed.

Lemma try_same fl data na l1 r1 : lawful (termlists_of tokenize norm is_float fl) w1 -> lawful (termlists_of tokenize norm is_float fl) w2 -> fixed na data (termlists_of tokenize norm is_float fl) ->
  try_incr w1 fl data na = Ok (Some (l1, r1)) -> exists l2 r2, try_incr w2 fl data na = Ok (Some (l2, r2)) /\ same_design l1 l2 /\ same_design r1 r2 /\
    Forall2 (values_same (concat (map ds_known [l1; r1])) (concat (map ds_known [l2; r2]))) [l1; r1] [l2; r2].
Proof.
  destruct fl as [d|sl sr|n|s|md|rm|a]; cbn [try_incr_builders termlists_of]; intros L1 L2 Hf H.
  - pose proof L1 as [A1 [A2 [A3 _]]]. pose proof L2 as [B1 [B2 [B3 _]]].
    destruct (get_action na) as [act|] eqn:Ea; [|rewrite builders_prepare, Ea in H; discriminate].
    destruct (builders_nothing passes chunk finish eval origin_of code_cm (py_hash w1) (py_set_order w1) (py_order_mem w1) (py_order_exam w1) (py_addr w1) (py_hash_order w1) A1 A3 data na act Ea) as [d1 [E1 [I1 _]]].
    rewrite E1 in H. cbn [bind] in H. injection H as <- <-.
    assert (F0 : fixed na data [[]]) by (intros act' _ f s sn []).
    destruct (builders_same data na [[]] [mkDesign d1 []] (lawful_more _ _ L1) (lawful_more _ _ L2) F0 E1) as [ds2 [E2 [Hs _]]].
    destruct (builders_nothing passes chunk finish eval origin_of code_cm (py_hash w2) (py_set_order w2) (py_order_mem w2) (py_order_exam w2) (py_addr w2) (py_hash_order w2) B1 B3 data na act Ea) as [d2 [E2' [I2 _]]].
    rewrite E2' in E2. injection E2 as <-. rewrite E2'. cbn [bind]. exists (mkDesign d2 []), d. split; [reflexivity|].
    inversion Hs as [|? ? ? ? Sl _]; subst. split; [exact Sl|]. split; [apply same_design_refl|]. cbn [map concat ds_known app].
    constructor; [|constructor; [|constructor]].
    + split; [apply Sl|]. cbn. rewrite I1, I2. constructor.
    + split; [reflexivity|]. induction (infos_of (ds_info d)); constructor; auto.
  - destruct sl as [dl| |al], sr as [dr| |ar]; try discriminate. injection H as <- <-. exists dl, dr. split; [reflexivity|]. split; [apply same_design_refl|]. split; [apply same_design_refl|].
    assert (X : forall k x, values_same k k x x) by (intros k x; split; [reflexivity|induction (infos_of (ds_info x)); constructor; auto]).
    repeat constructor; apply X.
  - discriminate.
  - destruct (formula_desc tokenize norm is_float s) as [md|]; cbn [bind] in *; [|discriminate]. now apply desc_same.
  - now apply desc_same.
  - destruct rm as [[md|]|]; cbn [bind] in *; try discriminate. now apply desc_same.
  - discriminate.
Qed.

Lemma try_none fl data na : try_incr w1 fl data na = Ok None -> try_incr w2 fl data na = Ok None.
Proof.
  assert (Hd : forall md, desc w1 data na md <> Ok None) by (intros md; unfold desc_builders; destruct (builders w1 data na _) as [[|a [|b [|c ds]]]|]; cbn; discriminate).
  destruct fl as [d|sl sr|n|s|md|rm|a]; cbn [try_incr_builders]; auto.
  - destruct (builders w1 data na [[]]) as [[|? ?]|]; discriminate.
  - destruct (formula_desc tokenize norm is_float s) as [md|]; cbn [bind]; [|discriminate]. intros H. now apply Hd in H.
  - intros H. now apply Hd in H.
  - destruct rm as [[md|]|]; cbn [bind]; try discriminate. intros H. now apply Hd in H.
Qed.

Lemma highlevel_same fl d na rt l1 r1 : proper_input fl -> lawful (termlists_of tokenize norm is_float fl) w1 -> lawful (termlists_of tokenize norm is_float fl) w2 -> fixed na (fun _ => [d]) (termlists_of tokenize norm is_float fl) ->
  highlevel w1 fl d na rt = Ok (l1, r1) -> exists l2 r2, highlevel w2 fl d na rt = Ok (l2, r2) /\ same_matrix l1 l2 /\ same_matrix r1 r2.
Proof.
  intros Hp L1 L2 Hf. pose proof L1 as [A1 [A2 [A3 _]]]. pose proof L2 as [B1 [B2 [B3 _]]]. unfold highlevel_design.
  destruct (match rt with RDataFrame => negb have_pandas | _ => false end); [discriminate|].
  destruct (match rt with RUnknown => true | _ => false end); [discriminate|].
  destruct (try_incr w1 fl (fun _ => [d]) na) as [[[dl1 dr1]|]|] eqn:E1; cbn [bind]; [| |discriminate].
  - destruct (try_same fl (fun _ => [d]) na dl1 dr1 L1 L2 Hf E1) as [dl2 [dr2 [E2 [Sl [Sr Hv]]]]]. rewrite E2. cbn [bind].
    destruct (build [dl1; dr1] d na _) as [[ms labels]|] eqn:Eb; cbn [bind]; [|discriminate].
    pose proof (try_incr_designs passes chunk finish eval origin_of code_cm (py_hash w1) (py_set_order w1) (py_order_mem w1) (py_order_exam w1) (py_addr w1) (py_hash_order w1) tokenize norm is_float A1 A2 A3 _ _ _ _ _ Hp E1) as O1.
    pose proof (try_incr_designs passes chunk finish eval origin_of code_cm (py_hash w2) (py_set_order w2) (py_order_mem w2) (py_order_exam w2) (py_addr w2) (py_hash_order w2) tokenize norm is_float B1 B2 B3 _ _ _ _ _ Hp E2) as O2.
    rewrite (build_same [dl1; dr1] [dl2; dr2] d na _ ms labels O1 O2 Hv Eb). cbn [bind].
    destruct ms as [|ml [|mr [|? ?]]]; try discriminate. intros [= <- <-]. eexists _, _. split; [reflexivity|]. split; (split; [reflexivity|split; [reflexivity|assumption]]).
  - rewrite (try_none fl _ _ E1). cbn [bind]. intros H. exists l1, r1. split; [exact H|]. split; apply same_matrix_refl.
Qed.
End Top.
