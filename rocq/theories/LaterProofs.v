(** What the columns of a term depend on. *)
From Coq Require Import Permutation Sorted.
From Verif Require Import Base PySort RankSpec RedundancyModel RedundancySpec DescModel DescProofs BuildModel BuildSpec BuildProofs BuildSubtermProofs BuildInfoProofs BuildMatrixProofs BuildAllProofs BuildTopProofs BuildOrderProofs BuildSubsetProofs BuildDesignProofs
  MemorizeModel MemorizeSpec CategoricalModel CategoricalSpec PipeModel PipeSpec PipeProofs PipeHighProofs PipeSeedSpec PipeSeedProofs PipeSeedTopProofs IncrProofs ArrangeSpec ArrangeProofs DropSpec DropProofs ApartProofs RedundancyProofs LaterSpec PipeErrProofs.
Open Scope nat_scope.
Open Scope list_scope.

(** * Sorting and filtering *)
Lemma insert_filter {A} (ltb : A -> A -> bool) (Has : forall a b, ltb a b = true -> ltb b a = false) (Htr : forall a b c, PySort.le ltb a b -> PySort.le ltb b c -> PySort.le ltb a c) (keep : A -> bool) x l :
  StronglySorted (PySort.le ltb) l -> filter keep (insert ltb x l) = if keep x then insert ltb x (filter keep l) else filter keep l.
Proof.
  induction 1 as [|y l Hs IH Hy]; cbn [insert filter]; [reflexivity|]. destruct (ltb y x) eqn:E; cbn [filter].
  - rewrite IH. destruct (keep y), (keep x); cbn [insert]; try rewrite E; reflexivity.
  - destruct (keep x) eqn:Kx; [|reflexivity]. destruct (keep y) eqn:Ky; cbn [insert]; [now rewrite E|].
    destruct (filter keep l) as [|z r] eqn:Ef; cbn [insert]; [reflexivity|]. assert (Hz : In z l) by (apply (filter_In keep); rewrite Ef; now left).
    rewrite Forall_forall in Hy. pose proof (Htr x y z E (Hy z Hz)) as G. unfold PySort.le in G. now rewrite G.
Qed.
Lemma degree_filter keep ts : by_degree (filter keep ts) = filter keep (by_degree ts).
Proof.
  unfold by_degree. set (ltb := fun a b : term => Nat.ltb (length a) (length b)).
  assert (Has : forall x y : term, ltb x y = true -> ltb y x = false) by (intros x y; unfold ltb; rewrite Nat.ltb_lt, Nat.ltb_ge; lia).
  assert (Htr : forall x y z : term, PySort.le ltb x y -> PySort.le ltb y z -> PySort.le ltb x z) by (unfold PySort.le, ltb; intros x y z; rewrite !Nat.ltb_ge; lia).
  induction ts as [|t ts IH]; [reflexivity|]. transitivity (filter keep (insert ltb t (py_sort ltb ts))); [|reflexivity].
  pose proof (insert_filter ltb Has Htr keep t _ (py_sort_sorted ltb Has Htr ts)) as G. etransitivity; [|symmetry; exact G]. cbn [filter]. destruct (keep t); [|exact IH].
  transitivity (insert ltb t (py_sort ltb (filter keep ts))); [reflexivity|]. f_equal. exact IH.
Qed.

(** * Codings *)
Section Make.
Context {V : Type}.
Variable num_cols : list (factor * nat).
Variable code_cm : factor -> bool -> result (@ctr V).
Variable hash : list (bool * factor) -> Z.
Local Notation make := (make_subterm_infos num_cols code_cm hash).
Local Notation bucket := (infos_for_bucket num_cols code_cm hash).

Lemma bucket_at p t q : forall used r, bucket (p ++ t :: q) used = Ok r -> exists us ss us', infos_for_term num_cols code_cm hash t us = Ok (ss, us') /\ In (t, ss) r /\
  forall q' r', bucket (p ++ t :: q') used = Ok r' -> In (t, ss) r'.
Proof.
  induction p as [|u p IH]; intros used r; cbn [app infos_for_bucket].
  - destruct (infos_for_term num_cols code_cm hash t used) as [[ss us']|] eqn:E; cbn [bind]; [|discriminate]. destruct (bucket q _); cbn [bind]; [|discriminate]. intros [= <-].
    exists used, ss, us'. split; [exact E|]. split; [now left|]. intros q' r'. destruct (bucket q' _); cbn [bind]; [|discriminate]. intros [= <-]. now left.
  - destruct (infos_for_term num_cols code_cm hash u used) as [x|]; cbn [bind]; [|discriminate]. destruct (bucket (p ++ t :: q) (snd x)) as [rest|] eqn:E; cbn [bind]; [|discriminate]. intros [= <-].
    destruct (IH _ _ E) as [us [ss [us' [H1 [H2 H3]]]]]. exists us, ss, us'. split; [exact H1|]. split; [now right|].
    intros q' r'. destruct (bucket (p ++ t :: q') (snd x)) as [rest'|] eqn:E'; cbn [bind]; [|discriminate]. intros [= <-]. right. eapply H3, E'.
Qed.
Lemma make_bucket terms d t : make terms = Ok d -> In t terms -> exists r, bucket (by_degree (filter (same_num num_cols t) terms)) [] = Ok r /\ incl r d.
Proof.
  intros H Ht. destruct (make_inv _ _ _ terms d H) as [per [Hf [-> _]]]. pose proof (binv_buckets num_cols terms) as Hb.
  destruct (bi_all _ _ _ Hb t Ht) as [b [ts [Hin Eb]]]. pose proof (bi_ts _ _ _ Hb b ts Hin) as Ets.
  apply (Permutation_in _ (Permutation_sym (empty_first_perm _))) in Hin. destruct (Forall2_in_l _ _ _ Hf _ Hin) as [r [Hr E]]. cbn [snd] in E.
  exists r. split; [|intros x Hx; apply in_concat; eauto]. rewrite <- E. f_equal. f_equal. rewrite Ets. apply filter_ext. intros u. unfold same_num. rewrite beq_sym in Eb. now rewrite (beq_congr _ _ (bucket_of num_cols u) Eb).
Qed.
Lemma distinct_nodup {A} (d : list (term * A)) : distinct_keys term_eqb d -> NoDup (map fst d).
Proof.
  induction d as [|[k v] d IH]; cbn [distinct_keys map fst]; [constructor|]. intros [H1 H2]. constructor; [|auto]. intros Hin. apply in_map_iff in Hin. destruct Hin as [p [E Hp]].
  pose proof (H1 p Hp) as G. rewrite E, DescProofs.term_eqb_refl in G. discriminate.
Qed.

Lemma later_codings terms keep d1 d2 t : make terms = Ok d1 -> make (filter keep terms) = Ok d2 -> In t terms -> keep t = true ->
  (forall u, In u terms -> keep u = false -> ~ same_bucket (numeric num_cols) t u \/ length t < length u \/ (length t = length u /\ BuildSpec.before terms t u)) ->
  exists ss, In (t, ss) d1 /\ In (t, ss) d2.
Proof.
  intros H1 H2 Ht Hk Hl. assert (Ht2 : In t (filter keep terms)) by (apply filter_In; auto).
  destruct (make_bucket terms d1 t H1 Ht) as [r1 [E1 I1]]. destruct (make_bucket _ d2 t H2 Ht2) as [r2 [E2 I2]].
  assert (Hnd : NoDup terms).
  { destruct (order_lemma _ _ _ terms d1 H1) as [P [_ D]]. eapply Permutation_NoDup; [exact P|]. now apply distinct_nodup. }
  replace (filter (same_num num_cols t) (filter keep terms)) with (filter keep (filter (same_num num_cols t) terms)) in E2.
  2:{ clear. induction terms as [|u l IH]; [reflexivity|]. cbn [filter]. destruct (same_num num_cols t u) eqn:E1, (keep u) eqn:E2; cbn [filter]; rewrite ?E1, ?E2, IH; reflexivity. }
  rewrite degree_filter in E2. set (l := by_degree (filter (same_num num_cols t) terms)) in *.
  assert (Hin : In t l) by (unfold l, by_degree; apply py_sort_in, filter_In; split; [exact Ht|apply beq_refl]).
  apply in_split in Hin. destruct Hin as [p [q El]]. rewrite El in E1, E2.
  assert (Kp : filter keep p = p).
  { apply filter_all. intros u Hu. destruct (keep u) eqn:Ku; [reflexivity|]. exfalso.
    assert (Hul : In u l) by (rewrite El; apply in_app_iff; now left). unfold l, by_degree in Hul. apply py_sort_in, filter_In in Hul. destruct Hul as [Hut Hus].
    apply same_bucket_iff in Hus. destruct (Hl u Hut Ku) as [X|X]; [apply X; exact Hus|].
    assert (B : BuildSpec.before l u t) by (apply in_split in Hu; destruct Hu as [a [b ->]]; exists a, b, q; rewrite El, <- app_assoc; reflexivity).
    apply by_degree_before in B. destruct B as [B|[B1 B2]]; [lia|]. destruct X as [X|[_ X]]; [lia|]. apply before_filter in B2. destruct B2 as [B2 _].
    clear - Hnd X B2. destruct X as [a1 [b1 [c1 Ea]]]. destruct B2 as [a2 [b2 [c2 Eb]]].
    assert (N : forall (a b a' b' : list term) x, NoDup (a ++ x :: b) -> a ++ x :: b = a' ++ x :: b' -> a = a').
    { clear. induction a as [|y a IH]; intros b [|y' a'] b' x N E; cbn in E; [reflexivity| | |].
      - injection E as <- E. inversion N as [|? ? H _]; subst. exfalso. apply H. apply in_app_iff. right. now left.
      - injection E as -> E. inversion N as [|? ? H _]; subst. exfalso. apply H. apply in_app_iff. right. now left.
      - injection E as <- E. inversion N; subst. f_equal. eapply IH; eassumption. }
    rewrite Ea in Hnd. pose proof Ea as Ea'. rewrite Eb in Ea. 
    assert (Z : a1 = a2 ++ u :: b2). { eapply N; [exact Hnd|]. rewrite <- Ea. rewrite <- app_assoc. reflexivity. }
    assert (Y : a2 = a1 ++ t :: b1). { eapply (N a2 (b2 ++ t :: c2)); [rewrite Ea; exact Hnd|]. rewrite Ea, <- app_assoc. reflexivity. }
    apply (f_equal (@length _)) in Z, Y. rewrite app_length in Z, Y. cbn in Z, Y. lia. }
  rewrite filter_app in E2. cbn [filter] in E2. rewrite Hk, Kp in E2.
  destruct (bucket_at p t q [] r1 E1) as [us [ss [us' [_ [G1 G2]]]]]. exists ss. split; [apply I1, G1|]. apply I2. eapply G2, E2.
Qed.
End Make.

(** * The columns of a term *)
Section Part.
Context {V : Type}.
Lemma term_part (d : @design_info V) t ss : constructed d -> In (t, ss) (codings_of d) ->
  pick (columns_of (infos_of d) (codings_of d)) (term_at d t) = columns_of_term (infos_of d) (t, ss) /\ checked (infos_of d) (codings_of d).
Proof.
  intros [names [fis [cs [Hmk [Hf Hc]]]]] Hp. destruct (d_facts d names fis cs Hmk Hf Hc) as [_ [_ [Hck [sl [E1 [E2 [E3 [E4 _]]]]]]]].
  assert (Hi : infos_of d = fis) by (unfold infos_of; now rewrite E3). assert (Hcd : codings_of d = cs) by (unfold codings_of; now rewrite E4). rewrite Hi, Hcd in *. split; [|exact Hck].
  assert (Hs' : exists s, dget term_eqb t sl = Some s).
  { destruct (slices_from_spec cs 0 sl _ E2) as [Ek _]. assert (Hin : In t (map fst sl)) by (rewrite Ek; now apply (in_map fst) in Hp).
    destruct (dget term_eqb t sl) as [s|] eqn:E; [eauto|]. exfalso. apply in_map_iff in Hin. destruct Hin as [q [<- Hq]].
    apply (proj1 (dget_none _ _ _) E) in Hq. rewrite teqb_refl in Hq. discriminate. }
  destruct Hs' as [s Es]. rewrite <- (term_at_slice d names cs sl t t ss s E1 E2 Hp (teqb_refl t) Es).
  apply (slice_part (columns_of_term fis) cs (checked_len fis cs Hck) [] sl _ E2 Hc t t ss s Hp (teqb_refl t) Es).
Qed.
End Part.

Section Top.
Context {V I C S D : Type}.
Variables (vone : V) (vmul : V -> V -> V) (visnan : V -> bool) (ilabel : nat -> I) (ieqb : I -> I -> bool).
Hypothesis ieqb_eq : forall a b, ieqb a b = true <-> a = b.
Variable passes : factor -> result (S * Z).
Variable chunk : factor -> S -> nat -> D -> result S.
Variable finish : factor -> S -> nat -> result S.
Variable eval : factor -> S -> D -> result (@fobj V I C).
Variable origin_of : factor -> option origin.
Variable code_cm : list pval -> option C -> bool -> result (@ctr V).
Variable df_index : D -> option (list I).
Hypothesis Hidx : indexed eval.
Variable w : run_of_python.
Local Notation builders := (design_matrix_builders passes chunk finish eval origin_of code_cm (py_hash w) (py_set_order w) (py_order_mem w) (py_order_exam w) (py_addr w) (py_hash_order w)).
Local Notation build := (build vone vmul visnan ilabel ieqb eval origin_of df_index).
Variable data : nat -> list D.

Lemma later_lemma na tl keep x y t : lawful [tl; filter keep tl] w -> builders data na [tl; filter keep tl] = Ok [x; y] -> In t tl -> keep t = true ->
  (forall u, In u tl -> keep u = false -> too_late x tl t u) ->
  exists ss, In (t, ss) (codings_of (ds_info x)) /\ In (t, ss) (codings_of (ds_info y)) /\ constructed (ds_info x) /\ constructed (ds_info y) /\
    column_names (ds_info x) = map (fun id => label (infos_of (ds_info x)) (snd (fst id)) (snd id)) (columns_of (infos_of (ds_info x)) (codings_of (ds_info x))) /\
    column_names (ds_info y) = map (fun id => label (infos_of (ds_info y)) (snd (fst id)) (snd id)) (columns_of (infos_of (ds_info y)) (codings_of (ds_info y))) /\
    (forall f, In f t -> dget String.eqb f (infos_of (ds_info x)) = dget String.eqb f (infos_of (ds_info y))).
Proof.
  intros L Eb Ht Hk Hl. pose proof L as [A1 [A2 [A3 _]]]. rewrite builders_prepare in Eb. destruct (get_action na) as [act|]; cbn [bind] in Eb; [|discriminate].
  destruct (prepare passes chunk finish eval origin_of (py_set_order w) (py_order_mem w) (py_order_exam w) (py_addr w) (py_hash_order w) data act [tl; filter keep tl]) as [[[[num cat] fis] kn]|] eqn:E1; cbn [bind] in Eb; [|discriminate].
  pose proof (prepare_inv _ _ _ _ _ _ _ _ _ _ A1 A2 A3 _ _ _ _ _ _ _ E1) as [_ R]. cbn [mapM] in Eb.
  destruct (design_for num (contrast_for code_cm cat) (py_hash w) fis tl) as [dx|] eqn:Ex; cbn [bind] in Eb; [|discriminate].
  destruct (design_for num (contrast_for code_cm cat) (py_hash w) fis (filter keep tl)) as [dy|] eqn:Ey; cbn [bind] in Eb; [|discriminate]. injection Eb as <- <-. cbn [ds_info] in *.
  destruct (design_for_lemma _ _ _ _ _ _ Ex) as [X1 [X2 [X3 X4]]]. destruct (design_for_lemma _ _ _ _ _ _ Ey) as [Y1 [Y2 [Y3 Y4]]].
  assert (Ht2 : In t (filter keep tl)) by (apply filter_In; auto).
  assert (Nu : forall u f, In u tl -> In f u -> (numeric num f <-> numeric_in (mkDesign dx kn) f)).
  { intros u f Hu Hf. assert (Hc : In f (concat tl)) by (apply in_concat; eauto).
    assert (Hfs : In f (factors_of [tl; filter keep tl])) by (unfold factors_of; cbn [map concat]; apply in_app_iff; now left).
    destruct (R f Hfs) as [fi [s [k [lv [c [_ [B2 [B3 [B4 [B5 [B6 _]]]]]]]]]]]. rewrite <- (X4 f Hc) in B2. unfold numeric, numeric_in. cbn [ds_info]. split.
    - intros [n Hn]. destruct (dget_in String.eqb f (infos_of dx) fi B2) as [k0 [I0 E0]]. apply String.eqb_eq in E0. subst k0. exists fi. destruct k as [n'|lv']; [exists n'; split; [exact I0|exact B4]|].
      exfalso. apply (proj1 (dget_none _ _ _) B6) in Hn. cbn [fst] in Hn. rewrite String.eqb_refl in Hn. discriminate.
    - intros [fi' [n [I0 E0]]]. assert (fi' = fi).
      { destruct X1 as [names [fis0 [cs [Hmk [Hd Hdc]]]]]. assert (G : distinct_keys String.eqb (infos_of dx)).
        { destruct (d_facts dx names fis0 cs Hmk Hd Hdc) as [_ [_ [_ [sl [_ [_ [E3 _]]]]]]]. unfold infos_of. now rewrite E3. }
        rewrite (dget_distinct String.eqb String.eqb_refl _ _ _ G I0) in B2. congruence. }
      subst fi'. rewrite B4 in E0. rewrite E0 in B6. destruct (dget_in String.eqb f num n B6) as [k0 [I1 E1']]. apply String.eqb_eq in E1'. subst k0. eauto. }
  destruct (later_codings num (contrast_for code_cm cat) (py_hash w) tl keep _ _ t X2 Y2 Ht Hk) as [ss [S1 S2]].
  { intros u Hu Ku. destruct (Hl u Hu Ku) as [H|H]; [left|now right]. intros G. apply H. intros f Hf. split; intros Hin.
    - apply G; [|exact Hin]. now apply (Nu t f Ht Hin).
    - apply G; [|exact Hin]. now apply (Nu u f Hu Hin). }
  exists ss. repeat (split; [assumption|]). intros f Hf. rewrite X4 by (apply in_concat; eauto). rewrite Y4 by (apply in_concat; eauto). reflexivity.
Qed.

Lemma later_names na tl keep x y t : lawful [tl; filter keep tl] w -> builders data na [tl; filter keep tl] = Ok [x; y] -> In t tl -> keep t = true ->
  (forall u, In u tl -> keep u = false -> too_late x tl t u) -> names_of x t = names_of y t.
Proof.
  intros L Eb Ht Hk Hl. destruct (later_lemma na tl keep x y t L Eb Ht Hk Hl) as [ss [I1 [I2 [C1 [C2 [N1 [N2 Hf]]]]]]].
  destruct (term_part _ t ss C1 I1) as [P1 K1]. destruct (term_part _ t ss C2 I2) as [P2 _].
  unfold names_of. rewrite N1, N2. etransitivity; [apply pick_map|]. etransitivity; [|symmetry; apply pick_map]. etransitivity; [apply f_equal; exact P1|]. etransitivity; [|apply f_equal; symmetry; exact P2].
  rewrite (columns_of_term_ext _ (infos_of (ds_info y)) t ss) by (intros s f Hs Hfs; apply Hf; eapply (ck_incl _ _ K1 t ss s); eassumption).
  apply map_ext_in. intros [[t0 s0] c0] Hin. cbn [fst snd]. unfold columns_of_term in Hin. cbn [fst snd] in Hin. apply in_flat_map in Hin. destruct Hin as [s [Hs Hin]]. apply in_map_iff in Hin. destruct Hin as [c [[= <- -> <-] _]].
  apply label_ext. intros f Hfs. apply Hf. eapply (ck_incl _ _ K1 t ss s0); eassumption.
Qed.
Lemma later_columns na tl keep x y t d na' want m m' labels : lawful [tl; filter keep tl] w -> builders data na [tl; filter keep tl] = Ok [x; y] -> In t tl -> keep t = true ->
  (forall u, In u tl -> keep u = false -> too_late x tl t u) -> build [x; y] d na' want = Ok ([m; m'], labels) -> part_of x m t = part_of y m' t.
Proof.
  intros L Eb Ht Hk Hl Hb. pose proof L as [A1 [A2 [A3 _]]]. destruct (later_lemma na tl keep x y t L Eb Ht Hk Hl) as [ss [I1 [I2 [C1 [C2 [N1 [N2 Hf]]]]]]].
  destruct (term_part _ t ss C1 I1) as [P1 K1]. destruct (term_part _ t ss C2 I2) as [P2 _].
  assert (Hok : designs_ok [x; y]) by (eapply (used_ok _ _ _ _ _ _ _ _ _ _ _ _ A1 A2 A3), incl_refl; exact Eb).
  destruct (build_built vone vmul visnan ilabel ieqb ieqb_eq eval origin_of df_index Hidx [x; y] d na' want [m; m'] labels Hok Hb) as [act [_ [B _]]].
  unfold built in B. cbn zeta in B. destruct B as [n [full [_ [_ [_ [_ [B _]]]]]]]. cbn [map] in B.
  set (ks := kept _ _ n) in B. clearbody ks. set (ev := eval_info _ _ _ _ _ _) in B. clearbody ev.
  inversion B as [|? ? ? ? [_ M1] B' Q1 Q2]; subst. inversion B' as [|? ? ? ? [_ M2] _ Q1 Q2]; subst. clear B B'.
  apply (forall2_pick _ _ _ (term_at (ds_info x) t)) in M1. apply (forall2_pick _ _ _ (term_at (ds_info y) t)) in M2. rewrite P1 in M1. rewrite P2 in M2.
  rewrite <- (columns_of_term_ext (infos_of (ds_info x)) (infos_of (ds_info y)) t ss) in M2 by (intros s f Hs Hfs; apply Hf; eapply (ck_incl _ _ K1 t ss s); eassumption).
  assert (Hin : forall id, In id (columns_of_term (infos_of (ds_info x)) (t, ss)) -> forall f, In f (si_factors (snd (fst id))) -> dget String.eqb f (infos_of (ds_info x)) = dget String.eqb f (infos_of (ds_info y))).
  { intros [[t0 s0] c0] Hin f Hfs. cbn [fst snd] in Hfs. unfold columns_of_term in Hin. cbn [fst snd] in Hin. apply in_flat_map in Hin. destruct Hin as [s [Hs Hin]]. apply in_map_iff in Hin. destruct Hin as [c [[= <- -> <-] _]].
    apply Hf. eapply (ck_incl _ _ K1 t ss s0); eassumption. }
  unfold part_of. revert M1 M2 Hin. generalize (pick (m_cols m) (term_at (ds_info x) t)) (pick (m_cols m') (term_at (ds_info y) t)) (columns_of_term (infos_of (ds_info x)) (t, ss)). clear.
  intros cols cols' ids M1. revert cols'. induction M1 as [|id col ids cols E F IH]; intros cols' M2 Hin; inversion M2 as [|? col' ? cols0 E' F']; subst; [reflexivity|].
  f_equal; [|apply IH; [exact F'|intros id' Hid'; apply Hin; now right]].
  assert (X : map Some col = map Some col').
  { rewrite E, E'. apply map_ext. intros k. destruct id as [[t0 s0] c0]. apply entry_infos. intros f Hfs. exact (Hin (t0, s0, c0) (or_introl eq_refl) f Hfs). }
  clear - X. revert col' X. induction col as [|a col IH]; intros [|b l]; cbn; try discriminate; [reflexivity|]. intros [= -> H]. f_equal. now apply IH.
Qed.
End Top.
