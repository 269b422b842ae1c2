(** Dropping rows before or after. *)
From Coq Require Import Permutation Sorted.
From Verif Require Import Base DescModel DescProofs BuildModel BuildSpec BuildProofs BuildTopProofs MemorizeModel MemorizeSpec CategoricalModel CategoricalSpec CategoricalKeyProofs CategoricalProofs PipeModel PipeSpec PipeProofs PipeHighProofs
  PipeSeedSpec PipeSeedProofs PipeSeedTopProofs IncrSpec IncrProofs ArrangeSpec ArrangeProofs DropSpec.
Open Scope nat_scope.
Open Scope list_scope.

Section Top.
Context {V I C S D : Type}.
Variables (vone : V) (vmul : V -> V -> V) (visnan : V -> bool) (ilabel : nat -> I) (ieqb : I -> I -> bool).
Hypothesis ieqb_eq : forall a b, ieqb a b = true <-> a = b.
Variable passes : factor -> result (S * Z).
Variable chunk : factor -> S -> nat -> D -> result S.
Variable finish : factor -> S -> nat -> result S.
Variable eval : factor -> S -> D -> result (@fobj V I C).
Variable origin_of : factor -> option origin.
Variable code_cm : list pval -> option C -> bool -> result (@ctr V).
Variable df_index : D -> option (list I).
Hypothesis Hidx : indexed eval.
Local Notation builders w := (design_matrix_builders passes chunk finish eval origin_of code_cm (py_hash w) (py_set_order w) (py_order_mem w) (py_order_exam w) (py_addr w) (py_hash_order w)).
Local Notation build := (build vone vmul visnan ilabel ieqb eval origin_of df_index).
Definition alike_states (f : factor) (s s' : S) : Prop := forall x, eval f s x = eval f s' x.

(** Designs that are alike build the same matrices. *)
Lemma alike_build ds1 ds2 d na want r : designs_ok ds1 -> designs_ok ds2 -> Forall2 (design_alike alike_states) ds1 ds2 ->
  (forall x y, In x ds1 -> In y ds1 -> ds_known x = ds_known y) -> (forall x y, In x ds2 -> In y ds2 -> ds_known x = ds_known y) ->
  (forall x f fi, In x ds1 -> In (f, fi) (infos_of (ds_info x)) -> fi_factor fi = f) ->
  build ds1 d na want = Ok r -> build ds2 d na want = Ok r.
Proof.
  intros O1 O2 Hf K1 K2 Hff. destruct r as [ms labels]. apply (build_values vone vmul visnan ilabel ieqb ieqb_eq eval origin_of df_index Hidx ds1 ds2 d na want ms labels O1 O2).
  apply f2_in in Hf. eapply forall2_impl; [|exact Hf]. intros x y [[H1 H2] [I1 I2]]. split; [exact H1|].
  pose proof (f2_in _ _ _ (f2_and _ _ _ _ H2 (infos_pairs _ _ (proj1 (infos_anon _ _ H1))))) as F. eapply forall2_impl; [|exact F].
  intros [f fi] [g gi] [[[s1 [s2 [lv [G1 [G2 G3]]]]] [E1 E2]] [J1 J2]] nw. cbn [fst snd] in *. subst g.
  assert (Kn : forall (ds : list (@design V S)) z gi0 v, In z ds -> (forall a b, In a ds -> In b ds -> ds_known a = ds_known b) -> dget Nat.eqb (fi_id gi0) (ds_known z) = Some v -> dget Nat.eqb (fi_id gi0) (concat (map ds_known ds)) = Some v).
  { intros ds z gi0 v Hz Hk E. destruct ds as [|a ds]; [destruct Hz|]. cbn [map concat]. destruct v as [sv lvv]. apply get_known. rewrite (Hk a z (or_introl eq_refl) Hz). exact E. }
  unfold PipeModel.eval_info. rewrite (Kn ds1 x _ _ I1 K1 G1), (Kn ds2 y _ _ I2 K2 G2). cbn [lookup bind].
  pose proof (Hff x f fi I1 J1) as Ef. destruct fi as [i1 f1 k1], gi as [i2 f2 k2]. cbn in E2, Ef. injection E2 as <- <-. subst f1. cbn [fi_factor fi_kind]. now rewrite (G3 d).
Qed.

Variables w1 w2 : run_of_python.
Variable tls : list (list term).
Hypothesis L1 : lawful tls w1.
Hypothesis L2 : lawful tls w2.
Variables d d' : D.

Lemma learned_remains na : (forall f, In f (factors_of tls) -> fitted_alike passes chunk finish eval d d' f /\
    forall s o, trained passes chunk finish (fun _ => [d]) f s -> eval f s d = Ok o -> exists o', eval f s d' = Ok o' /\ remains w1 w2 na (o_value o) (o_value o')) ->
  learned_alike passes chunk finish eval origin_of w1 w2 alike_states (fun _ => [d]) (fun _ => [d']) na tls.
Proof.
  intros H f s k lv c Hf HL. destruct (H f Hf) as [Hfit Hrem].
  assert (Tr : trained passes chunk finish (fun _ => [d]) f s) by (destruct HL; assumption).
  destruct (Hfit s Tr) as [s' [Tr' Ha]]. exists s'. split; [exact Ha|].
  assert (Ev : exists o, eval f s d = Ok o).
  { destruct (eval f s d) as [o|e] eqn:E; [eauto|]. exfalso. destruct HL as [z n T0 Y0|z sn' lv' c' T0 Y0 E0]; unfold exam_chunks, type_of, value_with in Y0; rewrite E in Y0; cbn [bind] in Y0; discriminate. }
  destruct Ev as [o Eo]. destruct (Hrem s o Tr Eo) as [o' [Eo' R]].
  assert (Ed : value_with eval s f d = Ok (o_value o)) by (unfold value_with; now rewrite Eo).
  assert (Ed' : value_with eval s' f d' = Ok (o_value o')) by (unfold value_with; now rewrite <- Ha, Eo').
  destruct R as [n N1 N2|levels cc N1 N2|cells cells' V1 V2 G1 G2 Hc Hi Hst Hz Hu Hone Hord].
  - assert (T1 : type_of (value_with eval s) origin_of na f [d] = Ok (Some (TNum n))) by (apply numbers_found; [easy|intros z [<-|[]]; eauto]).
    assert (T2 : type_of (value_with eval s') origin_of na f [d'] = Ok (Some (TNum n))) by (apply numbers_found; [easy|intros z [<-|[]]; eauto]).
    destruct HL as [z n' T0 Y0|z sn' lv' c' T0 Y0 E0]; unfold exam_chunks in Y0; rewrite T1 in Y0; [|discriminate]. injection Y0 as <-. now constructor.
  - destruct (declared_found origin_of (value_with eval s) na f levels cc [d]) as [sn1 [T1 [S1 S2]]]; [easy|intros z [<-|[]]; eauto|].
    destruct (declared_found origin_of (value_with eval s') na f levels cc [d']) as [sn2 [T2 [R1 R2]]]; [easy|intros z [<-|[]]; eauto|].
    destruct HL as [z n' T0 Y0|z sn' lv' c' T0 Y0 E0]; unfold exam_chunks in Y0; rewrite T1 in Y0; [discriminate|]. injection Y0 as <-.
    apply (learned_cat _ _ _ _ _ _ _ _ _ _ f s' sn2); [exact Tr'|exact T2|]. rewrite <- E0. unfold levels_contrast. now rewrite S1, R1, S2, R2.
  - assert (Oc : forall x, occurs na cells' x -> occurs na cells x) by (intros x; now apply occurs_incl).
    assert (Cv : forall k, covers na cells' k <-> covers na cells k).
    { intros k0. split; intros [v [A [B G]]]; exists v; auto. }
    destruct (categories_found (value_with eval s) origin_of na (fun _ => cells) (fun x => x) cells f (contrast_in (o_value o)) [d]) as [sn1 [T1 [S1 [S2 [S3 [S4 S5]]]]]];
      try rewrite map_id; try (cbn; rewrite app_nil_r; apply Permutation_refl); auto; [easy|intros z [<-|[]]; exists (o_value o); try rewrite map_id; auto|].
    destruct (categories_found (value_with eval s') origin_of na (fun _ => cells') (fun x => x) cells' f (contrast_in (o_value o)) [d']) as [sn2 [T2 [R1 [R2 [R3 [R4 R5]]]]]];
      try rewrite map_id; try (cbn; rewrite app_nil_r; apply Permutation_refl); auto; [easy|intros z [<-|[]]; exists (o_value o'); try rewrite map_id; auto| |rewrite Forall_forall in *; auto|].
    { apply pure_iff. pose proof (proj1 (pure_iff _ _) Hz) as Hz'. intros A B k0 G. apply Hz'; now apply Cv. }
    rewrite map_id in *.
    destruct HL as [z n' T0 Y0|z sn' lv' c' T0 Y0 E0]; unfold exam_chunks in Y0; rewrite T1 in Y0; [discriminate|]. injection Y0 as <-.
    apply (learned_cat _ _ _ _ _ _ _ _ _ _ f s' sn2); [exact Tr'|exact T2|]. rewrite <- E0. unfold levels_contrast. rewrite S1, R1, S2, R2. f_equal. symmetry.
    assert (P : Permutation (sn_set sn2) (sn_set sn1)) by (apply (same_elements na cells); auto; intros k0; rewrite S4, R4; symmetry; apply Cv).
    apply (sorted_perm w1 w2 (sn_set sn1)).
    + apply distinct_iff. exact S3.
    + apply Hord. exact S5.
    + apply L1.
    + etransitivity; [apply L2|exact P].
Qed.

Variable ks : list nat.
Local Notation unaffected na := (unaffected passes chunk finish eval w1 w2 na ks d d').
Lemma drop_rearranges na ds1 : (forall act, get_action na = Ok act -> forall f, In f (factors_of tls) -> unaffected (na_what act) f) ->
  builders w1 (fun _ => [d]) na tls = Ok ds1 -> df_index d' = option_map (fun i => pick i ks) (df_index d) ->
  designs_ok ds1 /\ length ds1 = length tls /\ rearranges ks eval df_index ds1 d d'.
Proof.
  intros H Hb Hdf. pose proof L1 as [A1 [A2 [A3 _]]].
  destruct (builders_good _ _ _ _ _ _ _ _ _ _ _ _ A1 A2 A3 _ _ _ _ Hb) as [N1 [C1 [D1 [act [Ha G]]]]].
  split; [split; assumption|]. split; [exact N1|]. split; [exact Hdf|].
  intros fi s c o Hfi Hkn Eo. unfold all_infos in Hfi. apply in_flat_map in Hfi. destruct Hfi as [x [Hx Hfi]]. apply in_map_iff in Hx. destruct Hx as [y [<- Hy]]. apply in_map_iff in Hfi. destruct Hfi as [[f fi'] [E Hfi]]. cbn in E. subst fi'.
  destruct (G y Hy f fi Hfi) as [Ef [Hf [s' [lv [cc [HL Hkn']]]]]]. rewrite Ef in *.
  assert (s' = s) as ->.
  { destruct ds1 as [|z ds]; [destruct Hy|]. cbn [map concat] in Hkn. pose proof (Hkn' z (or_introl eq_refl)) as K. unfold knows in K. rewrite (get_known _ _ _ _ _ K) in Hkn. congruence. }
  assert (Tr : trained passes chunk finish (fun _ => [d]) f s) by (destruct HL; assumption).
  destruct (proj2 (H act Ha f Hf) s o Tr Eo) as [o' [E' [R _]]]. eauto.
Qed.

Lemma drop_builders na ds1 : (forall act, get_action na = Ok act -> forall f, In f (factors_of tls) -> unaffected (na_what act) f) ->
  builders w1 (fun _ => [d]) na tls = Ok ds1 ->
  exists ds2, builders w2 (fun _ => [d']) na tls = Ok ds2 /\ Forall2 (fun x y => anonymous (ds_info x) = anonymous (ds_info y)) ds1 ds2 /\
    forall x na' want r, build ds1 x na' want = Ok r -> build ds2 x na' want = Ok r.
Proof.
  intros H Hb. destruct (builders_alike vone vmul visnan passes chunk finish eval origin_of code_cm w1 w2 alike_states (fun _ => [d]) (fun _ => [d']) na tls ds1 L1 L2) as [ds2 [E [F [K1 K2]]]]; [|exact Hb|].
  { intros act Ha. apply learned_remains. intros f Hf. destruct (H act Ha f Hf) as [X Y]. split; [exact X|]. intros s o Tr Eo. destruct (Y s o Tr Eo) as [o' [Z1 [_ Z2]]]. eauto. }
  exists ds2. split; [exact E|]. split; [eapply forall2_impl; [|exact F]; intros x y [G _]; exact G|].
  intros x na' want r.
  pose proof L1 as [A1 [A2 [A3 _]]]. pose proof L2 as [B1 [B2 [B3 _]]].
  destruct (builders_good _ _ _ _ _ _ _ _ _ _ _ _ A1 A2 A3 _ _ _ _ Hb) as [_ [C1 [D1 [act1 [_ G1]]]]].
  destruct (builders_good _ _ _ _ _ _ _ _ _ _ _ _ B1 B2 B3 _ _ _ _ E) as [_ [C2 [D2 [act2 [_ G2]]]]].
  assert (Kn : forall (ds : list (@design V S)), (forall d, In d ds -> ds_known d = ds_known (hd d ds)) -> forall x y, In x ds -> In y ds -> ds_known x = ds_known y).
  { clear. intros ds K x y Hx Hy. rewrite (K x Hx), (K y Hy). destruct ds as [|z ds]; [destruct Hx|reflexivity]. }
  apply alike_build; eauto; [split; assumption|split; assumption|]. intros y f fi Hx' Hfi. now destruct (G1 y Hx' f fi Hfi).
Qed.
End Top.

(** * The rows that stay *)
Lemma of_kept_self ks : of_kept ks ks = ks.
Proof.
  unfold of_kept. assert (G : forall l, incl l ks -> filter (fun k => existsb (Nat.eqb k) ks) l = l).
  { induction l as [|k l IH]; intros Hl; [reflexivity|]. cbn. replace (existsb (Nat.eqb k) ks) with true; [now rewrite IH by (intros z Hz; apply Hl; now right)|].
    symmetry. apply existsb_exists. exists k. split; [apply Hl; now left|apply Nat.eqb_refl]. }
  apply G, incl_refl.
Qed.
Lemma positions_self (ks rows : list nat) : NoDup ks -> positions ks ks rows -> rows = seq 0 (length ks).
Proof.
  intros N H. unfold positions in H. apply (nth_ext _ _ 0 0); [rewrite seq_length; symmetry; eapply forall2_len, H|].
  intros i Hi. rewrite <- (forall2_len _ _ _ H) in Hi. rewrite seq_nth by exact Hi.
  assert (G : forall a b i, Forall2 (fun x p => nth_error ks p = Some x) a b -> i < length a -> nth_error ks (nth i b 0) = nth_error a i).
  { induction a as [|x a IH]; intros b i0 F Hl; inversion F; subst; cbn in Hl; [lia|]. destruct i0 as [|i0]; cbn; [assumption|]. apply IH; [assumption|lia]. }
  pose proof (G ks rows i H Hi) as E. rewrite NoDup_nth_error in N. symmetry. apply N; [exact Hi|]. now symmetry.
Qed.
Section Drop.
Context {V I C S D : Type}.
Variables (vone : V) (vmul : V -> V -> V) (visnan : V -> bool) (ilabel : nat -> I) (ieqb : I -> I -> bool).
Hypothesis ieqb_eq : forall a b, ieqb a b = true <-> a = b.
Variable eval : factor -> S -> D -> result (@fobj V I C).
Variable origin_of : factor -> option origin.
Variable df_index : D -> option (list I).
Hypothesis Hidx : indexed eval.
Local Notation build := (build vone vmul visnan ilabel ieqb eval origin_of df_index).

Lemma staying_kept act ds d n :
  kept (na_on act) (evals (eval_info visnan eval origin_of (concat (map ds_known ds)) (na_what act) d) (all_infos (map ds_info ds))) n = staying eval visnan origin_of act ds d n.
Proof.
  unfold kept, staying. destruct (na_on act); [|reflexivity]. apply filter_ext. intros k. unfold missing_in, evals.
  induction (all_infos (map ds_info ds)) as [|fi l IH]; [reflexivity|]. cbn [flat_map forallb]. destruct (eval_info _ _ _ _ _ _ fi) as [e|]; [|exact IH].
  cbn [app existsb]. rewrite Bool.negb_orb, IH. reflexivity.
Qed.

Lemma labelled_dec ds d : labelled eval df_index ds d \/ ~ labelled eval df_index ds d.
Proof.
  unfold labelled. destruct (df_index d) as [i|]; [left; left; eauto|].
  set (P := fun fi => match dget Nat.eqb (fi_id fi) (concat (map ds_known ds)) with
    | Some (s, _) => match eval (fi_factor fi) s d with Ok o => match o_index o with Some _ => true | None => false end | Err _ => false end | None => false end).
  destruct (existsb P (all_infos (map ds_info ds))) eqn:E.
  - left. right. apply existsb_exists in E. destruct E as [fi [Hfi E]]. unfold P in E. destruct (dget Nat.eqb (fi_id fi) _) as [[s c]|] eqn:Ek; [|discriminate].
    destruct (eval (fi_factor fi) s d) as [o|] eqn:Eo; [|discriminate]. destruct (o_index o) as [i|] eqn:Ei; [|discriminate]. exists fi, o, i. split; [split; [exact Hfi|eauto]|exact Ei].
  - right. intros [[i X]|[fi [o [i [[Hfi [s [c [Ek Eo]]]] Ei]]]]]; [discriminate|]. assert (T : existsb P (all_infos (map ds_info ds)) = true); [|congruence].
    apply existsb_exists. exists fi. split; [exact Hfi|]. unfold P. now rewrite Ek, Eo, Ei.
Qed.

Lemma drop_build ds d d' na want n r : designs_ok ds -> ds <> [] -> has_rows eval df_index ds d n -> build ds d na want = Ok r ->
  exists act, get_action na = Ok act /\ let ks := staying eval visnan origin_of act ds d n in
    (rearranges ks eval df_index ds d d' -> exists r', build ds d' na want = Ok r' /\ fst r' = fst r /\
      (labelled eval df_index ds d -> snd r' = snd r) /\ (~ labelled eval df_index ds d -> snd r' = if want then Some (map ilabel (seq 0 (length ks))) else None)).
Proof.
  intros Ho Hne Hr Hb. destruct r as [ms labels].
  destruct (build_built vone vmul visnan ilabel ieqb ieqb_eq eval origin_of df_index Hidx ds d na want ms labels Ho Hb) as [act [Ha [B _]]]. clear B.
  exists act. split; [exact Ha|]. intros ks Hre.
  assert (Hlt : forall k, In k ks -> k < n) by (intros k; unfold ks; rewrite <- staying_kept; apply kept_lt).
  assert (Hnd : NoDup ks).
  { unfold ks. rewrite <- staying_kept. unfold kept. destruct (na_on act); [|apply seq_NoDup]. apply NoDup_filter, seq_NoDup. }
  destruct (build_arranged vone vmul visnan ilabel ieqb ieqb_eq eval origin_of df_index Hidx ks ds d d' na want n _ Ho Hne Hr Hlt Hre Hb) as [act' [Ha' G]].
  rewrite Ha in Ha'. injection Ha' as <-. cbv zeta in G. rewrite staying_kept in G. fold ks in G. destruct G as [r' [E' [G1 G2]]].
  exists r'. split; [exact E'|].
  destruct (build_shape vone vmul visnan ilabel ieqb ieqb_eq eval origin_of df_index Hidx ds d na want ms labels Ho Hne Hb) as [n0 [B1 B2]].
  assert (Same : forall wl, arranged_results ks ilabel ks want wl (ms, labels) r' ->
    fst r' = ms /\ snd r' = if want then (if wl then labels else Some (map ilabel (seq 0 (length ks)))) else None).
  { intros wl [rows [new [P1 [P2 [_ [P3 P4]]]]]]. rewrite of_kept_self in P1, P2. apply positions_self in P1, P2; try exact Hnd. subst rows new. cbn [fst snd] in P3, P4.
    assert (Rect : Forall (fun m : @dmat V => m_rows m = n0 /\ Forall (fun col => length col = m_rows m) (m_cols m)) ms).
    { clear - B1. induction B1 as [|x m xs ms [M1 [M2 _]] F IH]; constructor; auto. }
    assert (Hms : fst r' = ms).
    { clear - P3 Rect. induction P3 as [|m m' ms ms' [Q1 [Q2 Q3]] F IH]; [reflexivity|]. inversion Rect as [|? ? [H0 H1] H2]; subst. f_equal; [|now apply IH].
      destruct m as [nr cols], m' as [nr' cols']. cbn in *. rewrite seq_length in Q2. subst. f_equal. clear - H1.
      induction H1 as [|col cols E F IH]; [reflexivity|]. cbn [map]. rewrite IH. f_equal. rewrite <- E. apply BuildAllProofs.pick_all. }
    split; [exact Hms|]. rewrite P4. destruct want; [|reflexivity]. destruct wl; [|reflexivity].
    destruct B2 as [l [-> Hl]]. cbn. f_equal.
    assert (El : length l = length ks).
    { rewrite Hl. destruct ds as [|x ds]; [contradiction|]. inversion B1 as [|x' m xs ms' [M1 _] F Y1 Y2]. rewrite <- Y2 in P3. rewrite <- M1. destruct (fst r') as [|z zs]; [inversion P3|]. inversion P3 as [|? ? ? ? Q1 Q2]. exact (proj1 Q1). }
    rewrite <- El. apply BuildAllProofs.pick_all. }
  split; [|split].
  - destruct (labelled_dec ds d) as [L|L]; [now apply (Same true), G1|now apply (Same false), G2].
  - intros L. destruct (Same true (G1 L)) as [_ ->]. destruct want; [reflexivity|]. cbn in B2 |- *. congruence.
  - intros L. now destruct (Same false (G2 L)) as [_ ->].
Qed.
End Drop.
