(** Rearranging the rows of the data that a design is made from. *)
From Coq Require Import Permutation Sorted.
From Verif Require Import Base DescModel DescProofs BuildModel BuildSpec BuildProofs BuildTopProofs MemorizeModel MemorizeSpec CategoricalModel CategoricalSpec FitModel FitSpec FitProofs PipeModel PipeSpec PipeProofs PipeHighProofs
  PipeSeedSpec PipeSeedProofs PipeSeedTopProofs EntryModel EntryFitProofs IncrSpec IncrProofs ArrangeSpec ArrangeProofs.
Open Scope nat_scope.
Open Scope list_scope.

Section Top.
Context {val data St V I C row cell : Type}.
Variables (vone : V) (vmul : V -> V -> V) (visnan : V -> bool) (ilabel : nat -> I) (ieqb : I -> I -> bool).
Hypothesis ieqb_eq : forall a b, ieqb a b = true <-> a = b.
Variable code : factor -> @texpr val data St.
Variable bins : factor -> list (list string).
Variable origin_of : factor -> option origin.
Variable as_obj : val -> @fobj V I C.
Variable code_cm : list pval -> option C -> bool -> result (@ctr V).
Variable df_index : data -> option (list I).
Local Notation passes := (ef_passes code bins).
Local Notation chunk := (ef_chunk code bins origin_of).
Local Notation finish := (ef_finish code bins).
Local Notation eval := (ef_eval code origin_of as_obj).
Hypothesis Hidx : indexed eval.
Variable rows_of : data -> list row.
Variable holds : val -> list cell -> Prop.
Variables d d' : data.
Variable ks : list nat.
Hypothesis Hrow : rows_of d <> [].
Hypothesis Hd' : rows_of d' = pick (rows_of d) ks.
Hypothesis Hks : Permutation ks (seq 0 (length (rows_of d))).
Variables w1 w2 : run_of_python.
Variable tls : list (list term).
Hypothesis L1 : lawful tls w1.
Hypothesis L2 : lawful tls w2.
Local Notation builders w := (design_matrix_builders passes chunk finish eval origin_of code_cm (py_hash w) (py_set_order w) (py_order_mem w) (py_order_exam w) (py_addr w) (py_hash_order w)).
Local Notation build := (build vone vmul visnan ilabel ieqb eval origin_of df_index).

Lemma ks_lt k : In k ks -> k < length (rows_of d).
Proof. intros H. apply (Permutation_in _ Hks), in_seq in H. lia. Qed.
Lemma pick_perm {A} (l : list A) a b : Permutation a b -> Permutation (pick l a) (pick l b).
Proof. intros H. unfold pick. now apply Permutation_flat_map. Qed.
Lemma rows_perm : Permutation (rows_of d') (rows_of d).
Proof. rewrite Hd'. etransitivity; [apply (pick_perm _ _ _ Hks)|]. now rewrite BuildAllProofs.pick_all. Qed.

Lemma fitted_arranged na ds1 : (forall act, get_action na = Ok act -> forall f, In f (factors_of tls) -> order_free rows_of holds as_obj ks d d' w1 w2 (na_what act) (code f) (bins f)) ->
  builders w1 (fun _ => [d]) na tls = Ok ds1 -> df_index d' = option_map (fun i => pick i ks) (df_index d) -> (forall i, df_index d = Some i -> length i = length (rows_of d)) ->
  designs_ok ds1 /\ length ds1 = length tls /\ has_rows eval df_index ds1 d (length (rows_of d)) /\ rearranges ks eval df_index ds1 d d'.
Proof.
  intros H Hb Hdf Hlen. pose proof L1 as [A1 [A2 [A3 _]]].
  destruct (builders_good _ _ _ _ _ _ _ _ _ _ _ _ A1 A2 A3 _ _ _ _ Hb) as [N1 [C1 [D1 [act [Ha G]]]]].
  assert (Key : forall fi s c, In fi (all_infos (map ds_info ds1)) -> dget Nat.eqb (fi_id fi) (concat (map ds_known ds1)) = Some (s, c) ->
    exists v v', eval (fi_factor fi) s d = Ok (as_obj v) /\ eval (fi_factor fi) s d' = Ok (as_obj v') /\ arranged ks (as_obj v) (as_obj v') /\ value_rows (fi_kind fi) (as_obj v) = length (rows_of d)).
  { intros fi s c Hfi Hkn. unfold all_infos in Hfi. apply in_flat_map in Hfi. destruct Hfi as [x [Hx Hfi]]. apply in_map_iff in Hx. destruct Hx as [y [<- Hy]]. apply in_map_iff in Hfi. destruct Hfi as [[f fi'] [E Hfi]]. cbn in E. subst fi'.
    destruct (G y Hy f fi Hfi) as [Ef [Hf [s' [lv [cc [HL Hkn']]]]]]. rewrite Ef.
    assert (s' = s) as ->.
    { destruct ds1 as [|z ds]; [destruct Hy|]. cbn [map concat] in Hkn. pose proof (Hkn' z (or_introl eq_refl)) as K. unfold knows in K. rewrite (get_known _ _ _ _ _ K) in Hkn. congruence. }
    destruct (H act Ha f Hf) as [Hnd [Hin [m [Hr [Hs Ho]]]]].
    assert (Tr : trained passes chunk finish (fun _ => [d]) f s) by (destruct HL; assumption).
    apply (trained_fit code bins origin_of [d] (fun _ => [d]) (fun _ => eq_refl)) in Tr.
    destruct (fit_factor_ok [d] (code f) Hnd (bins f) s Hin Tr) as [Hst Hev].
    assert (Fx : fits_on [d] (code f)) by (intros o c0 args Hc; destruct (Hst o c0 args Hc) as [z [E _]]; eauto).
    assert (Hfull : forall z, In z ([d] ++ [d']) -> rows_of z <> []).
    { intros z [<-|[<-|[]]]; [exact Hrow|]. intros E. pose proof rows_perm as P. rewrite E in P. apply Permutation_nil in P. now apply Hrow. }
    destruct (proj1 (rowwise_lemma rows_of holds [d] [d'] (rows_of d) ltac:(cbn; now rewrite app_nil_r) ltac:(cbn; rewrite app_nil_r; exact rows_perm) ltac:(easy) ltac:(easy) Hfull) (code f) m Hr Fx) as [_ Hrows].
    destruct (Hrows d (or_introl eq_refl)) as [v [Ev Mv]]. destruct (Hrows d' (or_intror (or_introl eq_refl))) as [v' [Ev' Mv']].
    destruct (Ho v v' Mv Mv') as [Ar Rn]. exists v, v'. unfold ef_eval. rewrite !Hev, Ev, Ev'. cbn [wrap_exc bind]. split; [reflexivity|]. split; [reflexivity|]. split; [exact Ar|].
    rewrite <- Rn. assert (Vw : value_with eval s f d = Ok (o_value (as_obj v))) by (unfold value_with, ef_eval; now rewrite Hev, Ev).
    destruct HL as [s n T0 Y0|s sn lv' cc' T0 Y0 E0]; unfold exam_chunks, type_of in Y0; rewrite Vw in Y0; cbn [bind] in Y0; destruct (guess_categorical (o_value (as_obj v))); try reflexivity.
    - destruct (look _ _ _ _ _ _); discriminate.
    - destruct (column_count _ _); discriminate. }
  split; [split; assumption|]. split; [exact N1|]. split.
  - split; [exact Hlen|]. intros fi o [Hfi [s [c [Hk Ho]]]]. destruct (Key fi s c Hfi Hk) as [v [v' [E [_ [_ R]]]]]. assert (o = as_obj v) by congruence. now subst o.
  - split; [exact Hdf|]. intros fi s c o Hfi Hk Ho. destruct (Key fi s c Hfi Hk) as [v [v' [E [E' [R _]]]]]. assert (o = as_obj v) by congruence. subst o. eauto.
Qed.

Lemma order_lemma na na' want ds1 r : tls <> [] ->
  (forall act, get_action na = Ok act -> forall f, In f (factors_of tls) -> order_free rows_of holds as_obj ks d d' w1 w2 (na_what act) (code f) (bins f)) ->
  builders w1 (fun _ => [d]) na tls = Ok ds1 -> df_index d' = option_map (fun i => pick i ks) (df_index d) -> (forall i, df_index d = Some i -> length i = length (rows_of d)) ->
  build ds1 d na' want = Ok r ->
  exists act, get_action na' = Ok act /\ let kp := kept (na_on act) (evals (PipeModel.eval_info visnan eval origin_of (concat (map ds_known ds1)) (na_what act) d) (all_infos (map ds_info ds1))) (length (rows_of d)) in
    exists ds2 r', builders w2 (fun _ => [d']) na tls = Ok ds2 /\ Forall2 (fun x y => anonymous (ds_info x) = anonymous (ds_info y)) ds1 ds2 /\ build ds2 d' na' want = Ok r' /\
      (labelled eval df_index ds1 d -> arranged_results ks ilabel kp want true r r') /\ (~ labelled eval df_index ds1 d -> arranged_results ks ilabel kp want false r r').
Proof.
  intros Ht H Hb Hdf Hlen Hm. destruct (fitted_arranged na ds1 H Hb Hdf Hlen) as [O1 [N1 [R1 R2]]].
  assert (Hne : ds1 <> []) by (intros ->; destruct tls; [contradiction|discriminate]).
  destruct (build_arranged vone vmul visnan ilabel ieqb ieqb_eq eval origin_of df_index Hidx ks ds1 d d' na' want _ r O1 Hne R1 ks_lt R2 Hm) as [act [Ha [r' [E Hr]]]].
  exists act. split; [exact Ha|]. cbv zeta.
  assert (Hfull : forall z, In z ([d] ++ [d']) -> rows_of z <> []).
  { intros z [<-|[<-|[]]]; [exact Hrow|]. intros E0. pose proof rows_perm as P. rewrite E0 in P. apply Permutation_nil in P. now apply Hrow. }
  destruct (incremental_lemma vone vmul visnan ilabel ieqb ieqb_eq code bins origin_of as_obj code_cm df_index Hidx rows_of holds [d] [d'] (rows_of d) ltac:(cbn; now rewrite app_nil_r) ltac:(cbn; rewrite app_nil_r; exact rows_perm) ltac:(easy) ltac:(easy) Hfull w1 w2 tls L1 L2 na ds1)
    as [ds2 [E2 [An Bd]]].
  { intros a Ea f Hf. destruct (H a Ea f Hf) as [X1 [X2 [m [X3 [X4 _]]]]]. split; [exact X1|]. split; [exact X2|]. exists m. split; assumption. }
  { exact Hb. }
  exists ds2, r'. split; [exact E2|]. split; [exact An|]. split; [|exact Hr]. apply (Bd ds1 ds2); [|exact E].
  clear - An. assert (G : forall (us vs ds1 ds2 : list (@design V (@store St))), Forall2 (fun x y => anonymous (ds_info x) = anonymous (ds_info y)) us vs -> incl (combine us vs) (combine ds1 ds2) -> Forall2 (paired ds1 ds2) us vs).
  { induction 1 as [|x y us vs _ F IH]; intros Hi; constructor; [apply Hi; now left|apply IH; intros z Hz; apply Hi; now right]. }
  apply G; [exact An|apply incl_refl].
Qed.
End Top.
