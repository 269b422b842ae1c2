(** Proofs about the entries of matrices. *)
From Coq Require Import ZArith Sorted Permutation.
From Verif Require Import Base RankSpec RedundancyModel RedundancyProofs DescModel FormulaModel BuildModel BuildSpec BuildProofs BuildSubtermProofs BuildInfoProofs BuildMatrixProofs BuildAllProofs BuildOrderProofs BuildSubsetProofs BuildDesignProofs BuildTopProofs
  MemorizeModel MemorizeSpec CategoricalModel CategoricalSpec CategoricalCodeProofs CategoricalSortProofs  CategoricalProps PipeModel PipeSpec PipeProofs PipeHighProofs EntrySpec.
Open Scope nat_scope.
Open Scope list_scope.

(** * Contrast matrices of the subterms *)
Section Contrasts.
Context {V : Type}.
Variables (num_cols : list (factor * nat)) (code_cm : factor -> bool -> result (@ctr V)) (hash : list (bool * factor) -> Z).
Lemma subterm_for_contrasts t c s : subterm_for num_cols code_cm t c = Ok s ->
  forall f m, dget String.eqb f (si_contrasts s) = Some m -> exists full, code_cm f full = Ok m.
Proof.
  unfold subterm_for. match goal with |- bind (foldM ?g t ([], [], 1)) _ = _ -> _ => set (step := g) end.
  assert (G : forall l st st', foldM step l st = Ok st' -> (forall f m, dget String.eqb f (snd (fst st)) = Some m -> exists full, code_cm f full = Ok m) ->
    forall f m, dget String.eqb f (snd (fst st')) = Some m -> exists full, code_cm f full = Ok m).
  { induction l as [|f0 l IH]; intros st st' E; cbn [foldM] in E; [now injection E as <-|]. destruct (step st f0) as [st1|] eqn:E1; cbn [bind] in E; [|discriminate].
    intros H. apply (IH _ _ E). destruct st as [[fs0 cms0] n0]. unfold step in E1. destruct (dget String.eqb f0 num_cols); [injection E1 as <-; exact H|].
    destruct (dget String.eqb f0 c) as [b|]; [|injection E1 as <-; exact H]. destruct (code_cm f0 b) as [m0|] eqn:Em; cbn [bind] in E1; [|discriminate]. injection E1 as <-. cbn [fst snd] in *.
    intros f m. rewrite (dget_dset String.eqb seqb_sym seqb_trans). destruct (String.eqb_spec f0 f) as [->|Hne]; [intros [= <-]; eauto|apply H]. }
  destruct (foldM step t ([], [], 1)) as [[[fs cms] n]|] eqn:E; cbn [bind]; [|discriminate]. intros [= <-]. cbn [si_contrasts]. apply (G _ _ _ E). discriminate.
Qed.
Lemma bucket_contrasts ts : forall used r, infos_for_bucket num_cols code_cm hash ts used = Ok r ->
  forall t ss s f m, In (t, ss) r -> In s ss -> dget String.eqb f (si_contrasts s) = Some m -> exists full, code_cm f full = Ok m.
Proof.
  induction ts as [|t0 ts IH]; intros used r; cbn [infos_for_bucket]; [intros [= <-] ? ? ? ? ? []|].
  destruct (infos_for_term num_cols code_cm hash t0 used) as [[sis used']|] eqn:E; cbn [bind]; [|discriminate].
  destruct (infos_for_bucket num_cols code_cm hash ts _) as [rest|] eqn:Er; cbn [bind]; [|discriminate]. intros [= <-] t ss s f m [Hin|Hin] Hs Hm; [|eapply IH; eassumption].
  injection Hin as <- <-. unfold infos_for_term in E. destruct (RedundancyModel.pick_contrasts_for_term _ _ _ _ _) as [[cs u]|]; cbn [bind] in E; [|discriminate].
  destruct (mapM (subterm_for num_cols code_cm t0) _) as [sis'|] eqn:Em; cbn [bind] in E; [|discriminate]. injection E as <- <-. cbn [fst] in Hs.
  apply mapM_ok_Forall2 in Em. destruct (Forall2_in_r _ _ _ Em s Hs) as [c [_ Hc]]. eapply subterm_for_contrasts; eassumption.
Qed.
Lemma codings_contrasts terms cs : make_subterm_infos num_cols code_cm hash terms = Ok cs ->
  forall t ss s f m, In (t, ss) cs -> In s ss -> dget String.eqb f (si_contrasts s) = Some m -> exists full, code_cm f full = Ok m.
Proof.
  intros H. destruct (make_inv num_cols code_cm hash terms cs H) as [per [Hf [-> _]]]. intros t ss s f m Hin. apply in_concat in Hin. destruct Hin as [r [Hr Hin]].
  destruct (Forall2_in_r _ _ _ Hf r Hr) as [p [_ Hp]]. now apply (bucket_contrasts _ _ _ Hp t ss).
Qed.
End Contrasts.

(** * Codes *)
Lemma codes_found {C} (v : @value C) levels na org codes : proper_codes v -> categorical_to_int v levels na org = Ok codes -> codes_are levels na v codes.
Proof.
  intros Hp H.
  assert (G : forall d, (v = Plain d /\ ~ is_pandas d \/ exists c bl, v = Boxed d c bl) -> (exists l, consists_of d l) -> codes_are levels na v codes).
  { intros d Hv [l Hl]. eapply ca_values; [exact Hv|exact Hl|]. eapply category_codes; eassumption. }
  assert (K : forall d, code_data na org levels d = Ok codes -> (forall cats cs, d = DPandas cats cs -> Forall (fun z => (z < 0)%Z \/ Z.to_nat z < length cats) cs) -> exists l, consists_of d l).
  { intros d Hd Hpan. unfold code_data in Hd. destruct d as [cats cs|n l|n l|n x|a b c]; cbn [shape_fix] in Hd.
    - specialize (Hpan cats cs eq_refl). clear -Hpan. assert (E : exists l, Forall2 (fun z v => (z < 0)%Z /\ v = VNan 0 \/ (0 <= z)%Z /\ nth_error cats (Z.to_nat z) = Some v) cs l).
      { induction Hpan as [|z cs Hz Hcs [l IH]]; [exists []; constructor|]. destruct (Z.ltb_spec z 0) as [Hn|Hn]; [exists (VNan 0 :: l); constructor; auto|].
        destruct Hz as [Hz|Hz]; [lia|]. destruct (nth_error cats (Z.to_nat z)) as [x|] eqn:E; [|apply nth_error_None in E; lia]. exists (x :: l). constructor; auto. }
      destruct E as [l E]. exists l. now constructor.
    - destruct (Nat.ltb_spec 1 n) as [Hn|Hn]; [discriminate|]. exists (map VBool l). now constructor.
    - exists l. constructor.
    - exists [x]. constructor.
    - discriminate. }
  rewrite to_int_unfold in H. destruct v as [d c bl|d].
  - apply (G d); [right; eauto|]. apply K; [destruct bl as [bl|]; [destruct (tuple_eqb bl levels); [exact H|discriminate]|exact H]|]. intros cats cs ->. exact Hp.
  - destruct d as [cats cs| | | |]; [|eapply G; [left; split; [reflexivity|intros [? [? E]]; discriminate]|apply K; [exact H|discriminate]]..].
    destruct (tuple_eqb cats levels) eqn:E; [|discriminate]. injection H as <-. constructor. now apply keys_same, tuple_eqb_keys.
Qed.

Lemma consists_fun d l : consists_of d l -> forall l', consists_of d l' -> l = l'.
Proof.
  intros H. destruct H as [n l0 Hn|n l0|n v|cats codes l0 Hf]; intros l' H'; [now inversion H'..|]. inversion H' as [| | |cats' codes' l0' Hf' E1 E2]. subst.
  clear H'. revert l' Hf'. induction Hf as [|z v codes l0 Hz Hf IH]; intros l' H'; inversion H' as [|z' v' cs ls Hz' Hf' E1 E2]; subst; [reflexivity|]. f_equal; [|auto].
  destruct Hz as [[A ->]|[A B]], Hz' as [[A' ->]|[A' B']]; try lia; congruence.
Qed.
Lemma coded_fun na levels v z z' : coded na levels v z -> coded na levels v z' -> z = z'.
Proof.
  intros [[M ->]|[M [a [l [b [E [S [N ->]]]]]]]] [[M' ->]|[M' [a' [l' [b' [E' [S' [N' ->]]]]]]]]; try contradiction; [reflexivity|]. f_equal.
  rewrite E in E'. clear E. revert a' E'. induction a as [|x a IH]; intros [|x' a'] E'; cbn in E'; injection E' as -> E'; [reflexivity| | |cbn; f_equal; auto].
  - exfalso. apply (N l'); [|exact S']. rewrite E'. apply in_app_iff. right. now left.
  - exfalso. apply (N' l); [|exact S]. rewrite <- E'. apply in_app_iff. right. now left.
Qed.
Lemma codes_fun {C} levels na (v : @value C) codes codes' : codes_are levels na v codes -> codes_are levels na v codes' -> codes = codes'.
Proof.
  intros H H'. destruct H as [v d l codes Hv Hl Hc|cats codes Hs]; inversion H' as [v' d' l' cs' Hv' Hl' Hc' E1 E2|cats' cs' Hs' E1 E2]; subst.
  - assert (d' = d).
    { destruct Hv as [[-> _]|[c [bl ->]]], Hv' as [[E _]|[c' [bl' E]]]; congruence. }
    subst d'. rewrite <- (consists_fun d l Hl l' Hl') in Hc'. clear -Hc Hc'. revert codes' Hc'. induction Hc as [|x z l codes Hz Hc IH]; intros codes' Hc'; inversion Hc'; subst; [reflexivity|]. f_equal; [|auto].
    eapply coded_fun; eassumption.
  - exfalso. destruct Hv as [[E Hp]|[c [bl E]]]; [|discriminate]. injection E as <-. apply Hp. now exists cats', codes'.
  - exfalso. destruct Hv' as [[E Hp]|[c [bl E]]]; [|discriminate]. injection E as <-. apply Hp. now exists cats, codes.
  - reflexivity.
Qed.

Lemma product_inv {V} (vone : V) vmul xs p : product vone vmul xs = Some p -> exists vs, xs = map Some vs /\ p = fold_left vmul vs vone.
Proof.
  unfold product. generalize vone. induction xs as [|x xs IH]; intros a; cbn [fold_left].
  - intros [= <-]. now exists [].
  - destruct x as [b|].
    + intros H. destruct (IH _ H) as [vs [-> ->]]. now exists (b :: vs).
    + intros H. exfalso. clear IH. assert (E : forall l, fold_left (fun acc x : option V => match acc, x with Some a, Some b => Some (vmul a b) | _, _ => None end) l None = None) by (induction l; auto). now rewrite E in H.
Qed.

(** * Entries *)
Section Entries.
Context {V I C S D : Type}.
Variables (vone : V) (vmul : V -> V -> V) (visnan : V -> bool) (ilabel : nat -> I) (ieqb : I -> I -> bool).
Hypothesis ieqb_eq : forall a b, ieqb a b = true <-> a = b.
Variable passes : factor -> result (S * Z).
Variable chunk : factor -> S -> nat -> D -> result S.
Variable finish : factor -> S -> nat -> result S.
Variable eval : factor -> S -> D -> result (@fobj V I C).
Variable origin_of : factor -> option origin.
Variable code_cm : list pval -> option C -> bool -> result (@ctr V).
Variable hash : list (bool * factor) -> Z.
Variable set_order : list factor -> list factor.
Variables order_mem order_exam : nat -> list factor -> list factor.
Variable addr : pval -> nat.
Variable hash_order : list pval -> list pval.
Variable df_index : D -> option (list I).
Hypothesis Hset : forall l, Permutation (set_order l) l.
Hypothesis Hmem : forall n l, Permutation (order_mem n l) l.
Hypothesis Hexam : forall n l, Permutation (order_exam n l) l.
Hypothesis Hidx : indexed eval.
Variable value_is : factor -> (D -> result (@fobj V I C)) -> Prop.
Hypothesis value_fun : forall f g g', value_is f g -> value_is f g' -> forall d, g d = g' d.

Local Notation builders := (design_matrix_builders passes chunk finish eval origin_of code_cm hash set_order order_mem order_exam addr hash_order).
Local Notation eval_info := (eval_info visnan eval origin_of).
Local Notation build := (build vone vmul visnan ilabel ieqb eval origin_of df_index).
Local Notation factor_value := (factor_value origin_of addr hash_order value_is).
Local Notation contributes := (contributes origin_of addr hash_order code_cm value_is).
Local Notation lacks := (lacks visnan origin_of addr hash_order value_is).
Local Notation learned := (learned passes chunk finish eval origin_of addr hash_order).

Lemma factor_value_fun na exam na' d f lv c v : factor_value na exam na' d f lv c v -> forall lv' c' v', factor_value na exam na' d f lv' c' v' -> v = v'.
Proof.
  intros H lv' c' v' H'.
  assert (T : forall g g', value_is f g -> value_is f g' -> type_of (as_value g) origin_of na f exam = type_of (as_value g') origin_of na f exam).
  { intros g g' Hg Hg'. apply type_of_ext. intros d0. unfold as_value. now rewrite (value_fun f g g' Hg Hg'). }
  destruct H as [g n o Hg Ht Ho Hnd Hin Hnc|g sn lv c o codes Hg Ht Hl Ho Hc]; destruct H' as [g' n' o' Hg' Ht' Ho' Hnd' Hin' Hnc'|g' sn' lv' c' o' codes' Hg' Ht' Hl' Ho' Hc'];
    pose proof (T g g' Hg Hg') as E; rewrite Ht, Ht' in E; try discriminate; injection E as <-; rewrite (value_fun f g g' Hg Hg') in Ho; rewrite Ho in Ho'; injection Ho' as <-; [reflexivity|].
  rewrite Hl in Hl'. injection Hl' as <- <-. f_equal. eapply codes_fun; eassumption.
Qed.

Variable data : nat -> list D.
Variable tls : list (list term).
Hypothesis Hval : forall f s, In f (factors_of tls) -> trained passes chunk finish data f s -> value_is f (eval f s).
Local Notation exam := (exam_chunks passes data (factors_of tls)).

Lemma value_found na kn na' d fi f s k levels c e : In f (factors_of tls) -> learned na data (factors_of tls) f s k levels c -> fi_factor fi = f -> fi_kind fi = k ->
  dget Nat.eqb (fi_id fi) kn = Some (s, levels) -> (forall o, eval f s d = Ok o -> proper_codes (o_value o)) -> eval_info kn na' d fi = Ok e ->
  factor_value na exam na' d f levels c (ev_value e) /\ forall r, nth r (ev_isna e) false = true <-> lacks na exam na' d f r.
Proof.
  intros Hf L Ef Ek Hk Hp He.
  assert (A : factor_value na exam na' d f levels c (ev_value e)).
  { unfold PipeModel.eval_info in He. rewrite Hk in He. cbn [lookup bind] in He. rewrite Ef in He. destruct (eval f s d) as [o|] eqn:Eo; cbn [bind] in He; [|discriminate]. rewrite Ek in He.
    destruct L as [s n Tr Ty|s sn levels c Tr Ty El].
    - cbn [bind] in He. unfold eval_factor in He. rewrite Ek in He. destruct (Nat.ltb_spec 2 (o_ndim o)) as [|Hn]; [discriminate|]. destruct (Nat.eqb_spec (o_ncols o) n) as [En|]; [|discriminate].
      destruct (o_isnum o) eqn:Ei; [|cbn [negb] in He; destruct (o_index o); discriminate]. injection He as <-. cbn [ev_value negb]. rewrite En. eapply fv_num; eauto. rewrite <- Ty. now apply type_of_ext.
    - destruct (categorical_to_int (o_value o) levels na' (origin_of f)) as [codes|] eqn:Ec; cbn [bind] in He; [|discriminate]. unfold eval_factor in He. rewrite Ek in He. injection He as <-. cbn [ev_value].
      eapply fv_cat; eauto; [rewrite <- Ty; now apply type_of_ext|]. eapply codes_found; [|exact Ec]. now apply Hp. }
  split; [exact A|]. intros r.
  assert (B : nth r (ev_isna e) false = true <-> match ev_value e with
    | VNum _ rows => exists row x, nth_error rows r = Some row /\ In x row /\ nan_is_na na' = true /\ visnan x = true
    | VCat codes => nth_error codes r = Some (-1)%Z end).
  { unfold PipeModel.eval_info in He. rewrite Hk in He. cbn [lookup bind] in He. rewrite Ef in He. destruct (eval f s d) as [o|] eqn:Eo; cbn [bind] in He; [|discriminate]. rewrite Ek in He.
    destruct k as [n|n]; [cbn [bind] in He|destruct (categorical_to_int (o_value o) levels na' (origin_of f)) as [codes|] eqn:Ec; cbn [bind] in He; [|discriminate]].
    - eapply (eval_factor_lemma visnan origin_of (nan_is_na na') fi _ e); [|exact He]. cbn. intros i Hi. now destruct (Hidx _ _ _ _ _ Eo Hi).
    - eapply (eval_factor_lemma visnan origin_of (nan_is_na na') fi _ e); [|exact He]. cbn. intros i Hi. destruct (Hidx _ _ _ _ _ Eo Hi) as [_ X]. eapply X, Ec. }
  rewrite B. split.
  - destruct (ev_value e) as [nc rows|codes]; [intros [row [x [H1 [H2 [H3 H4]]]]]; eapply lk_num; eauto|intros H; eapply lk_cat; eauto].
  - intros [lv' c' n rows row x H1 H2 H3 H4 H5|lv' c' codes H1 H2]; rewrite (factor_value_fun _ _ _ _ _ _ _ _ A _ _ _ H1); [exists row, x; auto|exact H2].
Qed.

Lemma entries_lemma na used ds d na' w ms labels : builders data na tls = Ok ds -> incl used ds ->
  (forall f s o, In f (factors_in used) -> In f (factors_of tls) -> trained passes chunk finish data f s -> eval f s d = Ok o -> proper_codes (o_value o)) ->
  build used d na' w = Ok (ms, labels) ->
  exists act act' n ks, get_action na = Ok act /\ get_action na' = Ok act' /\
    rows_used visnan origin_of addr hash_order value_is (na_what act) exam (na_what act') d (df_index d) (factors_in used) n ks /\
    (na_on act' = NARaise -> ks = seq 0 n) /\
    Forall2 (fun x m => entries_are vone vmul origin_of addr hash_order code_cm value_is (na_what act) exam (na_what act') d ks (ds_info x) m) used ms.
Proof.
  intros Hb Hu Hp Hm.
  destruct (builders_inv passes chunk finish eval origin_of code_cm hash set_order order_mem order_exam addr hash_order Hset Hmem Hexam data na tls ds Hb)
    as [act [num [cat [fis [kn [dis [Ha [Eds [Hd [Hid Hf]]]]]]]]]].
  destruct (builders_good passes chunk finish eval origin_of code_cm hash set_order order_mem order_exam addr hash_order Hset Hmem Hexam data na tls ds Hb) as [_ [Hcon [Hident _]]].
  apply mapM_ok_Forall2 in Hd.
  assert (Hx : forall x, In x used -> exists tl, In tl tls /\ ds_known x = kn /\ design_for num (contrast_for code_cm cat) hash fis tl = Ok (ds_info x)).
  { intros x Hx. apply Hu in Hx. rewrite Eds in Hx. apply in_map_iff in Hx. destruct Hx as [di [<- Hx]]. destruct (Forall2_in_r _ _ _ Hd di Hx) as [tl [Ht E]]. exists tl. auto. }
  assert (Hinf : forall x f fi, In x used -> In (f, fi) (infos_of (ds_info x)) -> In f (factors_of tls) /\ dget String.eqb f fis = Some fi).
  { intros x f fi Hin Hfi. destruct (Hx x Hin) as [tl [Ht [_ E]]]. destruct (design_for_infos _ _ _ _ _ _ E f fi Hfi) as [H1 H2]. split; [|exact H2].
    unfold factors_of. apply in_concat. exists (concat tl). split; [now apply in_map|exact H1]. }
  assert (Hok : designs_ok used).
  { split; [rewrite Forall_forall in *; intros x Hi; apply Hcon, Hu, Hi|]. intros a b Ha' Hb'. apply Hident; unfold all_infos in *; [clear Hb'; rename Ha' into Hi|clear Ha'; rename Hb' into Hi];
      apply in_flat_map in Hi; destruct Hi as [x [Hi1 Hi2]]; apply in_flat_map; exists x; (split; [|exact Hi2]); apply in_map_iff in Hi1; destruct Hi1 as [y [<- Hy]]; apply in_map; auto. }
  destruct (build_built vone vmul visnan ilabel ieqb ieqb_eq eval origin_of df_index Hidx used d na' w ms labels Hok Hm) as [act' [Ha' [_ Hev]]].
  set (KN := concat (map ds_known used)) in *.
  assert (Hkn : forall x f fi, In x used -> In (f, fi) (infos_of (ds_info x)) -> exists s levels c, learned (na_what act) data (factors_of tls) f s (fi_kind fi) levels c /\ fi_factor fi = f /\
    dget Nat.eqb (fi_id fi) KN = Some (s, levels) /\ dget String.eqb f cat = (match fi_kind fi with FNum _ => None | FCat _ => Some (levels, c) end)).
  { intros x f fi Hin Hfi. destruct (Hinf x f fi Hin Hfi) as [G1 G2]. destruct (Hf f G1) as [fi' [s [k [lv [c [L1 [L2 [L3 [L4 [L5 [_ L6]]]]]]]]]]]. rewrite G2 in L2. injection L2 as <-. subst k.
    exists s, lv, c. split; [exact L1|]. split; [exact L3|]. split; [|exact L6]. unfold KN. destruct used as [|y used']; [destruct Hin|]. cbn [map concat].
    apply get_known. destruct (Hx y (or_introl eq_refl)) as [_ [_ [-> _]]]. exact L5. }
  assert (Hev' : forall x f fi, In x used -> In (f, fi) (infos_of (ds_info x)) -> exists e levels c, eval_info KN (na_what act') d fi = Ok e /\ fits fi e /\
    factor_value (na_what act) exam (na_what act') d f levels c (ev_value e) /\ (forall r, nth r (ev_isna e) false = true <-> lacks (na_what act) exam (na_what act') d f r) /\
    dget String.eqb f cat = (match fi_kind fi with FNum _ => None | FCat _ => Some (levels, c) end)).
  { intros x f fi Hin Hfi. destruct (Hkn x f fi Hin Hfi) as [s [levels [c [L1 [L2 [L3 L4]]]]]].
    destruct (Hev fi) as [e [He1 He2]]. { unfold all_infos. apply in_flat_map. exists (ds_info x). split; [now apply in_map|]. apply in_map_iff. now exists (f, fi). }
    exists e, levels, c. split; [exact He1|]. split; [exact He2|].
    destruct (value_found (na_what act) KN (na_what act') d fi f s (fi_kind fi) levels c e (proj1 (Hinf x f fi Hin Hfi)) L1 L2 eq_refl L3) as [V1 V2]; [|exact He1|auto].
    intros o Ho. apply (Hp f s o); [|exact (proj1 (Hinf x f fi Hin Hfi))|inversion L1; subst; assumption|exact Ho]. unfold factors_in. apply in_flat_map. exists x. split; [exact Hin|]. apply in_map_iff. now exists (f, fi). }
  assert (Hin' : forall f, In f (factors_in used) -> exists x fi, In x used /\ In (f, fi) (infos_of (ds_info x))).
  { intros f H. unfold factors_in in H. apply in_flat_map in H. destruct H as [x [H1 H2]]. apply in_map_iff in H2. destruct H2 as [[f' fi] [<- H2]]. eauto. }
  unfold PipeModel.build in Hm. rewrite Ha' in Hm. cbn [bind] in Hm. fold KN in Hm.
  assert (Hcon' : Forall constructed (map ds_info used)) by (rewrite Forall_map; apply Hok).
  pose proof (proj1 (build_iff vone vmul ieqb origin_of ieqb_eq _ _ ilabel _ Hcon' (proj2 Hok) Hev _ _ _ _) Hm) as [n [full [H1 [_ [Hraise [_ [H5 _]]]]]]].
  set (ev := eval_info KN (na_what act') d) in *. set (ks := kept _ _ n) in *.
  exists act, act', n, ks. split; [exact Ha|]. split; [exact Ha'|]. split; [|split].
  - split; [|split; [exact (proj1 H1)|split]].
    + intros f Hff. destruct (Hin' f Hff) as [x [fi [Hx1 Hx2]]]. destruct (Hev' x f fi Hx1 Hx2) as [e [lv [c [E1 [E2 [E3 _]]]]]]. exists lv, c, (ev_value e). split; [exact E3|].
      apply (proj2 H1). unfold evals. apply in_flat_map. exists fi. split; [|rewrite E1; now left]. unfold all_infos. apply in_flat_map. exists (ds_info x). split; [now apply in_map|]. apply in_map_iff. now exists (f, fi).
    + unfold ks, kept. destruct (na_on act'); [apply filter_sorted|]; apply seq_sorted.
    + intros k. transitivity (k < n /\ missing_in (evals ev (all_infos (map ds_info used))) k = false).
      { unfold ks, kept. destruct (na_on act') eqn:En; [rewrite filter_In, in_seq, negb_true_iff; intuition lia|]. rewrite in_seq. split; [intros [_ H]; split; [exact H|now apply Hraise]|intros [H _]; lia]. }
      assert (M : missing_in (evals ev (all_infos (map ds_info used))) k = false <-> forall fi e, In fi (all_infos (map ds_info used)) -> ev fi = Ok e -> nth k (ev_isna e) false = false) by now apply missing_in_iff.
      rewrite M. split; intros [L1 L2]; (split; [exact L1|]).
      * intros f Hff Hl. destruct (Hin' f Hff) as [x [fi [Hx1 Hx2]]]. destruct (Hev' x f fi Hx1 Hx2) as [e [lv [c [E1 [E2 [E3 [E4 _]]]]]]]. apply E4 in Hl.
        rewrite (L2 fi e) in Hl; [discriminate| |exact E1]. unfold all_infos. apply in_flat_map. exists (ds_info x). split; [now apply in_map|]. apply in_map_iff. now exists (f, fi).
      * intros fi e Hfi He. unfold all_infos in Hfi. apply in_flat_map in Hfi. destruct Hfi as [di [Hdi Hfi]]. apply in_map_iff in Hdi. destruct Hdi as [x [<- Hx1]]. apply in_map_iff in Hfi. destruct Hfi as [[f fi'] [E Hx2]]. cbn in E. subst fi'.
        destruct (Hev' x f fi Hx1 Hx2) as [e' [lv [c [E1 [E2 [E3 [E4 _]]]]]]]. rewrite E1 in He. injection He as <-.
        destruct (nth k (ev_isna e') false) eqn:En; [|reflexivity]. apply E4 in En. exfalso. apply (L2 f); [|exact En]. unfold factors_in. apply in_flat_map. exists x. split; [exact Hx1|]. apply in_map_iff. now exists (f, fi).
  - intros E. unfold ks, kept. now rewrite E.
  - assert (Hent : forall x m, In x used -> matrix_is vone vmul ev ks (ds_info x) m -> entries_are vone vmul origin_of addr hash_order code_cm value_is (na_what act) exam (na_what act') d ks (ds_info x) m).
    { intros x m Hin [M1 M2]. destruct (Hx x Hin) as [tl [Htl [_ Edf]]]. destruct (design_for_lemma _ _ _ _ _ _ Edf) as [Hcx [Hmk [Hnames _]]].
      destruct (constructed_facts _ Hcx) as [fi0 [cs [E1 [E2 [Hck [Hdk _]]]]]].
      split; [exact M1|]. split; [exact Hnames|].
      assert (Hids : forall id, In id (columns_of (infos_of (ds_info x)) (codings_of (ds_info x))) -> exists t ss, In (t, ss) (codings_of (ds_info x)) /\ In (snd (fst id)) ss).
      { intros [[t s] c] Hi. unfold columns_of in Hi. apply in_flat_map in Hi. destruct Hi as [[t' ss] [Hi1 Hi2]]. unfold columns_of_term in Hi2. apply in_flat_map in Hi2. destruct Hi2 as [s' [Hi2 Hi3]].
        apply in_map_iff in Hi3. destruct Hi3 as [c' [E _]]. injection E as _ -> _. eauto. }
      revert M2 Hids. generalize (columns_of (infos_of (ds_info x)) (codings_of (ds_info x))). intros ids M2 Hids.
      induction M2 as [|id col ids cols Hcol M2 IH]; constructor; [|apply IH; intros; apply Hids; now right]. clear IH M2.
      specialize (Hids id (or_introl eq_refl)). destruct Hids as [t [ss [Hts Hs]]]. destruct id as [[t' s] c]. cbn [fst snd] in *.
      split; [rewrite <- (map_length Some), Hcol; apply map_length|]. intros r k Hr.
      assert (Er : option_map Some (nth_error col r) = option_map (entry vone vmul (infos_of (ds_info x)) (values_in (infos_of (ds_info x)) ev) (t', s, c)) (nth_error ks r)).
      { rewrite <- !nth_error_map. now rewrite Hcol. }
      rewrite Hr in Er. cbn [option_map] in Er. destruct (nth_error col r) as [y|]; [|discriminate]. cbn [option_map] in Er. injection Er as Er. symmetry in Er. cbn [entry] in Er. apply product_inv in Er. destruct Er as [vs [Evs ->]].
      exists vs. split; [|reflexivity].
      assert (Hfac : forall p, In p (combine (si_factors s) c) -> In (fst p) (si_factors s)) by (intros [f i] Hp'; apply in_combine_l in Hp'; exact Hp').
      revert vs Evs Hfac. generalize (combine (si_factors s) c). induction l as [|[f i] l IH]; intros [|v vs] Evs Hfac; cbn [map] in Evs; try discriminate; [constructor|].
      injection Evs as Ev Evs. constructor; [|apply IH; [exact Evs|intros; apply Hfac; now right]]. cbn [fst snd] in *. clear IH Evs.
      specialize (Hfac (f, i) (or_introl eq_refl)). cbn in Hfac. unfold contrib in Ev. destruct (dget String.eqb f (infos_of (ds_info x))) as [fi|] eqn:Efi; [|discriminate].
      assert (Hfi : In (f, fi) (infos_of (ds_info x))) by (apply (dget_in String.eqb) in Efi; destruct Efi as [f' [Hfi Ef]]; apply String.eqb_eq in Ef; now subst f').
      destruct (Hev' x f fi Hin Hfi) as [e [lv [cc [V1 [V2 [V3 [V4 V5]]]]]]]. unfold values_in in Ev. rewrite Efi in Ev. rewrite V1 in Ev.
      assert (Hsub : subterm_ok (infos_of (ds_info x)) s). { unfold infos_of, codings_of in *. rewrite E1, E2 in *. eapply (ck_subterm _ _ Hck); eassumption. }
      destruct Hsub as [Hsub _]. destruct (Hsub f Hfac) as [fi' [Efi' Hkind]]. rewrite Efi in Efi'. injection Efi' as <-.
      destruct (fi_kind fi) as [n0|n0] eqn:Ek; destruct (ev_value e) as [nc rows|codes] eqn:Eval; try discriminate.
      - destruct (nth_error rows k) as [row|] eqn:Erow; [|discriminate]. eapply con_num; eauto.
      - destruct Hkind as [m0 [Em0 _]]. rewrite Em0 in Ev. destruct (nth_error codes k) as [z|] eqn:Ez; [|discriminate]. destruct (Z.ltb_spec z 0) as [|Hz]; [discriminate|].
        destruct (nth_error (ct_rows m0) (Z.to_nat z)) as [row|] eqn:Erow; [|discriminate].
        destruct (codings_contrasts num (contrast_for code_cm cat) hash tl _ Hmk t ss s f m0 Hts Hs Em0) as [fl Hfl]. unfold contrast_for in Hfl. rewrite V5 in Hfl. cbn [lookup bind fst snd] in Hfl.
        eapply con_cat; eauto. now rewrite Z2Nat.id. }
    clearbody ev KN ks. clear -H5 Hent. remember (map ds_info used) as dis eqn:Ed. revert used Ed Hent. induction H5 as [|di m dis ms Hm H5 IH]; intros [|x used] Ed Hent; try discriminate; [constructor|]. cbn in Ed. injection Ed as -> ->.
    constructor; [apply Hent; [now left|exact Hm]|apply IH; [reflexivity|intros; apply Hent; [now right|assumption]]].
Qed.
End Entries.
