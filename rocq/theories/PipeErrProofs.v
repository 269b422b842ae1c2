(** Proofs about what can go wrong when designs are used on data. *)
From Coq Require Import ZArith Permutation.
From Verif Require Import Base RankSpec RedundancyModel RedundancyProofs DescModel FormulaModel BuildModel BuildSpec BuildProofs BuildSubtermProofs BuildInfoProofs BuildMatrixProofs BuildAllProofs BuildOrderProofs BuildDesignProofs BuildTopProofs BuildErrProofs
  MemorizeModel MemorizeSpec CategoricalModel CategoricalSpec CategoricalCodeProofs CategoricalProps PipeModel PipeSpec PipeProofs PipeHighProofs EntrySpec EntryProofs PipeErrSpec.
Open Scope nat_scope.
Open Scope list_scope.

(** * Contrast matrices of the subterms *)
Section Contrasts.
Context {V : Type}.
Variables (num_cols : list (factor * nat)) (code_cm : factor -> bool -> result (@ctr V)) (hash : list (bool * factor) -> Z).
Lemma in_dset {K A} (eqb : K -> K -> bool) k v (d : list (K * A)) p : In p (dset eqb k v d) -> snd p = v \/ In p d.
Proof.
  induction d as [|[k' v'] d IH]; cbn [dset]; [intros [<-|[]]; now left|]. destruct (eqb k' k).
  - intros [<-|H]; [now left|right; now right].
  - intros [<-|H]; [right; now left|]. destruct (IH H) as [E|E]; [now left|right; now right].
Qed.
Lemma subterm_for_in t c s : subterm_for num_cols code_cm t c = Ok s -> forall f m, In (f, m) (si_contrasts s) -> exists g full, code_cm g full = Ok m.
Proof.
  unfold subterm_for. match goal with |- bind (foldM ?g t ([], [], 1)) _ = _ -> _ => set (step := g) end.
  assert (G : forall l st st', foldM step l st = Ok st' -> (forall f m, In (f, m) (snd (fst st)) -> exists g full, code_cm g full = Ok m) ->
    forall f m, In (f, m) (snd (fst st')) -> exists g full, code_cm g full = Ok m).
  { induction l as [|f0 l IH]; intros st st' E; cbn [foldM] in E; [now injection E as <-|]. destruct (step st f0) as [st1|] eqn:E1; cbn [bind] in E; [|discriminate].
    intros H. apply (IH _ _ E). destruct st as [[fs0 cms0] n0]. unfold step in E1. destruct (dget String.eqb f0 num_cols); [injection E1 as <-; exact H|].
    destruct (dget String.eqb f0 c) as [b|]; [|injection E1 as <-; exact H]. destruct (code_cm f0 b) as [m0|] eqn:Em; cbn [bind] in E1; [|discriminate]. injection E1 as <-. cbn [fst snd] in *.
    intros f m Hin. apply in_dset in Hin. cbn [snd] in Hin. destruct Hin as [->|Hin]; [eauto|eapply H, Hin]. }
  destruct (foldM step t ([], [], 1)) as [[[fs cms] n]|] eqn:E; cbn [bind]; [|discriminate]. intros [= <-]. cbn [si_contrasts]. apply (G _ _ _ E). intros f m [].
Qed.
Lemma bucket_in ts : forall used r, infos_for_bucket num_cols code_cm hash ts used = Ok r ->
  forall t ss s f m, In (t, ss) r -> In s ss -> In (f, m) (si_contrasts s) -> exists g full, code_cm g full = Ok m.
Proof.
  induction ts as [|t0 ts IH]; intros used r; cbn [infos_for_bucket]; [intros [= <-] ? ? ? ? ? []|].
  destruct (infos_for_term num_cols code_cm hash t0 used) as [[sis used']|] eqn:E; cbn [bind]; [|discriminate].
  destruct (infos_for_bucket num_cols code_cm hash ts _) as [rest|] eqn:Er; cbn [bind]; [|discriminate]. intros [= <-] t ss s f m [Hin|Hin] Hs Hm; [|eapply IH; eassumption].
  injection Hin as <- <-. unfold infos_for_term in E. destruct (RedundancyModel.pick_contrasts_for_term _ _ _ _ _) as [[cs u]|]; cbn [bind] in E; [|discriminate].
  destruct (mapM (subterm_for num_cols code_cm t0) _) as [sis'|] eqn:Em; cbn [bind] in E; [|discriminate]. injection E as <- <-. cbn [fst] in Hs.
  apply mapM_ok_Forall2 in Em. destruct (Forall2_in_r _ _ _ Em s Hs) as [c [_ Hc]]. eapply subterm_for_in; eassumption.
Qed.
Lemma codings_in terms cs : make_subterm_infos num_cols code_cm hash terms = Ok cs ->
  forall t ss s f m, In (t, ss) cs -> In s ss -> In (f, m) (si_contrasts s) -> exists g full, code_cm g full = Ok m.
Proof.
  intros H. destruct (make_inv num_cols code_cm hash terms cs H) as [per [Hf [-> _]]]. intros t ss s f m Hin. apply in_concat in Hin. destruct Hin as [r [Hr Hin]].
  destruct (Forall2_in_r _ _ _ Hf r Hr) as [p [_ Hp]]. now apply (bucket_in _ _ _ Hp t ss).
Qed.
End Contrasts.

Lemma codes_range {C} (v : @value C) levels na codes : codes_are levels na v codes ->
  (forall cats codes, v = Plain (DPandas cats codes) -> Forall (fun z => (-1 <= z < Z.of_nat (length cats))%Z) codes) ->
  Forall (fun z => (-1 <= z < Z.of_nat (length levels))%Z) codes.
Proof.
  intros H Hp. destruct H as [v d l codes _ _ H|cats codes H].
  - clear Hp. induction H as [|x z l codes Hx H IH]; [constructor|]. constructor; [|exact IH]. destruct Hx as [[_ ->]|[_ [a [y [b [-> [_ [_ ->]]]]]]]]; [lia|]. rewrite app_length. cbn [length]. lia.
  - assert (E : length cats = length levels) by (clear -H; induction H; cbn; congruence). rewrite <- E. now apply Hp.
Qed.

(** Not all have [n] rows: one has not. *)
Lemma not_all_rows {V I} (ev : finfo -> result (@evaluated V I)) pre n : (forall g, In g pre -> exists e, ev g = Ok e) -> ~ (forall e, In e (evals ev pre) -> vrows (ev_value e) = n) ->
  exists g e, In g pre /\ ev g = Ok e /\ vrows (ev_value e) <> n.
Proof.
  intros H Hn. induction pre as [|g pre IH]; [exfalso; apply Hn; intros e []|]. destruct (H g (or_introl eq_refl)) as [e He].
  destruct (Nat.eq_dec (vrows (ev_value e)) n) as [E|E]; [|exists g, e; split; [now left|auto]].
  destruct IH as [g' [e' [X1 [X2 X3]]]]; [intros x Hx; apply H; now right| |exists g', e'; split; [now right|auto]].
  intros Hall. apply Hn. intros e' He'. unfold evals in He'. cbn [flat_map] in He'. rewrite He in He'. apply in_app_or in He'. destruct He' as [[<-|[]]|He']; [exact E|now apply Hall].
Qed.

Section Errors.
Context {V I C S D : Type}.
Variables (vone : V) (vmul : V -> V -> V) (visnan : V -> bool) (ilabel : nat -> I) (ieqb : I -> I -> bool).
Hypothesis ieqb_eq : forall a b, ieqb a b = true <-> a = b.
Variable passes : factor -> result (S * Z).
Variable chunk : factor -> S -> nat -> D -> result S.
Variable finish : factor -> S -> nat -> result S.
Variable eval : factor -> S -> D -> result (@fobj V I C).
Variable origin_of : factor -> option origin.
Variable code_cm : list pval -> option C -> bool -> result (@ctr V).
Variable hash : list (bool * factor) -> Z.
Variable set_order : list factor -> list factor.
Variables order_mem order_exam : nat -> list factor -> list factor.
Variable addr : pval -> nat.
Variable hash_order : list pval -> list pval.
Variable df_index : D -> option (list I).
Hypothesis Hset : forall l, Permutation (set_order l) l.
Hypothesis Hmem : forall n l, Permutation (order_mem n l) l.
Hypothesis Hexam : forall n l, Permutation (order_exam n l) l.
Hypothesis Hidx : indexed eval.
Hypothesis Htidy : forall f s d o, eval f s d = Ok o -> tidy o.
Hypothesis Hcm : forall levels c full m, code_cm levels c full = Ok m -> forall row, In row (ct_rows m) -> length row = ct_ncols m.

Local Notation builders := (design_matrix_builders passes chunk finish eval origin_of code_cm hash set_order order_mem order_exam addr hash_order).
Local Notation eval_info := (eval_info visnan eval origin_of).
Local Notation build := (build vone vmul visnan ilabel ieqb eval origin_of df_index).
Local Notation learned := (learned passes chunk finish eval origin_of addr hash_order).

Variables (data : nat -> list D) (na : na_arg) (tls : list (list term)) (ds used : list (@design V S)) (act : na_action).
Hypothesis Hb : builders data na tls = Ok ds.
Hypothesis Hu : incl used ds.
Hypothesis Hact : get_action na = Ok act.
Notation kn := (concat (map ds_known used)).
Notation infos := (all_infos (map ds_info used)).

Lemma info_learned fi : In fi infos -> In (fi_factor fi) (factors_in used) /\
  exists s levels c, learned (na_what act) data (factors_of tls) (fi_factor fi) s (fi_kind fi) levels c /\ dget Nat.eqb (fi_id fi) kn = Some (s, levels).
Proof.
  intros Hfi. unfold all_infos in Hfi. apply in_flat_map in Hfi. destruct Hfi as [di [Hdi Hfi]]. apply in_map_iff in Hdi. destruct Hdi as [x [<- Hx]]. apply in_map_iff in Hfi. destruct Hfi as [[f fi'] [E Hfi]]. cbn in E. subst fi'.
  destruct (builders_good passes chunk finish eval origin_of code_cm hash set_order order_mem order_exam addr hash_order Hset Hmem Hexam data na tls ds Hb) as [_ [_ [_ [act' [Ha Hf]]]]].
  assert (act' = act) by congruence. subst act'. destruct (Hf x (Hu _ Hx) f fi Hfi) as [H1 [H2 [s [levels [c [H3 H4]]]]]]. subst f. split.
  - unfold factors_in. apply in_flat_map. exists x. split; [exact Hx|]. apply in_map_iff. now exists (fi_factor fi, fi).
  - exists s, levels, c. split; [exact H3|]. destruct used as [|u us]; [destruct Hx|]. cbn [map concat]. apply get_known. apply H4, Hu. now left.
Qed.
Lemma used_ok : designs_ok used.
Proof.
  destruct (builders_good passes chunk finish eval origin_of code_cm hash set_order order_mem order_exam addr hash_order Hset Hmem Hexam data na tls ds Hb) as [_ [Hcon [Hident _]]].
  split; [rewrite Forall_forall in *; intros x Hi; apply Hcon, Hu, Hi|]. intros a b Ha' Hb'. apply Hident; unfold all_infos in *; [clear Hb'; rename Ha' into Hi|clear Ha'; rename Hb' into Hi];
    apply in_flat_map in Hi; destruct Hi as [x [Hi1 Hi2]]; apply in_flat_map; exists x; (split; [|exact Hi2]); apply in_map_iff in Hi1; destruct Hi1 as [y [<- Hy]]; apply in_map; auto.
Qed.
Lemma used_proper : Forall proper_design (map ds_info used).
Proof.
  destruct (builders_inv passes chunk finish eval origin_of code_cm hash set_order order_mem order_exam addr hash_order Hset Hmem Hexam data na tls ds Hb)
    as [act0 [num [cat [fis [kn0 [dis [Ha [Eds [Hd _]]]]]]]]]. apply mapM_ok_Forall2 in Hd.
  rewrite Forall_map, Forall_forall. intros x Hx. apply Hu in Hx. rewrite Eds in Hx. apply in_map_iff in Hx. destruct Hx as [di [<- Hx]]. destruct (Forall2_in_r _ _ _ Hd di Hx) as [tl [Ht E]]. cbn [ds_info].
  destruct (design_for_lemma _ _ _ _ _ _ E) as [_ [Hmk _]]. intros t ss s f c row H1 H2 H3 H4.
  destruct (codings_in _ _ _ _ _ Hmk t ss s f c H1 H2 H3) as [g [full Hg]]. unfold contrast_for in Hg. destruct (dget String.eqb g cat) as [[lv cc]|]; cbn [lookup bind] in Hg; [|discriminate].
  eapply Hcm; eassumption.
Qed.

Variables (na' : na_types) (d : D).
Notation gives := (gives passes chunk finish eval origin_of addr hash_order (na_what act) data d (factors_of tls) (factors_in used)).
Lemma info_ok fi e : In fi infos -> eval_info kn na' d fi = Ok e -> fits fi e /\ proper_value fi e /\
  exists levels o, gives (fi_factor fi) (fi_kind fi) levels o /\ rows_in na' (fi_kind fi) levels o (vrows (ev_value e)) /\ ev_index e = o_index o /\
    (In true (ev_isna e) -> lacking visnan na' (fi_kind fi) levels o).
Proof.
  intros Hfi He. split; [eapply (eval_info_fits visnan eval origin_of Hidx), He|]. destruct (info_learned fi Hfi) as [Hf [s [levels [c [L Hk]]]]].
  revert He. unfold PipeModel.eval_info. rewrite Hk. cbn [lookup bind]. destruct (eval (fi_factor fi) s d) as [o|] eqn:Eo; cbn [bind]; [|discriminate].
  pose proof (Htidy _ _ _ _ Eo) as [T1 [T2 T3]].
  assert (G : gives (fi_factor fi) (fi_kind fi) levels o) by (split; [exact Hf|]; exists s, c; auto).
  destruct (fi_kind fi) as [n|n] eqn:Ek; cbn [bind].
  - unfold eval_factor. rewrite Ek. destruct (Nat.ltb 2 (o_ndim o)); [discriminate|]. destruct (Nat.eqb_spec (o_ncols o) n) as [En|]; [|discriminate]. cbn [negb].
    destruct (o_isnum o); cbn [negb]; [|destruct (o_index o); discriminate]. intros [= <-]. split; [unfold proper_value; cbn; exact T1|]. exists levels, o. split; [exact G|]. cbn. split; [reflexivity|]. split; [reflexivity|].
    intros Ht. apply in_map_iff in Ht. destruct Ht as [row [E Hrow]]. apply andb_true_iff in E. destruct E as [E1 E2]. apply existsb_exists in E2. destruct E2 as [x [E2 E3]]. split; [exact E1|]. eauto.
  - destruct (categorical_to_int (o_value o) levels na' (origin_of (fi_factor fi))) as [codes|] eqn:Ec; cbn [bind]; [|discriminate]. unfold eval_factor. rewrite Ek. intros [= <-].
    pose proof (codes_range _ _ _ _ (codes_found _ _ _ _ _ T2 Ec) T3) as R. split.
    + unfold proper_value. cbn [ev_value ev_isna]. rewrite Ek. intros k z Hz. inversion L; subst. rewrite Forall_forall in R. specialize (R z (nth_error_In _ _ Hz)).
      erewrite nth_error_nth by (rewrite nth_error_map, Hz; reflexivity). cbn. destruct (Z.eqb_spec z (-1)); [left; auto|right; split; [reflexivity|lia]].
    + exists levels, o. split; [exact G|]. cbn [rows_in vrows ev_value ev_index]. split; [eexists _, _; split; [exact Ec|reflexivity]|]. split; [reflexivity|].
      intros Ht. cbn [ev_isna] in Ht. apply in_map_iff in Ht. destruct Ht as [z [E Hz]]. apply Z.eqb_eq in E. subst z. exists codes, (origin_of (fi_factor fi)). auto.
Qed.
Lemma info_err fi err raise : In fi infos -> eval_info kn na' d fi = Err err ->
  goes_wrong passes chunk finish eval origin_of addr hash_order df_index visnan (na_what act) na' data d (factors_of tls) (factors_in used) raise err.
Proof.
  intros Hfi He. destruct (info_learned fi Hfi) as [Hf [s [levels [c [L Hk]]]]].
  revert He. unfold PipeModel.eval_info. rewrite Hk. cbn [lookup bind]. destruct (eval (fi_factor fi) s d) as [o|e0] eqn:Eo; cbn [bind]; [|intros [= ->]; eapply gw_eval; eassumption].
  assert (G : gives (fi_factor fi) (fi_kind fi) levels o) by (split; [exact Hf|]; exists s, c; auto).
  destruct (fi_kind fi) as [n|n] eqn:Ek; cbn [bind].
  - unfold eval_factor. rewrite Ek. destruct (Nat.ltb_spec 2 (o_ndim o)) as [Hd|Hd]; [intros [= <-]; eapply gw_deep; eassumption|].
    destruct (Nat.eqb_spec (o_ncols o) n) as [En|En]; [|intros [= <-]; eapply gw_columns; eassumption]. cbn [negb].
    destruct (o_isnum o) eqn:Ei; cbn [negb]; [discriminate|]. destruct (o_index o) eqn:Ex; intros [= <-]; [eapply gw_pandas_type|eapply gw_type]; eassumption.
  - destruct (categorical_to_int (o_value o) levels na' (origin_of (fi_factor fi))) as [codes|] eqn:Ec; cbn [bind]; [|intros [= ->]; eapply gw_codes; eassumption]. unfold eval_factor. rewrite Ek. discriminate.
Qed.

Lemma build_wrong nb want err : build used d nb want = Err err ->
  get_action nb = Err err \/ exists actb, get_action nb = Ok actb /\ (na' = na_what actb ->
    goes_wrong passes chunk finish eval origin_of addr hash_order df_index visnan (na_what act) na' data d (factors_of tls) (factors_in used)
      (match na_on actb with NARaise => true | NADrop => false end) err).
Proof.
  unfold PipeModel.build. destruct (get_action nb) as [actb|e0]; cbn [bind]; [|intros [= ->]; now left]. intros H. right. exists actb. split; [reflexivity|]. intros En. rewrite <- En in H.
  destruct used_ok as [Hcon Hid]. assert (Hcon' : Forall constructed (map ds_info used)) by (rewrite Forall_map; exact Hcon).
  pose proof (build_errors vone vmul ilabel ieqb origin_of ieqb_eq (eval_info kn na' d) (df_index d) (map ds_info used) Hcon' Hid
    (fun fi e Hfi He => let (a, b) := info_ok fi e Hfi He in conj a (proj1 b)) used_proper (na_on actb) want err H) as E.
  destruct E as [[pre [fi [post [E1 [E2 E3]]]]]|[[E1 [pre [fi [post [E2 [[e [E3 Ht]] [_ ->]]]]]]]|[E1 [E2 [E3 ->]]]]].
  - assert (Hfi : In fi infos) by (rewrite E1; apply in_or_app; right; now left).
    assert (Hpre : forall g, In g pre -> In g infos) by (intros g Hg; rewrite E1; apply in_or_app; now left).
    destruct E3 as [E3|[e [E3 E4]]]; [eapply info_err; eassumption|]. destruct (info_ok fi e Hfi E3) as [_ [_ [levels [o [G1 [G2 [G3 _]]]]]]].
    assert (Hev : forall e', In e' (evals (eval_info kn na' d) pre) -> exists g, In g pre /\ eval_info kn na' d g = Ok e') by (intros e' He'; now apply (evals_in (eval_info kn na' d) pre E2)).
    destruct E4 as [[E4 ->]|[i [j [E4 [E5 [E6 ->]]]]]].
    + assert (X : (exists i, df_index d = Some i /\ length i <> vrows (ev_value e)) \/ exists g e', In g pre /\ eval_info kn na' d g = Ok e' /\ vrows (ev_value e') <> vrows (ev_value e)).
      { destruct (df_index d) as [i|] eqn:Ed; [destruct (Nat.eq_dec (length i) (vrows (ev_value e))) as [Ei|Ei]; [|left; eauto]|].
        - right. apply not_all_rows with (1 := E2). intros Hall. apply E4. split; [intros j [= <-]; exact Ei|exact Hall].
        - right. apply not_all_rows with (1 := E2). intros Hall. apply E4. split; [discriminate|exact Hall]. }
      destruct X as [[i [X1 X2]]|[g [e' [X1 [X2 X3]]]]].
      * eapply gw_rows; [exact G1|exact G2| |left; exists i; split; [exact X1|reflexivity]]. congruence.
      * destruct (info_ok g e' (Hpre g X1) X2) as [_ [_ [levels' [o' [G1' [G2' _]]]]]]. eapply gw_rows; [exact G1|exact G2| |right; exists (fi_factor g), (fi_kind g), levels', o'; split; [exact G1'|exact G2']]. congruence.
    + eapply gw_index with (j := j); [exact G1|rewrite <- G3; exact E4|congruence|]. destruct E6 as [E6|[e' [E6 E7]]]; [now left|right].
      destruct (Hev e' E6) as [g [X1 X2]]. destruct (info_ok g e' (Hpre g X1) X2) as [_ [_ [levels' [o' [G1' [_ [G3' _]]]]]]]. exists (fi_factor g), (fi_kind g), levels', o'. split; [exact G1'|congruence].
  - assert (Hfi : In fi infos) by (rewrite E2; apply in_or_app; right; now left). destruct (info_ok fi e Hfi E3) as [_ [_ [levels [o [G1 [_ [_ G4]]]]]]].
    eapply gw_missing; [now rewrite E1|exact G1|now apply G4].
  - apply gw_size; [|exact E2]. unfold factors_in. clear -E1. induction used as [|x us IH]; [reflexivity|]. unfold all_infos in *. cbn [map flat_map] in *. apply app_eq_nil in E1. destruct E1 as [E1 E3].
    apply map_eq_nil in E1. rewrite E1. cbn. now apply IH.
Qed.
End Errors.

(** The errors of [categorical_to_int] that are PatsyErrors. *)
Lemma code_value_err na org table v m o : code_value na org table v = Err (PatsyError m o) -> o = org.
Proof.
  unfold code_value. destruct (is_categorical_NA na v) as [b|e] eqn:E; cbn [bind].
  - destruct b; [discriminate|]. destruct (negb (hashable v)); [intros [= _ <-]; reflexivity|]. destruct (dget key_eqb v table); [discriminate|]. intros [= _ <-]. reflexivity.
  - intros [= ->]. exfalso. revert E. unfold is_categorical_NA, safe_scalar_isnan. repeat (cbn [bind]; match goal with |- context [match ?x with _ => _ end] => destruct x eqn:? end); cbn [bind]; discriminate.
Qed.
Lemma mapM_err {A B} (f : A -> result B) l e : mapM f l = Err e -> exists x, In x l /\ f x = Err e.
Proof.
  induction l as [|x l IH]; cbn [mapM]; [discriminate|]. destruct (f x) eqn:E; cbn [bind].
  - destruct (mapM f l) eqn:E'; cbn [bind]; [discriminate|]. intros [= ->]. destruct (IH eq_refl) as [y [Hy Ey]]. exists y. split; [now right|exact Ey].
  - intros [= ->]. exists x. split; [now left|exact E].
Qed.
Lemma to_int_err {C} (v : @value C) levels na org m o : categorical_to_int v levels na org = Err (PatsyError m o) ->
  o = org \/ (m = "categorical data cannot be >1-dimensional" /\ o = None).
Proof.
  assert (Hm : forall table l, mapM (code_value na org table) l = Err (PatsyError m o) -> o = org).
  { intros table l H. destruct (mapM_err _ _ _ H) as [x [_ Ex]]. exact (code_value_err _ _ _ _ _ _ Ex). }
  assert (Hs : forall d, shape_fix d = Err (PatsyError m o) -> m = "categorical data cannot be >1-dimensional" /\ o = None).
  { intros [cs codes|nd l|b l|b v'|b nd nc]; cbn [shape_fix]; try discriminate; [destruct (Nat.ltb 1 nd); [|discriminate]|]; intros [= <- <-]; split; reflexivity. }
  assert (Hd : forall d, (let* values := shape_fix d in
    if negb (forallb hashable levels) then Err (PatsyError "Error interpreting categorical data: all items must be hashable" org)
    else
      let table := level_to_int levels in
      let slow := mapM (code_value na org table) values in
      match d with
      | DBools _ l =>
          let* f := lookup (dget key_eqb (VBool false) table) in
          if Nat.eqb f 0 then
            let* t := lookup (dget key_eqb (VBool true) table) in
            if Nat.eqb t 1 then Ok (map (fun b : bool => if b then 1%Z else 0%Z) l) else slow
          else slow
      | _ => slow
      end) = Err (PatsyError m o) -> o = org \/ (m = "categorical data cannot be >1-dimensional" /\ o = None)).
  { intros d. destruct (shape_fix d) as [vs|e] eqn:E; cbn [bind]; [|intros [= ->]; right; now apply (Hs d)].
    destruct (negb (forallb hashable levels)); [intros [= _ <-]; now left|]. cbv zeta.
    destruct d; try (intros H; left; exact (Hm _ _ H)).
    destruct (dget key_eqb (VBool false) (level_to_int levels)) as [f|]; cbn [lookup bind]; [|discriminate].
    destruct (Nat.eqb f 0); [|intros H; left; exact (Hm _ _ H)].
    destruct (dget key_eqb (VBool true) (level_to_int levels)) as [t|]; cbn [lookup bind]; [|discriminate].
    destruct (Nat.eqb t 1); [discriminate|intros H; left; exact (Hm _ _ H)]. }
  unfold categorical_to_int. destruct v as [d c [l|]|d].
  - destruct (tuple_eqb l levels); [exact (Hd d)|]. intros [= _ <-]. now left.
  - exact (Hd d).
  - destruct d as [cs codes|nd l|b l|b v'|b nd nc]; try exact (Hd _). destruct (tuple_eqb cs levels); [discriminate|]. intros [= _ <-]. now left.
Qed.
