(** Proofs about what can go wrong on the way from a formula and data to matrices, and that nothing does when all is in order. *)
From Coq Require Import Permutation.
From Verif Require Import Base OriginModel TokensModel ParseFormulaModel PySort RedundancySpec RankSpec UtilModel UtilProofs DescModel DescSpec DescProofs DescTopProofs FormulaModel BuildModel BuildSpec BuildProofs BuildOrderProofs BuildDesignProofs NameSpec NameProps
  MemorizeModel MemorizeSpec MemorizeProofs CategoricalModel CategoricalSpec CategoricalKeyProofs CategoricalSortProofs CategoricalCodeProofs CategoricalProofs CategoricalTypeProofs CategoricalProps MemorizeProps PipeModel PipeSpec PipeProofs
  PipeHighProofs EntrySpec PipeErrSpec PipeErrProps MadeSpec MadeProofs.
Open Scope nat_scope.
Open Scope string_scope.
Open Scope list_scope.

(** * Suitable values are coded *)
Lemma sniff_value_hashable na org s v s' : sniff_value na org s v = Ok s' -> (forall x, In x s -> hashable x = true) -> forall x, In x s' -> hashable x = true.
Proof.
  assert (A : forall s v, hashable v = true -> (forall x, In x s -> hashable x = true) -> forall x, In x (set_add s v) -> hashable x = true).
  { intros s0 v0 Hv Hs x. unfold set_add. destruct (set_mem v0 s0); [apply Hs|]. rewrite in_app_iff. intros [H|[<-|[]]]; auto. }
  unfold sniff_value. destruct (is_categorical_NA na v) as [[]|]; cbn [bind]; [intros [= <-]; auto| |discriminate]. intros H Hs.
  assert (B : forall w s1, (if hashable w then Ok (set_add s w) else Err (PatsyError "Error interpreting categorical data: all items must be hashable" org)) = Ok s1 -> forall x, In x s1 -> hashable x = true).
  { intros w s1. destruct (hashable w) eqn:Ew; [intros [= <-]; now apply A|discriminate]. }
  destruct v; try (match type of H with (if hashable ?w then _ else _) = _ => exact (B w _ H) end). injection H as <-. apply A; [reflexivity|]. now apply A.
Qed.
Lemma sniff_values_hashable na org l : forall s s', foldM (sniff_value na org) l s = Ok s' -> (forall x, In x s -> hashable x = true) -> forall x, In x s' -> hashable x = true.
Proof.
  induction l as [|v l IH]; intros s s'; cbn [foldM]; [intros [= <-]; auto|]. destruct (sniff_value na org s v) as [s1|] eqn:E; cbn [bind]; [|discriminate]. intros H Hs.
  eapply IH; [exact H|]. eapply sniff_value_hashable; eassumption.
Qed.
Lemma sniff_hashable {C} na org (v : @value C) l st fin : chunk_values v l -> sniff na org new_sniffer v = Ok (st, fin) -> forall x, In x (sn_set st) -> hashable x = true.
Proof.
  assert (A : forall c d l, consists_of d l -> ~ is_pandas d -> sniff_data na org (mkSniffer c None []) d = Ok (st, fin) -> forall x, In x (sn_set st) -> hashable x = true).
  { intros c d l0 Hc Hp. destruct Hc as [n l' Hl|n l'|n x|cats codes l' Hf]; cbn [sniff_data shape_fix bind].
    - intros [= <- <-]. cbn. intros x [<-|[<-|[]]]; reflexivity.
    - destruct (foldM _ _ _) as [s|] eqn:E; cbn [bind]; [|discriminate]. intros [= <- <-]. cbn [sn_set]. eapply sniff_values_hashable; [exact E|]. intros x [].
    - destruct (foldM _ _ _) as [s|] eqn:E; cbn [bind]; [|discriminate]. intros [= <- <-]. cbn [sn_set]. eapply sniff_values_hashable; [exact E|]. intros y [].
    - exfalso. apply Hp. now exists cats, codes. }
  intros [d l' H1 H2 H3|d c l' H1 H2 H3]; cbn [sniff]; [apply (A None d l')|apply (A (Some c) d l') || apply (A c d l')]; assumption.
Qed.

Lemma codes_clean na levels l codes : Forall2 (coded na levels) l codes -> (forall x, In x l -> ~ missing na x) -> ~ In (-1)%Z codes.
Proof.
  induction 1 as [|x z l codes Hz H IH]; intros Hm; [intros []|]. intros [E|E]; [|revert E; apply IH; intros y Hy; apply Hm; now right].
  destruct Hz as [[M _]|[_ [a [y [b [_ [_ [_ Ez]]]]]]]]; [apply (Hm x); [now left|exact M]|]. rewrite Ez in E. lia.
Qed.

(** Levels with which the values can be coded. *)
Definition codable {C} na (raise : bool) n (v : @value C) levels : Prop :=
  forall org, exists codes, categorical_to_int v levels na org = Ok codes /\ length codes = n /\ (raise = true -> ~ In (-1)%Z codes).

Lemma codable_of {C} na raise n (v : @value C) levels d l :
  v = Plain d /\ ~ is_pandas d \/ (exists c, v = Boxed d c None) \/ (exists c bl, v = Boxed d c (Some bl) /\ Forall2 same bl levels) -> consists_of d l -> length l = n ->
  (forall n m, d = DBools n m -> (exists x, In x levels /\ same x (VBool false)) /\ exists x, In x levels /\ same x (VBool true)) ->
  forallb hashable levels = true -> Forall (usable na) l -> (forall x, In x l -> missing na x \/ exists y, In y levels /\ same y x) ->
  (raise = true -> forall x, In x l -> ~ missing na x) -> codable na raise n v levels.
Proof.
  intros Hv Hc Hn Hb Hh Hu Hl Hm org. destruct (category_codes_total C v levels na org d l Hv Hc Hb Hh Hu Hl) as [codes E]. exists codes. split; [exact E|].
  assert (F : Forall2 (coded na levels) l codes).
  { eapply category_codes; [|exact Hc|exact E]. destruct Hv as [Hv|[[c Hv]|[c [bl [Hv _]]]]]; [now left|right; eauto|right; eauto]. }
  split; [rewrite <- Hn; symmetry; eapply forall2_len, F|]. intros Hr. eapply codes_clean; [exact F|now apply Hm].
Qed.

Section High.
Context {V I C S D : Type}.
Variables (vone : V) (vmul : V -> V -> V) (visnan : V -> bool) (ilabel : nat -> I) (ieqb : I -> I -> bool).
Variable passes : factor -> result (S * Z).
Variable chunk : factor -> S -> nat -> D -> result S.
Variable finish : factor -> S -> nat -> result S.
Variable eval : factor -> S -> D -> result (@fobj V I C).
Variable origin_of : factor -> option origin.
Variable code_cm : list pval -> option C -> bool -> result (@ctr V).
Variable hash : list (bool * factor) -> Z.
Variable set_order : list factor -> list factor.
Variables order_mem order_exam : nat -> list factor -> list factor.
Variable addr : pval -> nat.
Variable hash_order : list pval -> list pval.
Variable df_index : D -> option (list I).
Hypothesis Hieq : forall a b, ieqb a b = true <-> a = b.
Hypothesis Hset : forall l, Permutation (set_order l) l.
Hypothesis Hmem : forall n l, Permutation (order_mem n l) l.
Hypothesis Hexam : forall n l, Permutation (order_exam n l) l.
Hypothesis Hidx : indexed eval.
Hypothesis Htidy : forall f s d o, eval f s d = Ok o -> tidy o.
Hypothesis Hrect : forall levels c full m, code_cm levels c full = Ok m -> forall row, In row (ct_rows m) -> length row = ct_ncols m.
Hypothesis Hrows : forall levels c full m, code_cm levels c full = Ok m -> length (ct_rows m) = length levels.

Local Notation builders := (design_matrix_builders passes chunk finish eval origin_of code_cm hash set_order order_mem order_exam addr hash_order).
Local Notation learned := (learned passes chunk finish eval origin_of addr hash_order).
Local Notation trained := (trained passes chunk finish).
Local Notation unmade := (unmade passes chunk finish eval origin_of code_cm addr hash_order).
Local Notation goes_wrong := (goes_wrong passes chunk finish eval origin_of addr hash_order df_index visnan).

Definition fits_well (na : na_types) (raise : bool) (n : nat) (k : fkind) (levels : list pval) (o : @fobj V I C) : Prop :=
  match k with
  | FNum m => o_ndim o <= 2 /\ o_ncols o = m /\ o_isnum o = true /\ length (o_rows o) = n /\
      (raise = true -> nan_is_na na = true -> forall row x, In row (o_rows o) -> In x row -> visnan x = false)
  | FCat _ => codable na raise n (o_value o) levels
  end.
Lemma suits_learned na raise n data fs f s d o : (forall l, Permutation (hash_order l) l) -> exam_chunks passes data fs = [d] -> trained data f s -> eval f s d = Ok o -> suits na raise n o visnan ->
  exists k levels c, learned na data fs f s k levels c /\ fits_well na raise n k levels o.
Proof.
  intros Hho Hex Ht He Hs. assert (Hv : value_with eval s f d = Ok (o_value o)) by (unfold value_with; now rewrite He).
  destruct Hs as [k Hk H1 H2 H3 H4 H5|l Hg Hc Hn Hu Hm|x c levels l Hb Hc Hn Hbl Hh Hu Hl Hm|cats codes Hp Hn Hm].
  - exists (FNum k), [], None. split; [|repeat (split; [assumption|]); assumption].
    constructor; [exact Ht|]. rewrite Hex. unfold type_of. rewrite Hv. cbn [bind]. inversion Hk as [l E|x E|nd nc Hd E]; try reflexivity. cbn [guess_categorical negb column_count]. destruct (Nat.ltb_spec 2 nd); [lia|reflexivity].
  - destruct (sniff_ok na (origin_of f) new_sniffer (o_value o) l Hc Hu) as [st [fin Es]].
    destruct (sniff_keys na (origin_of f) new_sniffer st (o_value o) l fin Hc Es eq_refl (NoDup_nil _)) as [Hl0 [_ Hk]].
    set (levels := sort_levels addr (hash_order (sn_set st))).
    assert (Hlc : levels_contrast addr hash_order st = (levels, sn_contrast st)) by (unfold levels_contrast; now rewrite Hl0).
    assert (Hin : forall y, In y levels <-> In y (sn_set st)).
    { intros y. unfold levels, sort_levels. rewrite py_sort_in. split; intros H; [eapply Permutation_in; [apply Hho|exact H]|eapply Permutation_in; [apply Permutation_sym, Hho|exact H]]. }
    assert (Hcov : forall w, level_of na l w -> exists y, In y levels /\ same y w).
    { intros w Hw. apply level_of_covers in Hw. assert (K : In (key_of w) (keys (sn_set st))).
      { destruct Hk as [[_ Hk]|[_ [Hk1 Hk2]]]; [apply Hk; now right|apply Hk1, Hk2, Hw]. }
      apply in_map_iff in K. destruct K as [y [E Hy]]. exists y. split; [now apply Hin|now apply same_iff]. }
    exists (FCat (length levels)), levels, (sn_contrast st). split.
    + apply learned_cat with (sn := st); [exact Ht| |exact Hlc]. rewrite Hex. unfold type_of. rewrite Hv. cbn [bind]. rewrite Hg. cbn [look]. rewrite Hv. cbn [bind]. rewrite Es. cbn [bind]. destruct fin; reflexivity.
    + assert (Hex' : exists x, (o_value o = Plain x /\ ~ is_pandas x \/ exists c, o_value o = Boxed x c None) /\ consists_of x l /\ (forall n, x <> DBools n [])).
      { destruct (o_value o) as [x|x]; inversion Hc; subst; exists x; split; eauto. }
      destruct Hex' as [x [Hx [Hco Hne]]]. eapply codable_of; [|exact Hco|exact Hn| |  |exact Hu| |exact Hm].
      * destruct Hx as [Hx|Hx]; [now left|right; now left].
      * intros q m ->. assert (B : exists b, In (VBool b) l).
        { inversion Hco; subst. destruct m as [|b m]; [exfalso; now apply (Hne q)|]. exists b. now left. }
        destruct B as [b Hb]. assert (N : ~ missing na (VBool b)) by (unfold missing; intros [[_ [[i A]|[t [A _]]]]|[_ A]]; discriminate).
        split; apply Hcov; exists (VBool b); (split; [exact Hb|]); (split; [exact N|]); right; (split; [now exists b|]); [right|left]; apply same_iff; reflexivity.
      * apply forallb_forall. intros y Hy. apply Hin in Hy. eapply sniff_hashable; eassumption.
      * intros y Hy. rewrite Forall_forall in Hu. destruct (Hu y Hy) as [T _]. destruct (testable_cases na y T) as [[_ M]|[_ M]]; [now left|right].
        apply Hcov. exists y. split; [exact Hy|]. split; [exact M|]. left. now apply same_iff.
  - exists (FCat (length levels)), levels, c. split.
    + apply learned_cat with (sn := mkSniffer c (Some levels) []); [exact Ht| |reflexivity]. rewrite Hex. unfold type_of. rewrite Hv, Hb. cbn [bind guess_categorical look]. rewrite Hv, Hb. reflexivity.
    + eapply codable_of; [|exact Hc|exact Hn|exact Hbl|exact Hh|exact Hu|exact Hl|exact Hm]. right. right. exists c, levels. split; [exact Hb|]. now apply keys_same.
  - exists (FCat (length cats)), cats, None. split.
    + apply learned_cat with (sn := mkSniffer None (Some cats) []); [exact Ht| |reflexivity]. rewrite Hex. unfold type_of. rewrite Hv, Hp. cbn [bind guess_categorical look]. rewrite Hv, Hp. reflexivity.
    + intros org. exists codes. rewrite Hp. split; [|now split]. destruct (category_codes_pandas C cats na org cats codes) as [[_ E]|[E _]]; [exact E|]. exfalso. apply E. now apply keys_same.
Qed.

(** * The factors of the designs *)
Lemma builders_factors data na tls ds : builders data na tls = Ok ds -> forall f, In f (factors_in ds) <-> In f (factors_of tls).
Proof.
  intros H f. split.
  - destruct (builders_good passes chunk finish eval origin_of code_cm hash set_order order_mem order_exam addr hash_order Hset Hmem Hexam _ _ _ _ H) as [_ [_ [_ [act [_ Hf]]]]].
    unfold factors_in. intros Hin. apply in_flat_map in Hin. destruct Hin as [x [Hx Hin]]. apply in_map_iff in Hin. destruct Hin as [[g fi] [<- Hin]]. now destruct (Hf x Hx g fi Hin) as [_ [K _]].
  - destruct (builders_inv passes chunk finish eval origin_of code_cm hash set_order order_mem order_exam addr hash_order Hset Hmem Hexam data na tls ds H) as [act [num [cat [fis [kn [dis [_ [-> [Hd [_ Hf]]]]]]]]]].
    intros Hin. destruct (Hf f Hin) as [fi [s [k [lv [c [_ [Hfi _]]]]]]]. unfold factors_of in Hin. apply in_concat in Hin. destruct Hin as [fs' [Hfs Hin]]. apply in_map_iff in Hfs. destruct Hfs as [tl [<- Htl]].
    apply mapM_ok_Forall2 in Hd. assert (E : exists di, In di dis /\ design_for num (contrast_for code_cm cat) hash fis tl = Ok di).
    { clear - Hd Htl. induction Hd as [|a b l m E Hd IH]; [destruct Htl|]. destruct Htl as [<-|Htl]; [exists b; split; [now left|exact E]|]. destruct (IH Htl) as [di [H1 H2]]. exists di. split; [now right|exact H2]. }
    destruct E as [di [Hdi E]]. destruct (design_for_lemma _ _ _ _ _ _ E) as [_ [_ [_ G]]]. specialize (G f Hin). rewrite Hfi in G.
    unfold factors_in. apply in_flat_map. exists (mkDesign di kn). split; [apply in_map_iff; now exists di|]. cbn [ds_info].
    apply (dget_in String.eqb) in G. destruct G as [f' [G1 G2]]. apply String.eqb_eq in G2. subst f'. now apply (in_map fst) in G1.
Qed.
Lemma wrong_ext na na' data d fs used used' raise e : (forall f, In f used <-> In f used') -> goes_wrong na na' data d fs used raise e -> goes_wrong na na' data d fs used' raise e.
Proof.
  intros Hu. assert (G : forall f k lv o, gives passes chunk finish eval origin_of addr hash_order na data d fs used f k lv o -> gives passes chunk finish eval origin_of addr hash_order na data d fs used' f k lv o).
  { intros f k lv o [H1 H2]. split; [now apply Hu|exact H2]. }
  intros [ ].
  - eapply gw_eval; eauto. now apply Hu.
  - eapply gw_deep; eauto.
  - eapply gw_columns; eauto.
  - eapply gw_type; eauto.
  - eapply gw_pandas_type; eauto.
  - eapply gw_codes; eauto.
  - eapply gw_rows; eauto. destruct H2 as [H2|[f' [k' [lv' [o' [H2 H3]]]]]]; [now left|right; eauto 8].
  - eapply gw_index; eauto. destruct H2 as [H2|[f' [k' [lv' [o' [H2 H3]]]]]]; [now left|right; eauto 8].
  - eapply gw_missing; eauto.
  - eapply gw_size; eauto. destruct used' as [|f u]; [reflexivity|]. subst used. exfalso. apply (proj2 (Hu f)). now left.
Qed.

(** * From the description to matrices *)
Variable upcast : V -> V.
Variable vobj : V.
Variable tokenize : string -> list pytok * option exn.
Variable norm : string -> string.
Variable is_float : string -> bool.
Variable have_pandas : bool.
Local Notation highlevel := (highlevel_design vone vmul visnan ilabel ieqb passes chunk finish eval origin_of code_cm hash set_order order_mem order_exam addr hash_order df_index upcast vobj tokenize norm is_float have_pandas).
Local Notation formula_desc := (formula_desc tokenize norm is_float).
Local Notation unbuilt := (unbuilt passes chunk finish eval origin_of code_cm addr hash_order df_index visnan have_pandas).
Local Notation in_order := (in_order passes chunk finish eval origin_of code_cm addr hash_order df_index visnan have_pandas).

Lemma describes_try fl md data na : describes formula_desc fl md ->
  try_incr_builders passes chunk finish eval origin_of code_cm hash set_order order_mem order_exam addr hash_order tokenize norm is_float fl data na =
  desc_builders passes chunk finish eval origin_of code_cm hash set_order order_mem order_exam addr hash_order data na md.
Proof.
  destruct fl as [ | | |s|m|r| ]; cbn [describes try_incr_builders]; try contradiction; intros ->; reflexivity.
Qed.
Lemma high_err fl md d na rt e : describes formula_desc fl md -> Forall different_terms (sides md) -> Forall (fun tl => collision_free hash (concat tl)) (sides md) ->
  highlevel fl d na rt = Err e -> unbuilt d na rt md e.
Proof.
  intros Hfl Hd Hcf. unfold highlevel_design.
  destruct (match rt with RDataFrame => negb have_pandas | _ => false end) eqn:E1.
  { intros [= <-]. destruct rt; try discriminate. apply ub_pandas; [reflexivity|]. now destruct have_pandas. }
  destruct (match rt with RUnknown => true | _ => false end) eqn:E2.
  { intros [= <-]. destruct rt; try discriminate. now apply ub_type. }
  rewrite (describes_try fl md _ na Hfl). unfold desc_builders. fold (sides md).
  destruct (builders (fun _ => [d]) na (sides md)) as [ds|e'] eqn:Eb; cbn [bind].
  2: { intros [= <-]. destruct (builders_err passes chunk finish eval origin_of code_cm hash set_order order_mem order_exam addr hash_order Hset Hmem Hexam Hrows _ _ _ _ Hd Hcf Eb) as [H|[act [H1 H2]]];
       [now apply ub_action|eapply ub_unmade; eassumption]. }
  destruct (builders_good passes chunk finish eval origin_of code_cm hash set_order order_mem order_exam addr hash_order Hset Hmem Hexam _ _ _ _ Eb) as [HL [HC [HI [act [Ha _]]]]].
  destruct ds as [|l [|r [|x ds]]]; try discriminate HL. cbn [bind].
  destruct (build vone vmul visnan ilabel ieqb eval origin_of df_index [l; r] d na _) as [[ms labels]|e'] eqn:Ebd; cbn [bind].
  - destruct (build_shape vone vmul visnan ilabel ieqb Hieq eval origin_of df_index Hidx [l; r] d na _ ms labels (conj HC HI) ltac:(discriminate) Ebd) as [n [F _]].
    inversion F as [|? ? ? ? ? F1]; subst. inversion F1 as [|? ? ? ? ? F2]; subst. inversion F2; subst. discriminate.
  - intros [= <-]. pose proof (new_data_errors vone vmul visnan ilabel ieqb passes chunk finish eval origin_of code_cm hash set_order order_mem order_exam addr hash_order df_index Hieq Hset Hmem Hexam Hidx Htidy Hrect
      _ _ _ _ _ _ Eb Ha (incl_refl _) _ _ _ _ Ebd) as G. rewrite Ha in G. eapply ub_data; [exact Ha|]. eapply wrong_ext; [|exact G]. exact (builders_factors _ _ _ _ Eb).
Qed.

(** * When all is in order *)
Hypothesis Hho : forall l, Permutation (hash_order l) l.
Lemma order_no_error d na rt md act n index e : get_action na = Ok act -> in_order d act rt md n index -> ~ unbuilt d na rt md e.
Proof.
  intros Ha [Hrt [Hpd [Hf [Hi1 [Hi2 [Hne [Hcm Hnm]]]]]]] Hu. set (fs := factors_of (sides md)) in *.
  assert (Hl : forall f, In f fs -> exists s o k lv c, trained (fun _ => [d]) f s /\ eval f s d = Ok o /\ learned (na_what act) (fun _ => [d]) fs f s k lv c /\ fits_well (na_what act) (is_raise (na_on act)) n k lv o /\ (o_index o = None \/ o_index o = index)).
  { intros f Hin. destruct (Hf f Hin) as [s [o [T [E [Su Hx]]]]]. destruct (suits_learned (na_what act) _ n (fun _ => [d]) fs f s d o Hho eq_refl T E Su) as [k [lv [c [L F]]]]. exists s, o, k, lv, c. auto. }
  assert (Hg : forall f k lv o, gives passes chunk finish eval origin_of addr hash_order (na_what act) (fun _ => [d]) d fs fs f k lv o -> fits_well (na_what act) (is_raise (na_on act)) n k lv o /\ (o_index o = None \/ o_index o = index)).
  { intros f k lv o [Hin [s [c [L E]]]]. destruct (Hl f Hin) as [s' [o' [k' [lv' [c' [_ [E' [L' [F X]]]]]]]]].
    destruct (learned_fun passes chunk finish eval origin_of addr hash_order _ _ _ _ _ _ _ _ _ _ _ _ L L') as [<- [<- [<- <-]]]. rewrite E in E'. injection E' as <-. auto. }
  assert (Hr : forall k lv o m, fits_well (na_what act) (is_raise (na_on act)) n k lv o -> rows_in (na_what act) k lv o m -> m = n).
  { intros [q|q] lv o m F R; cbn in F, R; [destruct F as [_ [_ [_ [F _]]]]; congruence|]. destruct R as [codes [org [R1 R2]]]. destruct (F org) as [codes' [F1 [F2 _]]]. congruence. }
  destruct Hu as [E1 E2|E1|e E1|act' e Ha' Hu|act' e Ha' Hu].
  - specialize (Hpd E1). congruence.
  - contradiction.
  - congruence.
  - rewrite Ha in Ha'. injection Ha' as <-. destruct Hu as [f e Hin Hp|f s e Hin T Ty|f Hin E|f s m lv c full e Hin L E|tl e Hin Hn _].
    + destruct (Hl f Hin) as [s [o [k [lv [c [[s0 [q [P R]]] _]]]]]]. destruct Hp as [Hp|[s1 [q1 [Hp1 Hp2]]]]; [congruence|]. rewrite P in Hp1. injection Hp1 as <- <-. congruence.
    + destruct (Hl f Hin) as [s' [o [k [lv [c [_ [_ [L _]]]]]]]]. destruct L as [s1 q T1 Ty1|s1 sn lv1 c1 T1 Ty1 _]; pose proof (trained_fun passes chunk finish _ _ _ _ T T1); subst; fold fs in Ty; congruence.
    + discriminate.
    + destruct (Hcm f s m lv c full Hin L) as [cm Ec]. congruence.
    + rewrite Forall_forall in Hnm. apply Hn, Hnm, Hin.
  - rewrite Ha in Ha'. injection Ha' as <-. fold fs in Hu. destruct Hu.
    + destruct (Hl f H) as [s' [o [k' [lv' [c' [_ [E [L' _]]]]]]]]. destruct (learned_fun passes chunk finish eval origin_of addr hash_order _ _ _ _ _ _ _ _ _ _ _ _ H0 L') as [<- _]. congruence.
    + destruct (Hg _ _ _ _ H) as [[F _] _]. lia.
    + destruct (Hg _ _ _ _ H) as [[_ [F _]] _]. contradiction.
    + destruct (Hg _ _ _ _ H) as [[_ [_ [F _]]] _]. congruence.
    + destruct (Hg _ _ _ _ H) as [[_ [_ [F _]]] _]. congruence.
    + destruct (Hg _ _ _ _ H) as [F _]. destruct (F (origin_of f)) as [codes [F1 _]]. congruence.
    + destruct (Hg _ _ _ _ H) as [F _]. apply H1. rewrite (Hr _ _ _ _ F H0). destruct H2 as [[i [X1 X2]]|[f' [k' [lv' [o' [X1 X2]]]]]]; [rewrite <- X2; symmetry; now apply Hi2|].
      destruct (Hg _ _ _ _ X1) as [F' _]. symmetry. exact (Hr _ _ _ _ F' X2).
    + destruct (Hg _ _ _ _ H) as [_ [X|X]]; [congruence|]. apply H1. destruct H2 as [Y|[f' [k' [lv' [o' [Y1 Y2]]]]]].
      * destruct Hi1 as [Z|Z]; congruence.
      * destruct (Hg _ _ _ _ Y1) as [_ [Z|Z]]; congruence.
    + destruct (Hg _ _ _ _ H0) as [F _]. destruct k as [q|q]; cbn in F, H1.
      * destruct F as [_ [_ [_ [_ F]]]]. destruct H1 as [N [row [x [R1 [R2 R3]]]]]. rewrite (F H N row x R1 R2) in R3. discriminate.
      * destruct H1 as [codes [org [R1 R2]]]. destruct (F org) as [codes' [F1 [_ F2]]]. apply (F2 H). congruence.
    + now apply Hne.
Qed.
Lemma high_ok fl md d na rt act n index : describes formula_desc fl md -> Forall different_terms (sides md) -> Forall (fun tl => collision_free hash (concat tl)) (sides md) ->
  get_action na = Ok act -> in_order d act rt md n index -> exists l r, highlevel fl d na rt = Ok (l, r).
Proof.
  intros Hfl Hd Hcf Ha Ho. destruct (highlevel fl d na rt) as [[l r]|e] eqn:E; [eauto|]. exfalso. exact (order_no_error d na rt md act n index e Ha Ho (high_err fl md d na rt e Hfl Hd Hcf E)).
Qed.
End High.

(** * Formulas have different terms *)
Lemma tidy_different ts : DescSpec.tidy ts -> different_terms ts.
Proof.
  intros [H1 [H2 _]]. split; [exact H2|]. clear H2. induction ts as [|t ts IH]; constructor.
  - apply Forall_forall. intros u Hu. destruct (term_eqb t u) eqn:E; [|reflexivity]. exfalso. apply DescProofs.term_eqb_spec in E. apply In_nth_error in Hu. destruct Hu as [j Hj].
    specialize (H1 0 (Datatypes.S j) t u eq_refl Hj E). discriminate.
  - apply IH. intros i j a b Ha Hb Hs. specialize (H1 (Datatypes.S i) (Datatypes.S j) a b Ha Hb Hs). lia.
Qed.
Lemma formula_different tokenize norm is_float s md : formula_desc tokenize norm is_float s = Ok md -> Forall different_terms (sides md).
Proof.
  unfold formula_desc. destruct (tokenize s) as [it tail]. unfold from_formula. destruct (parse_formula is_float it tail []) as [tree|]; cbn [bind]; [|discriminate]. intros H.
  destruct (from_tree_tidy norm tree md H) as [H1 H2]. repeat constructor; now apply tidy_different.
Qed.
(** A side without terms has no columns. *)
Lemma no_terms_no_columns {V} num (cm : factor -> bool -> result (@ctr V)) hash fis d : design_for num cm hash fis [] = Ok d -> column_names d = [].
Proof.
  intros H. destruct (design_for_lemma num cm hash fis [] d H) as [_ [Hm [Hn _]]]. cbn in Hm. injection Hm as Hm. rewrite <- Hm in Hn. exact Hn.
Qed.
