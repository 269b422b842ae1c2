(** The entries of design matrices, from the text of the factors. *)
From Coq Require Import ZArith Sorted Permutation.
From Verif Require Import Base OriginModel ParseFormulaModel TokensModel UtilModel BuildModel BuildSpec EvalModel EvalSpec PyLexModel PyLexSpec DescModel FormulaModel CategoricalModel CategoricalSpec MemorizeModel MemorizeSpec PipeModel PipeSpec PipeProofs PipeHighProofs
  FitModel FitSpec FitProofs FitProps EntryModel EntrySpec EntryProofs EntryFitProofs CodeModel CodeSpec CodeTreeProofs CodeProofs CodeEvalProofs CodeTopProofs.
Open Scope nat_scope.
Open Scope string_scope.
Open Scope list_scope.

(** * Values matter on the training data and the new data only *)
Lemma look_ext {F C D} (ev ev' : F -> D -> result (@value C)) org na f : forall l sn, (forall x, In x l -> ev f x = ev' f x) -> CategoricalSpec.look ev org na f l sn = CategoricalSpec.look ev' org na f l sn.
Proof.
  induction l as [|x l IH]; intros sn H; [reflexivity|]. cbn [CategoricalSpec.look]. rewrite (H x (or_introl eq_refl)). destruct (ev' f x) as [v|]; cbn [bind]; [|reflexivity].
  destruct (sniff na (org f) sn v) as [[sn' fin]|]; cbn [bind]; [|reflexivity]. destruct fin; [reflexivity|]. apply IH. intros y Hy. apply H. now right.
Qed.
Lemma type_of_ext {F C D} (ev ev' : F -> D -> result (@value C)) org na f l : (forall x, In x l -> ev f x = ev' f x) -> type_of ev org na f l = type_of ev' org na f l.
Proof.
  intros H. unfold type_of. destruct l as [|x r]; [reflexivity|]. rewrite (H x (or_introl eq_refl)). destruct (ev' f x) as [v|]; cbn [bind]; [|reflexivity].
  destruct (guess_categorical v); [|reflexivity]. now rewrite (look_ext ev ev' org na f (x :: r) new_sniffer H).
Qed.

Section Weaken.
Context {V I C D : Type}.
Variables (vone : V) (vmul : V -> V -> V) (visnan : V -> bool).
Variable origin_of : factor -> option origin.
Variable addr : pval -> nat.
Variable hash_order : list pval -> list pval.
Variable code_cm : list pval -> option C -> bool -> result (@ctr V).
Variables A B : factor -> (D -> result (@fobj V I C)) -> Prop.
Variable na : na_types.
Variable exam : list D.
Variable na' : na_types.
Variable d : D.
Hypothesis Hab : forall f g, A f g -> exists g', B f g' /\ forall x, In x exam \/ x = d -> g x = g' x.
Hypothesis Hba : forall f g g', A f g -> B f g' -> forall x, In x exam \/ x = d -> g' x = g x.
Local Notation fvA := (factor_value origin_of addr hash_order A na exam na' d).
Local Notation fvB := (factor_value origin_of addr hash_order B na exam na' d).
Lemma type_same (g g' : D -> result (@fobj V I C)) f : (forall x, In x exam \/ x = d -> g x = g' x) -> type_of (as_value g) origin_of na f exam = type_of (as_value g') origin_of na f exam.
Proof. intros H. apply type_of_ext. intros x Hx. unfold as_value. now rewrite H by (now left). Qed.
Lemma value_ab f lv c v : fvA f lv c v -> fvB f lv c v.
Proof.
  intros [g n o H1 H2 H3 H4 H5 H6|g sn levels c' o codes H1 H2 H3 H4 H5]; destruct (Hab f g H1) as [g' [Hg E]]; rewrite (type_same g g' f E) in H2.
  - eapply fv_num; try eassumption. rewrite <- E by (now right). exact H3.
  - eapply fv_cat; try eassumption. rewrite <- E by (now right). exact H4.
Qed.
Lemma value_ba f g0 lv c v : A f g0 -> fvB f lv c v -> fvA f lv c v.
Proof.
  intros H0 [g n o H1 H2 H3 H4 H5 H6|g sn levels c' o codes H1 H2 H3 H4 H5]; pose proof (Hba f g0 g H0 H1) as E; rewrite (type_same g g0 f E) in H2.
  - eapply fv_num; try eassumption. rewrite <- E by (now right). exact H3.
  - eapply fv_cat; try eassumption. rewrite <- E by (now right). exact H4.
Qed.
Lemma lacks_ba f g0 k : A f g0 -> lacks visnan origin_of addr hash_order B na exam na' d f k -> lacks visnan origin_of addr hash_order A na exam na' d f k.
Proof.
  intros H0 [lv c n rows row x H1 H2 H3 H4 H5|lv c codes H1 H2]; apply (value_ba _ g0) in H1; try assumption; [eapply lk_num|eapply lk_cat]; eassumption.
Qed.
Lemma lacks_ab f k : lacks visnan origin_of addr hash_order A na exam na' d f k -> lacks visnan origin_of addr hash_order B na exam na' d f k.
Proof.
  intros [lv c n rows row x H1 H2 H3 H4 H5|lv c codes H1 H2]; apply value_ab in H1; [eapply lk_num|eapply lk_cat]; eassumption.
Qed.
Lemma rows_weaken df fs n ks : rows_used visnan origin_of addr hash_order A na exam na' d df fs n ks -> rows_used visnan origin_of addr hash_order B na exam na' d df fs n ks.
Proof.
  intros [H1 [H2 [H3 H4]]]. split; [|split; [exact H2|split; [exact H3|]]].
  - intros f Hf. destruct (H1 f Hf) as [lv [c [v [H5 H6]]]]. exists lv, c, v. split; [now apply value_ab|exact H6].
  - assert (Hg : forall f, In f fs -> exists g, A f g) by (intros f Hf; destruct (H1 f Hf) as [lv [c [v [[g n' o X|g sn levels c' o codes X] _]]]]; eauto).
    intros k. rewrite H4. split; intros [K1 K2]; (split; [exact K1|]); intros f Hf Hl; apply (K2 f Hf); [destruct (Hg f Hf) as [g Hg0]; now apply (lacks_ba f g)|now apply lacks_ab].
Qed.
Lemma contributes_ab f cm i k v : contributes origin_of addr hash_order code_cm A na exam na' d f cm i k v -> contributes origin_of addr hash_order code_cm B na exam na' d f cm i k v.
Proof.
  intros [lv c n rows row H1 H2 H3 H4|lv c codes z m full row H1 H2 H3 H4 H5 H6]; apply value_ab in H1; [eapply con_num|eapply con_cat]; eassumption.
Qed.
Lemma entries_weaken ks x m : entries_are vone vmul origin_of addr hash_order code_cm A na exam na' d ks x m -> entries_are vone vmul origin_of addr hash_order code_cm B na exam na' d ks x m.
Proof.
  intros [H1 [H2 H3]]. split; [exact H1|]. split; [exact H2|]. clear H2. induction H3 as [|id col ids cols [L E] _ IH]; constructor; [|exact IH].
  split; [exact L|]. intros r k Hk. destruct (E r k Hk) as [vs [F N]]. exists vs. split; [|exact N]. clear -F Hab. induction F as [|p v ps vs Hp _ IH]; constructor; [now apply contributes_ab|exact IH].
Qed.
End Weaken.

Section Entries.
Context {V I C val op St D : Type}.
Local Notation cx := (@cx op).
Variables (vone : V) (vmul : V -> V -> V) (visnan : V -> bool) (ilabel : nat -> I) (ieqb : I -> I -> bool).
Hypothesis ieqb_eq : forall a b, ieqb a b = true <-> a = b.
Variable parse : list ptok -> result cx.
Variable look : D -> @namespace val.
Variable pybuiltins : @namespace val.
Variable apply : op -> list val -> result val.
Variable truth : val -> result bool.
Variable call : val -> list (option ptok) -> list val -> result val.
Variable call_method : val -> string -> list (option ptok) -> list val -> result val.
Variable stateful : val -> bool.
Variable t_new : val -> St.
Variable t_chunk : val -> list (option ptok) -> St -> list val -> result St.
Variable t_finish : val -> St -> result St.
Variable t_transform : val -> list (option ptok) -> St -> list val -> result val.
Variable objval : string -> val.
Variable vnone : val.
Variable builtins : @namespace val.
Variable e : @env val.
Variable bin_order : list string -> list string.
Hypothesis Hbin : forall l, Permutation (bin_order l) l.
Variable origin_of : factor -> option origin.
Variable as_obj : val -> @fobj V I C.
Variable code_cm : list pval -> option C -> bool -> result (@ctr V).
Variable hash : list (bool * factor) -> Z.
Variable set_order : list factor -> list factor.
Variables order_mem order_exam : nat -> list factor -> list factor.
Variable addr : pval -> nat.
Variable hash_order : list pval -> list pval.
Variable df_index : D -> option (list I).
Hypothesis Hset : forall l, Permutation (set_order l) l.
Hypothesis Hmem : forall n l, Permutation (order_mem n l) l.
Hypothesis Hexam : forall n l, Permutation (order_exam n l) l.
Local Notation meaning := (@meaning val op St D look pybuiltins apply truth call call_method stateful t_new t_chunk t_finish t_transform builtins e).
Local Notation tf_passes := (tf_passes py_lex parse stateful t_new builtins e).
Local Notation tf_chunk := (tf_chunk py_lex parse look pybuiltins apply truth call call_method t_chunk t_transform objval vnone bin_order origin_of).
Local Notation tf_finish := (tf_finish t_finish bin_order).
Local Notation tf_eval := (tf_eval py_lex parse look pybuiltins apply truth call call_method t_chunk t_transform objval vnone origin_of as_obj).
Local Notation value_of := (value_of look pybuiltins apply truth call call_method stateful t_new t_chunk t_finish t_transform builtins e as_obj origin_of).
Hypothesis Hidx : indexed tf_eval.
Variable tree : factor -> cx.

Lemma text_entries (chunks : list D) na tls ds used d na' w ms labels (B : factor -> (D -> result (@fobj V I C)) -> Prop) :
  (forall f, In f (factors_of tls) -> text_reads stateful builtins e parse f (tree f) /\ forall x, In x chunks \/ x = d -> no_object_columns look stateful builtins e (tree f) x) ->
  (forall f g s, In f (factors_of tls) -> trained tf_passes tf_chunk tf_finish (fun _ => chunks) f s -> (forall x, In x chunks \/ x = d -> g x = value_of chunks (tree f) f x) -> exists g', B f g' /\ forall x, In x chunks \/ x = d -> g x = g' x) ->
  (forall f g s, In f (factors_of tls) -> trained tf_passes tf_chunk tf_finish (fun _ => chunks) f s -> B f g -> forall x, In x chunks \/ x = d -> g x = value_of chunks (tree f) f x) ->
  design_matrix_builders tf_passes tf_chunk tf_finish tf_eval origin_of code_cm hash set_order order_mem order_exam addr hash_order (fun _ => chunks) na tls = Ok ds ->
  incl used ds ->
  (forall f v, In f (factors_in used) -> fitted_value chunks (meaning 0 (tree f)) d = Ok v -> proper_codes (o_value (as_obj v))) ->
  build vone vmul visnan ilabel ieqb tf_eval origin_of df_index used d na' w = Ok (ms, labels) ->
  exists act act' n ks, get_action na = Ok act /\ get_action na' = Ok act' /\
    rows_used visnan origin_of addr hash_order B (na_what act) chunks (na_what act') d (df_index d) (factors_in used) n ks /\
    (na_on act' = NARaise -> ks = seq 0 n) /\
    Forall2 (fun x m => entries_are vone vmul origin_of addr hash_order code_cm B (na_what act) chunks (na_what act') d ks (ds_info x) m) used ms.
Proof.
  intros Ht Hab Hba Hb Hu Hp Hr.
  assert (Hv : forall f s x, In f (factors_of tls) -> trained tf_passes tf_chunk tf_finish (fun _ => chunks) f s -> In x chunks \/ x = d -> tf_eval f s x = value_of chunks (tree f) f x).
  { intros f s x Hf Hs Hx. destruct (Ht f Hf) as [H1 H2].
    destruct (trained_text parse look pybuiltins apply truth call call_method stateful t_new t_chunk t_finish t_transform objval vnone builtins e as_obj bin_order Hbin origin_of f (tree f) chunks H1 (fun y Hy => H2 y (or_introl Hy))) as [_ [_ H]].
    apply (H s Hs x (H2 x Hx)). }
  set (A := fun (f : factor) (g : D -> result (@fobj V I C)) => In f (factors_of tls) /\ exists s, trained tf_passes tf_chunk tf_finish (fun _ => chunks) f s /\ forall x, g x = tf_eval f s x).
  assert (E : exists act act' n ks, get_action na = Ok act /\ get_action na' = Ok act' /\
    rows_used visnan origin_of addr hash_order A (na_what act) chunks (na_what act') d (df_index d) (factors_in used) n ks /\
    (na_on act' = NARaise -> ks = seq 0 n) /\
    Forall2 (fun x m => entries_are vone vmul origin_of addr hash_order code_cm A (na_what act) chunks (na_what act') d ks (ds_info x) m) used ms).
  {
    change chunks with (exam_chunks tf_passes (fun _ : nat => chunks) (factors_of tls)).
    refine (entries_lemma vone vmul visnan ilabel ieqb ieqb_eq _ _ _ tf_eval origin_of code_cm hash set_order order_mem order_exam addr hash_order df_index Hset Hmem Hexam Hidx A _ (fun _ => chunks) tls _ na used ds d na' w ms labels Hb Hu _ Hr).
    - intros f g g' [_ [s [[s0 [k [Ep R]]] Eg]]] [_ [s' [[s0' [k' [Ep' R']]] Eg']]] x. rewrite Eg, Eg'. rewrite Ep in Ep'. injection Ep' as <- <-. rewrite R in R'. injection R' as <-. reflexivity.
    - intros f s Hf Hs. split; [exact Hf|]. exists s. now split.
    - intros f s o Hf Hin Hs Eo. rewrite (Hv f s d Hin Hs (or_intror eq_refl)) in Eo. unfold CodeTopProofs.value_of in Eo. destruct (fitted_value chunks (meaning 0 (tree f)) d) as [v|] eqn:Ev; [|discriminate]. injection Eo as <-. eapply Hp; eassumption. }
  destruct E as [act [act' [n [ks [E1 [E2 [E3 [E4 E5]]]]]]]].
  assert (Wab : forall f g, A f g -> exists g', B f g' /\ forall x, In x chunks \/ x = d -> g x = g' x).
  { intros f g [Hf [s [Hs Eg]]]. apply (Hab f g s Hf Hs). intros x Hx. rewrite Eg. now apply Hv. }
  assert (Wba : forall f g g', A f g -> B f g' -> forall x, In x chunks \/ x = d -> g' x = g x).
  { intros f g g' [Hf [s [Hs Eg]]] Hg x Hx. rewrite Eg, Hv by assumption. now apply (Hba f g' s). }
  exists act, act', n, ks. split; [exact E1|]. split; [exact E2|]. split; [now apply (rows_weaken visnan origin_of addr hash_order A)|]. split; [exact E4|].
  clear -E5 Wab Wba. induction E5 as [|x m xs ms' Hm _ IH]; constructor; [|exact IH]. now apply (entries_weaken vone vmul origin_of addr hash_order code_cm A).
Qed.

Variable upcast : V -> V.
Variable vobj : V.
Variable tokenize : string -> list pytok * option exn.
Variable norm : string -> string.
Variable is_float : string -> bool.
Variable have_pandas : bool.
Local Notation build := (build vone vmul visnan ilabel ieqb tf_eval origin_of df_index).
Local Notation rows_used := (rows_used visnan origin_of addr hash_order).
Local Notation entries_are := (entries_are vone vmul origin_of addr hash_order code_cm).
Local Notation python_value := (@python_value val op D look pybuiltins apply truth call call_method builtins e).
Local Notation text_reads := (text_reads stateful builtins e parse).
Local Notation no_object_columns := (no_object_columns look stateful builtins e).
Local Notation transforms_visible := (transforms_visible look stateful builtins e).
Local Notation factor_result f r := (match r with Ok v => Ok (as_obj v) | Err _ => Err (PatsyError "Error evaluating factor" (origin_of f)) end).
Local Notation highlevel := (highlevel_design vone vmul visnan ilabel ieqb tf_passes tf_chunk tf_finish tf_eval origin_of code_cm hash set_order order_mem order_exam addr hash_order df_index upcast vobj tokenize norm is_float have_pandas).
(** What the two functions below have in common. *)
Lemma highlevel_entries formula md d na rt l r :
  formula_desc tokenize norm is_float formula = Ok md ->
  transforms_direct call stateful t_new t_chunk t_finish t_transform ->
  (forall f, In f (factors_of [lhs_termlist md; rhs_termlist md]) -> text_reads f (tree f) /\ no_object_columns (tree f) d /\ transforms_visible (tree f) d) ->
  (forall f v, In f (factors_of [lhs_termlist md; rhs_termlist md]) -> python_value d (tree f) = Ok v -> proper_codes (o_value (as_obj v))) ->
  highlevel (FStr formula) d na rt = Ok (l, r) ->
  let value_is (f : factor) (g : D -> result (@fobj V I C)) := g d = factor_result f (python_value d (tree f)) in
  exists act n ks, get_action na = Ok act /\
    rows_used value_is (na_what act) [d] (na_what act) d (df_index d) (factors_in [x_design l; x_design r]) n ks /\
    (na_on act = NARaise -> ks = seq 0 n) /\
    entries_are value_is (na_what act) [d] (na_what act) d ks (ds_info (x_design l)) (x_mat l) /\
    entries_are value_is (na_what act) [d] (na_what act) d ks (ds_info (x_design r)) (x_mat r) /\
    (lhs_termlist md = [] -> factors_in [x_design l; x_design r] = factors_in [x_design r]).
Proof.
  intros Hmd Hdir Ht Hp H value_is. rewrite highlevel_described in H by exact Logic.I.
  destruct (match rt with RDataFrame => negb have_pandas | _ => false end); [discriminate|]. destruct (match rt with RUnknown => true | _ => false end); [discriminate|].
  cbn [try_incr_builders] in H. rewrite Hmd in H. cbn [bind] in H.
  destruct (desc_builders tf_passes tf_chunk tf_finish tf_eval origin_of code_cm hash set_order order_mem order_exam addr hash_order (fun _ => [d]) na md) as [[[dl dr]|]|] eqn:Et; cbn [bind] in H; try discriminate.
  destruct (build [dl; dr] d na (match rt with RDataFrame => true | _ => false end)) as [[ms labels]|] eqn:Eb; cbn [bind] in H; [|discriminate].
  destruct ms as [|ml [|mr [|? ?]]]; try discriminate. injection H as <- <-. cbn [x_design x_mat] in *.
  apply desc_builders_ok in Et.
  assert (Hone : forall x, In x [d] \/ x = d -> x = d) by (intros x [[E|[]]|E]; congruence).
  assert (Hpy : forall f s, In f (factors_of [lhs_termlist md; rhs_termlist md]) -> trained tf_passes tf_chunk tf_finish (fun _ => [d]) f s -> fitted_value [d] (meaning 0 (tree f)) d = python_value d (tree f)).
  { intros f s Hf Hs. destruct (Ht f Hf) as [H1 [H2 H3]].
    apply (trained_python parse look pybuiltins apply truth call call_method stateful t_new t_chunk t_finish t_transform objval vnone builtins e as_obj bin_order Hbin origin_of f (tree f) d s Hdir H1 H2 H3 Hs). }
  assert (Htr : forall f, In f (factors_in [dl; dr]) -> exists s, In f (factors_of [lhs_termlist md; rhs_termlist md]) /\ trained tf_passes tf_chunk tf_finish (fun _ => [d]) f s).
  { destruct (builders_good tf_passes tf_chunk tf_finish tf_eval origin_of code_cm hash set_order order_mem order_exam addr hash_order Hset Hmem Hexam (fun _ => [d]) na _ _ Et) as [_ [_ [_ [act [_ G]]]]].
    intros f Hf. unfold factors_in in Hf. apply in_flat_map in Hf. destruct Hf as [x [Hx Hf]]. apply in_map_iff in Hf. destruct Hf as [[f' fi] [E Hf]]. cbn in E. subst f'.
    destruct (G x Hx f fi Hf) as [_ [Hin [s [lv [c [L _]]]]]]. exists s. split; [exact Hin|]. inversion L; subst; assumption. }
  destruct (text_entries [d] na [lhs_termlist md; rhs_termlist md] [dl; dr] [dl; dr] d na (match rt with RDataFrame => true | _ => false end) [ml; mr] labels value_is) as [act [act' [n [ks [E1 [E2 [E3 [E4 E5]]]]]]]].
  - intros f Hf. destruct (Ht f Hf) as [H1 [H2 _]]. split; [exact H1|]. intros x Hx. now rewrite (Hone x Hx).
  - intros f g s Hf Hs Hg. exists g. split; [|reflexivity]. unfold value_is. rewrite (Hg d (or_intror eq_refl)). unfold CodeTopProofs.value_of. now rewrite (Hpy f s Hf Hs).
  - intros f g s Hf Hs Hg x Hx. rewrite (Hone x Hx). rewrite Hg. unfold CodeTopProofs.value_of. now rewrite (Hpy f s Hf Hs).
  - exact Et.
  - apply incl_refl.
  - intros f v Hf Ev. destruct (Htr f Hf) as [s [Hin Hs]]. apply (Hp f v Hin). now rewrite <- (Hpy f s Hin Hs).
  - exact Eb.
  - rewrite E1 in E2. injection E2 as <-. inversion E5 as [|? ? ? ? M1 E5']; subst. inversion E5' as [|? ? ? ? M2 _]; subst. exists act, n, ks. do 5 (split; [assumption|]).
    intros Hl. rewrite Hl in Et. destruct (designs_of_nothing tf_passes tf_chunk tf_finish tf_eval origin_of code_cm hash set_order order_mem order_exam addr hash_order Hset Hmem Hexam _ _ _ _ 0 Et eq_refl) as [dl' [Edl [I1 _]]]. cbn in Edl. injection Edl as <-.
    unfold factors_in. cbn [flat_map]. now rewrite I1.
Qed.
End Entries.
