(** [NA_action]: "raise" and "drop". *)
From Coq Require Import Permutation.
From Verif Require Import Base OriginModel TokensModel ParseFormulaModel UtilModel DescModel FormulaModel BuildModel BuildSpec BuildProofs BuildSubtermProofs BuildInfoProofs BuildMatrixProofs BuildAllProofs BuildTopProofs BuildSubsetProofs BuildDesignProofs MemorizeModel CategoricalModel PipeModel PipeSpec PipeProofs PipeHighProofs.
Open Scope nat_scope.
Open Scope string_scope.
Open Scope list_scope.

Lemma foldM_keeps {A X} (P : A -> Prop) (f : A -> X -> result A) l : (forall a x a', In x l -> P a -> f a x = Ok a' -> P a') -> forall a r, P a -> foldM f l a = Ok r -> P r.
Proof.
  induction l as [|x l IH]; intros H a r Pa; cbn [foldM]; [intros [= <-]; exact Pa|]. destruct (f a x) as [a'|] eqn:E; cbn [bind]; [|discriminate].
  apply IH; [intros b y b' Hy; apply H; right; exact Hy|]. apply (H a x a'); [left; reflexivity|exact Pa|exact E].
Qed.

Lemma forall2_right {A B} (P : A -> B -> Prop) l k b : Forall2 P l k -> In b k -> exists a, P a b.
Proof. intros F. induction F as [|x y l k Hxy F IH]; intros [].  - subst. exists x. exact Hxy. - exact (IH H). Qed.
Section Handle.
Context {V I : Type}.
Local Notation arr := (@arr V I).
Lemma keep_all {A} n (l : list A) : n = length l -> mask_keep (repeat true n) l = l.
Proof. intros ->. induction l as [|x l IH]; [reflexivity|]. cbn. now rewrite IH. Qed.
Lemma mask_all n (a b : arr) : amask (repeat true n) a = Ok b -> b = a.
Proof.
  unfold amask. rewrite repeat_length. destruct (Nat.eqb_spec n (arows a)) as [E|]; [|discriminate]. intros [= <-].
  destruct a as [[m rows|codes]|l]; cbn in E |- *; now rewrite keep_all.
Qed.
Lemma or_none n (m : list bool) r : ~ In true m -> or_into (repeat false n) m = Ok r -> r = repeat false n.
Proof.
  intros H. unfold or_into. rewrite repeat_length. destruct (Nat.eqb_spec n (length m)) as [->|]; [|discriminate]. intros [= <-].
  induction m as [|b m IH]; [reflexivity|]. cbn. destruct b; [exfalso; apply H; now left|]. cbn. f_equal. apply IH. intros K. apply H. now right.
Qed.
Lemma total_none n masks r : (forall m, In m masks -> ~ In true m) -> foldM or_into masks (repeat false n) = Ok r -> r = repeat false n.
Proof.
  intros H. apply (foldM_keeps (fun a => a = repeat false n)); [|reflexivity]. intros a m a' Hm -> E. exact (or_none _ _ _ (H m Hm) E).
Qed.
Lemma mapM_same {A} (f : A -> result A) l : (forall a b, f a = Ok b -> b = a) -> forall r, mapM f l = Ok r -> r = l.
Proof.
  intros H. induction l as [|x l IH]; intros r; cbn [mapM]; [intros [= <-]; reflexivity|]. destruct (f x) as [y|] eqn:E; cbn [bind]; [|discriminate]. destruct (mapM f l) as [r'|]; cbn [bind]; [|discriminate]. intros [= <-]. f_equal; [now apply H|now apply IH].
Qed.
Lemma find_in {A} (f : A -> bool) l x : find f l = Some x -> In x l /\ f x = true.
Proof. apply find_some. Qed.
Lemma in_combine_nth {A B} i : forall (l : list A) (k : list B) a b, nth_error l i = Some a -> nth_error k i = Some b -> In (a, b) (List.combine l k).
Proof.
  induction i as [|i IH]; intros [|x l] [|y k] a b; cbn; try discriminate; [intros [= ->] [= ->]; left; reflexivity|]. intros Ha Hb. right. apply IH; assumption.
Qed.
Lemma handle_agree (values : list arr) masks origins nv : handle_NA NADrop values masks origins = Ok nv ->
  handle_NA NARaise values masks origins = Ok nv \/
  exists m org, In (m, org) (List.combine masks origins) /\ In true m /\ handle_NA NARaise values masks origins = Err (PatsyError "factor contains missing values" org).
Proof.
  unfold handle_NA, assert. destruct (_ && _)%bool eqn:El; [|discriminate]. destruct values as [|v values]; [intros [= <-]; now left|]. destruct masks as [|m0 masks]; [discriminate|].
  set (ms := m0 :: masks) in *. intros H. destruct (find _ (List.combine ms origins)) as [[m org]|] eqn:Ef.
  - right. apply find_in in Ef. destruct Ef as [Hin Ht]. cbn [fst] in Ht. exists m, org. split; [exact Hin|]. split; [|reflexivity]. apply existsb_exists in Ht. destruct Ht as [b [Hb E]]. now subst b.
  - left. f_equal. destruct (foldM or_into ms (repeat false (length m0))) as [total|] eqn:Et; cbn [bind] in H; [|discriminate].
    apply andb_prop in El. destruct El as [_ El]. apply Nat.eqb_eq in El.
    assert (Hno : forall m, In m ms -> ~ In true m).
    { intros m Hm Ht. destruct (In_nth_error _ _ Hm) as [i Hi]. assert (Hlt : i < length origins) by (rewrite <- El; apply nth_error_Some; congruence).
      destruct (nth_error origins i) as [org|] eqn:Eo; [|apply nth_error_None in Eo; lia].
      pose proof (find_none _ _ Ef (m, org)) as K. pose proof (in_combine_nth i ms origins m org Hi Eo) as Hc.
      specialize (K Hc). cbn [fst] in K. assert (X : existsb (fun b => b) m = true) by (apply existsb_exists; exists true; auto). congruence. }
    apply total_none in Et; [|exact Hno]. subst total. assert (Er : map negb (repeat false (length m0)) = repeat true (length m0)) by (generalize (length m0); intros n; induction n as [|n IH]; cbn; [reflexivity|now rewrite IH]).
    rewrite Er in H. symmetry. eapply mapM_same; [|exact H]. intros a b. apply mask_all.
Qed.
End Handle.

Section Build.
Context {V I : Type}.
Variables (vone : V) (vmul : V -> V -> V) (ilabel : nat -> I) (ieqb : I -> I -> bool).
Variable origin_of : factor -> option origin.
Local Notation bdm := (build_design_matrices vone vmul ilabel ieqb origin_of).
Lemma bdm_agree ev df want dis r : bdm ev df NADrop want dis = Ok r ->
  bdm ev df NARaise want dis = Ok r \/
  exists fi e, In fi (all_infos dis) /\ ev fi = Ok e /\ In true (ev_isna e) /\ bdm ev df NARaise want dis = Err (PatsyError "factor contains missing values" (origin_of (fi_factor fi))).
Proof.
  unfold build_design_matrices. destruct (mapM builder_of dis) as [bs|] eqn:Eb; cbn [bind]; [|discriminate].
  match goal with |- context [foldM ?f bs ?s] => destruct (foldM f bs s) as [[[d rows] idx]|] eqn:Ef end; cbn [bind]; [|discriminate].
  assert (Hd : forall fi e, In (fi, e) d -> In fi (all_infos dis) /\ ev fi = Ok e).
  { pose (P := fun st : @eval_state V I => forall fi e, In (fi, e) (fst (fst st)) -> In fi (all_infos dis) /\ ev fi = Ok e).
    change (P (d, rows, idx)). revert Ef. apply (foldM_keeps P); [|intros fi e []]. intros a b a' Hb Pa. apply (foldM_keeps P); [|exact Pa]. clear a a' Pa. intros a fi a' Hfi Pa. destruct a as [[d0 r0] i0]. unfold eval_one.
    destruct (dmem fi_eqb fi d0); [now intros [= <-]|]. destruct (ev fi) as [e|] eqn:Ee; cbn [bind]; [|discriminate]. destruct (check_match _ _ _ r0 _); cbn [bind]; [|discriminate].
    match goal with |- bind ?x _ = _ -> _ => destruct x; cbn [bind]; [|discriminate] end. intros [= <-] g e' Hin. cbn [fst] in Hin. apply in_app_iff in Hin. destruct Hin as [Hin|[[= <- <-]|[]]]; [now apply Pa|]. split; [|exact Ee].
    apply mapM_ok_Forall2 in Eb. clear - Eb Hb Hfi. induction Eb as [|x y l m Hxy F IH]; [destruct Hb|]. unfold all_infos in *. cbn [flat_map]. apply in_app_iff. destruct Hb as [<-|Hb]; [left|right; now apply IH].
    unfold builder_of in Hxy. unfold infos_of. destruct (di_infos x); [|discriminate]. destruct (di_codings x); [|discriminate]. injection Hxy as <-. exact Hfi. }
  match goal with |- context [handle_NA NADrop ?v ?m ?o] => destruct (handle_NA NADrop v m o) as [nv|] eqn:Eh; cbn [bind]; [|discriminate]; apply handle_agree in Eh; destruct Eh as [-> |[mk [org [Hin [Ht E]]]]] end.
  - intros H. left. exact H.
  - intros _. right. rewrite E. cbn [bind].
    assert (Hx : exists fi e, In (fi, e) d /\ mk = ev_isna e /\ org = origin_of (fi_factor fi)).
    { assert (Hc : forall (l : list (finfo * @evaluated V I)) tm to, (forall m o, In (m, o) (List.combine tm to) -> ~ In true m) -> In (mk, org) (List.combine (map (fun p => ev_isna (snd p)) l ++ tm) (map (fun p => origin_of (fi_factor (fst p))) l ++ to)) ->
        exists fi e, In (fi, e) l /\ mk = ev_isna e /\ org = origin_of (fi_factor fi)).
      { induction l as [|[fi e] l IH]; intros tm to Hn; cbn; [intros K; elim (Hn _ _ K Ht)|]. intros [[= <- <-]|K]; [exists fi, e; auto|]. destruct (IH tm to Hn K) as [g [e' [K1 K2]]]. exists g, e'. auto. }
      assert (Hf : forall n (m : list bool) (o : option origin), In (m, o) (List.combine [repeat false n] [None]) -> ~ In true m).
      { intros n m o [[= <- <-]|[]] K. apply repeat_spec in K. discriminate. }
      destruct rows as [n|]; [destruct want|].
      - eapply Hc; [|exact Hin]. apply Hf.
      - apply (Hc d [] []); [intros m o []|]. rewrite !app_nil_r. exact Hin.
      - apply (Hc d [] []); [intros m o []|]. rewrite !app_nil_r. exact Hin. }
    destruct Hx as [fi [e [K1 [-> ->]]]]. exists fi, e. destruct (Hd fi e K1). auto.
Qed.
End Build.

Section Pipe.
Context {V I C S D : Type}.
Variables (vone : V) (vmul : V -> V -> V) (visnan : V -> bool) (ilabel : nat -> I) (ieqb : I -> I -> bool).
Hypothesis ieqb_eq : forall a b, ieqb a b = true <-> a = b.
Variable passes : factor -> result (S * Z).
Variable chunk : factor -> S -> nat -> D -> result S.
Variable finish : factor -> S -> nat -> result S.
Variable eval : factor -> S -> D -> result (@fobj V I C).
Variable origin_of : factor -> option origin.
Variable code_cm : list pval -> option C -> bool -> result (@ctr V).
Variable hash : list (bool * factor) -> Z.
Variable set_order : list factor -> list factor.
Variables order_mem order_exam : nat -> list factor -> list factor.
Variable addr : pval -> nat.
Variable hash_order : list pval -> list pval.
Variable df_index : D -> option (list I).
Variable upcast : V -> V.
Variable vobj : V.
Variable tokenize : string -> list pytok * option exn.
Variable norm : string -> string.
Variable is_float : string -> bool.
Variable have_pandas : bool.
Hypothesis Hset : forall l, Permutation (set_order l) l.
Hypothesis Hmem : forall n l, Permutation (order_mem n l) l.
Hypothesis Hexam : forall n l, Permutation (order_exam n l) l.
Hypothesis Hidx : indexed eval.
Local Notation builders := (design_matrix_builders passes chunk finish eval origin_of code_cm hash set_order order_mem order_exam addr hash_order).
Local Notation build := (build vone vmul visnan ilabel ieqb eval origin_of df_index).
Local Notation try_incr := (try_incr_builders passes chunk finish eval origin_of code_cm hash set_order order_mem order_exam addr hash_order tokenize norm is_float).
Local Notation highlevel := (highlevel_design vone vmul visnan ilabel ieqb passes chunk finish eval origin_of code_cm hash set_order order_mem order_exam addr hash_order df_index upcast vobj tokenize norm is_float have_pandas).

Variables (raise drop : na_arg) (w : na_types).
Hypothesis Hr : get_action raise = Ok (mkAction NARaise w).
Hypothesis Hdr : get_action drop = Ok (mkAction NADrop w).

Lemma builders_na data tls : builders data raise tls = builders data drop tls.
Proof. unfold design_matrix_builders. rewrite Hr, Hdr. reflexivity. Qed.
Lemma try_na fl data : try_incr fl data raise = try_incr fl data drop.
Proof.
  assert (G : forall md, desc_builders passes chunk finish eval origin_of code_cm hash set_order order_mem order_exam addr hash_order data raise md = desc_builders passes chunk finish eval origin_of code_cm hash set_order order_mem order_exam addr hash_order data drop md)
    by (intros md; unfold desc_builders; rewrite builders_na; reflexivity).
  destruct fl as [| | |s|md|r|]; cbn [try_incr_builders]; try reflexivity.
  - rewrite builders_na. reflexivity.
  - destruct (formula_desc _ _ _ s) as [md|]; cbn [bind]; [apply G|reflexivity].
  - apply G.
  - destruct r as [[md|]|]; cbn [bind]; [apply G|reflexivity..].
Qed.

Lemma filter_len {A} (f : A -> bool) l : length (filter f l) <= length l.
Proof. induction l as [|x l IH]; [constructor|]. cbn [filter]. destruct (f x); cbn [length]; lia. Qed.
Lemma missing_false (es : list (@evaluated V I)) n : (forall k, k < n -> missing_in es k = false) -> kept NADrop es n = seq 0 n.
Proof.
  intros H. cbn [kept]. assert (G : forall k, In k (seq 0 n) -> negb (missing_in es k) = true) by (intros k Hk; apply in_seq in Hk; rewrite H; [reflexivity|lia]).
  revert G. generalize (seq 0 n). intros l G. induction l as [|k l IH]; [reflexivity|]. cbn [filter]. rewrite (G k (or_introl eq_refl)). f_equal. apply IH. intros j Hj. apply G. right. exact Hj.
Qed.
Lemma drop_of_raise ds d want r : designs_ok ds -> build ds d raise want = Ok r -> build ds d drop want = Ok r.
Proof.
  intros Hok H. destruct r as [ms labels]. destruct (build_built vone vmul visnan ilabel ieqb ieqb_eq eval origin_of df_index Hidx ds d raise want ms labels Hok H) as [act [Ha [Hb Hf]]].
  rewrite Hr in Ha. injection Ha as <-. cbn [na_on na_what] in *. unfold PipeModel.build. rewrite Hdr. cbn [bind na_on na_what].
  destruct Hok as [Hc Hid]. assert (Hc' : Forall constructed (map ds_info ds)) by (rewrite Forall_map; exact Hc).
  apply (build_iff vone vmul ieqb origin_of ieqb_eq _ _ ilabel _ Hc' Hid Hf). unfold built in *.
  destruct Hb as [n [full [H1 [H2 [H3 [H4 [H5 H6]]]]]]]. exists n, full. rewrite (missing_false _ n (H3 eq_refl)). repeat split; try assumption; try discriminate; try apply H1; try apply H2.
Qed.
Lemma raise_of_drop ds d want ms labels : designs_ok ds -> build ds d drop want = Ok (ms, labels) ->
  build ds d raise want = Ok (ms, labels) \/
  exists fi e, In fi (all_infos (map ds_info ds)) /\ eval_info visnan eval origin_of (concat (map ds_known ds)) w d fi = Ok e /\ In true (ev_isna e) /\
    build ds d raise want = Err (PatsyError "factor contains missing values" (origin_of (fi_factor fi))) /\
    forall m, In m ms -> m_rows m < vrows (ev_value e).
Proof.
  intros Hok H. destruct (build_built vone vmul visnan ilabel ieqb ieqb_eq eval origin_of df_index Hidx ds d drop want ms labels Hok H) as [act [Ha [Hb Hf]]].
  rewrite Hdr in Ha. injection Ha as <-. cbn [na_on na_what] in *. unfold PipeModel.build in *. rewrite Hdr in H. rewrite Hr. cbn [bind na_on na_what] in *.
  apply bdm_agree in H. destruct H as [H|[fi [e [Hfi [He [Ht Herr]]]]]]; [left; exact H|right]. exists fi, e. split; [exact Hfi|]. split; [exact He|]. split; [exact Ht|]. split; [exact Herr|].
  intros m Hm. unfold built in Hb. destruct Hb as [n [full [[_ H1] [_ [_ [_ [H5 _]]]]]]]. set (es := evals _ _) in *.
  assert (Hin : In e es).
  { unfold es, evals. apply in_flat_map. exists fi. split; [exact Hfi|]. rewrite He. left. reflexivity. }
  rewrite (H1 e Hin). assert (Hrow : m_rows m = length (kept NADrop es n)).
  { destruct (forall2_right _ _ _ m H5 Hm) as [x [X _]]. exact X. }
  rewrite Hrow. destruct (In_nth _ _ false Ht) as [k [Hk Ek]]. destruct (Hf fi Hfi) as [e' [He' Fe]]. rewrite He in He'. injection He' as <-. destruct Fe as [F1 _].
  assert (Hkn : k < n) by (rewrite <- (H1 e Hin); rewrite <- F1; exact Hk).
  assert (Hmis : missing_in es k = true) by (unfold missing_in; apply existsb_exists; exists e; split; [exact Hin|exact Ek]).
  cbn [kept]. clear - Hkn Hmis. assert (G : In k (seq 0 n)) by (apply in_seq; lia).
  assert (L : length (seq 0 n) = n) by apply seq_length. rewrite <- L at 2. revert G. generalize (seq 0 n). intros l G. induction l as [|j l IH]; [destruct G|]. cbn [filter length]. destruct G as [->|G].
  - rewrite Hmis. cbn [negb]. pose proof (filter_len (fun i => negb (missing_in es i)) l). lia.
  - specialize (IH G). destruct (negb (missing_in es j)); cbn [length]; lia.
Qed.

Lemma try_designs fl d l r : proper_input fl -> try_incr fl (fun _ => [d]) drop = Ok (Some (l, r)) -> designs_ok [l; r].
Proof. exact (try_incr_designs passes chunk finish eval origin_of code_cm hash set_order order_mem order_exam addr hash_order tokenize norm is_float Hset Hmem Hexam fl (fun _ => [d]) drop l r). Qed.
Lemma highlevel_drop_of_raise fl d rt r : proper_input fl -> highlevel fl d raise rt = Ok r -> highlevel fl d drop rt = Ok r.
Proof.
  intros Hp. unfold highlevel_design. destruct (match rt with RDataFrame => negb have_pandas | _ => false end); [discriminate|]. destruct (match rt with RUnknown => true | _ => false end); [discriminate|].
  rewrite try_na. destruct (try_incr fl (fun _ => [d]) drop) as [[[l r']|]|] eqn:Et; cbn [bind]; [|intros H; exact H|discriminate].
  destruct (build [l; r'] d raise _) as [x|] eqn:Eb; cbn [bind]; [|discriminate].
  apply drop_of_raise in Eb; [rewrite Eb; intros H; exact H|exact (try_designs fl d l r' Hp Et)].
Qed.
Lemma highlevel_raise_of_drop fl d rt l r : proper_input fl -> highlevel fl d drop rt = Ok (l, r) ->
  highlevel fl d raise rt = Ok (l, r) \/
  exists fi e, In fi (all_infos [ds_info (x_design l); ds_info (x_design r)]) /\
    eval_info visnan eval origin_of (ds_known (x_design l) ++ ds_known (x_design r)) w d fi = Ok e /\ In true (ev_isna e) /\
    m_rows (x_mat l) < vrows (ev_value e) /\ m_rows (x_mat r) < vrows (ev_value e) /\
    highlevel fl d raise rt = Err (PatsyError "factor contains missing values" (origin_of (fi_factor fi))).
Proof.
  intros Hp. unfold highlevel_design. destruct (match rt with RDataFrame => negb have_pandas | _ => false end); [discriminate|]. destruct (match rt with RUnknown => true | _ => false end); [discriminate|].
  rewrite try_na. destruct (try_incr fl (fun _ => [d]) drop) as [[[dl dr]|]|] eqn:Et; cbn [bind]; [|intros H; left; exact H|discriminate].
  destruct (build [dl; dr] d drop _) as [[ms labels]|] eqn:Eb; cbn [bind]; [|discriminate].
  destruct ms as [|ml [|mr [|]]]; try discriminate. intros [= <- <-]. cbn [x_design x_mat].
  apply raise_of_drop in Eb; [|exact (try_designs fl d dl dr Hp Et)]. destruct Eb as [->|[fi [e [A [B [B' [E G]]]]]]]; [left; reflexivity|right].
  exists fi, e. split; [exact A|]. split; [cbn in B; rewrite app_nil_r in B; exact B|]. split; [exact B'|]. split; [apply G; left; reflexivity|]. split; [apply G; right; left; reflexivity|]. rewrite E. reflexivity.
Qed.
End Pipe.
