(** From formulas and data to matrices (C58, C67, C68, C69, C70). *)
From Coq Require Import Permutation.
From Verif Require Import Base OriginModel ParseFormulaModel TokensModel UtilModel DescModel FormulaModel BuildModel BuildSpec BuildProofs BuildInfoProofs BuildAllProofs BuildDesignProofs
  MemorizeModel MemorizeSpec CategoricalModel CategoricalSpec MiscProofs PipeModel PipeSpec PipeProofs PipeHighProofs.
Open Scope nat_scope.
Open Scope string_scope.
Open Scope list_scope.

Section Theorems.
(** Numbers, index labels, contrasts, states of factors and data are of any type. *)
Context {V I C S D : Type}.
Variables (vone : V) (vmul : V -> V -> V) (visnan : V -> bool) (ilabel : nat -> I) (ieqb : I -> I -> bool).
Hypothesis ieqb_eq : forall a b, ieqb a b = true <-> a = b.
(** The factors do anything; but pandas objects they return have as many labels as rows. *)
Variable passes : factor -> result (S * Z).
Variable chunk : factor -> S -> nat -> D -> result S.
Variable finish : factor -> S -> nat -> result S.
Variable eval : factor -> S -> D -> result (@fobj V I C).
Hypothesis Hidx : indexed eval.
Variable origin_of : factor -> option origin.
Variable code_cm : list pval -> option C -> bool -> result (@ctr V).
(** Hashes are any numbers, and sets are gone through in any order. *)
Variable hash : list (bool * factor) -> Z.
Variable set_order : list factor -> list factor.
Variables order_mem order_exam : nat -> list factor -> list factor.
Hypothesis Hset : forall l, Permutation (set_order l) l.
Hypothesis Hmem : forall n l, Permutation (order_mem n l) l.
Hypothesis Hexam : forall n l, Permutation (order_exam n l) l.
Variable addr : pval -> nat.
Variable hash_order : list pval -> list pval.
Variable df_index : D -> option (list I).
Variable upcast : V -> V.
Variable vobj : V.
Variable tokenize : string -> list pytok * option exn.
Variable norm : string -> string.
Variable is_float : string -> bool.
Variable have_pandas : bool.

Local Notation builders := (design_matrix_builders passes chunk finish eval origin_of code_cm hash set_order order_mem order_exam addr hash_order).
Local Notation eval_info := (eval_info visnan eval origin_of).
Local Notation build := (build vone vmul visnan ilabel ieqb eval origin_of df_index).
Local Notation dmatrix := (dmatrix vone vmul visnan ilabel ieqb passes chunk finish eval origin_of code_cm hash set_order order_mem order_exam addr hash_order df_index upcast vobj tokenize norm is_float have_pandas).
Local Notation dmatrices := (dmatrices vone vmul visnan ilabel ieqb passes chunk finish eval origin_of code_cm hash set_order order_mem order_exam addr hash_order df_index upcast vobj tokenize norm is_float have_pandas).
Local Notation highlevel := (highlevel_design vone vmul visnan ilabel ieqb passes chunk finish eval origin_of code_cm hash set_order order_mem order_exam addr hash_order df_index upcast vobj tokenize norm is_float have_pandas).

(** * C58: aligned matrices *)
(** If dmatrices succeeds, whatever it is given, the outcome matrix has at least one column, both matrices
    have the same number of rows and the same index, each has the columns its design_info names, and the
    index has a label for each row. *)
Theorem dmatrices_aligned : forall fl d na rt l r, proper_input fl -> dmatrices fl d na rt = Ok (l, r) ->
  0 < List.length (m_cols (x_mat l)) /\ m_rows (x_mat l) = m_rows (x_mat r) /\ well_shaped rt l /\ well_shaped rt r /\ x_index l = x_index r.
Proof.
  intros fl d na rt l r Hp. unfold PipeModel.dmatrices. destruct (highlevel fl d na rt) as [[l' r']|] eqn:E; cbn [bind]; [|discriminate].
  destruct (Nat.eqb (List.length (m_cols (x_mat l'))) 0) eqn:En; [discriminate|]. intros [= -> ->]. apply Nat.eqb_neq in En. split; [lia|].
  destruct (highlevel_shape vone vmul visnan ilabel ieqb ieqb_eq passes chunk finish eval origin_of code_cm hash set_order order_mem order_exam addr hash_order df_index upcast vobj tokenize norm is_float have_pandas Hset Hmem Hexam Hidx fl d na rt l r Hp E) as [_ H]. exact H.
Qed.

Theorem dmatrix_shaped : forall fl d na rt r, proper_input fl -> dmatrix fl d na rt = Ok r -> well_shaped rt r.
Proof.
  intros fl d na rt r Hp. unfold PipeModel.dmatrix. destruct (highlevel fl d na rt) as [[l' r']|] eqn:E; cbn [bind]; [|discriminate].
  destruct (Nat.eqb (List.length (m_cols (x_mat l'))) 0); [|discriminate]. intros [= ->].
  destruct (highlevel_shape vone vmul visnan ilabel ieqb ieqb_eq passes chunk finish eval origin_of code_cm hash set_order order_mem order_exam addr hash_order df_index upcast vobj tokenize norm is_float have_pandas Hset Hmem Hexam Hidx fl d na rt l' r Hp E) as [_ [_ [_ [H _]]]]. exact H.
Qed.

(** Exactly one of dmatrix and dmatrices accepts a model that can be built; the other raises PatsyError.  If
    it cannot be built both raise the same error. *)
Theorem one_of_dmatrix_dmatrices : forall fl d na rt,
  match dmatrix fl d na rt, dmatrices fl d na rt with
  | Ok _, Err e | Err e, Ok _ => exists msg, e = PatsyError msg None
  | Err e, Err e' => e = e'
  | Ok _, Ok _ => False
  end.
Proof.
  intros fl d na rt. unfold PipeModel.dmatrix, PipeModel.dmatrices. destruct (highlevel fl d na rt) as [[l r]|e]; cbn [bind]; [|reflexivity].
  destruct (Nat.eqb (List.length (m_cols (x_mat l))) 0); cbn [negb]; eauto.
Qed.

(** * C67: the return type *)
(** For formulas and designs, the data frames have the numbers and design_info of the matrices: one call
    succeeds if the other does (given pandas). *)
Theorem return_types_agree : forall fl d na l r, described fl -> proper_input fl -> have_pandas = true ->
  dmatrices fl d na RMatrix = Ok (l, r) <->
  x_index l = None /\ x_index r = None /\ exists i, dmatrices fl d na RDataFrame = Ok (with_index (Some i) l, with_index (Some i) r).
Proof.
  intros fl d na l r Hd Hp Hpan. unfold PipeModel.dmatrices.
  pose proof (described_types vone vmul visnan ilabel ieqb ieqb_eq passes chunk finish eval origin_of code_cm hash set_order order_mem order_exam addr hash_order df_index upcast vobj tokenize norm is_float have_pandas Hset Hmem Hexam Hidx fl d na) as H.
  split.
  - destruct (highlevel fl d na RMatrix) as [[l' r']|] eqn:E; cbn [bind]; [|discriminate]. destruct (Nat.eqb (List.length (m_cols (x_mat l'))) 0) eqn:En; [discriminate|].
    intros [= -> ->]. destruct (proj1 (H l r Hd Hp Hpan) eq_refl) as [H1 [H2 [i H3]]]. split; [exact H1|]. split; [exact H2|]. exists i. rewrite H3. cbn [bind with_index x_mat]. now rewrite En.
  - intros [H1 [H2 [i H3]]]. destruct (highlevel fl d na RDataFrame) as [[l' r']|] eqn:E; cbn [bind] in H3; [|discriminate]. destruct (Nat.eqb (List.length (m_cols (x_mat l'))) 0) eqn:En; [discriminate|].
    injection H3 as -> ->. rewrite (proj2 (H l r Hd Hp Hpan)) by eauto. cbn [bind]. cbn [with_index x_mat] in En. now rewrite En.
Qed.
Theorem return_types_agree_dmatrix : forall fl d na r, described fl -> proper_input fl -> have_pandas = true ->
  dmatrix fl d na RMatrix = Ok r <-> x_index r = None /\ exists i, dmatrix fl d na RDataFrame = Ok (with_index (Some i) r).
Proof.
  intros fl d na r Hd Hp Hpan. unfold PipeModel.dmatrix.
  pose proof (described_types vone vmul visnan ilabel ieqb ieqb_eq passes chunk finish eval origin_of code_cm hash set_order order_mem order_exam addr hash_order df_index upcast vobj tokenize norm is_float have_pandas Hset Hmem Hexam Hidx fl d na) as H.
  split.
  - destruct (highlevel fl d na RMatrix) as [[l' r']|] eqn:E; cbn [bind]; [|discriminate]. destruct (Nat.eqb (List.length (m_cols (x_mat l'))) 0) eqn:En; [|discriminate].
    intros [= ->]. destruct (proj1 (H l' r Hd Hp Hpan) eq_refl) as [H1 [H2 [i H3]]]. split; [exact H2|]. exists i. rewrite H3. cbn [bind with_index x_mat]. now rewrite En.
  - intros [H1 [i H3]]. destruct (highlevel fl d na RDataFrame) as [[l' r']|] eqn:E; cbn [bind] in H3; [|discriminate]. destruct (Nat.eqb (List.length (m_cols (x_mat l'))) 0) eqn:En; [|discriminate].
    injection H3 as ->.
    destruct (highlevel_shape vone vmul visnan ilabel ieqb ieqb_eq passes chunk finish eval origin_of code_cm hash set_order order_mem order_exam addr hash_order df_index upcast vobj tokenize norm is_float have_pandas Hset Hmem Hexam Hidx fl d na RDataFrame l' (with_index (Some i) r) Hp E) as [_ [_ [_ [_ Hi]]]].
    cbn in Hi. rewrite (proj2 (H (with_index None l') r Hd Hp Hpan)); [cbn [bind with_index x_mat]; now rewrite En|].
    split; [reflexivity|]. split; [exact H1|]. exists i. do 3 f_equal. unfold with_index. cbn. rewrite <- Hi. now destruct l'.
Qed.
(** Explicit matrices: for arrays of floats. *)
Theorem return_types_agree_explicit : forall (al ar : @array V I S) d na l r, proper_array al -> proper_array ar -> a_dtype al = DFloat -> a_dtype ar = DFloat -> have_pandas = true ->
  dmatrices (FPair (SArray al) (SArray ar)) d na RMatrix = Ok (l, r) <->
  x_index l = None /\ x_index r = None /\ exists i, dmatrices (FPair (SArray al) (SArray ar)) d na RDataFrame = Ok (with_index (Some i) l, with_index (Some i) r).
Proof.
  intros al ar d na l r Hl Hr Fl Fr Hpan. unfold PipeModel.dmatrices, highlevel_design. rewrite Hpan. cbn [negb try_incr_builders bind side_array].
  pose proof (fun l r => explicit_types ilabel ieqb ieqb_eq upcast vobj (SArray al) ar l r (or_intror (ex_intro _ al (conj eq_refl (conj Hl Fl)))) Hr Fr) as H.
  split.
  - destruct (explicit ilabel ieqb upcast vobj RMatrix (SArray al) ar) as [[l' r']|] eqn:E; cbn [bind]; [|discriminate]. destruct (Nat.eqb (List.length (m_cols (x_mat l'))) 0) eqn:En; [discriminate|].
    intros [= -> ->]. destruct (proj1 (H l r) eq_refl) as [H1 [H2 [i H3]]]. split; [exact H1|]. split; [exact H2|]. exists i. rewrite H3. cbn [bind with_index x_mat]. now rewrite En.
  - intros [H1 [H2 [i H3]]]. destruct (explicit ilabel ieqb upcast vobj RDataFrame (SArray al) ar) as [[l' r']|] eqn:E; cbn [bind] in H3; [|discriminate]. destruct (Nat.eqb (List.length (m_cols (x_mat l'))) 0) eqn:En; [discriminate|].
    injection H3 as -> ->. rewrite (proj2 (H l r)) by eauto. cbn [bind]. cbn [with_index x_mat] in En. now rewrite En.
Qed.

(** * C68: using a design again *)
(** The design_info of the matrix that a one-sided formula gives, used again on the same data, gives the same
    matrix. *)
Theorem dmatrix_again : forall fl md d na rt r, (fl = FDesc md \/ exists s, fl = FStr s /\ formula_desc tokenize norm is_float s = Ok md) -> lhs_termlist md = [] ->
  dmatrix fl d na rt = Ok r -> dmatrix (FDesign (x_design r)) d na rt = Ok r.
Proof.
  intros fl md d na rt r Hfl Hmd. unfold PipeModel.dmatrix.
  assert (E0 : highlevel fl d na rt = highlevel (FDesc md) d na rt) by (destruct Hfl as [->|[s [-> Hs]]]; [reflexivity|now apply str_desc]). rewrite E0.
  destruct (highlevel (FDesc md) d na rt) as [[l r']|] eqn:E; cbn [bind]; [|discriminate].
  destruct (Nat.eqb (List.length (m_cols (x_mat l))) 0); [|discriminate]. intros [= ->].
  destruct (desc_again vone vmul visnan ilabel ieqb ieqb_eq passes chunk finish eval origin_of code_cm hash set_order order_mem order_exam addr hash_order df_index upcast vobj tokenize norm is_float have_pandas Hset Hmem Hexam Hidx md d na rt l r Hmd E) as [l' [E' Hl']].
  rewrite E'. cbn [bind]. now rewrite Hl'.
Qed.
(** The same for two sides. *)
Theorem dmatrices_again : forall fl d na rt l r, described fl -> dmatrices fl d na rt = Ok (l, r) ->
  dmatrices (FPair (SDesign (x_design l)) (SDesign (x_design r))) d na rt = Ok (l, r).
Proof.
  intros fl d na rt l r Hd. unfold PipeModel.dmatrices. rewrite !highlevel_described; [|exact Logic.I|exact Hd].
  destruct (match rt with RDataFrame => negb have_pandas | _ => false end); [discriminate|]. destruct (match rt with RUnknown => true | _ => false end); [discriminate|].
  set (w := match rt with RDataFrame => true | _ => false end).
  destruct (try_incr_builders passes chunk finish eval origin_of code_cm hash set_order order_mem order_exam addr hash_order tokenize norm is_float fl (fun _ => [d]) na) as [[[dl dr]|]|]; cbn [bind]; try discriminate.
  destruct (build [dl; dr] d na w) as [[[|ml [|mr [|? ?]]] labels]|] eqn:Eb; cbn [bind]; try discriminate. destruct (Nat.eqb (List.length (m_cols (x_mat (mkMx ml dl labels)))) 0) eqn:En; [discriminate|].
  intros [= <- <-]. cbn [x_design try_incr_builders bind]. fold w. rewrite Eb. cbn [bind]. now rewrite En.
Qed.
(** The incremental functions give the designs that dmatrix and dmatrices use for data in one piece. *)
Theorem incremental_designs : forall fl d na rt l r, described fl -> dmatrices fl d na rt = Ok (l, r) -> proper_input fl ->
  incr_dbuilders passes chunk finish eval origin_of code_cm hash set_order order_mem order_exam addr hash_order tokenize norm is_float fl (fun _ => [d]) na = Ok (x_design l, x_design r).
Proof.
  intros fl d na rt l r Hd H Hp. destruct (dmatrices_aligned fl d na rt l r Hp H) as [Hn [_ [[_ [Hl _]] _]]].
  revert H. unfold PipeModel.dmatrices. rewrite !highlevel_described by exact Hd. unfold incr_dbuilders.
  destruct (match rt with RDataFrame => negb have_pandas | _ => false end); [discriminate|]. destruct (match rt with RUnknown => true | _ => false end); [discriminate|].
  destruct (try_incr_builders passes chunk finish eval origin_of code_cm hash set_order order_mem order_exam addr hash_order tokenize norm is_float fl (fun _ => [d]) na) as [[[dl dr]|]|]; cbn [bind]; try discriminate.
  destruct (build [dl; dr] d na _) as [[[|ml [|mr [|? ?]]] labels]|] eqn:Eb; cbn [bind]; try discriminate. destruct (Nat.eqb (List.length (m_cols (x_mat (mkMx ml dl labels)))) 0) eqn:En; [discriminate|].
  intros [= <- <-]. cbn [x_design x_mat] in *. destruct (Nat.eqb (List.length (column_names (ds_info dl))) 0) eqn:E0; [apply Nat.eqb_eq in E0; lia|reflexivity].
Qed.

Theorem incremental_design : forall fl d na rt r, described fl -> dmatrix fl d na rt = Ok r -> proper_input fl ->
  incr_dbuilder passes chunk finish eval origin_of code_cm hash set_order order_mem order_exam addr hash_order tokenize norm is_float fl (fun _ => [d]) na = Ok (x_design r).
Proof.
  intros fl d na rt r Hd H Hp. revert H. unfold PipeModel.dmatrix. destruct (highlevel fl d na rt) as [[l r']|] eqn:E; cbn [bind]; [|discriminate].
  destruct (highlevel_shape vone vmul visnan ilabel ieqb ieqb_eq passes chunk finish eval origin_of code_cm hash set_order order_mem order_exam addr hash_order df_index upcast vobj tokenize norm is_float have_pandas Hset Hmem Hexam Hidx fl d na rt l r' Hp E) as [_ [_ [[_ [Hl _]] _]]].
  destruct (Nat.eqb_spec (List.length (m_cols (x_mat l))) 0) as [En|]; [|discriminate]. cbn [negb]. intros [= <-]. rewrite En in Hl.
  revert E. rewrite !highlevel_described by exact Hd. unfold incr_dbuilder.
  destruct (match rt with RDataFrame => negb have_pandas | _ => false end); [discriminate|]. destruct (match rt with RUnknown => true | _ => false end); [discriminate|].
  destruct (try_incr_builders passes chunk finish eval origin_of code_cm hash set_order order_mem order_exam addr hash_order tokenize norm is_float fl (fun _ => [d]) na) as [[[dl dr]|]|]; cbn [bind]; try discriminate.
  destruct (build [dl; dr] d na _) as [[[|ml [|mr [|? ?]]] labels]|] eqn:Eb; cbn [bind]; try discriminate. intros [= <- <-]. cbn [x_design] in Hl. now rewrite <- Hl.
Qed.
(** However the data comes: exactly one of incr_dbuilder and incr_dbuilders accepts a model whose designs can
    be made, the latter if the outcome side has columns; the other raises PatsyError.  Otherwise both raise the
    same error. *)
Theorem one_of_incr_dbuilder_dbuilders : forall fl data na,
  match incr_dbuilder passes chunk finish eval origin_of code_cm hash set_order order_mem order_exam addr hash_order tokenize norm is_float fl data na,
        incr_dbuilders passes chunk finish eval origin_of code_cm hash set_order order_mem order_exam addr hash_order tokenize norm is_float fl data na with
  | Ok r, Err e => exists msg, e = PatsyError msg None
  | Err e, Ok (l, r) => (exists msg, e = PatsyError msg None) /\ column_names (ds_info l) <> []
  | Err e, Err e' => e = e'
  | Ok _, Ok _ => False
  end.
Proof.
  intros fl data na. unfold incr_dbuilder, incr_dbuilders. destruct (try_incr_builders _ _ _ _ _ _ _ _ _ _ _ _ _ _ _ fl data na) as [[[l r]|]|]; cbn [bind]; [|reflexivity|reflexivity].
  destruct (column_names (ds_info l)) as [|c cs] eqn:Ec; cbn; [eauto|]. split; [eauto|congruence].
Qed.

(** * C69: what designs remember *)
(** The designs made together for some formulas evaluate each factor on any later data with the state it had
    when it had seen all of the training data, and code categorical data with the levels found there. *)
Theorem designs_remember : forall data na tls ds x, builders data na tls = Ok ds -> In x ds ->
  exists act, get_action na = Ok act /\
  forall f fi, In (f, fi) (infos_of (ds_info x)) -> fi_factor fi = f /\ In f (factors_of tls) /\
    exists s levels c, learned passes chunk finish eval origin_of addr hash_order (na_what act) data (factors_of tls) f s (fi_kind fi) levels c /\
    forall used na' d, incl used ds -> In x used ->
      eval_info (concat (map ds_known used)) na' d fi =
      let* o := eval f s d in
      match fi_kind fi with
      | FNum _ => eval_factor visnan origin_of (nan_is_na na') fi (RawNum (o_ndim o) (o_ncols o) (o_isnum o) (o_rows o) (o_index o))
      | FCat _ => let* codes := categorical_to_int (o_value o) levels na' (origin_of f) in eval_factor visnan origin_of (nan_is_na na') fi (RawCodes codes (o_index o))
      end.
Proof.
  intros data na tls ds x H Hx.
  destruct (builders_good passes chunk finish eval origin_of code_cm hash set_order order_mem order_exam addr hash_order Hset Hmem Hexam data na tls ds H) as [_ [_ [_ [act [Ha Hf]]]]].
  exists act. split; [exact Ha|]. intros f fi Hfi. destruct (Hf x Hx f fi Hfi) as [H1 [H2 [s [levels [c [H3 H4]]]]]]. split; [exact H1|]. split; [exact H2|].
  exists s, levels, c. split; [exact H3|]. intros used na' d Hu Hxu.
  assert (G : dget Nat.eqb (fi_id fi) (concat (map ds_known used)) = Some (s, levels)).
  { destruct used as [|u used]; [destruct Hxu|]. cbn [map concat]. apply get_known. apply H4, Hu. now left. }
  unfold PipeModel.eval_info. rewrite G, H1. cbn [lookup bind]. destruct (eval f s d) as [o|]; cbn [bind]; [|reflexivity].
  destruct (fi_kind fi); [reflexivity|]. destruct (categorical_to_int (o_value o) levels na' (origin_of f)); reflexivity.
Qed.

(** * C70: explicit matrices *)
(** A lone matrix without design_info is accepted exactly if it has at most two dimensions, holds numbers, and
    its columns have distinct names; the numbers are left as they are (integers become floats). *)
Theorem lone_matrix : forall (a : @array V I S) d na r, a_info a = None ->
  dmatrix (FArray a) d na RMatrix = Ok r <->
  a_ndim a <= 2 /\ a_dtype a <> DOther /\ NoDup (array_names "x" a) /\ List.length (array_names "x" a) = List.length (m_cols (a_mat a)) /\
  exists di, mk_design_info (array_names "x" a) None None = Ok di /\
    r = mkMx (match a_dtype a with DInt => map_mat upcast (a_mat a) | _ => a_mat a end) (mkDesign di []) None.
Proof.
  intros a d na r Hi.
  exact (lone_ok vone vmul visnan ilabel ieqb passes chunk finish eval origin_of code_cm hash set_order order_mem order_exam addr hash_order df_index upcast vobj tokenize norm is_float have_pandas a d na r Hi).
Qed.
(** A numpy array gets the names x0, x1, ... *)
Theorem lone_array_names : forall (a : @array V I S) d na, a_info a = None -> a_columns a = None -> a_ndim a <= 2 -> a_dtype a = DFloat ->
  exists r, dmatrix (FArray a) d na RMatrix = Ok r /\ x_mat r = a_mat a /\
    column_names (ds_info (x_design r)) = map (fun i => "x" ++ nat_str i)%string (seq 0 (List.length (m_cols (a_mat a)))).
Proof.
  intros a d na Hi Hc Hn Hf. set (names := map (fun i => "x" ++ nat_str i)%string (seq 0 (List.length (m_cols (a_mat a))))).
  assert (En : array_names "x" a = names) by (unfold array_names; now rewrite Hc).
  assert (Hnd : NoDup names).
  { unfold names. assert (G : forall l : list nat, NoDup l -> NoDup (map (fun i => "x" ++ nat_str i)%string l)).
    { intros l Hl. induction Hl as [|i l Hin Hl IH]; cbn; constructor; [|exact IH]. intros X. apply in_map_iff in X. destruct X as [j [E Hj]]. apply Hin. injection E as E. apply nat_str_inj in E. now subst. }
    apply G, seq_NoDup. }
  destruct (proj2 (minimal_ok (V := V) names) Hnd) as [di [E1 E2]]. eexists. split.
  - apply lone_matrix; [exact Hi|]. split; [exact Hn|]. split; [rewrite Hf; discriminate|]. rewrite En. split; [exact Hnd|]. split; [unfold names; now rewrite map_length, seq_length|]. exists di. split; [exact E1|reflexivity].
  - cbn. rewrite Hf. auto.
Qed.
(** A DataFrame whose columns have labels of their own keeps them as the names; columns numbered by integers get an x in front. *)
Theorem lone_frame_names : forall (a : @array V I S) d na is_int labels, a_info a = None -> a_columns a = Some (is_int, labels) -> a_ndim a <= 2 -> a_dtype a = DFloat ->
  NoDup labels -> List.length labels = List.length (m_cols (a_mat a)) ->
  exists r, dmatrix (FArray a) d na RMatrix = Ok r /\ x_mat r = a_mat a /\
    (is_int = false -> column_names (ds_info (x_design r)) = labels) /\
    (is_int = true -> column_names (ds_info (x_design r)) = map (fun s => "x" ++ s)%string labels).
Proof.
  intros a d na is_int labels Hi Hc Hn Hf Hd Hl. set (names := if is_int then map (fun s => "x" ++ s)%string labels else labels).
  assert (En : array_names "x" a = names) by (unfold array_names, names; now rewrite Hc).
  assert (Hnd : NoDup names).
  { unfold names. destruct is_int; [|exact Hd]. clear -Hd. induction Hd as [|i l Hin Hl IH]; cbn; constructor; [|exact IH]. intros X. apply in_map_iff in X. destruct X as [j [E Hj]]. apply Hin. injection E as E. now subst. }
  destruct (proj2 (minimal_ok (V := V) names) Hnd) as [di [E1 E2]]. eexists. split.
  - apply lone_matrix; [exact Hi|]. split; [exact Hn|]. split; [rewrite Hf; discriminate|]. rewrite En. split; [exact Hnd|]. split; [unfold names; destruct is_int; now rewrite ?map_length|]. exists di. split; [exact E1|reflexivity].
  - cbn. rewrite Hf. split; [reflexivity|]. unfold names in E2. split; intros ->; exact E2.
Qed.
End Theorems.
Print Assumptions lone_frame_names.
Print Assumptions dmatrices_aligned.
Print Assumptions dmatrix_shaped.
Print Assumptions one_of_dmatrix_dmatrices.
Print Assumptions return_types_agree.
Print Assumptions return_types_agree_dmatrix.
Print Assumptions return_types_agree_explicit.
Print Assumptions dmatrix_again.
Print Assumptions dmatrices_again.
Print Assumptions incremental_designs.
Print Assumptions incremental_design.
Print Assumptions one_of_incr_dbuilder_dbuilders.
Print Assumptions designs_remember.
Print Assumptions lone_matrix.
Print Assumptions lone_array_names.

(** * C27: the arguments of NAAction *)
(** [on_NA] is "raise" or "drop" and all of [NA_types] are "None" and "NaN", or else ValueError; exactly the kinds
    of values that [NA_types] lists count as missing. *)
Theorem na_action_arguments : forall on types,
  match new_action on types with
  | Ok a => (on = "raise" /\ na_on a = NARaise \/ on = "drop" /\ na_on a = NADrop) /\ Forall (fun t => t = "None" \/ t = "NaN") types /\
      (forall v, missing (na_what a) v <-> In "None" types /\ v = VNone \/ In "NaN" types /\ missing (mkNA true false) v) /\
      (nan_is_na (na_what a) = true <-> In "NaN" types)
  | Err e => (exists msg, e = ValueError msg) /\ (on <> "raise" /\ on <> "drop" \/ exists t, In t types /\ t <> "None" /\ t <> "NaN")
  end.
Proof.
  intros on types. unfold new_action.
  assert (X : forall s, existsb (fun t => String.eqb t s) types = true <-> In s types).
  { intros s. rewrite existsb_exists. split; [intros (t & Ht & E); apply String.eqb_eq in E; now subst|intros H; exists s; split; [exact H|apply String.eqb_refl]]. }
  assert (Y : forall b c, (forall v, missing (mkNA b c) v <-> c = true /\ v = VNone \/ b = true /\ missing (mkNA true false) v)) by (intros b c v; unfold missing; cbn; intuition discriminate).
  assert (G : forall act, (on = "raise" /\ act = NARaise \/ on = "drop" /\ act = NADrop) ->
    match (if forallb (fun t => String.eqb t "None" || String.eqb t "NaN") types then Ok (mkAction act (mkNA (existsb (fun t => String.eqb t "NaN") types) (existsb (fun t => String.eqb t "None") types))) else Err (ValueError "invalid NA_type")) with
    | Ok a => (on = "raise" /\ na_on a = NARaise \/ on = "drop" /\ na_on a = NADrop) /\ Forall (fun t => t = "None" \/ t = "NaN") types /\
      (forall v, missing (na_what a) v <-> In "None" types /\ v = VNone \/ In "NaN" types /\ missing (mkNA true false) v) /\
      (nan_is_na (na_what a) = true <-> In "NaN" types)
    | Err e => (exists msg, e = ValueError msg) /\ (on <> "raise" /\ on <> "drop" \/ exists t, In t types /\ t <> "None" /\ t <> "NaN") end).
  { intros act Ha. destruct (forallb _ types) eqn:E.
    - split; [exact Ha|]. split.
      + apply Forall_forall. intros t Ht. rewrite forallb_forall in E. specialize (E t Ht). apply orb_true_iff in E. now rewrite !String.eqb_eq in E.
      + cbn [na_what nan_is_na]. split; [|apply X]. intros v. rewrite Y, !X. reflexivity.
    - split; [eauto|]. right. assert (N : ~ Forall (fun t => t = "None" \/ t = "NaN") types).
      { intros F. rewrite (proj2 (forallb_forall _ types)) in E; [discriminate|]. intros t Ht. rewrite Forall_forall in F. apply orb_true_iff. rewrite !String.eqb_eq. auto. }
      clear - N. induction types as [|t types IH]; [destruct N; constructor|]. destruct (string_dec t "None") as [->|]; [|destruct (string_dec t "NaN") as [->|]; [|exists t; cbn; auto]].
      all: destruct IH as (u & A & B); [intros F; apply N; constructor; auto|exists u; cbn; auto]. }
  destruct (String.eqb_spec on "raise"); [apply G; auto|]. destruct (String.eqb_spec on "drop"); [apply G; auto|]. cbn [bind]. split; [eauto|auto].
Qed.
Print Assumptions na_action_arguments.
(** A string for NA_action stands for the NAAction that counts both kinds as missing. *)
Theorem na_action_string : forall on, get_action (NAStr on) = new_action on ["None"; "NaN"] /\ get_action (NAStr on) = new_action on ["NaN"; "None"].
Proof. intros on. split; reflexivity. Qed.
Print Assumptions na_action_string.
Example ex_na_action : new_action "drop" ["NaN"] = Ok (mkAction NADrop (mkNA true false)) /\ new_action "drop" ["nan"] = Err (ValueError "invalid NA_type").
Proof. split; reflexivity. Qed.

(** * Examples *)
(** Rows have a category, a number x and a number y; -99 is NaN. *)
Definition xdata := (list (string * Z * Z) * option (list nat))%type.
Definition xpasses (f : factor) : result (Z * Z * Z) := Ok ((0, 0), if String.eqb f "center(x)" then 1 else 0)%Z.
Definition xchunk (f : factor) (s : Z * Z) (p : nat) (d : xdata) : result (Z * Z) :=
  Ok (fold_left (fun s r => (fst s + snd (fst r), snd s + 1)%Z) (fst d) s).
Definition xfinish (f : factor) (s : Z * Z) (p : nat) : result (Z * Z) := Ok s.
Definition xcolumn (d : xdata) (g : string * Z * Z -> Z) : result (@fobj Z nat unit) :=
  Ok (mkObj (Plain (DArray true 1 1)) 1 1 true (map (fun r => [g r]) (fst d)) (match snd d with Some i => if Nat.eqb (List.length i) (List.length (fst d)) then Some i else None | None => None end)).
Definition xeval (f : factor) (s : Z * Z) (d : xdata) : result (@fobj Z nat unit) :=
  if String.eqb f "a" then Ok (mkObj (Plain (DSeq false (map (fun r => VStr (fst (fst r))) (fst d)))) 1 1 false [] None)
  else if String.eqb f "x" then xcolumn d (fun r => snd (fst r))
  else if String.eqb f "center(x)" then xcolumn d (fun r => snd (fst r) - fst s / snd s)%Z
  else if String.eqb f "y" then xcolumn d snd
  else Err (PatsyError "name is not defined" None).
Definition xlabel (v : pval) : string := match v with VStr s => s | _ => "?" end.
Definition xcm (levels : list pval) (c : option unit) (full : bool) : result (@ctr Z) :=
  let n := List.length levels in
  let unit_row (k : nat) (i : nat) := if Nat.eqb i k then 1%Z else 0%Z in
  if full then Ok (mkCtr (map (fun i => map (fun k => unit_row k i) (seq 0 n)) (seq 0 n)) (map (fun v => "[" ++ xlabel v ++ "]")%string levels))
  else Ok (mkCtr (map (fun i => map (fun k => unit_row k i) (seq 1 (n - 1))) (seq 0 n)) (map (fun v => "[T." ++ xlabel v ++ "]")%string (tl levels))).
Definition xhash (l : list (bool * factor)) : Z := Z.of_nat (List.length l).
Definition xtokenize (s : string) : list pytok * option exn :=
  let tok ty i t := mkPyTok ty t (mkOrigin s i (i + 1)) in
  ((if String.eqb s "y~a" then [tok PNAME 0 "y"; tok POTHER 1 "~"; tok PNAME 2 "a"] else [tok PNAME 0 "a"]), None).
Definition xdmatrix := dmatrix (I := nat) (C := unit) 1%Z Z.mul (Z.eqb (-99)) (fun n => n) Nat.eqb xpasses xchunk xfinish xeval (fun _ => None) xcm xhash (fun l => l) (fun _ l => l) (fun _ l => l)
  (fun _ => 0) (fun l => l) snd (fun z => z * 10)%Z 7%Z xtokenize (fun s => s) (fun _ => false) true.
Definition xdmatrices := dmatrices (I := nat) (C := unit) 1%Z Z.mul (Z.eqb (-99)) (fun n => n) Nat.eqb xpasses xchunk xfinish xeval (fun _ => None) xcm xhash (fun l => l) (fun _ l => l) (fun _ l => l)
  (fun _ => 0) (fun l => l) snd (fun z => z * 10)%Z 7%Z xtokenize (fun s => s) (fun _ => false) true.
Definition xd : xdata := ([("p", 1, 10); ("q", 2, -99); ("p", 3, 12); ("r", 6, 13)]%Z, Some [5; 6; 7; 8]).
Definition xna := NAStr "drop".

Lemma xindexed : indexed xeval.
Proof.
  intros f s d o i. unfold xeval, xcolumn. set (idx := match snd d with Some i => _ | None => None end).
  assert (Hi : forall i, idx = Some i -> List.length i = List.length (fst d)).
  { intros j. unfold idx. destruct (snd d) as [k|]; [|discriminate]. destruct (Nat.eqb (List.length k) (List.length (fst d))) eqn:E; [|discriminate]. intros [= <-]. now apply Nat.eqb_eq. }
  destruct (String.eqb f "a"); [intros [= <-]; discriminate|].
  destruct (String.eqb f "x"); [|destruct (String.eqb f "center(x)"); [|destruct (String.eqb f "y"); [|discriminate]]];
    intros [= <-] E; cbn in *; (split; [rewrite map_length; auto|]); intros categories na org codes H; unfold categorical_to_int in H; cbn in H; discriminate.
Qed.

(** y ~ a + center(x) *)
Definition xmd := mk_model_desc [["y"]] [[]; ["a"]; ["center(x)"]].
Definition show (r : result (@matrix Z nat (Z * Z) * @matrix Z nat (Z * Z))) :=
  match r with Ok (l, r) => Ok (column_names (ds_info (x_design l)), x_mat l, column_names (ds_info (x_design r)), x_mat r, x_index r) | Err e => Err e end.
Example dmatrices_ex : show (xdmatrices (FDesc xmd) xd xna RDataFrame) =
  Ok (["y"], mkMat 3 [[10; 12; 13]%Z], ["Intercept"; "a[T.q]"; "a[T.r]"; "center(x)"], mkMat 3 [[1; 1; 1]; [0; 0; 0]; [0; 0; 1]; [-2; 0; 3]]%Z, Some [5; 7; 8]).
Proof. vm_compute. reflexivity. Qed.
Example dmatrices_ex_string : show (xdmatrices (FStr "y~a") xd xna RMatrix) =
  Ok (["y"], mkMat 3 [[10; 12; 13]%Z], ["Intercept"; "a[T.q]"; "a[T.r]"], mkMat 3 [[1; 1; 1]; [0; 0; 0]; [0; 0; 1]]%Z, None).
Proof. vm_compute. reflexivity. Qed.
Example one_ex : xdmatrix (FDesc xmd) xd xna RMatrix = Err (PatsyError "encountered outcome variables for a model that does not expect them" None) /\
  xdmatrices (FStr "a") xd xna RMatrix = Err (PatsyError "model is missing required outcome variables" None) /\
  xdmatrices (FDesc xmd) xd (NAStr "raise") RMatrix = Err (PatsyError "factor contains missing values" None).
Proof. vm_compute. auto. Qed.
(** Designs made for some data, used on other data: x is centered by the old mean, the levels are the old
    ones. *)
Definition xdesign := match xdmatrix (FDesc (mk_model_desc [] [["a"]; ["center(x)"]])) xd xna RMatrix with Ok r => x_design r | Err _ => mkDesign (mkDI [] None None None []) [] end.
Example remember_ex : match xdmatrix (FDesign xdesign) ([("q", 103, 0); ("p", 0, 0)]%Z, None) xna RDataFrame with
  | Ok r => Ok (column_names (ds_info (x_design r)), x_mat r, x_index r) | Err e => Err e end =
  Ok (["a[p]"; "a[q]"; "a[r]"; "center(x)"], mkMat 2 [[0; 1]; [1; 0]; [0; 0]; [100; -3]]%Z, Some [0; 1]) /\
  xdmatrix (FDesign xdesign) ([("s", 103, 0)]%Z, None) xna RDataFrame = Err (PatsyError "Error converting data to categorical: observation does not match any of the expected levels" None).
Proof. vm_compute. auto. Qed.
Example again_ex : match xdmatrix (FDesc (mk_model_desc [] [["a"]; ["center(x)"]])) xd xna RMatrix with Ok r => xdmatrix (FDesign (x_design r)) xd xna RMatrix = Ok r | Err _ => False end.
Proof. vm_compute. reflexivity. Qed.
(** Explicit matrices. *)
Definition xa : @array Z nat (Z * Z) := mkArr 2 (mkMat 2 [[1; 2]; [3; 4]]%Z) DFloat (Some [3; 4]) (Some (true, ["0"; "1"])) None false.
Definition xb : @array Z nat (Z * Z) := mkArr 1 (mkMat 2 [[5; 6]]%Z) DFloat None None None false.
Example explicit_ex : proper_array xa /\ proper_array xb /\
  show (xdmatrices (FPair (SArray xb) (SArray xa)) xd xna RDataFrame) = Ok (["y0"], mkMat 2 [[5; 6]]%Z, ["x0"; "x1"], mkMat 2 [[1; 2]; [3; 4]]%Z, Some [3; 4]).
Proof. split; [|split]; [repeat split; cbn; try discriminate; [repeat constructor|intros i [= <-]; reflexivity]|repeat split; cbn; try discriminate; repeat constructor|vm_compute; reflexivity]. Qed.

(** * Explicit matrices that are not floats *)
(** For integers the numbers differ in type ([upcast]), and what is no number is only rejected for
    return_type="matrix". *)
Theorem return_types_agree_explicit_refuted : exists (V I S D : Type) vone vmul visnan ilabel ieqb passes chunk finish eval origin_of code_cm hash set_order order_mem order_exam addr hash_order (df_index : D -> option (list I)) (upcast : V -> V) vobj tokenize norm is_float
    (al ar : @array V I S) d na,
  proper_array al /\ proper_array ar /\
  let dms := dmatrices (C := unit) vone vmul visnan ilabel ieqb passes chunk finish eval origin_of code_cm hash set_order order_mem order_exam addr hash_order df_index upcast vobj tokenize norm is_float true in
  (exists l r, dms (FPair (SArray al) (SArray ar)) d na RDataFrame = Ok (l, r)) /\
  dms (FPair (SArray al) (SArray ar)) d na RMatrix = Err (ValueError "design matrix must be real-valued floating point").
Proof.
  exists Z, nat, (Z * Z)%type, xdata, 1%Z, Z.mul, (Z.eqb (-99)), (fun n => n), Nat.eqb, xpasses, xchunk, xfinish, xeval, (fun _ => None), xcm, xhash, (fun l => l), (fun _ l => l), (fun _ l => l),
    (fun _ => 0), (fun l => l), snd, (fun z => z * 10)%Z, 7%Z, xtokenize, (fun s => s), (fun _ => false), xb, (mkArr 2 (mkMat 2 [[7; 7]]%Z) DOther None None None false), xd, xna.
  split; [repeat split; cbn; try discriminate; repeat constructor|]. split; [repeat split; cbn; try discriminate; repeat constructor|]. cbn zeta. split; [do 2 eexists; vm_compute; reflexivity|vm_compute; reflexivity].
Qed.
Print Assumptions return_types_agree_explicit_refuted.
