(** What stands between a formula with data and matrices: C98. *)
From Coq Require Import Ascii Permutation.
From Verif Require Import Base OriginModel TokensModel ParseFormulaModel RedundancySpec RankSpec DescModel DescSpec DescProofs FormulaModel BuildModel BuildSpec BuildDesignProofs BuildProps NameSpec NameProps
  MemorizeModel MemorizeSpec CategoricalModel CategoricalSpec PipeModel PipeSpec PipeProofs PipeHighProofs PipeErrSpec PipeErrProps MadeSpec MadeProofs MadeHighProofs.
Open Scope nat_scope.
Open Scope string_scope.
Open Scope list_scope.

(** * Making designs *)
(** Any error of design_matrix_builders is one of those that [unmade] lists: the argument [NA_action] is not acceptable;
    a factor's own code failed; its values are no numbers and no categories; there is no data; a contrast does not
    accept the levels; or names clash, which they do not if they are plain. *)
Theorem design_errors : forall {V I C S D : Type} (passes : factor -> result (S * Z)) (chunk : factor -> S -> nat -> D -> result S) (finish : factor -> S -> nat -> result S) (eval : factor -> S -> D -> result (@fobj V I C))
  (origin_of : factor -> option origin) (code_cm : list pval -> option C -> bool -> result (@ctr V)) hash set_order order_mem order_exam addr hash_order,
  (forall l, Permutation (set_order l) l) -> (forall n l, Permutation (order_mem n l) l) -> (forall n l, Permutation (order_exam n l) l) ->
  (forall levels c full m, code_cm levels c full = Ok m -> List.length (ct_rows m) = List.length levels) ->
  forall data na tls e, Forall different_terms tls -> Forall (fun tl => collision_free hash (concat tl)) tls ->
  design_matrix_builders passes chunk finish eval origin_of code_cm hash set_order order_mem order_exam addr hash_order data na tls = Err e ->
  get_action na = Err e \/ exists act, get_action na = Ok act /\ unmade passes chunk finish eval origin_of code_cm addr hash_order (na_what act) data tls e.
Proof.
  intros V I C S D passes chunk finish eval origin_of code_cm hash set_order order_mem order_exam addr hash_order H1 H2 H3 H4 data na tls e Hd Hc.
  exact (builders_err passes chunk finish eval origin_of code_cm hash set_order order_mem order_exam addr hash_order H1 H2 H3 H4 data na tls e Hd Hc).
Qed.
Print Assumptions design_errors.

Section Made.
Context {V I C S D : Type}.
Variables (vone : V) (vmul : V -> V -> V) (visnan : V -> bool) (ilabel : nat -> I) (ieqb : I -> I -> bool).
Variable passes : factor -> result (S * Z).
Variable chunk : factor -> S -> nat -> D -> result S.
Variable finish : factor -> S -> nat -> result S.
Variable eval : factor -> S -> D -> result (@fobj V I C).
Variable origin_of : factor -> option origin.
Variable code_cm : list pval -> option C -> bool -> result (@ctr V).
Variable hash : list (bool * factor) -> Z.
Variable set_order : list factor -> list factor.
Variables order_mem order_exam : nat -> list factor -> list factor.
Variable addr : pval -> nat.
Variable hash_order : list pval -> list pval.
Variable df_index : D -> option (list I).
Hypothesis Hieq : forall a b, ieqb a b = true <-> a = b.
Hypothesis Hset : forall l, Permutation (set_order l) l.
Hypothesis Hmem : forall n l, Permutation (order_mem n l) l.
Hypothesis Hexam : forall n l, Permutation (order_exam n l) l.
Hypothesis Hidx : indexed eval.
Hypothesis Htidy : forall f s d o, eval f s d = Ok o -> PipeErrSpec.tidy o.
Hypothesis Hrect : forall levels c full m, code_cm levels c full = Ok m -> forall row, In row (ct_rows m) -> List.length row = ct_ncols m.
Hypothesis Hrows : forall levels c full m, code_cm levels c full = Ok m -> List.length (ct_rows m) = List.length levels.
Variable upcast : V -> V.
Variable vobj : V.
Variable tokenize : string -> list pytok * option exn.
Variable norm : string -> string.
Variable is_float : string -> bool.
Variable have_pandas : bool.
Local Notation highlevel := (highlevel_design vone vmul visnan ilabel ieqb passes chunk finish eval origin_of code_cm hash set_order order_mem order_exam addr hash_order df_index upcast vobj tokenize norm is_float have_pandas).
Local Notation dmatrix := (dmatrix vone vmul visnan ilabel ieqb passes chunk finish eval origin_of code_cm hash set_order order_mem order_exam addr hash_order df_index upcast vobj tokenize norm is_float have_pandas).
Local Notation dmatrices := (dmatrices vone vmul visnan ilabel ieqb passes chunk finish eval origin_of code_cm hash set_order order_mem order_exam addr hash_order df_index upcast vobj tokenize norm is_float have_pandas).
Local Notation formula_desc := (formula_desc tokenize norm is_float).
Local Notation unbuilt := (unbuilt passes chunk finish eval origin_of code_cm addr hash_order df_index visnan have_pandas).
Local Notation in_order := (in_order passes chunk finish eval origin_of code_cm addr hash_order df_index visnan have_pandas).

(** The terms of a ModelDesc are different; those of a formula always are. *)
Definition proper_terms (fl : @formula_like V I S) (md : model_desc) : Prop :=
  Forall (fun tl => collision_free hash (concat tl)) (sides md) /\ match fl with FStr _ => True | _ => Forall different_terms (sides md) end.
Lemma proper_different fl md : describes formula_desc fl md -> proper_terms fl md -> Forall different_terms (sides md).
Proof. intros Hd [_ H]. destruct fl; try exact H. exact (formula_different tokenize norm is_float _ _ Hd). Qed.

(** * From a formula to matrices *)
(** Any error of dmatrix and dmatrices for a description is one of those that [unbuilt] lists, or is about outcome
    variables. *)
Theorem matrices_errors : forall fl md d na rt e, describes formula_desc fl md -> proper_terms fl md ->
  (dmatrix fl d na rt = Err e -> unbuilt d na rt md e \/ e = PatsyError "encountered outcome variables for a model that does not expect them" None /\ lhs_termlist md <> []) /\
  (dmatrices fl d na rt = Err e -> unbuilt d na rt md e \/ e = PatsyError "model is missing required outcome variables" None).
Proof.
  intros fl md d na rt e Hfl Hp. pose proof (proper_different fl md Hfl Hp) as Hd.
  assert (H : forall e, highlevel fl d na rt = Err e -> unbuilt d na rt md e).
  { intros e'. exact (high_err vone vmul visnan ilabel ieqb passes chunk finish eval origin_of code_cm hash set_order order_mem order_exam addr hash_order df_index Hieq Hset Hmem Hexam Hidx Htidy Hrect Hrows upcast vobj tokenize norm is_float have_pandas fl md d na rt e' Hfl Hd (proj1 Hp)). }
  unfold PipeModel.dmatrix, PipeModel.dmatrices. destruct (highlevel fl d na rt) as [[l r]|e'] eqn:E; cbn [bind].
  2: { split; intros [= <-]; left; now apply H. }
  split.
  - destruct (Nat.eqb_spec (List.length (m_cols (x_mat l))) 0) as [|Hn]; [discriminate|]. cbn [negb]. intros [= <-]. right. split; [reflexivity|]. intros Hl. apply Hn.
    assert (Hpi : proper_input fl) by (destruct fl; try destruct Hfl; exact Logic.I).
    destruct (highlevel_shape vone vmul visnan ilabel ieqb Hieq passes chunk finish eval origin_of code_cm hash set_order order_mem order_exam addr hash_order df_index upcast vobj tokenize norm is_float have_pandas Hset Hmem Hexam Hidx fl d na rt l r Hpi E) as [_ [_ [[_ [Hc _]] _]]].
    rewrite Hc. clear - E Hl Hfl Hset Hmem Hexam. revert E. unfold highlevel_design.
    destruct (match rt with RDataFrame => negb have_pandas | _ => false end); [discriminate|]. destruct (match rt with RUnknown => true | _ => false end); [discriminate|].
    rewrite (describes_try passes chunk finish eval origin_of code_cm hash set_order order_mem order_exam addr hash_order tokenize norm is_float fl md _ na Hfl). unfold desc_builders.
    destruct (design_matrix_builders passes chunk finish eval origin_of code_cm hash set_order order_mem order_exam addr hash_order (fun _ => [d]) na [lhs_termlist md; rhs_termlist md]) as [ds|] eqn:Eb; cbn [bind]; [|discriminate].
    destruct (builders_inv passes chunk finish eval origin_of code_cm hash set_order order_mem order_exam addr hash_order Hset Hmem Hexam _ _ _ _ Eb) as [act [num [cat [fis [kn [dis [_ [-> [Hm _]]]]]]]]].
    cbn [mapM] in Hm. destruct (design_for num _ hash fis (lhs_termlist md)) as [d1|] eqn:E1; cbn [bind] in Hm; [|discriminate]. destruct (design_for num _ hash fis (rhs_termlist md)) as [d2|] eqn:E2; cbn [bind] in Hm; [|discriminate].
    injection Hm as <-. cbn [map bind]. destruct (build _ _ _ _ _ _ _ _ _ d na _) as [[ms labels]|]; cbn [bind]; [|discriminate]. destruct ms as [|ml [|mr [|? ?]]]; try discriminate. intros [= <- <-]. cbn [x_design ds_info].
    rewrite Hl in E1. now rewrite (no_terms_no_columns _ _ _ _ _ E1).
  - destruct (Nat.eqb (List.length (m_cols (x_mat l))) 0); [|discriminate]. intros [= <-]. now right.
Qed.
(** If there is no description, the error says so (unless the kind of result is unknown). *)
Theorem no_description : forall fl e d na rt, undescribed formula_desc fl e -> (rt = RMatrix \/ rt = RDataFrame /\ have_pandas = true) ->
  dmatrix fl d na rt = Err e /\ dmatrices fl d na rt = Err e.
Proof.
  intros fl e d na rt Hu Hrt. assert (H : highlevel fl d na rt = Err e).
  { unfold highlevel_design. assert (Ht : forall data, try_incr_builders passes chunk finish eval origin_of code_cm hash set_order order_mem order_exam addr hash_order tokenize norm is_float fl data na = Err e).
    { intros data. destruct fl; cbn [undescribed] in Hu; try contradiction; cbn [try_incr_builders]; [now rewrite Hu|]. destruct Hu as [->|[-> ->]]; reflexivity. }
    rewrite Ht. destruct Hrt as [->|[-> ->]]; reflexivity. }
  unfold PipeModel.dmatrix, PipeModel.dmatrices. rewrite H. split; reflexivity.
Qed.

(** * When all is in order *)
(** If everything is in order, there are matrices. *)
Theorem matrices_made : (forall l, Permutation (hash_order l) l) -> forall fl md d na rt act n index, describes formula_desc fl md -> proper_terms fl md ->
  get_action na = Ok act -> in_order d act rt md n index ->
  (lhs_termlist md = [] -> exists r, dmatrix fl d na rt = Ok r) /\
  ((exists l r, dmatrices fl d na rt = Ok (l, r)) \/
   dmatrices fl d na rt = Err (PatsyError "model is missing required outcome variables" None) /\ exists r, dmatrix fl d na rt = Ok r).
Proof.
  intros Hho fl md d na rt act n index Hfl Hp Ha Ho.
  pose proof (fun e => order_no_error visnan passes chunk finish eval origin_of code_cm addr hash_order df_index have_pandas Hho d na rt md act n index e Ha Ho) as Hno.
  split.
  - intros Hl. destruct (dmatrix fl d na rt) as [r|e] eqn:E; [eauto|]. exfalso. destruct (proj1 (matrices_errors fl md d na rt e Hfl Hp) E) as [H|[_ H]]; [exact (Hno e H)|contradiction].
  - destruct (dmatrices fl d na rt) as [[l r]|e] eqn:E; [left; eauto|right]. destruct (proj2 (matrices_errors fl md d na rt e Hfl Hp) E) as [H| ->]; [exfalso; exact (Hno e H)|]. split; [reflexivity|].
    unfold PipeModel.dmatrices in E. unfold PipeModel.dmatrix. destruct (highlevel fl d na rt) as [[l r]|e'] eqn:Eh; cbn [bind] in *.
    + destruct (Nat.eqb (List.length (m_cols (x_mat l))) 0); [cbn [negb]; eauto|discriminate].
    + exfalso. apply (Hno e'). exact (high_err vone vmul visnan ilabel ieqb passes chunk finish eval origin_of code_cm hash set_order order_mem order_exam addr hash_order df_index Hieq Hset Hmem Hexam Hidx Htidy Hrect Hrows upcast vobj tokenize norm is_float have_pandas fl md d na rt e' Hfl (proper_different fl md Hfl Hp) (proj1 Hp) Eh).
Qed.
End Made.
Print Assumptions matrices_errors.
Print Assumptions no_description.
Print Assumptions matrices_made.

(** * Examples *)
(** The factors of [PipeErrProps]: [a] is categorical and [x] numerical. *)
Definition mmd := mk_model_desc [] [[]; ["a"]; ["x"]].
Definition mdata := EGood [VStr "q"; VStr "p"; VStr "q"] [1; 2; 3]%Z.
Definition mdmatrix cm d na := dmatrix (I := nat) 1%Z Z.mul (fun z => Z.eqb z 99) (fun n => n) Nat.eqb (fun _ => Ok (tt, 0%Z)) (fun _ _ _ _ => Ok tt) (fun _ _ _ => Ok tt) eeval eorigin cm
  exhash (fun l => l) (fun _ l => l) (fun _ l => l) (fun _ => 0) (fun l => l) (fun _ : edata => None) (fun v => v) 0%Z (fun _ => ([], None)) (fun s => s) (fun _ => false) true (FDesc mmd) d na RMatrix.
Definition outcome {A B} (f : A -> B) (r : result A) : result B := match r with Ok a => Ok (f a) | Err e => Err e end.
Example matrices_ex : outcome x_mat (mdmatrix ecm mdata (NAStr "raise")) = Ok (mkMat 3 [[1; 1; 1]; [1; 0; 1]; [1; 2; 3]]%Z).
Proof. vm_compute. reflexivity. Qed.
Lemma exhash_terms : Forall (fun tl => collision_free exhash (concat tl)) (sides mmd).
Proof.
  assert (M : forall fs, incl fs (concat exterms) -> collision_free exhash fs).
  { intros fs Hi a b Ha Hb. apply exhash_free; [exact (incl_tran Ha Hi)|exact (incl_tran Hb Hi)]. }
  constructor; [|constructor; [|constructor]]; apply M; intros x Hx; cbn in *; tauto.
Qed.
Example in_order_ex : describes (S := unit) (V := Z) (I := nat) (formula_desc (fun _ => ([], None)) (fun s => s) (fun _ => false)) (FDesc mmd) mmd /\
  proper_terms (V := Z) (I := nat) (S := unit) exhash (FDesc mmd) mmd /\
  (forall levels c full m, ecm levels c full = Ok m -> List.length (ct_rows m) = List.length levels) /\
  in_order (V := Z) (I := nat) (fun _ => Ok (tt, 0%Z)) (fun _ _ _ _ => Ok tt) (fun _ _ _ => Ok tt) eeval eorigin ecm (fun _ => 0) (fun l => l) (fun _ => None) (fun z => Z.eqb z 99) true
    mdata (mkAction NARaise (mkNA true true)) RMatrix mmd 3 None.
Proof.
  split; [reflexivity|]. split.
  { split; [exact exhash_terms|]. repeat constructor; cbn; try (intros []); intuition discriminate. }
  split.
  { intros levels c full m. unfold ecm. destruct full; intros [= <-]; cbn [ct_rows]; now rewrite map_length, seq_length. }
  assert (P : forall c, opens c = false -> closes c = false -> Ascii.eqb c ":"%char = false -> plain (String c "")).
  { assert (L : forall c r, Ascii.eqb c "]"%char = false -> String c "" <> (r ++ "]")%string).
    { intros c [|d [|e r]] H E; try discriminate. injection E as ->. now rewrite Ascii.eqb_refl in H. }
    intros c H1 H2 H3. split; [|split]; [split; [discriminate|]| |discriminate].
    - cbn. now rewrite H1, H2, H3.
    - intros r. apply L. unfold closes in H2. destruct (Ascii.eqb c "]"%char); [|reflexivity]. rewrite orb_true_r in H2. discriminate. }
  split; [discriminate|]. split; [discriminate|]. split; [|split; [now left|split; [discriminate|split; [discriminate|split]]]].
  - intros f [<-|[<-|[]]]; eexists tt, _; (split; [exists tt, 0%Z; split; reflexivity|]); (split; [reflexivity|]); (split; [|now left]).
    + eapply su_cat with (l := [VStr "q"; VStr "p"; VStr "q"]); try reflexivity.
      * constructor; [constructor|intros [? [? ?]]; discriminate|discriminate].
      * repeat constructor; try discriminate; now right.
      * intros _ x [<-|[<-|[<-|[]]]] [[_ [[i A]|[t [A B]]]]|[_ A]]; try discriminate; injection A as <-; vm_compute in B; discriminate.
    + apply su_num with (k := 1); try reflexivity; [constructor; auto|]. intros _ _ row x [<-|[<-|[<-|[]]]] [<-|[]]; reflexivity.
  - intros f s m levels c full _ _. unfold ecm. destruct full; eauto.
  - apply Forall_forall. intros tl Htl. split.
    + destruct Htl as [<-|[<-|[]]]; cbn; repeat constructor; now apply P.
    + assert (K : forall f s m levels c full cm, In f ["a"; "x"] -> learned (V := Z) (I := nat) (fun _ => Ok (tt, 0%Z)) (fun _ _ _ _ => Ok tt) (fun _ _ _ => Ok tt) eeval eorigin (fun _ => 0) (fun l => l) (mkNA true true) (fun _ => [mdata]) (factors_of (sides mmd)) f s (FCat m) levels c ->
          ecm levels c full = Ok cm -> NoDup (ct_suffixes cm) /\ Forall bracketed (ct_suffixes cm)).
      { intros f s m levels c full cm Hf L E. inversion L as [|s' sn lv c' T Ty El]; subst. destruct Hf as [<-|[<-|[]]]; vm_compute in Ty; [|discriminate]. injection Ty as <-. vm_compute in El. injection El as <- <-.
        destruct full; injection E as <-; cbn [ct_suffixes map List.tl]; (split; [repeat constructor; cbn; intuition discriminate|]); repeat constructor; [exists "p"|exists "q"|exists "T.q"]; split; reflexivity. }
      intros f s m levels c full cm Hf. apply (K f). destruct Htl as [<-|[<-|[]]]; cbn in Hf; [destruct Hf|]. cbn. tauto.
Qed.
(** Things that go wrong: a contrast that fails; values of the wrong kind; names that clash; a missing value. *)
Example matrices_errors_ex :
  mdmatrix (fun _ _ _ => Err (ValueError "contrast")) mdata (NAStr "raise") = Err (ValueError "contrast") /\
  mdmatrix ecm (EGood [VStr "q"; VStr "p"] [1; 2; 3]%Z) (NAStr "raise") = Err (PatsyError "Number of rows mismatch" (Some (mkOrigin "a + x" 4 5))) /\
  mdmatrix ecm (EGood [VStr "q"; VNone; VStr "p"] [1; 2; 3]%Z) (NAStr "raise") = Err (PatsyError "factor contains missing values" (Some (mkOrigin "a + x" 0 1))) /\
  mdmatrix (fun levels _ _ => Ok (mkCtr (map (fun _ => [0; 0]%Z) levels) ["[same]"; "[same]"])) mdata (NAStr "raise") = Err (ValueError "mismatch between column_names and columns coded by given terms") /\
  exists m, mdmatrix ecm mdata (NAStr "ignore") = Err (ValueError m).
Proof. repeat split; try (vm_compute; reflexivity). eexists. vm_compute. reflexivity. Qed.
