(** C70: the design_info of explicit matrices. *)
From Verif Require Import Base UtilModel DescModel FormulaModel ParseFormulaModel TokensModel BuildModel BuildSpec MemorizeModel MemorizeSpec CategoricalModel CategoricalSpec PipeModel PipeSpec PipeProofs PipeHighProofs PipeProps PipeExplicitProofs.
Open Scope nat_scope.
Open Scope string_scope.
Open Scope list_scope.

Section Theorems.
Context {V I C S D : Type}.
Variables (vone : V) (vmul : V -> V -> V) (visnan : V -> bool) (ilabel : nat -> I) (ieqb : I -> I -> bool).
Variable passes : factor -> result (S * Z).
Variable chunk : factor -> S -> nat -> D -> result S.
Variable finish : factor -> S -> nat -> result S.
Variable eval : factor -> S -> D -> result (@fobj V I C).
Variable origin_of : factor -> option origin.
Variable code_cm : list pval -> option C -> bool -> result (@ctr V).
Variable hash : list (bool * factor) -> Z.
Variable set_order : list factor -> list factor.
Variables order_mem order_exam : nat -> list factor -> list factor.
Variable addr : pval -> nat.
Variable hash_order : list pval -> list pval.
Variable df_index : D -> option (list I).
Variable upcast : V -> V.
Variable vobj : V.
Variable tokenize : string -> list pytok * option exn.
Variable norm : string -> string.
Variable is_float : string -> bool.
Variable have_pandas : bool.
Local Notation dmatrix := (dmatrix vone vmul visnan ilabel ieqb passes chunk finish eval origin_of code_cm hash set_order order_mem order_exam addr hash_order df_index upcast vobj tokenize norm is_float have_pandas).
Local Notation dmatrices := (dmatrices vone vmul visnan ilabel ieqb passes chunk finish eval origin_of code_cm hash set_order order_mem order_exam addr hash_order df_index upcast vobj tokenize norm is_float have_pandas).
Local Notation array := (@array V I S).

Lemma dmatrices_explicit (ls rs : @side V I S) d na rt l r : (forall x y, (ls, rs) <> (SDesign x, SDesign y)) -> dmatrices (FPair ls rs) d na rt = Ok (l, r) ->
  explicit ilabel ieqb upcast vobj rt ls (side_array vobj rs) = Ok (l, r).
Proof.
  intros Hn. unfold PipeModel.dmatrices, PipeModel.highlevel_design. destruct (match rt with RDataFrame => negb have_pandas | _ => false end); [discriminate|].
  destruct (match rt with RUnknown => true | _ => false end); [discriminate|].
  assert (E : try_incr_builders passes chunk finish eval origin_of code_cm hash set_order order_mem order_exam addr hash_order tokenize norm is_float (FPair ls rs) (fun _ => [d]) na = Ok None).
  { destruct ls as [x| |a], rs as [y| |b]; try reflexivity. destruct (Hn x y eq_refl). }
  rewrite E. cbn [bind]. destruct (explicit _ _ _ _ _ _ _) as [[l' r']|]; [|discriminate]. cbn [bind]. destruct (Nat.eqb _ _); [discriminate|]. auto.
Qed.
Lemma dmatrix_explicit (a : array) d na rt r : dmatrix (FArray a) d na rt = Ok r -> exists l, explicit ilabel ieqb upcast vobj rt SNone (lone_array a) = Ok (l, r).
Proof.
  unfold PipeModel.dmatrix, PipeModel.highlevel_design. destruct (match rt with RDataFrame => negb have_pandas | _ => false end); [discriminate|].
  destruct (match rt with RUnknown => true | _ => false end); [discriminate|]. cbn [try_incr_builders bind].
  destruct (explicit _ _ _ _ _ _ _) as [[l' r']|]; [|discriminate]. cbn [bind]. destruct (negb _); [discriminate|]. intros [= <-]. eauto.
Qed.

(** C70.  Matrices in a tuple keep the DesignInfo they have, whatever they are. *)
Theorem tuple_keeps_designs : forall (al ar : array) d na rt l r, dmatrices (FPair (SArray al) (SArray ar)) d na rt = Ok (l, r) ->
  (forall dl, a_info al = Some dl -> x_design l = dl) /\ (forall dr, a_info ar = Some dr -> x_design r = dr).
Proof.
  intros al ar d na rt l r H. apply dmatrices_explicit in H; [|discriminate]. apply explicit_designs in H. destruct H as [mr [ri [ml [li [Hr [Hl [El Er]]]]]]].
  apply regularize_info in Hr. apply regularize_info in Hl. cbn [side_array] in *. split; [intros dl E; rewrite E in Hl|intros dr E; rewrite E in Hr]; congruence.
Qed.
(** A lone matrix that is no pandas object keeps its DesignInfo. *)
Theorem lone_matrix_keeps_design : forall (a : array) d na rt r dd, a_index a = None -> a_info a = Some dd -> dmatrix (FArray a) d na rt = Ok r -> x_design r = dd.
Proof.
  intros a d na rt r dd Hi Ha H. apply dmatrix_explicit in H. destruct H as [l H]. apply explicit_designs in H. destruct H as [mr [ri [ml [li [Hr [_ [_ Er]]]]]]].
  apply regularize_info in Hr. unfold lone_array in Hr. rewrite Hi, Ha in Hr. congruence.
Qed.
(** A lone pandas object does not: only the names of its columns are used. *)
Theorem lone_frame_forgets_design : forall (a : array) d na rt r i, a_index a = Some i -> dmatrix (FArray a) d na rt = Ok r ->
  ds_known (x_design r) = [] /\ mk_design_info (array_names "x" a) None None = Ok (ds_info (x_design r)).
Proof.
  intros a d na rt r i Hi H. apply dmatrix_explicit in H. destruct H as [l H]. apply explicit_designs in H. destruct H as [mr [ri [ml [li [Hr [_ [_ Er]]]]]]].
  apply regularize_info in Hr. unfold lone_array in Hr. rewrite Hi in Hr. cbn in Hr. rewrite Er. exact Hr.
Qed.
(** A design, or None as predictors, next to a matrix is refused (for matrices). *)
Theorem mixed_tuple_refused : forall (dd : @design V S) (a : array) d na, (forall x, dmatrices (FPair (SDesign dd) (SArray a)) d na RMatrix <> Ok x) /\
  (forall x, dmatrices (FPair (SArray a) (SDesign dd)) d na RMatrix <> Ok x) /\ (forall x, dmatrices (FPair (SArray a) SNone) d na RMatrix <> Ok x).
Proof.
  intros dd a d na. split; [|split]; intros [l r] H; (apply dmatrices_explicit in H; [|discriminate]); apply explicit_designs in H; destruct H as [mr [ri [ml [li [Hr [Hl _]]]]]].
  - exact (design_rejected ilabel upcast vobj _ _ _ _ Hl).
  - exact (design_rejected ilabel upcast vobj _ _ _ _ Hr).
  - exact (none_rejected ilabel upcast vobj _ _ _ Hr).
Qed.
End Theorems.
Print Assumptions tuple_keeps_designs.
Print Assumptions lone_matrix_keeps_design.
Print Assumptions lone_frame_forgets_design.
Print Assumptions mixed_tuple_refused.

(** * Examples *)
(** The DataFrame that dmatrix(..., return_type="dataframe") gives, and the DesignMatrix, given to dmatrix and
    dmatrices again. *)
Definition as_frame (m : @matrix Z nat (Z * Z)) : @array Z nat (Z * Z) :=
  mkArr 2 (x_mat m) DFloat (x_index m) (Some (false, column_names (ds_info (x_design m)))) (Some (x_design m)) false.
Definition as_matrix (m : @matrix Z nat (Z * Z)) : @array Z nat (Z * Z) := mkArr 2 (x_mat m) DFloat None None (Some (x_design m)) true.
Definition xpair (rt : rtype) := xdmatrices (FDesc xmd) xd xna rt.
Definition has_terms (m : @matrix Z nat (Z * Z)) : bool := match di_codings (ds_info (x_design m)) with Some _ => true | None => false end.
Example explicit_designs_ex :
  match xpair RDataFrame, xpair RMatrix with
  | Ok (l, r), Ok (l', r') =>
      a_index (as_frame r) = Some [5; 7; 8] /\
      match xdmatrices (FPair (SArray (as_frame l)) (SArray (as_frame r))) xd xna RDataFrame with Ok (_, q) => has_terms q | Err _ => false end = true /\
      match xdmatrix (FArray (as_matrix r')) xd xna RMatrix with Ok q => has_terms q | Err _ => false end = true /\
      match xdmatrix (FArray (as_frame r)) xd xna RDataFrame with Ok q => Some (has_terms q, column_names (ds_info (x_design q))) | Err _ => None end = Some (false, ["Intercept"; "a[T.q]"; "a[T.r]"; "center(x)"])
  | _, _ => False
  end.
Proof. vm_compute. auto. Qed.
(** Not every matrix keeps its DesignInfo. *)
Theorem lone_keeps_design_refuted : exists (a : @array Z nat (Z * Z)) d r dd, a_info a = Some dd /\ xdmatrix (FArray a) d xna RDataFrame = Ok r /\ has_terms (mkMx (a_mat a) dd None) = true /\ has_terms r = false.
Proof.
  assert (B : match xpair RDataFrame with Ok (_, m) => match xdmatrix (FArray (as_frame m)) xd xna RDataFrame with Ok r => has_terms m && negb (has_terms r) | Err _ => false end | Err _ => false end = true) by (vm_compute; reflexivity).
  destruct (xpair RDataFrame) as [[l m]|]; [|discriminate]. destruct (xdmatrix (FArray (as_frame m)) xd xna RDataFrame) as [r|] eqn:E; [|discriminate]. apply andb_prop in B. destruct B as [B1 B2]. apply negb_true_iff in B2.
  exists (as_frame m), xd, r, (x_design m). split; [reflexivity|]. split; [exact E|]. split; [exact B1|exact B2].
Qed.
Print Assumptions lone_keeps_design_refuted.
