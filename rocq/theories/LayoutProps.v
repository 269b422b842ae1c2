(** Property C95: how a formula is written does not matter. *)
From Coq Require Import ZArith Ascii.
From Verif Require Import Base OriginModel ParseFormulaModel TokensModel UtilModel DescModel FormulaModel BuildModel MemorizeModel CategoricalModel PipeModel EvalModel FitModel EntryModel CodeModel
  PyLexModel PyLexSpec TextModel TextSpec TextProps CodeProps LayoutSpec LayoutProofs.
Open Scope nat_scope.
Open Scope string_scope.
Open Scope list_scope.

Section Theorems.
Context {V I C val op St D : Type}.
Variable parse : list ptok -> result (@cx op).
Variable look : D -> @namespace val.
Variable pybuiltins : @namespace val.
Variable apply : op -> list val -> result val.
Variable truth : val -> result bool.
Variable call : val -> list (option ptok) -> list val -> result val.
Variable call_method : val -> string -> list (option ptok) -> list val -> result val.
Variable stateful : val -> bool.
Variable t_new : val -> St.
Variable t_chunk : val -> list (option ptok) -> St -> list val -> result St.
Variable t_finish : val -> St -> result St.
Variable t_transform : val -> list (option ptok) -> St -> list val -> result val.
Variable objval : string -> val.
Variable vnone : val.
Variable builtins : @namespace val.
Variable e : @env val.
Variable bin_order : list string -> list string.
Variable as_obj : val -> @fobj V I C.
Variables (vone : V) (vmul : V -> V -> V) (visnan : V -> bool) (ilabel : nat -> I) (ieqb : I -> I -> bool).
Variable code_cm : list pval -> option C -> bool -> result (@ctr V).
Variable hash : list (bool * factor) -> Z.
Variable set_order : list factor -> list factor.
Variables order_mem order_exam : nat -> list factor -> list factor.
Variable addr : pval -> nat.
Variable hash_order : list pval -> list pval.
Variable df_index : D -> option (list I).
Variable upcast : V -> V.
Variable vobj : V.
Variable is_float : string -> bool.
Variable have_pandas : bool.
(** The places in the formula that the factors remember: any. *)
Local Notation tf_passes := (tf_passes py_lex parse stateful t_new builtins e).
Local Notation tf_chunk := (tf_chunk py_lex parse look pybuiltins apply truth call call_method t_chunk t_transform objval vnone bin_order).
Local Notation tf_finish := (tf_finish t_finish bin_order).
Local Notation tf_eval o := (tf_eval py_lex parse look pybuiltins apply truth call call_method t_chunk t_transform objval vnone o as_obj).
Local Notation tokenize := (fun s => python_tokenize (formula_text s)).
Local Notation dmatrix o := (dmatrix vone vmul visnan ilabel ieqb tf_passes (tf_chunk o) tf_finish (tf_eval o) o code_cm hash set_order order_mem order_exam addr hash_order df_index upcast vobj tokenize norm_text is_float have_pandas).
Local Notation dmatrices o := (dmatrices vone vmul visnan ilabel ieqb tf_passes (tf_chunk o) tf_finish (tf_eval o) o code_cm hash set_order order_mem order_exam addr hash_order df_index upcast vobj tokenize norm_text is_float have_pandas).
Local Notation builders o := (design_matrix_builders tf_passes (tf_chunk o) tf_finish (tf_eval o) o code_cm hash set_order order_mem order_exam addr hash_order).
Local Notation build o := (build vone vmul visnan ilabel ieqb (tf_eval o) o df_index).

(** Two formulas, as text, that give the same ModelDesc: dmatrix and dmatrices return the same matrices, names
    and designs for them on any data, or fail with the same message; and a formula gives what its ModelDesc
    gives. *)
Theorem same_model_same_matrices : forall o1 o2 s1 s2 md d na rt,
  from_text is_float s1 = Ok md -> from_text is_float s2 = Ok md ->
  same_result (dmatrix o1 (FStr s1) d na rt) (dmatrix o2 (FStr s2) d na rt) /\
  same_result (dmatrices o1 (FStr s1) d na rt) (dmatrices o2 (FStr s2) d na rt) /\
  dmatrix o1 (FStr s1) d na rt = dmatrix o1 (FDesc md) d na rt /\ dmatrices o1 (FStr s1) d na rt = dmatrices o1 (FDesc md) d na rt.
Proof.
  intros o1 o2 s1 s2 md d na rt H1 H2.
  assert (A : alike (V := V) (I := I) (S := @tstate val St) tokenize norm_text is_float (FStr s1) (FStr s2)) by (right; exists s1, s2, md; auto).
  split; [|split; [|split]].
  - apply same_dmatrix; [intros; apply same_tf_chunk|intros; apply same_refl|intros; apply same_tf_eval|exact A].
  - apply same_dmatrices; [intros; apply same_tf_chunk|intros; apply same_refl|intros; apply same_tf_eval|exact A].
  - unfold PipeModel.dmatrix, highlevel_design. cbn [try_incr_builders]. change (formula_desc tokenize norm_text is_float s1) with (from_text is_float s1). rewrite H1. reflexivity.
  - unfold PipeModel.dmatrices, highlevel_design. cbn [try_incr_builders]. change (formula_desc tokenize norm_text is_float s1) with (from_text is_float s1). rewrite H1. reflexivity.
Qed.

(** Space and newlines between the tokens of a formula do not change the matrices: the calls succeed for the same
    data and with the same results. *)
Theorem spacing_same_matrices : forall o1 o2 l s1 s2 d na rt,
  written blank_or_newline l s1 -> written blank_or_newline l s2 ->
  (forall m, dmatrix o1 (FStr s1) d na rt = Ok m <-> dmatrix o2 (FStr s2) d na rt = Ok m) /\
  (forall m, dmatrices o1 (FStr s1) d na rt = Ok m <-> dmatrices o2 (FStr s2) d na rt = Ok m).
Proof.
  intros o1 o2 l s1 s2 d na rt W1 W2.
  assert (H : (exists md, from_text is_float s1 = Ok md /\ from_text is_float s2 = Ok md) \/ ((exists x, from_text is_float s1 = Err x) /\ (exists x, from_text is_float s2 = Err x))).
  { destruct (from_text is_float s1) as [m|x] eqn:E1.
    - left. exists m. split; [reflexivity|]. now apply (formula_spacing is_float l s1 s2 m W1 W2).
    - right. split; [eauto|]. destruct (from_text is_float s2) as [m|y] eqn:E2; [|eauto].
      apply (formula_spacing is_float l s1 s2 m W1 W2) in E2. congruence. }
  destruct H as [[md [E1 E2]]|[[x E1] [y E2]]].
  - destruct (same_model_same_matrices o1 o2 s1 s2 md d na rt E1 E2) as [A [B _]]. split; intros m; now apply same_ok.
  - assert (F : forall o s z, from_text is_float s = Err z -> (forall m, dmatrix o (FStr s) d na rt <> Ok m) /\ (forall m, dmatrices o (FStr s) d na rt <> Ok m)).
    { intros o s z E. unfold PipeModel.dmatrix, PipeModel.dmatrices, highlevel_design. cbn [try_incr_builders]. change (formula_desc tokenize norm_text is_float s) with (from_text is_float s). rewrite E.
      destruct rt; [| |split; intros m; discriminate]; cbn [bind negb]; [split; intros m; discriminate|]. destruct have_pandas; split; intros m; discriminate. }
    destruct (F o1 s1 x E1) as [A1 B1], (F o2 s2 y E2) as [A2 B2]. split; intros m; split; intros K; exfalso; [apply (A1 m K)|apply (A2 m K)|apply (B1 m K)|apply (B2 m K)].
Qed.

(** The text that describe() gives for a formula makes the same matrices as the formula. *)
Theorem description_same_matrices : forall o1 o2 s it m d na rt,
  python_tokenize (formula_text s) = (it, None) -> neighbours_fit (map (fun t => (pt_type t, pt_string t)) it) = true ->
  from_text is_float s = Ok m ->
  same_result (dmatrix o1 (FStr s) d na rt) (dmatrix o2 (FStr (describe m)) d na rt) /\
  same_result (dmatrices o1 (FStr s) d na rt) (dmatrices o2 (FStr (describe m)) d na rt).
Proof.
  intros o1 o2 s it m d na rt Hi Hn Hm. pose proof (describe_text_reads_back is_float s it m Hi Hn Hm) as Hd.
  destruct (same_model_same_matrices o1 o2 s (describe m) m d na rt Hm Hd) as [A [B _]]. auto.
Qed.

(** The same holds in two steps: on any data, in any chunks, the designs are the same, and so are the matrices
    a design gives on any other data. *)
Theorem same_terms_same_designs : forall o1 o2 data na tls ds d na' w,
  same_result (builders o1 data na tls) (builders o2 data na tls) /\
  same_result (build o1 ds d na' w) (build o2 ds d na' w).
Proof.
  intros o1 o2 data na tls ds d na' w. split.
  - apply same_builders; [intros; apply same_tf_chunk|intros; apply same_refl|intros; apply same_tf_eval].
  - apply same_build. intros. apply same_tf_eval.
Qed.
End Theorems.
Print Assumptions same_model_same_matrices.
Print Assumptions spacing_same_matrices.
Print Assumptions description_same_matrices.
Print Assumptions same_terms_same_designs.

(** * Examples *)
Definition zmats (o : factor -> option origin) := dmatrices (I := nat) (C := unit) 1%Z Z.mul (Z.eqb (-99)) (fun n => n) Nat.eqb zpasses
  (tf_chunk py_lex zparse zlook znone zapply ztruth zcall zmethod zchunk ztransform ZFun ZNothing (@rev string) o) zffinish
  (tf_eval py_lex zparse zlook znone zapply ztruth zcall zmethod zchunk ztransform ZFun ZNothing o zobj) o zcm (fun l => Z.of_nat (List.length l)) (fun l => l) (fun _ l => l) (fun _ l => l)
  (fun _ => 0) (fun l => l) (fun _ => None) (fun z => z) 7%Z (fun s => python_tokenize (formula_text s)) norm_text (fun _ => false) true.
Definition z_a := "y ~ double(x) + center(x + center(y))".
Definition z_b := "y~double( x )+center(x+center(y))".
Example layout_ex :
  from_text (fun _ => false) z_a = Ok zdesc /\ from_text (fun _ => false) z_b = Ok zdesc /\
  describe zdesc = z_a /\
  (exists r, zmats zorigin (FStr z_a) zd (NAStr "drop") RMatrix = Ok r /\ zmats (fun _ => None) (FStr z_b) zd (NAStr "drop") RMatrix = Ok r /\ x_mat (snd r) = mkMat 3 [[1; 1; 1]; [2; 4; 12]; [-22; -11; 33]]%Z).
Proof. split; [vm_compute; reflexivity|]. split; [vm_compute; reflexivity|]. split; [vm_compute; reflexivity|]. eexists. split; [vm_compute; reflexivity|]. split; vm_compute; reflexivity. Qed.
(** The same error, at another place. *)
Example layout_ex_error :
  zmats zorigin (FStr z_a) [("x", [1]%Z)] (NAStr "drop") RMatrix = Err (PatsyError "Error evaluating factor" (zorigin "center(x + center(y))")) /\
  zmats (fun _ => None) (FStr z_b) [("x", [1]%Z)] (NAStr "drop") RMatrix = Err (PatsyError "Error evaluating factor" None).
Proof. split; vm_compute; reflexivity. Qed.
