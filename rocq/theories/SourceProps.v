(** C104: only the variables that a formula mentions matter, in the data and in the environment, and not what they
    are kept in. *)
From Coq Require Import ZArith Permutation.
From Verif Require Import Base OriginModel ParseFormulaModel TokensModel UtilModel EvalModel EvalSpec PyLexModel PyLexSpec DescModel FormulaModel BuildModel BuildSpec MemorizeModel MemorizeSpec
  CategoricalModel CategoricalSpec PipeModel PipeSpec FitModel FitSpec CodeModel CodeSpec CodeProps SourceSpec SourceProofs SourceTextProofs SourceEnvProofs.
Open Scope nat_scope.
Open Scope string_scope.
Open Scope list_scope.

Section Theorems.
(** Values, operators, transform objects are of any type, and there are two types of data, such as dicts and
    DataFrames, and two environments.  Python's parser, its operations, the stateful transforms and the
    environments are any functions. *)
Context {V I C val op St D1 D2 : Type}.
Variable parse : list ptok -> result (@cx op).
Variable look1 : D1 -> @namespace val.
Variable look2 : D2 -> @namespace val.
Variable pybuiltins : @namespace val.
Variable apply : op -> list val -> result val.
Variable truth : val -> result bool.
Variable call : val -> list (option ptok) -> list val -> result val.
Variable call_method : val -> string -> list (option ptok) -> list val -> result val.
Variable stateful : val -> bool.
Variable t_new : val -> St.
Variable t_chunk : val -> list (option ptok) -> St -> list val -> result St.
Variable t_finish : val -> St -> result St.
Variable t_transform : val -> list (option ptok) -> St -> list val -> result val.
Variable objval : string -> val.
Variable vnone : val.
Variable builtins : @namespace val.
Variables e e' : @env val.
Variable bin_order : list string -> list string.
Hypothesis Hbin : forall l, Permutation (bin_order l) l.
Variable origin_of : factor -> option origin.
Variable as_obj : val -> @fobj V I C.
Variables (vone : V) (vmul : V -> V -> V) (visnan : V -> bool) (ilabel : nat -> I) (ieqb : I -> I -> bool).
Variable code_cm : list pval -> option C -> bool -> result (@ctr V).
Variable hash : list (bool * factor) -> Z.
Variable set_order : list factor -> list factor.
Variables order_mem order_exam : nat -> list factor -> list factor.
Variable addr : pval -> nat.
Variable hash_order : list pval -> list pval.
Hypothesis Hset : forall l, Permutation (set_order l) l.
Hypothesis Hmem : forall n l, Permutation (order_mem n l) l.
Hypothesis Hexam : forall n l, Permutation (order_exam n l) l.
Variable df1 : D1 -> option (list I).
Variable df2 : D2 -> option (list I).
(** The syntax trees of the factors. *)
Variable tree : factor -> @cx op.
Local Notation passes := (tf_passes py_lex parse stateful t_new builtins e).
Local Notation passes' := (tf_passes py_lex parse stateful t_new builtins e').
Local Notation finish := (tf_finish (val := val) t_finish bin_order).
Local Notation chunk1 := (tf_chunk py_lex parse look1 pybuiltins apply truth call call_method t_chunk t_transform objval vnone bin_order origin_of).
Local Notation chunk2 := (tf_chunk py_lex parse look2 pybuiltins apply truth call call_method t_chunk t_transform objval vnone bin_order origin_of).
Local Notation eval1 := (tf_eval py_lex parse look1 pybuiltins apply truth call call_method t_chunk t_transform objval vnone origin_of as_obj).
Local Notation eval2 := (tf_eval py_lex parse look2 pybuiltins apply truth call call_method t_chunk t_transform objval vnone origin_of as_obj).
Local Notation builders1 := (design_matrix_builders passes chunk1 finish eval1 origin_of code_cm hash set_order order_mem order_exam addr hash_order).
Local Notation builders2 := (design_matrix_builders passes' chunk2 finish eval2 origin_of code_cm hash set_order order_mem order_exam addr hash_order).
Local Notation build1 := (build vone vmul visnan ilabel ieqb eval1 origin_of df1).
Local Notation build2 := (build vone vmul visnan ilabel ieqb eval2 origin_of df2).
Local Notation text_reads := (text_reads stateful builtins e parse).
Local Notation same := (same_variables look1 look2 pybuiltins stateful builtins e tree).
Local Notation same_env := (same_environment builtins e tree e').

Lemma same_is fs d1 d2 : (forall f, In f fs -> text_reads f (tree f)) -> same fs d1 d2 -> same_for chunk1 chunk2 eval1 eval2 (own parse stateful builtins e) fs d1 d2.
Proof.
  intros Hr [H1 H2 H3] f s Hf Hs. apply (text_same parse look1 look2 pybuiltins apply truth call call_method stateful t_new t_chunk t_finish t_transform objval vnone builtins e bin_order Hbin origin_of as_obj f (tree f) d1 d2 (Hr f Hf)); auto.
  intros z Hz. now apply (H1 f).
Qed.

Lemma same_passes fs : (forall f, In f fs -> text_reads f (tree f)) -> same_env fs -> forall f, In f fs -> passes f = passes' f.
Proof.
  intros Hr He f Hf. destruct (Hr f Hf) as [Hlex [_ [R _]]]. apply (env_passes parse stateful t_new builtins e e' f (tree_names (tree f))); [|intros s Hs; now apply (He f)].
  unfold text_names. rewrite Hlex. cbn [bind]. now rewrite (rd_code _ _ _ _ _ R).
Qed.

(** design_matrix_builders on chunks of data, and build_design_matrices with any of the designs on more data: if
    the names that are mentioned in the factors stand for the same values with the chunks of one kind and with those
    of the other (in the data, or else in the environment), and in both environments, then the same designs, matrices, labels and exceptions follow. *)
Theorem only_mentioned_variables : forall data1 data2 na tls,
  (forall f, In f (factors_of tls) -> text_reads f (tree f)) ->
  (forall n, Forall2 (same (factors_of tls)) (data1 n) (data2 n)) -> same_env (factors_of tls) ->
  builders1 data1 na tls = builders2 data2 na tls /\
  forall ds used d1 d2 na' want, builders1 data1 na tls = Ok ds -> incl used ds -> same (factors_of tls) d1 d2 -> df1 d1 = df2 d2 ->
    build1 used d1 na' want = build2 used d2 na' want.
Proof.
  intros data1 data2 na tls Hr Hd He. split.
  - rewrite <- (passes_builders passes passes' chunk2 finish eval2 origin_of code_cm hash set_order order_mem order_exam addr hash_order Hset data2 na tls (same_passes _ Hr He)).
    eapply both_builders with (G := own parse stateful builtins e) (chunk1 := chunk1) (chunk2 := chunk2) (finish := finish) (passes := passes); [exact Hset|exact Hmem|exact Hexam|apply own_new|apply own_chunk|apply own_finish|].
    intros n. specialize (Hd n). induction Hd as [|d1 d2 l1 l2 H Hd IH]; constructor; [now apply same_is|exact IH].
  - intros ds used d1 d2 na' want Hb Hu Hs Hdf. eapply both_build with (G := own parse stateful builtins e) (chunk1 := chunk1) (chunk2 := chunk2) (finish := finish) (passes := passes); [exact Hset|exact Hmem|exact Hexam|apply own_new|apply own_chunk|apply own_finish|exact Hb|exact Hu| |exact Hdf]. now apply same_is.
Qed.

Variable upcast : V -> V.
Variable vobj : V.
Variable tokenize : string -> list pytok * option exn.
Variable norm : string -> string.
Variable is_float : string -> bool.
Variable have_pandas : bool.
Local Notation dmatrix1 := (dmatrix vone vmul visnan ilabel ieqb passes chunk1 finish eval1 origin_of code_cm hash set_order order_mem order_exam addr hash_order df1 upcast vobj tokenize norm is_float have_pandas).
Local Notation dmatrix2 := (dmatrix vone vmul visnan ilabel ieqb passes' chunk2 finish eval2 origin_of code_cm hash set_order order_mem order_exam addr hash_order df2 upcast vobj tokenize norm is_float have_pandas).
Local Notation dmatrices1 := (dmatrices vone vmul visnan ilabel ieqb passes chunk1 finish eval1 origin_of code_cm hash set_order order_mem order_exam addr hash_order df1 upcast vobj tokenize norm is_float have_pandas).
Local Notation dmatrices2 := (dmatrices vone vmul visnan ilabel ieqb passes' chunk2 finish eval2 origin_of code_cm hash set_order order_mem order_exam addr hash_order df2 upcast vobj tokenize norm is_float have_pandas).
(** dmatrix and dmatrices: the same matrices, or the same exception. *)
Theorem only_mentioned_variables_formula : forall formula d1 d2 na rt,
  (forall md, formula_desc tokenize norm is_float formula = Ok md -> same (factors_of [lhs_termlist md; rhs_termlist md]) d1 d2 /\ same_env (factors_of [lhs_termlist md; rhs_termlist md]) /\
     forall f, In f (factors_of [lhs_termlist md; rhs_termlist md]) -> text_reads f (tree f)) ->
  df1 d1 = df2 d2 ->
  dmatrix1 (FStr formula) d1 na rt = dmatrix2 (FStr formula) d2 na rt /\ dmatrices1 (FStr formula) d1 na rt = dmatrices2 (FStr formula) d2 na rt.
Proof.
  intros formula d1 d2 na rt H Hdf. unfold dmatrix, dmatrices.
  rewrite <- (passes_highlevel vone vmul visnan ilabel ieqb passes passes' chunk2 finish eval2 origin_of code_cm hash set_order order_mem order_exam addr hash_order Hset df2 upcast vobj tokenize norm is_float have_pandas formula d2 na rt)
    by (intros md E; destruct (H md E) as [_ [He Hr]]; now apply same_passes).
  erewrite (both_highlevel) with (G := own parse stateful builtins e) (chunk1 := chunk1) (chunk2 := chunk2) (finish := finish) (passes := passes); [split; reflexivity|exact Hset|exact Hmem|exact Hexam|apply own_new|apply own_chunk|apply own_finish| |exact Hdf].
  intros md E. destruct (H md E) as [Hs [_ Hr]]. now apply same_is.
Qed.
End Theorems.
Print Assumptions only_mentioned_variables.
Print Assumptions only_mentioned_variables_formula.

(** * Examples *)
(** One kind of data is a dict of columns, the other a list of rows with their own order of the variables. *)
Definition records := (list string * list (list Z))%type.
Fixpoint position (s : string) (l : list string) : option nat := match l with [] => None | x :: r => if String.eqb s x then Some 0 else option_map S (position s r) end.
Definition rlook (d : records) (s : string) : option zval := option_map (fun i => ZCol (map (fun row => nth i row 0%Z) (snd d))) (position s (fst d)).
Definition rchunk := tf_chunk py_lex zparse rlook znone zapply ztruth zcall zmethod zchunk ztransform ZFun ZNothing (@rev string) zorigin.
Definition reval := tf_eval py_lex zparse rlook znone zapply ztruth zcall zmethod zchunk ztransform ZFun ZNothing zorigin zobj.
(** The environment has a name that the formula does not mention, too. *)
Definition renv : @env zval := [fun s => if String.eqb s "z" then Some ZNothing else None].
Definition rpasses := tf_passes py_lex zparse zstateful znew zbuiltins renv.
Definition rmatrices := dmatrices (I := nat) (C := unit) 1%Z Z.mul (Z.eqb (-99)) (fun n => n) Nat.eqb rpasses rchunk zffinish reval zorigin zcm (fun l => Z.of_nat (List.length l)) (fun l => l) (fun _ l => l) (fun _ l => l)
  (fun _ => 0) (fun l => l) (fun _ => None) (fun z => z) 7%Z ztokenize (fun s => s) (fun _ => false) true.
(** The records have a variable [w] that the formula does not mention. *)
Definition rd : records := (["y"; "w"; "x"], [[10; 0; 1]; [20; 0; 2]; [60; -99; 6]])%Z.
Definition rsame := same_variables zlook rlook znone zstateful zbuiltins [] ztree.
Example source_hyps : rsame (factors_of [lhs_termlist zdesc; rhs_termlist zdesc]) zd rd /\ same_environment zbuiltins [] ztree renv (factors_of [lhs_termlist zdesc; rhs_termlist zdesc]) /\ zlook zd "w" = None /\ rlook rd "w" = Some (ZCol [0; 0; -99]%Z).
Proof.
  split; [|split; [|split; reflexivity]].
  2: { intros f s Hf Hs. cbn in Hf. destruct Hf as [<-|[<-|[<-|[]]]]; vm_compute in Hs; repeat (destruct Hs as [<-|Hs]; [vm_compute; reflexivity|]); destruct Hs. }
  split.
  - intros f s Hf Hs. cbn in Hf. destruct Hf as [<-|[<-|[<-|[]]]]; vm_compute in Hs; repeat (destruct Hs as [<-|Hs]; [vm_compute; reflexivity|]); destruct Hs.
  - intros f Hf o Ho. cbn in Hf. destruct Hf as [<-|[<-|[<-|[]]]]; vm_compute in Ho; repeat (destruct Ho as [<-|Ho]; [vm_compute; reflexivity|]); destruct Ho.
  - intros f Hf o Ho. cbn in Hf. destruct Hf as [<-|[<-|[<-|[]]]]; vm_compute in Ho; repeat (destruct Ho as [<-|Ho]; [vm_compute; reflexivity|]); destruct Ho.
Qed.
Lemma zreads f : In f (factors_of [lhs_termlist zdesc; rhs_termlist zdesc]) -> text_reads zstateful zbuiltins [] zparse f (ztree f).
Proof. destruct reads_ex as [R1 [R2 R3]]. intros Hf. cbn in Hf. destruct Hf as [<-|[<-|[<-|[]]]]; assumption. Qed.
Example source_ex na : zmatrices (FStr zformula) zd na RMatrix = rmatrices (FStr zformula) rd na RMatrix /\
  match rmatrices (FStr zformula) rd (NAStr "drop") RMatrix with Ok (l, r) => Ok (x_mat l, x_mat r) | Err e => Err e end = Ok (mkMat 3 [[10; 20; 60]]%Z, mkMat 3 [[1; 1; 1]; [2; 4; 12]; [-22; -11; 33]]%Z).
Proof.
  split; [|vm_compute; reflexivity].
  apply (only_mentioned_variables_formula zparse zlook rlook znone zapply ztruth zcall zmethod zstateful znew zchunk zfinish ztransform ZFun ZNothing zbuiltins [] renv (@rev string) (fun l => Permutation_sym (Permutation_rev l)) zorigin zobj
    1%Z Z.mul (Z.eqb (-99)) (fun n => n) Nat.eqb zcm (fun l => Z.of_nat (List.length l)) (fun l => l) (fun _ l => l) (fun _ l => l) (fun _ => 0) (fun l => l) (fun l => Permutation_refl l) (fun _ l => Permutation_refl l) (fun _ l => Permutation_refl l)
    (fun _ => None) (fun _ => None) ztree (fun z => z) 7%Z ztokenize (fun s => s) (fun _ => false) true zformula zd rd na RMatrix); [|reflexivity].
  intros md E. assert (E' : formula_desc ztokenize (fun s => s) (fun _ => false) zformula = Ok zdesc) by (vm_compute; reflexivity). rewrite E' in E. injection E as <-. split; [apply source_hyps|split; [apply source_hyps|exact zreads]].
Qed.
(** The environment has the variables of [zd]; with that, [x] and [y] in the data make no difference. *)
Definition venv : @env zval := [fun s => zlook zd s].
Definition vmatrices := dmatrices (I := nat) (C := unit) 1%Z Z.mul (Z.eqb (-99)) (fun n => n) Nat.eqb (tf_passes py_lex zparse zstateful znew zbuiltins venv) zfchunk zffinish zfeval zorigin zcm (fun l => Z.of_nat (List.length l)) (fun l => l) (fun _ l => l) (fun _ l => l)
  (fun _ => 0) (fun l => l) (fun _ => None) (fun z => z) 7%Z ztokenize (fun s => s) (fun _ => false) true.
Definition zonly : zdata := [("x", [1; 2; 6])]%Z.
Example source_moved_hyps : same_variables zlook zlook znone zstateful zbuiltins venv ztree (factors_of [lhs_termlist zdesc; rhs_termlist zdesc]) zonly zd /\ zlook zonly "y" = None.
Proof.
  split; [|reflexivity]. split; [intros f s Hf Hs|intros f Hf o Hs|intros f Hf o Hs];
    cbn in Hf; destruct Hf as [<-|[<-|[<-|[]]]]; vm_compute in Hs; repeat (destruct Hs as [<-|Hs]; [vm_compute; reflexivity|]); destruct Hs.
Qed.
Example source_moved_ex : exists l r, vmatrices (FStr zformula) zonly (NAStr "drop") RMatrix = Ok (l, r) /\ vmatrices (FStr zformula) zd (NAStr "drop") RMatrix = Ok (l, r) /\ m_cols (x_mat l) = [[10; 20; 60]]%Z.
Proof. do 2 eexists. split; [vm_compute; reflexivity|]. split; vm_compute; reflexivity. Qed.
(** In chunks: the designs are the same, and so are the matrices built from them on new data. *)
Definition rchunks : list records := [(["x"; "y"], [[1; 10]; [2; 20]]); (["w"; "x"; "y"], [[0; 6; 60]])]%Z.
Example source_chunks_hyps : Forall2 (rsame (factors_of [rhs_termlist zdesc])) zchunks rchunks.
Proof.
  constructor; [|constructor; [|constructor]]; (split; [intros f s Hf Hs|intros f Hf o Hs|intros f Hf o Hs]);
    cbn in Hf; destruct Hf as [<-|[<-|[]]]; vm_compute in Hs; repeat (destruct Hs as [<-|Hs]; [vm_compute; reflexivity|]); destruct Hs.
Qed.
(** The variable that is read instead of a transform object: its name is mentioned nowhere, but data that has it
    gives another result.  (eval.py:580-588: the data is looked up before the objects.) *)
Definition zclash : zdata := ("_patsy_stobj0__center__", [0; 0; 0])%Z :: zd.
Theorem unmentioned_variable_refuted : exists (d d' : zdata) (f : factor),
  text_reads zstateful zbuiltins [] zparse f (ztree f) /\
  (forall s, In s (tree_names (ztree f)) -> zlook d s = zlook d' s) /\
  (exists s, trained zpasses zfchunk zffinish (fun _ => [d]) f s) /\ ~ (exists s, trained zpasses zfchunk zffinish (fun _ => [d']) f s).
Proof.
  exists zd, zclash, "center(x + center(y))". split; [exact (proj1 reads_ex)|]. split; [|split].
  - intros s Hs. vm_compute in Hs. repeat (destruct Hs as [<-|Hs]; [vm_compute; reflexivity|]); destruct Hs.
  - eexists. unfold trained. do 2 eexists. split; [vm_compute; reflexivity|]. vm_compute. reflexivity.
  - intros [s [s0 [k [E1 E2]]]]. vm_compute in E1. injection E1 as <- <-. vm_compute in E2. discriminate E2.
Qed.
Print Assumptions unmentioned_variable_refuted.
