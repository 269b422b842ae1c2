(** C82: the text of a factor and the values it gives. *)
From Coq Require Import ZArith Sorted Permutation.
From Verif Require Import Base OriginModel ParseFormulaModel TokensModel UtilModel EvalModel EvalSpec EvalTopProofs EvalMarkProofs EvalCaptureProofs PyLexModel PyLexSpec DescModel FormulaModel BuildModel BuildSpec MemorizeModel MemorizeSpec
  CategoricalModel CategoricalSpec PipeModel PipeSpec PipeProofs PipeHighProofs FitModel FitSpec FitProofs EntryModel EntrySpec CodeModel CodeSpec CodeTreeProofs CodeProofs CodeEvalProofs CodeTopProofs CodeEntryProofs.
Open Scope nat_scope.
Open Scope string_scope.
Open Scope list_scope.

Section Theorems.
(** Python's values, operators, transform objects and data are of any type, and Python's parser, its operations,
    the classes of stateful transforms and the environments are any functions. *)
Context {V I C val op St D : Type}.
Local Notation cx := (@cx op).
Variable parse : list ptok -> result cx.
Variable look : D -> @namespace val.
Variable pybuiltins : @namespace val.
Variable apply : op -> list val -> result val.
Variable truth : val -> result bool.
Variable call : val -> list (option ptok) -> list val -> result val.
Variable call_method : val -> string -> list (option ptok) -> list val -> result val.
Variable stateful : val -> bool.
Variable t_new : val -> St.
Variable t_chunk : val -> list (option ptok) -> St -> list val -> result St.
Variable t_finish : val -> St -> result St.
Variable t_transform : val -> list (option ptok) -> St -> list val -> result val.
Variable objval : string -> val.
Variable vnone : val.
Variable builtins : @namespace val.
Variable e : @env val.
(** Sets of objects are gone through in any order. *)
Variable bin_order : list string -> list string.
Hypothesis Hbin : forall l, Permutation (bin_order l) l.
Variable origin_of : factor -> option origin.
Variable as_obj : val -> @fobj V I C.
Local Notation meaning := (@meaning val op St D look pybuiltins apply truth call call_method stateful t_new t_chunk t_finish t_transform builtins e).
Local Notation python_value := (@python_value val op D look pybuiltins apply truth call call_method builtins e).
Local Notation tf_passes := (tf_passes py_lex parse stateful t_new builtins e).
Local Notation tf_chunk := (tf_chunk py_lex parse look pybuiltins apply truth call call_method t_chunk t_transform objval vnone bin_order origin_of).
Local Notation tf_finish := (tf_finish t_finish bin_order).
Local Notation tf_eval := (tf_eval py_lex parse look pybuiltins apply truth call call_method t_chunk t_transform objval vnone origin_of as_obj).
Local Notation text_reads := (text_reads stateful builtins e parse).
Local Notation no_object_columns := (no_object_columns look stateful builtins e).
Local Notation transforms_visible := (transforms_visible look stateful builtins e).
Local Notation factor_result f r := (match r with Ok v => Ok (as_obj v) | Err _ => Err (PatsyError "Error evaluating factor" (origin_of f)) end).

(** A factor, given as text, is trained by calling memorize_passes_needed, memorize_chunk and memorize_finish as
    often as it asks for, on any data in any number of chunks.  This works exactly if each of the stateful
    transforms called in the text can be fitted on its arguments.  Afterwards the factor's value on any data is
    that of the syntax tree, with each call of a transform replaced by what the transform fitted on all of the
    training data makes of the arguments.  [text_reads]: Python reads the text as this tree. *)
Theorem text_factor_value : forall (f : factor) t chunks, text_reads f t -> (forall d, In d chunks -> no_object_columns t d) ->
  ((exists s, trained tf_passes tf_chunk tf_finish (fun _ => chunks) f s) <->
   (forall o c args, In (o, (c, args)) (calls (meaning 0 t)) -> exists s, fitted_state chunks c args = Ok s)) /\
  (forall s, trained tf_passes tf_chunk tf_finish (fun _ => chunks) f s -> forall d, no_object_columns t d ->
   tf_eval f s d = factor_result f (fitted_value chunks (meaning 0 t) d)).
Proof.
  intros f t chunks Ht Hd.
  destruct (trained_text parse look pybuiltins apply truth call call_method stateful t_new t_chunk t_finish t_transform objval vnone builtins e as_obj bin_order Hbin origin_of f t chunks Ht Hd) as [_ H]. exact H.
Qed.

(** On the data it was trained on, if this is one chunk, the value is the one that Python computes from the same
    text, where a stateful transform is called like any function. *)
Theorem text_factor_python : forall (f : factor) t d s, transforms_direct call stateful t_new t_chunk t_finish t_transform ->
  text_reads f t -> no_object_columns t d -> transforms_visible t d ->
  trained tf_passes tf_chunk tf_finish (fun _ => [d]) f s -> tf_eval f s d = factor_result f (python_value d t).
Proof.
  intros f t d s Hdir Ht Hd Hv Hs.
  rewrite <- (trained_python parse look pybuiltins apply truth call call_method stateful t_new t_chunk t_finish t_transform objval vnone builtins e as_obj bin_order Hbin origin_of f t d s Hdir Ht Hd Hv Hs).
  apply (proj2 (text_factor_value f t [d] Ht (fun x H => match H with or_introl E => eq_rect d (no_object_columns t) Hd x E | or_intror F => False_ind _ F end)) s Hs d Hd).
Qed.

(** * Design matrices *)
Variables (vone : V) (vmul : V -> V -> V) (visnan : V -> bool) (ilabel : nat -> I) (ieqb : I -> I -> bool).
Hypothesis ieqb_eq : forall a b, ieqb a b = true <-> a = b.
Variable code_cm : list pval -> option C -> bool -> result (@ctr V).
Variable hash : list (bool * factor) -> Z.
Variable set_order : list factor -> list factor.
Variables order_mem order_exam : nat -> list factor -> list factor.
Variable addr : pval -> nat.
Variable hash_order : list pval -> list pval.
Variable df_index : D -> option (list I).
Hypothesis Hset : forall l, Permutation (set_order l) l.
Hypothesis Hmem : forall n l, Permutation (order_mem n l) l.
Hypothesis Hexam : forall n l, Permutation (order_exam n l) l.
(** pandas objects have as many labels as rows. *)
Hypothesis Hidx : indexed tf_eval.
(** The syntax trees of the factors. *)
Variable tree : factor -> cx.
Local Notation builders := (design_matrix_builders tf_passes tf_chunk tf_finish tf_eval origin_of code_cm hash set_order order_mem order_exam addr hash_order).
Local Notation build := (build vone vmul visnan ilabel ieqb tf_eval origin_of df_index).
Local Notation rows_used := (rows_used visnan origin_of addr hash_order).
Local Notation entries_are := (entries_are vone vmul origin_of addr hash_order code_cm).

(** design_matrix_builders and build_design_matrices on terms whose factors are given as text: each entry is the
    product of what the factors contribute to its row, and that follows from the value of the text with
    transforms fitted on all of the training data. *)
Theorem text_design_entries : forall (chunks : list D) na tls ds used d na' w ms labels,
  (forall f, In f (factors_of tls) -> text_reads f (tree f) /\ forall x, In x chunks \/ x = d -> no_object_columns (tree f) x) ->
  let value_is (f : factor) (g : D -> result (@fobj V I C)) := forall x, g x = factor_result f (fitted_value chunks (meaning 0 (tree f)) x) in
  builders (fun _ => chunks) na tls = Ok ds -> incl used ds ->
  (forall f v, In f (factors_in used) -> fitted_value chunks (meaning 0 (tree f)) d = Ok v -> proper_codes (o_value (as_obj v))) ->
  build used d na' w = Ok (ms, labels) ->
  exists act act' n ks, get_action na = Ok act /\ get_action na' = Ok act' /\
    rows_used value_is (na_what act) chunks (na_what act') d (df_index d) (factors_in used) n ks /\
    (na_on act' = NARaise -> ks = seq 0 n) /\
    Forall2 (fun x m => entries_are value_is (na_what act) chunks (na_what act') d ks (ds_info x) m) used ms.
Proof.
  intros chunks na tls ds used d na' w ms labels Ht value_is.
  apply (text_entries vone vmul visnan ilabel ieqb ieqb_eq parse look pybuiltins apply truth call call_method stateful t_new t_chunk t_finish t_transform objval vnone builtins e bin_order Hbin origin_of as_obj code_cm hash set_order order_mem order_exam addr hash_order df_index
    Hset Hmem Hexam Hidx tree chunks na tls ds used d na' w ms labels value_is Ht).
  - intros f g s Hf Hs Hg. eexists. split; [intros x; reflexivity|exact Hg].
  - intros f g s Hf Hs Hg x Hx. apply Hg.
Qed.

Variable upcast : V -> V.
Variable vobj : V.
Variable tokenize : string -> list pytok * option exn.
Variable norm : string -> string.
Variable is_float : string -> bool.
Variable have_pandas : bool.
Local Notation dmatrix := (dmatrix vone vmul visnan ilabel ieqb tf_passes tf_chunk tf_finish tf_eval origin_of code_cm hash set_order order_mem order_exam addr hash_order df_index upcast vobj tokenize norm is_float have_pandas).
Local Notation dmatrices := (dmatrices vone vmul visnan ilabel ieqb tf_passes tf_chunk tf_finish tf_eval origin_of code_cm hash set_order order_mem order_exam addr hash_order df_index upcast vobj tokenize norm is_float have_pandas).

Local Notation highlevel := (highlevel_design vone vmul visnan ilabel ieqb tf_passes tf_chunk tf_finish tf_eval origin_of code_cm hash set_order order_mem order_exam addr hash_order df_index upcast vobj tokenize norm is_float have_pandas).
(** A formula and data given to dmatrices, or to dmatrix: the entries follow from the values that Python computes
    from the text of the factors on this data. *)
Theorem formula_text_entries : forall formula md d na rt,
  formula_desc tokenize norm is_float formula = Ok md ->
  transforms_direct call stateful t_new t_chunk t_finish t_transform ->
  (forall f, In f (factors_of [lhs_termlist md; rhs_termlist md]) -> text_reads f (tree f) /\ no_object_columns (tree f) d /\ transforms_visible (tree f) d) ->
  (forall f v, In f (factors_of [lhs_termlist md; rhs_termlist md]) -> python_value d (tree f) = Ok v -> proper_codes (o_value (as_obj v))) ->
  let value_is (f : factor) (g : D -> result (@fobj V I C)) := g d = factor_result f (python_value d (tree f)) in
  (forall l r, dmatrices (FStr formula) d na rt = Ok (l, r) ->
   exists act n ks, get_action na = Ok act /\
    rows_used value_is (na_what act) [d] (na_what act) d (df_index d) (factors_in [x_design l; x_design r]) n ks /\
    (na_on act = NARaise -> ks = seq 0 n) /\
    entries_are value_is (na_what act) [d] (na_what act) d ks (ds_info (x_design l)) (x_mat l) /\
    entries_are value_is (na_what act) [d] (na_what act) d ks (ds_info (x_design r)) (x_mat r)) /\
  (forall r, lhs_termlist md = [] -> dmatrix (FStr formula) d na rt = Ok r ->
   exists act n ks, get_action na = Ok act /\
    rows_used value_is (na_what act) [d] (na_what act) d (df_index d) (factors_in [x_design r]) n ks /\
    (na_on act = NARaise -> ks = seq 0 n) /\
    entries_are value_is (na_what act) [d] (na_what act) d ks (ds_info (x_design r)) (x_mat r)).
Proof.
  intros formula md d na rt Hmd Hdir Ht Hp value_is.
  assert (H : forall l r, highlevel (FStr formula) d na rt = Ok (l, r) -> _)
    by exact (fun l r => highlevel_entries vone vmul visnan ilabel ieqb ieqb_eq parse look pybuiltins apply truth call call_method stateful t_new t_chunk t_finish t_transform objval vnone builtins e bin_order Hbin origin_of as_obj code_cm hash set_order order_mem order_exam addr hash_order df_index
      Hset Hmem Hexam Hidx tree upcast vobj tokenize norm is_float have_pandas formula md d na rt l r Hmd Hdir Ht Hp).
  split.
  - intros l r E. unfold PipeModel.dmatrices in E. destruct (highlevel (FStr formula) d na rt) as [[l' r']|] eqn:Eh; cbn [bind] in E; [|discriminate].
    destruct (Nat.eqb _ 0); [discriminate|]. injection E as <- <-. destruct (H l' r' eq_refl) as [act [n [ks [E1 [E2 [E3 [E4 [E5 _]]]]]]]]. exists act, n, ks. auto.
  - intros r Hl E. unfold PipeModel.dmatrix in E. destruct (highlevel (FStr formula) d na rt) as [[l' r']|] eqn:Eh; cbn [bind] in E; [|discriminate].
    destruct (Nat.eqb _ 0); [|discriminate]. injection E as <-. destruct (H l' r' eq_refl) as [act [n [ks [E1 [E2 [E3 [E4 [E5 E6]]]]]]]]. rewrite (E6 Hl) in E2. exists act, n, ks. auto.
Qed.
End Theorems.
Print Assumptions text_factor_value.
Print Assumptions text_factor_python.
Print Assumptions text_design_entries.
Print Assumptions formula_text_entries.

(** * Examples *)
(** Values are columns of numbers and functions; [center] is a stateful transform, [double] is not. *)
Inductive zval := ZCol (l : list Z) | ZFun (s : string) | ZNothing.
Definition zdata := list (string * list Z).
Definition zlook (d : zdata) (s : string) : option zval := option_map ZCol (dget String.eqb s d).
Definition znone : @namespace zval := fun _ => None.
Definition zbuiltins : @namespace zval := fun s => if String.eqb s "center" then Some (ZFun "center") else if String.eqb s "double" then Some (ZFun "double") else None.
Definition zapply (o : string) (l : list zval) : result zval :=
  match l with [ZCol a; ZCol b] => if String.eqb o "+" then Ok (ZCol (map (fun p => fst p + snd p)%Z (List.combine a b))) else Err (TypeError "") | _ => Err (TypeError "") end.
Definition ztruth (v : zval) : result bool := Err (ValueError "").
Definition zstateful (v : zval) : bool := match v with ZFun s => String.eqb s "center" | _ => false end.
Definition znew (v : zval) : Z * Z := (0, 0)%Z.
Definition zchunk (v : zval) (sh : list (option ptok)) (s : Z * Z) (l : list zval) : result (Z * Z) :=
  match l with [ZCol a] => Ok (fold_left (fun s x => (fst s + x, snd s + 1)%Z) a s) | _ => Err (TypeError "") end.
Definition zfinish (v : zval) (s : Z * Z) : result (Z * Z) := if Z.eqb (snd s) 0 then Err (ValueError "no data") else Ok (fst s / snd s, 1)%Z.
Definition ztransform (v : zval) (sh : list (option ptok)) (s : Z * Z) (l : list zval) : result zval :=
  match l with [ZCol a] => Ok (ZCol (map (fun x => x - fst s)%Z a)) | _ => Err (TypeError "") end.
Definition zcall (v : zval) (sh : list (option ptok)) (l : list zval) : result zval :=
  if zstateful v then direct_call (class_of znew zchunk zfinish ztransform v sh) l
  else match v, l with ZFun _, [ZCol a] => Ok (ZCol (map (Z.mul 2) a)) | _, _ => Err (TypeError "") end.
Definition zmethod (v : zval) (m : string) (sh : list (option ptok)) (l : list zval) : result zval := Err AttributeError.
Definition zobj (v : zval) : @fobj Z nat unit :=
  match v with
  | ZCol l => mkObj (Plain (DArray true 1 1)) 1 1 true (map (fun x => [x]) l) None
  | _ => mkObj (Plain (DSeq false [])) 0 0 false [] None
  end.
(** Trees, and a parser that knows what it needs to know about these. *)
Local Notation zcx := (@cx string).
Definition zt1 : zcx := CCall "center" [inr (CNode "+" [inr (CName "x"); inl (POTHER, "+"); inr (CCall "center" [inr (CName "y")])])].
Definition zt2 : zcx := CCall "double" [inr (CName "x")].
Definition zt3 : zcx := CName "y".
Definition ztrees : list zcx :=
  flat_map (fun t => t :: with_objects zstateful zbuiltins [] 0 t ::
      map (fun n => CMeth (obj_name (fst (snd n)) (fst (snd (snd n)))) "memorize_chunk" (parts_with_objects zstateful zbuiltins [] (S (fst (snd n))) (snd (snd (snd n))))) (nodes zstateful zbuiltins [] 0 0 t))
    [zt1; zt2; zt3].
Definition ztok_eqb (a b : ptok) : bool := (match fst a, fst b with PNAME, PNAME | PNUMBER, PNUMBER | PSTRING, PSTRING | POTHER, POTHER => true | _, _ => false end) && String.eqb (snd a) (snd b).
Fixpoint ztoks_eqb (a b : list ptok) : bool := match a, b with [], [] => true | x :: a, y :: b => ztok_eqb x y && ztoks_eqb a b | _, _ => false end.
Definition zparse (l : list ptok) : result zcx := match find (fun t => ztoks_eqb (toks_of t) l) ztrees with Some t => Ok t | None => Err (PatsyError "SyntaxError" None) end.
Definition ztree (f : factor) : zcx := if String.eqb f "center(x + center(y))" then zt1 else if String.eqb f "double(x)" then zt2 else zt3.
Definition zorigin (f : factor) := Some (mkOrigin f 0 1).
Definition zpasses := tf_passes py_lex zparse zstateful znew zbuiltins [].
Definition zfchunk := tf_chunk py_lex zparse zlook znone zapply ztruth zcall zmethod zchunk ztransform ZFun ZNothing (@rev string) zorigin.
Definition zffinish := tf_finish (val := zval) zfinish (@rev string).
Definition zfeval := tf_eval py_lex zparse zlook znone zapply ztruth zcall zmethod zchunk ztransform ZFun ZNothing zorigin zobj.
Example reads_ex : text_reads zstateful zbuiltins [] zparse "center(x + center(y))" zt1 /\ text_reads zstateful zbuiltins [] zparse "double(x)" zt2 /\ text_reads zstateful zbuiltins [] zparse "y" zt3.
Proof.
  assert (G : forall t : zcx, transform_calls (toks_of t) (is_transform zstateful zbuiltins [] (tree_names t))
    (calls_from zstateful (vlookup (new_vld (match env_subset (with_outer_namespace [] zbuiltins) (EvalTopProofs.visible zbuiltins [] (tree_names t)) with Ok e => e | Err _ => [] end))) 0 false (toks_of t))).
  { intros t. assert (E : exists e', env_subset (with_outer_namespace [] zbuiltins) (EvalTopProofs.visible zbuiltins [] (tree_names t)) = Ok e').
    { apply visible_env. }
    destruct E as [e' E]. rewrite E. now apply (calls_are_transform_calls zstateful zbuiltins [] (tree_names t) e'). }
  assert (K : forall t : zcx, places zstateful zbuiltins [] t = calls_from zstateful (vlookup (new_vld (match env_subset (with_outer_namespace [] zbuiltins) (EvalTopProofs.visible zbuiltins [] (tree_names t)) with Ok e => e | Err _ => [] end))) 0 false (toks_of t) ->
    transform_calls (toks_of t) (is_transform zstateful zbuiltins [] (tree_names t)) (places zstateful zbuiltins [] t)) by (intros t E; rewrite E; apply G).
  split; [|split]; (split; [vm_compute; reflexivity|split; [vm_compute; reflexivity|split; [split|]]]); try (apply K; vm_compute; reflexivity); try (vm_compute; reflexivity).
  - intros i k s parts H. vm_compute in H. destruct H as [H|[H|[]]]; injection H as <- <- <- <-; apply balanced_low; (split; [vm_compute; reflexivity|vm_compute; discriminate]).
  - intros i k s parts H. vm_compute in H. destruct H as [H|[H|[]]]; injection H as <- <- <- <-; vm_compute; reflexivity.
  - intros o H. vm_compute in H. destruct H as [<-|[<-|[]]]; vm_compute; intuition discriminate.
  - intros i k s parts H. destruct H.
  - intros i k s parts H. destruct H.
  - intros o [].
  - intros i k s parts H. destruct H.
  - intros i k s parts H. destruct H.
  - intros o [].
Qed.
Local Notation zmeaning := (meaning zlook znone zapply ztruth zcall zmethod zstateful znew zchunk zfinish ztransform zbuiltins []).
Definition zchunks : list zdata := [[("x", [1; 2]); ("y", [10; 20])]; [("y", [60]); ("x", [6])]]%Z.
Definition znew_data : zdata := [("x", [5]); ("y", [31])]%Z.
(** y - 30 is -20, -10, 30; x + (y - 30) is -19, -8, 36 with the mean 3. *)
Example text_ex : (exists s, trained zpasses zfchunk zffinish (fun _ => zchunks) "center(x + center(y))" s) /\
  forall s, trained zpasses zfchunk zffinish (fun _ => zchunks) "center(x + center(y))" s -> zfeval "center(x + center(y))" s znew_data = Ok (zobj (ZCol [3]%Z)).
Proof.
  destruct (text_factor_value zparse zlook znone zapply ztruth zcall zmethod zstateful znew zchunk zfinish ztransform ZFun ZNothing zbuiltins [] (@rev string) (fun l => Permutation_sym (Permutation_rev l)) zorigin zobj
    "center(x + center(y))" zt1 zchunks (proj1 reads_ex)) as [T1 T2].
  { intros d H o Ho. vm_compute in Ho. cbn in H. destruct H as [<-|[<-|[]]], Ho as [<-|[<-|[]]]; reflexivity. }
  split.
  - apply T1. intros o c args H. cbn in H. destruct H as [H|[H|[]]]; injection H as <- <- <-; eexists; vm_compute; reflexivity.
  - intros s Hs. unfold zfeval. rewrite (T2 s Hs); [vm_compute; reflexivity|]. intros o Ho. vm_compute in Ho. destruct Ho as [<-|[<-|[]]]; reflexivity.
Qed.
(** The whole way from a formula. *)
Definition zformula := "y ~ double(x) + center(x + center(y))".
Fixpoint zlayout (i : nat) (l : list (nat * (pytype * string))) : list pytok :=
  match l with [] => [] | (gap, (ty, s)) :: r => mkPyTok ty s (mkOrigin zformula (i + gap) (i + gap + String.length s)) :: zlayout (i + gap + String.length s) r end.
Definition ztokenize (s : string) : list pytok * option exn :=
  (zlayout 0 [(0, (PNAME, "y")); (1, (POTHER, "~")); (1, (PNAME, "double")); (0, (POTHER, "(")); (0, (PNAME, "x")); (0, (POTHER, ")")); (1, (POTHER, "+")); (1, (PNAME, "center")); (0, (POTHER, "("));
    (0, (PNAME, "x")); (1, (POTHER, "+")); (1, (PNAME, "center")); (0, (POTHER, "(")); (0, (PNAME, "y")); (0, (POTHER, ")")); (0, (POTHER, ")"))], None).
Definition zcm (levels : list pval) (c : option unit) (full : bool) : result (@ctr Z) := Err AssertionError.
Definition zmatrices := dmatrices (I := nat) (C := unit) 1%Z Z.mul (Z.eqb (-99)) (fun n => n) Nat.eqb zpasses zfchunk zffinish zfeval zorigin zcm (fun l => Z.of_nat (List.length l)) (fun l => l) (fun _ l => l) (fun _ l => l)
  (fun _ => 0) (fun l => l) (fun _ => None) (fun z => z) 7%Z ztokenize (fun s => s) (fun _ => false) true.
Definition zd : zdata := [("x", [1; 2; 6]); ("y", [10; 20; 60])]%Z.
Definition zdesc := mk_model_desc [["y"]] [[]; ["double(x)"]; ["center(x + center(y))"]].
Example formula_ex :
  formula_desc ztokenize (fun s => s) (fun _ => false) zformula = Ok zdesc /\
  match zmatrices (FStr zformula) zd (NAStr "drop") RMatrix with Ok (l, r) => Ok (column_names (ds_info (x_design l)), x_mat l, column_names (ds_info (x_design r)), x_mat r) | Err e => Err e end =
    Ok (["y"], mkMat 3 [[10; 20; 60]]%Z, ["Intercept"; "double(x)"; "center(x + center(y))"], mkMat 3 [[1; 1; 1]; [2; 4; 12]; [-22; -11; 33]]%Z) /\
  transforms_direct zcall zstateful znew zchunk zfinish ztransform /\ indexed zfeval /\
  (forall f, In f (factors_of [lhs_termlist zdesc; rhs_termlist zdesc]) ->
     text_reads zstateful zbuiltins [] zparse f (ztree f) /\ no_object_columns zlook zstateful zbuiltins [] (ztree f) zd /\ transforms_visible zlook zstateful zbuiltins [] (ztree f) zd) /\
  (forall f v, In f (factors_of [lhs_termlist zdesc; rhs_termlist zdesc]) -> python_value zlook znone zapply ztruth zcall zmethod zbuiltins [] zd (ztree f) = Ok v -> proper_codes (o_value (zobj v))) /\
  python_value zlook znone zapply ztruth zcall zmethod zbuiltins [] zd zt1 = Ok (ZCol [-22; -11; 33]%Z).
Proof.
  split; [vm_compute; reflexivity|]. split; [vm_compute; reflexivity|]. split; [intros v sh vs H; unfold zcall; now rewrite H|]. split; [|split; [|split]].
  - intros f [fs st] d o i. unfold zfeval, tf_eval. destruct (wrap_exc _ _ _) as [[l|s|]|]; cbn; [intros [= <-]; discriminate..|discriminate].
  - destruct reads_ex as [R1 [R2 R3]]. intros f Hf. cbn in Hf. destruct Hf as [<-|[<-|[<-|[]]]].
    + split; [exact R3|]. split; [intros o []|]. intros s Hs. vm_compute in Hs. destruct Hs as [<-|[]]. intros H. elim H. reflexivity.
    + split; [exact R2|]. split; [intros o []|]. intros s Hs. vm_compute in Hs. destruct Hs as [<-|[<-|[]]]; intros H; elim H; reflexivity.
    + split; [exact R1|]. split; [intros o Ho; vm_compute in Ho; destruct Ho as [<-|[<-|[]]]; reflexivity|]. intros s Hs. vm_compute in Hs. destruct Hs as [<-|[<-|[<-|[<-|[]]]]]; intros H; try reflexivity; elim H; reflexivity.
  - intros f v _ _. destruct v; exact Logic.I.
  - vm_compute. reflexivity.
Qed.

(** * A limit: variables in the data named like transforms *)
(** A variable in the data hides an ordinary function of the same name, and a stateful transform of this name
    where the name is mentioned; but it does not hide it where it is called.  So Python's value of [center(y)] is
    an error if the data has a column [center] (a column can not be called), while patsy centers [y]. *)
Theorem hidden_transforms_refuted : exists (val op St D : Type) (parse : list ptok -> result (@cx op)) (look : D -> @namespace val) pybuiltins apply truth call call_method stateful
    (t_new : val -> St) t_chunk t_finish t_transform objval vnone builtins e (bin_order : list string -> list string) origin_of (as_obj : val -> @fobj Z nat unit) (f : factor) t d v s,
  let trained := trained (tf_passes py_lex parse stateful t_new builtins e) (tf_chunk py_lex parse look pybuiltins apply truth call call_method t_chunk t_transform objval vnone bin_order origin_of) (tf_finish t_finish bin_order) in
  let eval := tf_eval py_lex parse look pybuiltins apply truth call call_method t_chunk t_transform objval vnone origin_of as_obj in
  (forall l, Permutation (bin_order l) l) /\ transforms_direct call stateful t_new t_chunk t_finish t_transform /\
  text_reads stateful builtins e parse f t /\ no_object_columns look stateful builtins e t d /\
  trained (fun _ => [d]) f s /\ eval f s d = Ok (as_obj v) /\
  python_value look pybuiltins apply truth call call_method builtins e d t = Err (TypeError "").
Proof.
  pose (d := [("x", [1; 2; 6]); ("y", [10; 20; 60]); ("center", [7; 7; 7])]%Z : zdata).
  assert (Hd : no_object_columns zlook zstateful zbuiltins [] zt1 d) by (intros o Ho; vm_compute in Ho; destruct Ho as [<-|[<-|[]]]; reflexivity).
  destruct (text_factor_value zparse zlook znone zapply ztruth zcall zmethod zstateful znew zchunk zfinish ztransform ZFun ZNothing zbuiltins [] (@rev string) (fun l => Permutation_sym (Permutation_rev l)) zorigin zobj
    "center(x + center(y))" zt1 [d] (proj1 reads_ex)) as [T1 T2]; [intros x [<-|[]]; exact Hd|].
  assert (T : exists s, trained zpasses zfchunk zffinish (fun _ => [d]) "center(x + center(y))" s).
  { apply T1. intros o c args H. cbn in H. destruct H as [H|[H|[]]]; injection H as <- <- <-; eexists; vm_compute; reflexivity. }
  destruct T as [s Hs].
  exists zval, string, (Z * Z)%type, zdata, zparse, zlook, znone, zapply, ztruth, zcall, zmethod, zstateful, znew, zchunk, zfinish, ztransform, ZFun, ZNothing, zbuiltins, [], (@rev string), zorigin, zobj, "center(x + center(y))", zt1, d, (ZCol [-22; -11; 33]%Z), s.
  split; [intros l; apply Permutation_sym, Permutation_rev|]. split; [intros v sh vs H; unfold zcall; now rewrite H|]. split; [apply reads_ex|]. split; [exact Hd|]. split; [exact Hs|].
  split; [cbn zeta; rewrite (T2 s Hs d Hd); vm_compute; reflexivity|vm_compute; reflexivity].
Qed.
Print Assumptions hidden_transforms_refuted.
