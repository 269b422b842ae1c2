(** C86: LookupFactor. *)
From Coq Require Import ZArith Permutation Sorted.
From Verif Require Import Base UtilModel DescModel BuildModel BuildSpec CategoricalModel CategoricalSpec PipeModel PipeSpec EntrySpec EntryProofs EntryProps LookupModel.
Open Scope string_scope.
Open Scope list_scope.
Open Scope nat_scope.

(** C86.  The constructor refuses a contrast or levels without force_categorical, and nothing else. *)
Theorem lookup_arguments : forall (C : Type) name force (contrast : option C) levels org,
  match lookup_init name force contrast levels org with
  | Ok f => f = mkLookup name force contrast levels org /\ lookup_name f = name /\ (force = true \/ contrast = None /\ levels = None)
  | Err e => (exists m, e = ValueError m) /\ force = false /\ (contrast <> None \/ levels <> None)
  end.
Proof.
  intros C name [] [c|] [l|] org; cbn; (split; [eauto|auto 6]); try (split; [reflexivity|]; (left + right); discriminate).
Qed.
Print Assumptions lookup_arguments.

Section Entries.
Context {V I C val : Type}.
Variable as_obj : val -> @fobj V I C.
Notation data_t := (@lookup_data val).
(** What stands for the factor in the data: the variable of its name, made categorical if asked for. *)
Inductive variable_of (f : @lookup_factor C) (d : data_t) : result (@fobj V I C) -> Prop :=
| vo_plain v : lk_force f = false -> dget String.eqb (lk_varname f) d = Some v -> variable_of f d (Ok (as_obj v))
| vo_boxed v o o' : lk_force f = true -> dget String.eqb (lk_varname f) d = Some v -> o = as_obj v -> o_value o' = C_box (o_value o) (lk_contrast f) (lk_levels f) ->
    o_rows o' = o_rows o -> o_ndim o' = o_ndim o -> o_ncols o' = o_ncols o -> o_isnum o' = o_isnum o -> o_index o' = o_index o -> variable_of f d (Ok o')
| vo_missing : dget String.eqb (lk_varname f) d = None -> variable_of f d (Err KeyError).

Lemma eval_variable f s d r : lookup_eval as_obj f s d = r <-> variable_of f d r.
Proof.
  unfold lookup_eval. split.
  - intros <-. destruct (dget String.eqb (lk_varname f) d) as [o|] eqn:E; [|now constructor]. destruct (lk_force f) eqn:Ef; [|now constructor]. now apply (vo_boxed f d o (as_obj o)).
  - intros H. destruct H as [v F E|v o [x n c b r i] F E Eo H1 H2 H3 H4 H5 H6|E]; rewrite E; try rewrite F; try reflexivity. cbn in *. subst. reflexivity.
Qed.
Lemma trained_any (tbl : factor -> @lookup_factor C) (data : nat -> list data_t) f s :
  trained (fun f => lookup_passes (tbl f)) (fun f => lookup_chunk (tbl f)) (fun f => lookup_finish (tbl f)) data f s.
Proof. exists tt, 0%Z. destruct s. split; reflexivity. Qed.
End Entries.

(** C86.  Models whose factors are LookupFactors: the entries of their matrices are the products of what the
    variables contribute, for old and new data; nothing is learned from the data except levels. *)
Theorem lookup_entries : forall {V I C val : Type} (vone : V) (vmul : V -> V -> V) (visnan : V -> bool) (ilabel : nat -> I) (ieqb : I -> I -> bool)
  (as_obj : val -> @fobj V I C) (tbl : factor -> @lookup_factor C) (code_cm : list pval -> option C -> bool -> result (@ctr V)) (hash : list (bool * factor) -> Z)
  (set_order : list factor -> list factor) (order_mem order_exam : nat -> list factor -> list factor) (addr : pval -> nat) (hash_order : list pval -> list pval) (df_index : @lookup_data val -> option (list I)),
  (forall a b, ieqb a b = true <-> a = b) ->
  (forall l, Permutation (set_order l) l) -> (forall n l, Permutation (order_mem n l) l) -> (forall n l, Permutation (order_exam n l) l) ->
  let origin_of f := lk_origin (tbl f) in
  let eval f := lookup_eval as_obj (tbl f) in
  indexed eval ->
  forall (data : nat -> list (@lookup_data val)) na tls ds used d na' w ms labels,
  let value_is f g := forall d, variable_of as_obj (tbl f) d (g d) in
  design_matrix_builders (fun f => lookup_passes (tbl f)) (fun f => lookup_chunk (tbl f)) (fun f => lookup_finish (tbl f)) eval origin_of code_cm hash set_order order_mem order_exam addr hash_order data na tls = Ok ds ->
  incl used ds ->
  (forall f o, In f (factors_in used) -> variable_of as_obj (tbl f) d (Ok o) -> proper_codes (o_value o)) ->
  build vone vmul visnan ilabel ieqb eval origin_of df_index used d na' w = Ok (ms, labels) ->
  exists act act' n ks, get_action na = Ok act /\ get_action na' = Ok act' /\
    rows_used visnan origin_of addr hash_order value_is (na_what act) (data 0) (na_what act') d (df_index d) (factors_in used) n ks /\
    (na_on act' = NARaise -> ks = seq 0 n) /\
    Forall2 (fun x m => entries_are vone vmul origin_of addr hash_order code_cm value_is (na_what act) (data 0) (na_what act') d ks (ds_info x) m) used ms.
Proof.
  intros V I C val vone vmul visnan ilabel ieqb as_obj tbl code_cm hash set_order order_mem order_exam addr hash_order df_index Hi Hs Hm He origin_of eval Hx data na tls ds used d na' w ms labels value_is Hb Hu Hp Hr.
  assert (X : exam_chunks (fun f => lookup_passes (tbl f)) data (factors_of tls) = data 0).
  { unfold exam_chunks. f_equal. induction (factors_of tls) as [|f l IH]; [reflexivity|]. cbn [map list_max fold_right]. unfold list_max in IH. rewrite IH. reflexivity. }
  rewrite <- X.
  refine (entries_lemma vone vmul visnan ilabel ieqb Hi _ _ _ eval origin_of code_cm hash set_order order_mem order_exam addr hash_order df_index Hs Hm He Hx value_is _ data tls _ na used ds d na' w ms labels Hb Hu _ Hr).
  - intros f g g' E E' x. specialize (E x). specialize (E' x). apply (eval_variable as_obj _ tt) in E. apply (eval_variable as_obj _ tt) in E'. congruence.
  - intros f s _ _ x. now apply (eval_variable as_obj _ s).
  - intros f s o Hf _ _ Eo. apply (Hp f o Hf). now apply (eval_variable as_obj _ s).
Qed.
Print Assumptions lookup_entries.

(** C86.  With force_categorical the factor is categorical, whatever the data; if levels are given, it has these
    levels in this order and the given contrast (unless the data brings its own contrast: the factor's counts). *)
Theorem lookup_forced : forall {V I C val : Type} (as_obj : val -> @fobj V I C) (tbl : factor -> @lookup_factor C) origin_of addr hash_order na exam na' (d : @lookup_data val) f lv c v,
  lk_force (tbl f) = true ->
  factor_value origin_of addr hash_order (fun f g => forall d, variable_of as_obj (tbl f) d (g d)) na exam na' d f lv c v ->
  (exists codes, v = VCat codes) /\
  (forall levels, lk_levels (tbl f) = Some levels -> lv = levels /\ forall k, lk_contrast (tbl f) = Some k -> c = Some k).
Proof.
  intros V I C val as_obj tbl origin_of addr hash_order na exam na' d f lv c v Hf H.
  assert (B : forall (g : @lookup_data val -> result (@fobj V I C)) (d : lookup_data) o, (forall d, variable_of as_obj (tbl f) d (g d)) -> g d = Ok o -> exists x c l, o_value o = Boxed x c l /\
    (forall levels, lk_levels (tbl f) = Some levels -> l = Some levels) /\ forall k, lk_contrast (tbl f) = Some k -> c = Some k).
  { intros g d0 o Hg E. specialize (Hg d0). rewrite E in Hg. inversion Hg as [v1 F|v1 o1 o2 _ _ _ Ev|]; subst; [congruence|]. rewrite Ev. destruct (o_value o1) as [x c1 l1|x]; cbn.
    - do 3 eexists. split; [reflexivity|]. split; intros z ->; reflexivity.
    - do 3 eexists. split; [reflexivity|]. auto. }
  inversion H as [g n o Hg T Eo|g sn levels c' o codes Hg T El Eo Hc]; subst.
  - exfalso. unfold type_of in T. destruct exam as [|d0 exam]; [discriminate|]. unfold as_value in T at 1. destruct (g d0) as [o0|] eqn:E0; [|discriminate]. cbn [bind] in T.
    destruct (B g d0 o0 Hg E0) as [x [cc [ll [Ev _]]]]. rewrite Ev in T. cbn in T. match type of T with bind ?x _ = _ => destruct x; discriminate T end.
  - split; [eauto|]. intros levels Hl. unfold type_of in T. destruct exam as [|d0 exam]; [discriminate|]. unfold as_value in T at 1. destruct (g d0) as [o0|] eqn:E0; [|discriminate]. cbn [bind] in T.
    destruct (B g d0 o0 Hg E0) as [x [cc [ll [Ev [B1 B2]]]]]. rewrite Ev in T. cbn [guess_categorical] in T. cbn [look] in T. unfold as_value in T at 1. rewrite E0 in T. cbn [bind] in T. rewrite Ev, (B1 _ Hl) in T.
    cbn in T. injection T as <-. unfold levels_contrast in El. cbn in El. injection El as <- <-. split; [reflexivity|]. exact B2.
Qed.
Print Assumptions lookup_forced.

(** * Examples *)
Definition ltbl (f : factor) : @lookup_factor unit :=
  if String.eqb f "k" then mkLookup "k" true (Some tt) (Some [VInt 3; VInt 1]) None else mkLookup f false None None None.
Definition lobj (l : list Z) : @fobj Z nat unit := mkObj (Plain (DSeq true (map VInt l))) 1 1 true (map (fun x => [x]) l) None.
Definition ldata : lookup_data := [("k", [1; 3; 3]%Z); ("x y", [5; 6; 7]%Z)].
Definition ldata2 : lookup_data := [("x y", [9; 8]%Z); ("k", [3; 1]%Z)].
Definition ltls : list (list term) := [[[]; ["k"]; ["x y"]]].
Definition lbuilders := design_matrix_builders (fun f => lookup_passes (ltbl f)) (fun f => lookup_chunk (val := list Z) (ltbl f)) (fun f => lookup_finish (ltbl f)) (fun f => lookup_eval lobj (ltbl f)) (fun f => lk_origin (ltbl f)) ycm
  (fun l => Z.of_nat (List.length l)) (fun l => l) (fun _ l => l) (fun _ l => l) (fun _ => 0) (fun l => l).
Definition ldesigns := match lbuilders (fun _ => [ldata]) (NAStr "drop") ltls with Ok ds => ds | Err _ => [] end.
(** The variable k is made categorical with the levels 3 and 1; the name of the other variable has a blank. *)
Example lookup_ex : lbuilders (fun _ => [ldata]) (NAStr "drop") ltls = Ok ldesigns /\ map (fun x => column_names (ds_info x)) ldesigns = [["Intercept"; "k[T.?]"; "x y"]] /\
  build 1%Z Z.mul (Z.eqb (-99)) (fun n => n) Nat.eqb (fun f => lookup_eval lobj (ltbl f)) (fun f => lk_origin (ltbl f)) (fun _ => None) ldesigns ldata2 (NAStr "drop") false =
    Ok ([mkMat 2 [[1; 1]; [0; 1]; [9; 8]]%Z], None) /\
  indexed (fun f => lookup_eval lobj (ltbl f)) /\
  (forall f o, In f (factors_in ldesigns) -> variable_of lobj (ltbl f) ldata2 (Ok o) -> proper_codes (o_value o)).
Proof.
  split; [vm_compute; reflexivity|]. split; [vm_compute; reflexivity|]. split; [vm_compute; reflexivity|]. split.
  - intros f s d o i H. unfold lookup_eval in H. destruct (dget _ _ _); [|discriminate]. injection H as <-. now destruct (lk_force (ltbl f)).
  - intros f o _ H. apply (eval_variable lobj _ tt) in H. unfold lookup_eval in H. destruct (dget _ _ _); [|discriminate]. injection H as <-. now destruct (lk_force (ltbl f)).
Qed.
Example lookup_init_ex : lookup_init "k" true (Some tt) (Some [VInt 3; VInt 1]) None = Ok (ltbl "k") /\
  lookup_init "x" false (Some tt) None None = Err (ValueError "contrast= requires force_categorical=True").
Proof. split; reflexivity. Qed.
