(** C87: DesignInfo.describe. *)
From Coq Require Import ZArith Permutation.
From Verif Require Import Base OriginModel InfixModel UtilModel UtilSpec DescModel DescSpec TokensModel ParseFormulaModel ParseFormulaSpec
  FormulaModel FormulaSpec BuildModel BuildSpec BuildProps PipeModel DescProofs DDescModel DDescProofs DescProps EntryProps LookupModel LookupProps.
Open Scope list_scope.
Open Scope string_scope.
Open Scope nat_scope.

Section Designs.
Context {V I C S D : Type}.
Variable passes : factor -> result (S * Z).
Variable chunk : factor -> S -> nat -> D -> result S.
Variable finish : factor -> S -> nat -> result S.
Variable eval : factor -> S -> D -> result (@fobj V I C).
Variable origin_of : factor -> option origin.
Variable code_cm : list CategoricalModel.pval -> option C -> bool -> result (@ctr V).
Variable hash : list (bool * factor) -> Z.
Variable set_order : list factor -> list factor.
Variables order_mem order_exam : nat -> list factor -> list factor.
Variable addr : CategoricalModel.pval -> nat.
Variable hash_order : list CategoricalModel.pval -> list CategoricalModel.pval.
Notation builders := (design_matrix_builders passes chunk finish eval origin_of code_cm hash set_order order_mem order_exam addr hash_order).

Lemma builders_designs data na tls ds : builders data na tls = Ok ds ->
  Forall2 (fun tl x => exists num cm fis, design_for num cm hash fis tl = Ok (ds_info x)) tls ds.
Proof.
  unfold design_matrix_builders. intros H. apply bind_ok in H as [act [_ H]]. apply bind_ok in H as [[states log] [_ H]]. apply bind_ok in H as [[num cat] [_ H]].
  apply bind_ok in H as [infos [_ H]]. apply bind_ok in H as [kn [_ H]]. apply bind_ok in H as [dis [E H]]. injection H as <-.
  revert dis E. induction tls as [|tl tls IH]; intros dis E.
  - injection E as <-. constructor.
  - cbn in E. apply bind_ok in E as [d [E1 E]]. apply bind_ok in E as [dis' [E2 E]]. injection E as <-. constructor; [eauto|]. apply (IH dis'). exact E2.
Qed.
End Designs.

Section Described.
Variable norm : string -> string.
Variable is_float : string -> bool.

(** C87.  The description of a design made of one side of a formula is the sum of its terms, in the order in which
    their columns stand.  If the design has an intercept, reading it as a formula gives these terms again; if not,
    the terms and an intercept.  (A design without intercept that has a variable called Intercept is excluded.) *)
Theorem design_description : forall {V I C S D : Type} (passes : factor -> result (S * Z)) (chunk : factor -> S -> nat -> D -> result S) finish (eval : factor -> S -> D -> result (@fobj V I C)) origin_of
  code_cm hash set_order order_mem order_exam addr hash_order code it m data na l r,
  from_tokenizer code it -> it <> [] -> (forall s, embedded_in it s -> norm s = s) ->
  from_formula norm is_float it None = Ok m ->
  design_matrix_builders passes chunk finish eval origin_of code_cm hash set_order order_mem order_exam addr hash_order data na [lhs_termlist m; rhs_termlist m] = Ok [l; r] ->
  forall tl x, (tl = lhs_termlist m /\ x = l) \/ (tl = rhs_termlist m /\ x = r) ->
  exists ts, map fst (codings_of (ds_info x)) = ts /\ Permutation ts tl /\
    (In [] ts \/ (forall t, In t ts -> term_name t <> "Intercept") -> di_describe (ds_info x) = dlayout (sum_toks (map term_toks ts))) /\
    forall code' it', from_tokenizer code' it' -> spells (sum_toks (map term_toks ts)) it' -> ts <> [] ->
      (In [] ts -> from_formula norm is_float it' None = Ok (MkModelDesc [] ts)) /\
      (~ In [] ts -> from_formula norm is_float it' None = Ok (MkModelDesc [] ([] :: ts))).
Proof.
  intros V I C S D passes chunk finish eval origin_of code_cm hash set_order order_mem order_exam addr hash_order code it m data na l r Hft Hne Hn Hm Hb tl x Hx.
  apply builders_designs in Hb. inversion Hb as [|? ? ? ? [nu1 [cm1 [fi1 D1]]] Hb']; subst. inversion Hb' as [|? ? ? ? [nu2 [cm2 [fi2 D2]]] _]; subst.
  assert (G : exists num cm fis, design_for num cm hash fis tl = Ok (ds_info x)) by (destruct Hx as [[-> ->]|[-> ->]]; eauto).
  assert (Ht : tl = lhs_termlist m \/ tl = rhs_termlist m) by tauto. clear Hb Hb' D1 D2 Hx.
  destruct G as [num [cm [fis G]]].
  destruct (side_described norm is_float code it m num cm hash fis tl (ds_info x) Hft Hne Hn Hm Ht G) as [ts [i [us [Ets [Ec [Hp [Ho [Hd [Hnm Hnd]]]]]]]]].
  exists ts. split; [exact Ec|]. split; [exact Hp|]. split; [intros H; now apply terms_named|].
  intros code' it' Hft' Hsp Hts. assert (Hu : ~ In [] us). { intros H. rewrite Forall_forall in Ho. destruct (Ho _ H) as [Z _]. now apply Z. }
  rewrite Ets in *. split; intros H.
  - destruct i; [|contradiction]. apply (sum_parses norm is_float code' it' us true); auto.
  - destruct i; [exfalso; apply H; now left|]. apply (sum_parses norm is_float code' it' us false); auto.
Qed.
End Described.
Print Assumptions design_description.

(** C87.  A design without terms (of a matrix the user gave) is described by its column names. *)
Theorem column_description : forall (V : Type) names (d : @design_info V), mk_design_info names None None = Ok d ->
  ~ In "Intercept" names -> di_describe d = String.concat " + " names.
Proof.
  intros V names d E Hi. destruct (term_slices_partition_columns V names None None d (conj Logic.I Logic.I) E) as [_ [_ [_ [_ [_ [_ Hn]]]]]].
  unfold di_describe, di_term_names. rewrite Hn. f_equal. rewrite <- (map_id names) at 2. apply map_ext_in. intros s Hs.
  destruct (String.eqb_spec s "Intercept") as [->|]; [contradiction|reflexivity].
Qed.
Print Assumptions column_description.

(** * Examples *)
Definition gtbl (f : factor) : @lookup_factor unit := mkLookup f (String.eqb f "k") None None None.
Definition gbuilders := design_matrix_builders (fun f => lookup_passes (gtbl f)) (fun f => lookup_chunk (val := list Z) (gtbl f)) (fun f => lookup_finish (gtbl f)) (fun f => lookup_eval lobj (gtbl f)) (fun f => lk_origin (gtbl f)) ycm
  (fun l => Z.of_nat (List.length l)) (fun l => l) (fun _ l => l) (fun _ l => l) (fun _ => 0) (fun l => l).
Definition gdata : lookup_data := [("y", [1; 2; 3]%Z); ("k", [1; 3; 3]%Z); ("x", [5; 6; 7]%Z); ("b", [5; 5; 7]%Z); ("f(a)", [1; 6; 0]%Z); ("Intercept", [2; 2; 5]%Z)].
Definition gdesigns (m : model_desc) : list _ := match gbuilders (fun _ => [gdata]) (NAStr "drop") [lhs_termlist m; rhs_termlist m] with Ok ds => ds | Err _ => [] end.
Definition g_tok (code : string) (ty : pytype) (s : string) (i : nat) : pytok := mkPyTok ty s (mkOrigin code i (i + String.length s)).
Definition g_code : string := "y ~ x + k".
Definition g_toks : list pytok := [g_tok g_code PNAME "y" 0; g_tok g_code POTHER "~" 2; g_tok g_code PNAME "x" 4; g_tok g_code POTHER "+" 6; g_tok g_code PNAME "k" 8].
Definition g_model : model_desc := MkModelDesc [["y"]] [[]; ["x"]; ["k"]].
Definition g_float (s : string) := String.eqb s "1".
Example g_from : from_tokenizer g_code g_toks.
Proof. repeat (constructor; [cbn; repeat split; discriminate|]); constructor. Qed.
Definition g_code' : string := "1 + k + x".
Definition g_groups : list group := [GExpr [g_tok g_code' PNUMBER "1" 0]; GMagic (g_tok g_code' POTHER "+" 2); GExpr [g_tok g_code' PNAME "k" 4]; GMagic (g_tok g_code' POTHER "+" 6); GExpr [g_tok g_code' PNAME "x" 8]].
Example g_from' : from_tokenizer g_code' (flatten g_groups).
Proof. repeat (constructor; [cbn; repeat split; discriminate|]); constructor. Qed.
Lemma g_single code ty s i : ~ magic formula_ops s -> ~ open_bracket s -> ~ close_bracket s -> embedded formula_ops [g_tok code ty s i].
Proof.
  intros M O C. split; [apply nest_other; [exact O|exact C|apply nest_nil]|]. split.
  - intros p s' q E _. destruct p as [|p1 p]; [|destruct p; discriminate]. injection E as <- _. unfold stop. unfold magic in M. tauto.
  - eexists _, []. split; [reflexivity|exact M].
Qed.
Example g_spells : spells (sum_toks (map term_toks [[]; ["k"]; ["x"]])) (flatten g_groups).
Proof.
  exists g_groups. split; [reflexivity|]. unfold g_groups.
  repeat (constructor; [first [reflexivity|split; [apply g_single; [unfold magic; nonmagic|nonmagic|nonmagic]|reflexivity]]|]). constructor.
Qed.
(** The model y ~ x + k: in the design k comes before x, since it is categorical. *)
Example description_ex : from_formula d_id g_float g_toks None = Ok g_model /\ exists l r, gbuilders (fun _ => [gdata]) (NAStr "drop") [lhs_termlist g_model; rhs_termlist g_model] = Ok [l; r] /\
  di_describe (ds_info l) = "y" /\ di_describe (ds_info r) = "1 + k + x" /\ from_formula d_id g_float (flatten g_groups) None = Ok (MkModelDesc [] [[]; ["k"]; ["x"]]).
Proof.
  split; [vm_compute; reflexivity|]. destruct (gdesigns g_model) as [|l [|r [|]]] eqn:E; try (vm_compute in E; discriminate E). exists l, r.
  assert (B : gbuilders (fun _ => [gdata]) (NAStr "drop") [lhs_termlist g_model; rhs_termlist g_model] = Ok [l; r]).
  { unfold gdesigns in E. destruct (gbuilders _ _ _) as [ds|] eqn:Eb; [|discriminate]. now rewrite E. }
  vm_compute in E. injection E as <- <-. split; [exact B|]. split; [vm_compute; reflexivity|]. split; [vm_compute; reflexivity|]. vm_compute. reflexivity.
Qed.
Example column_description_ex : exists d, mk_design_info (V := Z) ["a"; "b c"] None None = Ok d /\ di_describe d = "a + b c".
Proof. eexists. split; vm_compute; reflexivity. Qed.

(** Not every description says what the design is: "y ~ 0 + b + f(a) + b:f(a)" is described as
    "b + f(a) + b:f(a)", which has an intercept. *)
Theorem description_equivalent_refuted : exists r, nth_error (gdesigns d_model) 1 = Some r /\
  map fst (codings_of (ds_info r)) = rhs_termlist d_model /\ ~ In [] (rhs_termlist d_model) /\
  di_describe (ds_info r) = "b + f(a) + b:f(a)" /\
  forall code it, from_tokenizer code it -> spells (sum_toks (map term_toks (rhs_termlist d_model))) it ->
    exists m', from_formula d_id d_float it None = Ok m' /\ In [] (rhs_termlist m').
Proof.
  destruct (gdesigns d_model) as [|l [|r [|]]] eqn:E; try (vm_compute in E; discriminate E). exists r.
  assert (B : gbuilders (fun _ => [gdata]) (NAStr "drop") [lhs_termlist d_model; rhs_termlist d_model] = Ok [l; r]).
  { unfold gdesigns in E. destruct (gbuilders _ _ _) as [ds|] eqn:Eb; [|discriminate]. now rewrite E. }
  assert (H : ~ In [] (rhs_termlist d_model)) by (cbn; intuition discriminate).
  pose proof (design_description d_id d_float _ _ _ _ _ _ _ _ _ _ _ _ d_code d_toks d_model _ _ l r d_from ltac:(discriminate) (fun s _ => eq_refl) d_eval B (rhs_termlist d_model) r (or_intror (conj eq_refl eq_refl))) as [ts [E1 [_ [_ Hr]]]].
  clear B. vm_compute in E. injection E as <- <-. vm_compute in E1. subst ts.
  split; [reflexivity|]. split; [vm_compute; reflexivity|]. split; [exact H|]. split; [vm_compute; reflexivity|].
  intros code it Hft Hs. eexists. split; [apply (proj2 (Hr code it Hft Hs ltac:(discriminate)) H)|now left].
Qed.
Print Assumptions description_equivalent_refuted.

(** ... and a variable called Intercept is taken for the intercept. *)
Theorem description_of_variable_refuted : exists r, nth_error (gdesigns (MkModelDesc [["y"]] [["Intercept"]])) 1 = Some r /\
  di_describe (ds_info r) = "1" /\ dlayout (sum_toks (map term_toks [["Intercept"]])) = "Intercept".
Proof.
  destruct (gdesigns (MkModelDesc [["y"]] [["Intercept"]])) as [|l [|r [|]]] eqn:E; try (vm_compute in E; discriminate E). exists r.
  vm_compute in E. injection E as <- <-. split; [reflexivity|]. split; vm_compute; reflexivity.
Qed.
Print Assumptions description_of_variable_refuted.
