(** Properties C11-C17 and C60: what terms a formula denotes (patsy/desc.py). *)
From Verif Require Import IntSpec IntProofs.
From Verif Require Import Base OriginModel InfixModel UtilModel UtilSpec UtilProofs DescModel DescSpec DescProofs
  DescTopProofs TokensModel ParseFormulaModel ParseFormulaSpec FormulaModel FormulaSpec FormulaProofs DescribeProofs.

(** C11.  The terms of an evaluated formula are exactly those its operators denote
    ([mem] on sets of factors, [status] for the intercept). *)
Theorem from_tree_means_sets : forall norm n m, from_tree norm n = Ok m ->
  (exists tok r o, n = Node (TName "~") tok [r] o /\ lhs_termlist m = [] /\
     lists (rhs_termlist m) (rhs_mem norm r)) \/
  (exists tok l r o, n = Node (TName "~") tok [l; r] o /\
     lists (lhs_termlist m) (lhs_mem norm l) /\ lists (rhs_termlist m) (rhs_mem norm r)).
Proof. exact from_tree_meaning. Qed.
Print Assumptions from_tree_means_sets.

(** C12.  No term is repeated, no factor repeats in a term, the intercept is first. *)
Theorem from_tree_terms_distinct : forall norm n m, from_tree norm n = Ok m ->
  tidy (lhs_termlist m) /\ tidy (rhs_termlist m).
Proof. exact from_tree_tidy. Qed.
Print Assumptions from_tree_terms_distinct.

(** C12.  [e1 + ... + ek] lists the terms of [e1], then those of [e2], ..., each term
    at its first occurrence. *)
Theorem from_tree_sum_order : forall norm n es m,
  plus_chain n es -> from_tree norm (rhs_of n) = Ok m ->
  exists tss, Forall2 (fun x ts => exists mx, from_tree norm (rhs_of x) = Ok mx /\
                                       proper (rhs_termlist mx) = ts) es tss /\
    first_occurrences term_eqb [] (List.concat tss) (proper (rhs_termlist m)).
Proof. exact chain_order. Qed.
Print Assumptions from_tree_sum_order.

(** C13.  In a chain of signed items the last one to mention the intercept decides;
    with none, the right side has it and the left side does not. *)
Theorem from_tree_intercept_last_mention : forall norm tok ls r o m l,
  from_tree norm (Node (TName "~") tok (ls ++ [r]) o) = Ok m -> chain r l ->
  (has_intercept (rhs_termlist m) <-> last_mention true l = true) /\
  (starts_with_intercept (rhs_termlist m) <-> last_mention true l = true) /\
  forall x lx, ls = [x] -> chain x lx ->
    (has_intercept (lhs_termlist m) <-> last_mention false lx = true) /\
    (starts_with_intercept (lhs_termlist m) <-> last_mention false lx = true).
Proof. exact intercept_rule. Qed.
Print Assumptions from_tree_intercept_last_mention.

(** C14.  [a ** k] is the concatenation of the interactions of [a]'s terms of order
    1, ..., k, first occurrences only: the code's early cut-off is invisible. *)
Theorem from_tree_power : forall norm tok a b o m k,
  from_tree norm (rhs_of (Node (TName "**") tok [a; b] o)) = Ok m -> exponent_is b k ->
  exists ma, from_tree norm (rhs_of a) = Ok ma /\
    first_occurrences term_eqb []
      (rounds (proper (rhs_termlist ma)) (proper (rhs_termlist ma)) (Z.to_nat k)) (proper (rhs_termlist m)).
Proof. exact power_terms. Qed.
Print Assumptions from_tree_power.

(** C14.  Any two exponents at least the number of terms give the same model. *)
Theorem from_tree_power_saturates : forall norm tok a b b' o k k' m m',
  exponent_is b k -> exponent_is b' k' ->
  from_tree norm (rhs_of (Node (TName "**") tok [a; b] o)) = Ok m ->
  from_tree norm (rhs_of (Node (TName "**") tok [a; b'] o)) = Ok m' ->
  (forall ma, from_tree norm (rhs_of a) = Ok ma ->
     (Z.of_nat (length (proper (rhs_termlist ma))) <= k)%Z /\
     (Z.of_nat (length (proper (rhs_termlist ma))) <= k')%Z) ->
  rhs_termlist m = rhs_termlist m'.
Proof. exact power_saturates. Qed.
Print Assumptions from_tree_power_saturates.

(** C15.  Evaluation succeeds exactly on the formulas that make sense; otherwise it
    raises PatsyError with a location in the formula. *)
Theorem from_tree_succeeds_iff_sensible : forall norm code n, formula_top code n ->
  ((exists m, from_tree norm n = Ok m) <-> sensible_formula n) /\
  (forall e, from_tree norm n = Err e -> exists msg o, e = PatsyError msg (Some o) /\ o_code o = code).
Proof. exact from_tree_total. Qed.
Print Assumptions from_tree_succeeds_iff_sensible.

(** C15.  From the formula's Python tokens to the model description: a result, or a
    PatsyError located in the formula. *)
Theorem from_formula_total_or_located : forall norm is_float code it,
  from_tokenizer code it -> it <> [] ->
  (exists m, from_formula norm is_float it None = Ok m) \/
  (exists msg o, from_formula norm is_float it None = Err (PatsyError msg (Some o)) /\ o_code o = code).
Proof. exact from_formula_total. Qed.
Print Assumptions from_formula_total_or_located.

(** C16.  Reading back the formula that describe() writes gives the same model. *)
Theorem describe_reads_back : forall norm is_float code code' it it' m,
  from_tokenizer code it -> it <> [] ->
  (forall s, embedded_in it s -> norm s = s) ->
  from_formula norm is_float it None = Ok m ->
  from_tokenizer code' it' -> spells (describe_toks m) it' ->
  from_formula norm is_float it' None = Ok m.
Proof. exact describe_roundtrip. Qed.
Print Assumptions describe_reads_back.

(** C16.  ... and the string describe() returns is the text of that formula. *)
Theorem describe_writes : forall norm is_float it m,
  from_formula norm is_float it None = Ok m ->
  (forall t f, In t (lhs_termlist m) -> In f t -> f <> ""%string) ->
  describe m = dlayout (describe_toks m).
Proof. exact describe_text_formula. Qed.
Print Assumptions describe_writes.

(** C17.  Terms are equal iff they have the same factors, whatever the order and
    repetitions they were built with. *)
Theorem term_equal_iff_same_factors : forall xs ys,
  term_eqb (mk_term xs) (mk_term ys) = true <-> (forall f, In f xs <-> In f ys).
Proof. exact term_equal. Qed.
Print Assumptions term_equal_iff_same_factors.

(** C60.  [a * b] is [a + b + a:b], in that order. *)
Theorem times_is_sum_and_interaction : forall norm a b m,
  from_tree norm (rhs_of (n_times a b)) = Ok m -> ~ lit "ZERO" b ->
  exists m', from_tree norm (rhs_of (n_plus (n_plus a b) (n_colon a b))) = Ok m' /\
    proper (rhs_termlist m') = proper (rhs_termlist m).
Proof. exact times_expands. Qed.
Print Assumptions times_is_sum_and_interaction.

(** * Examples *)
Definition d_code : string := "y ~ (b + f( a))**2 - 1".
Definition d_tok (ty : pytype) (s : string) (i : nat) : pytok :=
  mkPyTok ty s (mkOrigin d_code i (i + String.length s)).
Definition d_toks : list pytok :=
  [d_tok PNAME "y" 0; d_tok POTHER "~" 2; d_tok POTHER "(" 4; d_tok PNAME "b" 5; d_tok POTHER "+" 7;
   d_tok PNAME "f" 9; d_tok POTHER "(" 10; d_tok PNAME "a" 12; d_tok POTHER ")" 13; d_tok POTHER ")" 14;
   d_tok POTHER "**" 15; d_tok PNUMBER "2" 17; d_tok POTHER "-" 19; d_tok PNUMBER "1" 21].
Definition d_id (s : string) := s.
Definition d_float (s : string) := String.eqb s "2".
Definition d_model : model_desc :=
  MkModelDesc [["y"%string]] [["b"%string]; ["f(a)"%string]; ["b"%string; "f(a)"%string]].
Example d_from : from_tokenizer d_code d_toks.
Proof. repeat (constructor; [cbn; repeat split; discriminate|]); constructor. Qed.
Example d_eval : from_formula d_id d_float d_toks None = Ok d_model.
Proof. vm_compute. reflexivity. Qed.
Example d_describe : describe d_model = "y ~ 0 + b + f(a) + b:f(a)"%string.
Proof. vm_compute. reflexivity. Qed.

(** The tokens of the description. *)
Definition d_code' : string := "y ~ 0 + b + f(a) + b:f(a)".
Definition e_tok (ty : pytype) (s : string) (i : nat) : pytok :=
  mkPyTok ty s (mkOrigin d_code' i (i + String.length s)).
Definition fa (i : nat) : list pytok :=
  [e_tok PNAME "f" i; e_tok POTHER "(" (i + 1); e_tok PNAME "a" (i + 2); e_tok POTHER ")" (i + 3)].
Definition d_groups : list group :=
  [GExpr [e_tok PNAME "y" 0]; GMagic (e_tok POTHER "~" 2); GExpr [e_tok PNUMBER "0" 4];
   GMagic (e_tok POTHER "+" 6); GExpr [e_tok PNAME "b" 8]; GMagic (e_tok POTHER "+" 10);
   GExpr (fa 12); GMagic (e_tok POTHER "+" 17); GExpr [e_tok PNAME "b" 19];
   GMagic (e_tok POTHER ":" 20); GExpr (fa 21)].
Example d_from' : from_tokenizer d_code' (flatten d_groups).
Proof. repeat (constructor; [cbn; repeat split; discriminate|]); constructor. Qed.
Ltac nonmagic := unfold magic, stop, open_bracket, close_bracket in *; cbn in *; intuition discriminate.
Ltac nestd := repeat first [ apply nest_nil
  | apply nest_open; [left; reflexivity|] | apply nest_close; [left; reflexivity|]
  | apply nest_other; [nonmagic|nonmagic|] ].
Lemma d_single ty s i : ~ magic formula_ops s -> ~ open_bracket s -> ~ close_bracket s ->
  embedded formula_ops [e_tok ty s i].
Proof.
  intros M O C. split; [apply nest_other; [exact O|exact C|apply nest_nil]|]. split.
  - intros p s' q E _. destruct p as [|p1 p]; [|destruct p; discriminate]. injection E as <- _.
    unfold stop. unfold magic in M. tauto.
  - eexists _, []. split; [reflexivity|exact M].
Qed.
Lemma d_fa i : embedded formula_ops (fa i).
Proof.
  split; [cbn; nestd|]. split.
  - intros p s q E N. destruct p as [|p1 [|p2 [|p3 [|p4 p]]]];
      [| | | |destruct p; discriminate]; cbn in E; injection E as; subst; try (unfold stop; nonmagic).
    exfalso. inversion N; subst; [nonmagic|].
    match goal with H : nest 0 _ 0 |- _ => rename H into N2 end.
    inversion N2; subst; [|nonmagic].
    match goal with H : nest 1 _ 0 |- _ => rename H into N3 end.
    inversion N3; subst; [nonmagic|nonmagic|].
    match goal with H : nest 1 [] 0 |- _ => inversion H end.
  - eexists _, _. split; [reflexivity|unfold magic; nonmagic].
Qed.
Example d_spells : spells (describe_toks d_model) (flatten d_groups).
Proof.
  exists d_groups. split; [reflexivity|]. unfold d_groups.
  repeat (constructor;
    [first [reflexivity
           |split; [first [apply d_fa|apply d_single; [unfold magic; nonmagic|nonmagic|nonmagic]]|reflexivity]]|]).
  constructor.
Qed.
Example d_back : from_formula d_id d_float (flatten d_groups) None = Ok d_model.
Proof.
  apply (describe_reads_back d_id d_float d_code d_code' d_toks (flatten d_groups) d_model
           d_from ltac:(discriminate) (fun s _ => eq_refl) d_eval d_from' d_spells).
Qed.

(** [0 + a + b - 1 + 1 ...]: the last mention wins; parenthesised removals do not count:
    [a + (b + 0)] keeps the intercept and [(0 + a)**2] gets it back. *)
Definition leaf (ty s : string) : node :=
  Node (TName ty) (Some (mkToken (TName ty) (mkOrigin "" 0 0) (Some s))) [] (Some (mkOrigin "" 0 0)).
Definition bin (op : string) (a b : node) : node :=
  Node (TName op) (Some (mkToken (TName op) (mkOrigin "" 0 0) None)) [a; b] (Some (mkOrigin "" 0 0)).
Definition dv (s : string) : node := leaf "PYTHON_EXPR" s.
Definition d_chain : node := bin "+" (bin "-" (bin "+" (leaf "ZERO" "0") (dv "a")) (leaf "ZERO" "0")) (dv "b").
Example d_chain_ok : chain d_chain [(Plus, I0); (Plus, IExpr); (Minus, I0); (Plus, IExpr)].
Proof.
  apply (ch_add (bin "-" (bin "+" (leaf "ZERO" "0") (dv "a")) (leaf "ZERO" "0")) (dv "b") IExpr
           [(Plus, I0); (Plus, IExpr); (Minus, I0)]).
  - apply (ch_sub _ _ _ [(Plus, I0); (Plus, IExpr)]); [|constructor].
    apply (ch_add _ _ _ [(Plus, I0)]); [apply ch_one; constructor|constructor; [reflexivity|discriminate|discriminate]].
  - constructor; [reflexivity|discriminate|discriminate].
Qed.
Example d_chain_eval : from_tree d_id (rhs_of d_chain) = Ok (MkModelDesc [] [[]; ["a"%string]; ["b"%string]]).
Proof. vm_compute. reflexivity. Qed.
Example d_kept : from_tree d_id (rhs_of (bin "+" (dv "a") (bin "+" (dv "b") (leaf "ZERO" "0")))) =
  Ok (MkModelDesc [] [[]; ["a"%string]; ["b"%string]]).
Proof. vm_compute. reflexivity. Qed.
Example d_regained : from_tree d_id (rhs_of (bin "**" (bin "+" (leaf "ZERO" "0") (dv "a")) (leaf "NUMBER" "2"))) =
  Ok (MkModelDesc [] [[]; ["a"%string]]).
Proof. vm_compute. reflexivity. Qed.
Example d_power : exists m, from_tree d_id (rhs_of (bin "**" (bin "+" (dv "a") (dv "b")) (leaf "NUMBER" "7"))) = Ok m /\
  exponent_is (leaf "NUMBER" "7") 7 /\ rhs_termlist m = [[]; ["a"%string]; ["b"%string]; ["a"%string; "b"%string]].
Proof.
  eexists. split; [vm_compute; reflexivity|]. split; [|reflexivity].
  split; [right; reflexivity|]. eexists _, "7"%string. split; [reflexivity|]. split; [reflexivity|]. now apply py_int_spec.
Qed.
Example d_top : formula_top "" (Node (TName "~") None [d_chain] (Some (mkOrigin "" 0 0))).
Proof.
  right. exists d_chain, (mkOrigin "" 0 0). split; [reflexivity|]. split; [reflexivity|]. split; [|discriminate].
  repeat first [ apply ft_bin; [cbn; tauto| | |reflexivity] | eapply ft_leaf; [cbn; tauto|reflexivity|reflexivity] ].
Qed.
Example d_sums : plus_chain (bin "+" (bin "+" (dv "b") (dv "a")) (dv "b")) [dv "b"; dv "a"; dv "b"] /\
  from_tree d_id (rhs_of (bin "+" (bin "+" (dv "b") (dv "a")) (dv "b"))) = Ok (MkModelDesc [] [[]; ["b"%string]; ["a"%string]]).
Proof.
  split; [|vm_compute; reflexivity].
  apply (pc_snoc _ (dv "b") _ _ [dv "b"; dv "a"]); [|discriminate].
  apply (pc_snoc _ (dv "a") _ _ [dv "b"]); [constructor|discriminate].
Qed.
Example d_star : from_tree d_id (rhs_of (n_times (dv "a") (bin "+" (dv "b") (dv "a")))) =
  Ok (MkModelDesc [] [[]; ["a"%string]; ["b"%string]; ["a"%string; "b"%string]]).
Proof. vm_compute. reflexivity. Qed.
Example d_interact_intercept : exists o,
  from_tree d_id (rhs_of (bin ":" (dv "a") (leaf "ONE" "1"))) =
  Err (PatsyError "intercept term cannot interact with anything else" (Some o)).
Proof. eexists. vm_compute. reflexivity. Qed.
Example d_term_equal : term_eqb (mk_term ["a"; "b"; "a"]%string) (mk_term ["b"; "a"]%string) = true.
Proof. vm_compute. reflexivity. Qed.
