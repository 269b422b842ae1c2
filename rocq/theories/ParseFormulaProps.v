(** Properties C06, C07 (and the parsing half of C15) of patsy/parse_formula.py. *)
From Verif Require Import Base OriginModel OriginSpec TokensModel InfixModel InfixSpec DescModel
  ParseFormulaModel ParseFormulaSpec ParseFormulaProofs.

(** C06.  Tokenizing succeeds with [out] iff the Python tokens can be cut into
    operators, parens and maximal embedded expressions (balanced, no operator
    outside brackets) whose formula tokens are [out]. *)
Theorem tokenize_formula_groups : forall is_float ops code it,
  from_tokenizer code it -> ~ In "("%string ops -> ~ In ")"%string ops ->
  forall out, tokenize_formula is_float it None ops = (out, None) <->
    exists gs, segmentation ops gs /\ flatten gs = it /\ Forall2 (token_for ops is_float) gs out.
Proof. exact tokenize_ok_lemma. Qed.
Print Assumptions tokenize_formula_groups.

(** C06.  There is only one way to cut. *)
Theorem segmentation_unique : forall ops gs1 gs2,
  segmentation ops gs1 -> segmentation ops gs2 -> flatten gs1 = flatten gs2 -> gs1 = gs2.
Proof. exact (fun ops gs1 gs2 => seg_unique ops gs2 gs1). Qed.
Print Assumptions segmentation_unique.

(** C07.  Tokenizing fails with [x] iff after some well-formed groups an embedded
    expression starts that closes a bracket it did not open or never closes one,
    and [x] is the PatsyError reporting that.  (In particular no other failure, and
    no exhaustion of the model's fuel: it always terminates.) *)
Theorem tokenize_formula_errors : forall is_float ops code it,
  from_tokenizer code it -> ~ In "("%string ops -> ~ In ")"%string ops ->
  forall x, (exists out, tokenize_formula is_float it None ops = (out, Some x)) <->
    exists gs r, segmentation ops gs /\ open_ended gs /\ flatten gs ++ r = it /\ bracket_error ops r x.
Proof. exact tokenize_err_lemma. Qed.
Print Assumptions tokenize_formula_errors.

(** C59.  From Python tokens to a parse tree: a successful parse is the tree of the
    unique well-bracketed reading of the formula tokens under the default operator
    table (plus any extra operators), below exactly one [~] node; any failure is a
    PatsyError pointing into the formula. *)
Theorem parse_formula_correct : forall is_float code it extra,
  from_tokenizer code it -> it <> [] -> good_extra extra ->
  let ops := flat_map op_string (documented_ops ++ extra) in
  (forall n, parse_formula is_float it None extra = Ok n ->
     exists gs toks c m, segmentation ops gs /\ flatten gs = it /\
       Forall2 (token_for ops is_float) gs toks /\
       valid (documented_ops ++ extra) documented_atoms c /\ yield c = toks /\ represents m (tree_of c) /\
       n_type n = TName "~" /\
       ((n_type m = TName "~" /\ n = m) \/
        (n_type m <> TName "~" /\ n = Node (TName "~") None [m] (n_origin m)))) /\
  (forall e, parse_formula is_float it None extra = Err e ->
     exists msg o, e = PatsyError msg (Some o) /\ o_code o = code).
Proof. exact parse_formula_lemma. Qed.
Print Assumptions parse_formula_correct.

(** [y ~ foo(a + b)[1] + 0] *)
Definition pf_code : string := "y ~ foo(a + b)[1] + 0".
Definition pf_tok (ty : pytype) (s : string) (i : nat) : pytok :=
  mkPyTok ty s (mkOrigin pf_code i (i + String.length s)).
Definition pf_toks : list pytok :=
  [pf_tok PNAME "y" 0; pf_tok POTHER "~" 2; pf_tok PNAME "foo" 4; pf_tok POTHER "(" 7;
   pf_tok PNAME "a" 8; pf_tok POTHER "+" 10; pf_tok PNAME "b" 12; pf_tok POTHER ")" 13;
   pf_tok POTHER "[" 14; pf_tok PNUMBER "1" 15; pf_tok POTHER "]" 16; pf_tok POTHER "+" 18;
   pf_tok PNUMBER "0" 20].
Example pf_from : from_tokenizer pf_code pf_toks.
Proof. repeat (constructor; [cbn; repeat split; discriminate|]); constructor. Qed.
Example pf_tokens : tokenize_formula (fun _ => false) pf_toks None (flat_map op_string default_ops) =
  ([mkToken (TName "PYTHON_EXPR") (mkOrigin pf_code 0 1) (Some "y"%string);
    mkToken (TName "~") (mkOrigin pf_code 2 3) None;
    mkToken (TName "PYTHON_EXPR") (mkOrigin pf_code 4 17) (Some "foo(a + b)[1]"%string);
    mkToken (TName "+") (mkOrigin pf_code 18 19) None;
    mkToken (TName "ZERO") (mkOrigin pf_code 20 21) (Some "0"%string)], None).
Proof. reflexivity. Qed.
Example pf_parse_ok : exists n, parse_formula (fun _ => false) pf_toks None [] = Ok n /\ n_type n = TName "~".
Proof. eexists; split; [vm_compute; reflexivity|vm_compute; reflexivity]. Qed.
Example pf_unmatched :
  tokenize_formula (fun _ => false) [pf_tok PNAME "y" 0; pf_tok POTHER "]" 16] None (flat_map op_string default_ops)
  = ([], Some (PatsyError "unmatched close bracket" (Some (mkOrigin pf_code 16 17)))).
Proof. reflexivity. Qed.
Example pf_unclosed :
  tokenize_formula (fun _ => false) [pf_tok PNAME "foo" 4; pf_tok POTHER "(" 7] None (flat_map op_string default_ops)
  = ([], Some (PatsyError "unclosed bracket in embedded Python expression" (Some (mkOrigin pf_code 4 8)))).
Proof. reflexivity. Qed.
