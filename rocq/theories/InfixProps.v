(** Properties C01-C04 of patsy/infix_parser.py. *)
From Verif Require Import Base OriginModel InfixModel InfixSpec InfixProofs.

(** C01.  The parser accepts exactly the well-bracketed expressions and returns
    their tree. *)
Theorem infix_parse_correct : forall ops atoms code toks,
  good_table ops -> one_source code toks ->
  (forall n, infix_parse toks ops atoms = Ok n ->
     exists c, valid ops atoms c /\ yield c = toks /\ represents n (tree_of c)) /\
  (forall c, valid ops atoms c -> yield c = toks ->
     exists n, infix_parse toks ops atoms = Ok n /\ represents n (tree_of c)).
Proof. exact parse_correct_lemma. Qed.
Print Assumptions infix_parse_correct.

(** C02.  No token sequence has two readings. *)
Theorem infix_grammar_unambiguous : forall ops atoms c1 c2,
  good_table ops -> valid ops atoms c1 -> valid ops atoms c2 ->
  yield c1 = yield c2 -> c1 = c2.
Proof. exact unambiguous_lemma. Qed.
Print Assumptions infix_grammar_unambiguous.

(** C03.  Rejection of a non-empty stream is a PatsyError at one of its tokens. *)
Theorem infix_parse_errors_located : forall ops atoms code toks e,
  good_table ops -> one_source code toks -> toks <> [] ->
  infix_parse toks ops atoms = Err e ->
  exists m t, In t toks /\ e = PatsyError m (Some (tk_origin t)).
Proof. exact parse_errors_lemma. Qed.
Print Assumptions infix_parse_errors_located.

(** C03.  Moreover the token named is the first one that no expression can
    contain at that place, or the whole input is an unfinished expression.
    ([a] is any atomic type that is usable as an atom.) *)
Theorem infix_parse_errors_earliest : forall ops atoms code toks e a,
  good_table ops -> one_source code toks -> toks <> [] ->
  In a atoms -> a <> TLParen -> (forall q, ~ declares ops 1 a q) ->
  infix_parse toks ops atoms = Err e ->
  exists m p t q, toks = p ++ t :: q /\ e = PatsyError m (Some (tk_origin t)) /\
    ((viable ops atoms p /\ ~ viable ops atoms (p ++ [t])) \/
     (viable ops atoms toks /\ ~ exists c, valid ops atoms c /\ yield c = toks)).
Proof. exact parse_errors_earliest_lemma. Qed.
Print Assumptions infix_parse_errors_earliest.

(** C03, the exception: the empty stream is an IndexError, not a PatsyError. *)
Theorem infix_parse_empty_refuted : forall ops atoms,
  good_table ops -> infix_parse [] ops atoms = Err IndexError.
Proof. exact parse_empty_lemma. Qed.
Print Assumptions infix_parse_empty_refuted.

(** C04.  Every node's origin is the extent of its sub-expression. *)
Theorem infix_parse_origins : forall ops atoms code toks n,
  good_table ops -> one_source code toks -> in_order toks ->
  infix_parse toks ops atoms = Ok n ->
  exists c, valid ops atoms c /\ yield c = toks /\ n = located toks c.
Proof. exact parse_located_lemma. Qed.
Print Assumptions infix_parse_origins.

(** * The hypotheses are met: [a + -b * (c + d)] with the table of
    infix_parser.py:257, and [- a ** b : c] style prefix capture. *)
Definition ex_ops : list operator :=
  [mkOp (TName "+") 2 10; mkOp (TName "*") 2 20; mkOp (TName "-") 1 15].
Definition ex_atoms : list ttype := [TName "A"].
Definition ex_tok (ty : ttype) (i : nat) : token := mkToken ty (mkOrigin "a+-b*(c+d)" i (i + 1)) None.
Definition ex_toks : list token :=
  [ex_tok (TName "A") 0; ex_tok (TName "+") 1; ex_tok (TName "-") 2; ex_tok (TName "A") 3;
   ex_tok (TName "*") 4; ex_tok TLParen 5; ex_tok (TName "A") 6; ex_tok (TName "+") 7;
   ex_tok (TName "A") 8; ex_tok TRParen 9].
Definition ex_cst : cst :=
  CBin (CAtom (ex_tok (TName "A") 0)) (ex_tok (TName "+") 1)
    (CUn (ex_tok (TName "-") 2)
       (CBin (CAtom (ex_tok (TName "A") 3)) (ex_tok (TName "*") 4)
          (CParen (ex_tok TLParen 5)
             (CBin (CAtom (ex_tok (TName "A") 6)) (ex_tok (TName "+") 7) (CAtom (ex_tok (TName "A") 8)))
             (ex_tok TRParen 9)))).

Example ex_good : good_table ex_ops.
Proof. repeat (constructor; [cbn; repeat split; try lia; try congruence; auto|]). constructor. Qed.
Example ex_source : one_source "a+-b*(c+d)" ex_toks.
Proof. repeat constructor. Qed.
Example ex_order : in_order ex_toks.
Proof. repeat (constructor; cbn; auto with arith). Qed.
Example ex_yield : yield ex_cst = ex_toks.
Proof. reflexivity. Qed.
Example ex_parse : infix_parse ex_toks ex_ops ex_atoms = Ok (located ex_toks ex_cst).
Proof. reflexivity. Qed.
Example ex_valid : valid ex_ops ex_atoms ex_cst.
Proof.
  destruct (infix_parse_origins ex_ops ex_atoms _ ex_toks _ ex_good ex_source ex_order ex_parse)
    as [c [Hv [Hy Hn]]].
  assert (Hc : c = ex_cst); [|subst; exact Hv].
  apply (infix_grammar_unambiguous ex_ops ex_atoms); auto using ex_good.
  assert (D1 : forall p, ~ declares ex_ops 1 (TName "A") p).
  { apply lookup_none. reflexivity. }
  assert (D2 : declares ex_ops 2 (TName "+") 10) by (exists [], [mkOp (TName "*") 2 20; mkOp (TName "-") 1 15]; split; [reflexivity|]; intros o [<-|[<-|[]]]; cbn; intuition congruence).
  assert (D3 : declares ex_ops 2 (TName "*") 20) by (exists [mkOp (TName "+") 2 10], [mkOp (TName "-") 1 15]; split; [reflexivity|]; intros o [<-|[]]; cbn; intuition congruence).
  assert (D4 : declares ex_ops 1 (TName "-") 15) by (exists [mkOp (TName "+") 2 10; mkOp (TName "*") 2 20], []; split; [reflexivity|]; intros o []).
  assert (A : forall i, valid ex_ops ex_atoms (CAtom (ex_tok (TName "A") i))).
  { intros i; constructor; cbn; auto; congruence. }
  econstructor; eauto; cbn; try congruence.
  - econstructor; cbn; eauto; try congruence.
    + econstructor; cbn; eauto; try congruence.
      * constructor; auto. econstructor; cbn; eauto; try congruence; constructor.
      * constructor.
      * constructor.
    + econstructor; cbn; eauto; [lia|constructor].
  - constructor.
  - constructor.
Qed.
(** [a + + b] is rejected at the second [+]... here [a )]: an extra paren. *)
Example ex_reject :
  infix_parse [ex_tok (TName "A") 0; ex_tok TRParen 1] ex_ops ex_atoms
  = Err (PatsyError "missing '(' or extra ')'" (Some (mkOrigin "a+-b*(c+d)" 1 2))).
Proof. reflexivity. Qed.
