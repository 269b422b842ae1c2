From Coq Require Import Ascii DecimalString DecimalNat.
From Verif Require Import Base InfixModel InfixSpec InfixProofs DescModel NumModel BuildModel ConstraintModel ConstraintSpec
  ConstraintLexProofs ConstraintProofs ConstraintTopProofs WriteModel WriteSpec.
Open Scope nat_scope.

(** * Numerals *)
Lemma uint_acc u : forall acc, digits_acc (Z.of_nat acc) (DecimalString.NilEmpty.string_of_uint u) = Z.of_nat (Nat.of_uint_acc u acc).
Proof.
  induction u; intros acc; cbn [DecimalString.NilEmpty.string_of_uint digits_acc Nat.of_uint_acc]; try reflexivity; rewrite Nat.tail_mul_spec; rewrite <- IHu; f_equal;
    match goal with |- context [digit_val ?c] => let v := eval vm_compute in (digit_val c) in change (digit_val c) with v end; cbv iota; lia.
Qed.
Lemma uint_digits u : digits (DecimalString.NilEmpty.string_of_uint u).
Proof. unfold digits, chars_are. induction u; cbn in *; auto. Qed.
Lemma nat_str_digits k : digits (nat_str k).
Proof. apply uint_digits. Qed.
Lemma nat_str_place k : place_value (nat_str k) = Z.of_nat k.
Proof.
  pose proof (digits_acc_place (nat_str k) 0 (nat_str_digits k)) as H. rewrite Z.mul_0_l, Z.add_0_l in H. rewrite <- H.
  unfold nat_str. change 0%Z with (Z.of_nat 0). rewrite uint_acc. f_equal. apply (DecimalNat.Unsigned.of_to k).
Qed.
Lemma nat_str_nonempty k : nat_str k <> ""%string.
Proof.
  unfold nat_str. pose proof (DecimalNat.Unsigned.of_to k) as H. destruct (Nat.to_uint k) eqn:E; cbn; try discriminate. cbn in H. subst k. discriminate E.
Qed.
Lemma nat_str_value k : decimal_value (nat_str k) = qz (Z.of_nat k).
Proof.
  pose proof (decimal_lemma "" (nat_str k) "" 1%Qc) as H. destruct H as [_ H]; [reflexivity|apply nat_str_digits|apply nat_str_nonempty|constructor|].
  rewrite <- nat_str_place. rewrite app_nil_str in H. rewrite H. ring.
Qed.

(** * Tokens *)
Section Lex.
Variables (names : list string) (code : string).
Hypothesis Hr : readable_names names.
Hypothesis Hne : names <> [].

Definition tok (ty : ttype) (s : string) (pos : nat) : token := mkToken ty (mkOrigin code pos (pos + String.length s)) (Some s).
Lemma lex_punct x pos p' r toks rest : is_punct x -> p' = pos + String.length x -> lexes names code p' r toks rest ->
  lexes names code pos (x ++ r) (tok (punct_type x) x pos :: toks) rest.
Proof. intros Hx -> H. apply lx_token; [now constructor|exact H]. Qed.

Lemma punct_char x : is_punct x -> exists c, x = String c "".
Proof. unfold is_punct. cbn. intuition (subst; eauto). Qed.
Lemma not_punct c s : ~ is_punct (String c "") -> no_punct (String c s).
Proof. intros H x Hx [r E]. destruct (punct_char x Hx) as [d ->]. cbn in E. injection E as -> _. contradiction. Qed.

Lemma longer_starts x y r : starts_with y (x ++ ")" ++ r) -> String.length x < String.length y -> starts_with (x ++ ")") y.
Proof.
  revert y. induction x as [|c x IH]; intros y [t E] L; destruct y as [|d y]; cbn in *; try lia.
  - injection E as <- _. now exists y.
  - injection E as <- E. destruct (IH y) as [u ->]; [now exists t|lia|]. now exists u.
Qed.
Lemma lex_name n pos p' r toks rest : In n names -> p' = pos + String.length n -> lexes names code p' (")" ++ r) toks rest ->
  lexes names code pos (n ++ ")" ++ r) (tok (TName "VARIABLE") n pos :: toks) rest.
Proof.
  intros Hn -> H. destruct Hr as [R1 R2]. rewrite Forall_forall in R1. pose proof (R1 n Hn) as R. destruct n as [|c n]; [contradiction|]. destruct R as [Rd Rp].
  apply lx_token; [|exact H]. constructor; [cbn [append]; now apply not_punct|exact Hn|discriminate|].
  intros y Hy Hs. destruct (Nat.le_gt_cases (String.length y) (String.length (String c n))) as [L|L]; [exact L|]. exfalso.
  eapply R2; [exact Hn|exact Hy|]. eapply longer_starts; [exact Hs|exact L].
Qed.

Definition num_char (c : ascii) : bool := is_digit c || one_of ".eE+-" c.
Lemma number_chars y : number_text y -> chars_are num_char y.
Proof.
  intros [d1 [point [d2 [e [-> [H1 [Hp [H2 [_ He]]]]]]]]].
  assert (D : forall d, digits d -> chars_are num_char d).
  { intros d. induction d as [|c d IH]; intros H; [reflexivity|]. apply chars_cons in H. apply chars_cons. unfold num_char at 1. rewrite (proj1 H). split; [reflexivity|]. apply IH, H. }
  apply chars_app; split; [auto|]. apply chars_app; split; [cbn in Hp; intuition (subst; reflexivity)|]. apply chars_app; split; [auto|].
  inversion He as [|e0 sign d I1 I2 I3 I4]; [reflexivity|]. apply chars_app; split; [cbn in I1; intuition (subst; reflexivity)|].
  apply chars_app; split; [cbn in I2; intuition (subst; reflexivity)|auto].
Qed.
Lemma lex_number k pos p' r toks rest : p' = pos + String.length (nat_str k) -> lexes names code p' (")" ++ r) toks rest ->
  lexes names code pos (nat_str k ++ ")" ++ r) (tok (TName "NUMBER") (nat_str k) pos :: toks) rest.
Proof.
  intros -> H. apply lx_token; [|exact H]. pose proof (nat_str_digits k) as D. pose proof (nat_str_nonempty k) as Ne. destruct (nat_str k) as [|c s] eqn:E; [congruence|].
  apply chars_cons in D. destruct D as [Dc Ds]. constructor.
  - cbn [append]. apply not_punct. intros P. unfold is_punct in P. cbn in P. destruct P as [P|[P|[P|[P|[P|[P|[P|[P|[]]]]]]]]]; injection P as <-; discriminate Dc.
  - split; [exact Hne|]. intros x Hx [t Et]. destruct Hr as [R1 _]. rewrite Forall_forall in R1. specialize (R1 x Hx). destruct x as [|d x]; [contradiction|]. destruct R1 as [R1 _].
    cbn in Et. injection Et as -> _. congruence.
  - exists ""%string, ""%string, (String c s), ""%string. cbn [append]. rewrite app_nil_str. split; [reflexivity|]. split; [reflexivity|]. split; [cbn; auto|].
    split; [apply chars_cons; auto|]. split; [discriminate|constructor].
  - intros y Hy Hs. destruct (Nat.le_gt_cases (String.length y) (String.length (String c s))) as [L|L]; [exact L|]. exfalso.
    destruct (longer_starts _ _ _ Hs L) as [u ->]. apply number_chars in Hy. apply chars_app in Hy. destruct Hy as [Hy _]. apply chars_app in Hy. destruct Hy as [_ Hy]. discriminate Hy.
Qed.

(** * Trees *)
Definition len (e : expr) : nat := String.length (written e).
Definition op_tok (s : string) (pos : nat) : token := tok (TName s) s pos.
Fixpoint ctree (pos : nat) (e : expr) : cst :=
  let p := S pos in
  let bin s a b := CBin (ctree p a) (op_tok s (p + len a)) (ctree (p + len a + 1) b) in
  CParen (tok TLParen "(" pos)
    (match e with
     | EVar n => CAtom (tok (TName "VARIABLE") n p)
     | ENum k => CAtom (tok (TName "NUMBER") (nat_str k) p)
     | ENeg a => CUn (op_tok "-" p) (ctree (S p) a)
     | EAdd a b => bin "+"%string a b
     | ESub a b => bin "-"%string a b
     | EMul a b => bin "*"%string a b
     | EDiv a b => bin "/"%string a b
     end) (tok TRParen ")" (pos + len e - 1)).
Definition inner (pos : nat) (e : expr) : cst := match ctree pos e with CParen _ c _ => c | c => c end.
Lemma ctree_inner pos e : exists l r, ctree pos e = CParen l (inner pos e) r /\ tk_type l = TLParen /\ tk_type r = TRParen.
Proof. destruct e; cbn; do 2 eexists; (split; [reflexivity|split; reflexivity]). Qed.

Lemma lex_bin s a b :
  In s ["+"; "-"; "*"; "/"]%string ->
  (forall pos p' r toks rest, p' = pos + len a -> lexes names code p' r toks rest -> lexes names code pos (written a ++ r) (yield (ctree pos a) ++ toks) rest) ->
  (forall pos p' r toks rest, p' = pos + len b -> lexes names code p' r toks rest -> lexes names code pos (written b ++ r) (yield (ctree pos b) ++ toks) rest) ->
  forall pos p' q r toks rest, p' = pos + (len a + len b + 3) -> q = pos + (len a + len b + 2) -> lexes names code p' r toks rest ->
    lexes names code pos ("(" ++ written a ++ s ++ written b ++ ")" ++ r)
      (tok TLParen "(" pos :: yield (ctree (S pos) a) ++ op_tok s (S pos + len a) :: yield (ctree (S pos + len a + 1) b) ++ tok TRParen ")" q :: toks) rest.
Proof.
  intros Hs Ha Hb pos p' q r toks rest -> -> H. change (tok TLParen "(" pos) with (tok (punct_type "(") "(" pos). eapply lex_punct; [cbn; auto|reflexivity|].
  replace (pos + String.length "(") with (S pos) by (cbn; lia). eapply Ha; [reflexivity|].
  assert (P : punct_type s = TName s /\ is_punct s /\ String.length s = 1) by (cbn in Hs; unfold is_punct; cbn; intuition (subst; auto 12)).
  destruct P as [P1 [P2 P3]]. unfold op_tok. rewrite <- P1. eapply lex_punct; [exact P2|reflexivity|]. rewrite P3. eapply Hb; [reflexivity|].
  change TRParen with (punct_type ")"). replace (pos + (len a + len b + 2)) with (S pos + len a + 1 + len b) by lia. eapply lex_punct; [cbn; auto 12|reflexivity|].
  cbn [String.length]. replace (S pos + len a + 1 + len b + 1) with (pos + (len a + len b + 3)) by lia. exact H.
Qed.
Lemma lex_expr e : about names e -> forall pos p' r toks rest, p' = pos + len e -> lexes names code p' r toks rest ->
  lexes names code pos (written e ++ r) (yield (ctree pos e) ++ toks) rest.
Proof.
  induction e as [n|k|a IH|a IHa b IHb|a IHa b IHb|a IHa b IHb|a IHa b IHb]; cbn [about]; intros Hab pos p' r toks rest Hp H.
  4-7: destruct Hab as [Aa Ab]; cbn [written ctree yield]; rewrite !app_assoc_str; cbn [app]; rewrite <- !app_assoc; cbn [app];
    eapply lex_bin; [cbn; auto|exact (IHa Aa)|exact (IHb Ab)| | |exact H]; [subst p'; unfold len; cbn [written]; rewrite !length_app_str; cbn; lia|unfold len; cbn [written]; rewrite !length_app_str; cbn; lia].
  - cbn [written ctree yield]. rewrite !app_assoc_str. cbn [app]. change (tok TLParen "(" pos) with (tok (punct_type "(") "(" pos). eapply lex_punct; [cbn; auto|reflexivity|].
    replace (pos + String.length "(") with (S pos) by (cbn; lia). eapply lex_name; [exact Hab|reflexivity|].
    change TRParen with (punct_type ")"). replace (pos + len (EVar n) - 1) with (S pos + String.length n) by (unfold len; cbn [written]; rewrite !length_app_str; cbn; lia).
    eapply lex_punct; [cbn; auto 12| |exact H]. subst p'. unfold len. cbn [written]. rewrite !length_app_str. cbn. lia.
  - cbn [written ctree yield]. rewrite !app_assoc_str. cbn [app]. change (tok TLParen "(" pos) with (tok (punct_type "(") "(" pos). eapply lex_punct; [cbn; auto|reflexivity|].
    replace (pos + String.length "(") with (S pos) by (cbn; lia). eapply lex_number; [reflexivity|].
    change TRParen with (punct_type ")"). replace (pos + len (ENum k) - 1) with (S pos + String.length (nat_str k)) by (unfold len; cbn [written]; rewrite !length_app_str; cbn; lia).
    eapply lex_punct; [cbn; auto 12| |exact H]. subst p'. unfold len. cbn [written]. rewrite !length_app_str. cbn. lia.
  - cbn [written ctree yield]. rewrite !app_assoc_str. cbn [app]. rewrite <- !app_assoc. cbn [app]. change (tok TLParen "(" pos) with (tok (punct_type "(") "(" pos). eapply lex_punct; [cbn; auto|reflexivity|].
    replace (pos + String.length "(") with (S pos) by (cbn; lia). unfold op_tok. change (TName "-") with (punct_type "-"). eapply lex_punct; [cbn; auto 12|reflexivity|].
    replace (S pos + String.length "-") with (S (S pos)) by (cbn; lia). eapply (IH Hab); [reflexivity|].
    change TRParen with (punct_type ")"). replace (pos + len (ENeg a) - 1) with (S (S pos) + len a) by (unfold len; cbn [written]; rewrite !length_app_str; cbn; lia).
    eapply lex_punct; [cbn; auto 12| |exact H]. subst p'. unfold len. cbn [written]. rewrite !length_app_str. cbn. lia.
Qed.
End Lex.

(** * Readings *)
Section Read.
Variable code : string.
Notation ctree := (ctree code).
Notation inner := (inner code).

Lemma declares_op s a p : In (mkOp (TName s) a p) documented_constraint_ops -> declares documented_constraint_ops a (TName s) p.
Proof.
  intros H. assert (G : lookup_op documented_constraint_ops a (TName s) = Some (mkOp (TName s) a p)).
  { cbn in H. repeat destruct H as [H|H]; try contradiction; injection H as <- <- <-; reflexivity. }
  apply lookup_declares in G. exact (proj2 G).
Qed.
Lemma atom_valid ty s pos : In ty ["VARIABLE"; "NUMBER"]%string -> valid documented_constraint_ops documented_constraint_atoms (CAtom (tok code (TName ty) s pos)).
Proof.
  intros H. assert (G : In (TName ty) documented_constraint_atoms) by (cbn in H |- *; intuition (subst; auto)). constructor; [discriminate| |exact G].
  cbn [tok tk_type]. apply lookup_none. cbn in H. intuition (subst; reflexivity).
Qed.
Lemma left_open_tree P pos e : left_open documented_constraint_ops P (ctree pos e).
Proof. destruct (ctree_inner code pos e) as [l [r [-> _]]]. constructor. Qed.
Lemma right_open_tree P pos e : right_open documented_constraint_ops P (ctree pos e).
Proof. destruct (ctree_inner code pos e) as [l [r [-> _]]]. constructor. Qed.
Lemma bin_valid s p a b i j k : In (mkOp (TName s) 2 p) documented_constraint_ops ->
  valid documented_constraint_ops documented_constraint_atoms (ctree i a) -> valid documented_constraint_ops documented_constraint_atoms (ctree k b) ->
  valid documented_constraint_ops documented_constraint_atoms (CBin (ctree i a) (op_tok code s j) (ctree k b)).
Proof.
  intros H Ha Hb. eapply v_bin; [discriminate|apply declares_op; exact H|exact Ha|exact Hb|apply right_open_tree|apply left_open_tree].
Qed.
Lemma tree_valid e : forall pos, valid documented_constraint_ops documented_constraint_atoms (ctree pos e).
Proof.
  induction e as [n|k|a IH|a IHa b IHb|a IHa b IHb|a IHa b IHb|a IHa b IHb]; intros pos; cbn [WriteProofs.ctree]; (constructor; [reflexivity|reflexivity|]).
  - apply atom_valid. cbn; auto.
  - apply atom_valid. cbn; auto.
  - eapply v_un; [discriminate|apply (declares_op _ _ 100%Z); cbn; auto 12|apply IH|apply left_open_tree].
  - eapply bin_valid; [|apply IHa|apply IHb]. cbn; auto 12.
  - eapply bin_valid; [|apply IHa|apply IHb]. cbn; auto 12.
  - eapply bin_valid; [|apply IHa|apply IHb]. cbn; auto 12.
  - eapply bin_valid; [|apply IHa|apply IHb]. cbn; auto 12.
Qed.

Lemma tree_val beta e : forall pos, val beta (ctree pos e) = value beta e.
Proof.
  induction e as [n|k|a IH|a IHa b IHb|a IHa b IHb|a IHa b IHb|a IHa b IHb]; intros pos; cbn [WriteProofs.ctree val];
    try (unfold op_tok, tok_is, tok; cbn [tk_type]; cbn [ttype_eqb String.eqb Ascii.eqb Bool.eqb]; rewrite ?IHa, ?IHb, ?IH; reflexivity).
  cbn. now rewrite nat_str_value.
Qed.
Lemma tree_constant pos e : constant (ctree pos e) <-> fixed e.
Proof. unfold constant, fixed. split; intros H b1 b2; specialize (H b1 b2); now rewrite ?tree_val in *. Qed.
Lemma tree_linear e : is_linear e -> forall pos, linear (ctree pos e).
Proof.
  induction e as [n|k|a IH|a IHa b IHb|a IHa b IHb|a IHa b IHb|a IHa b IHb]; cbn [is_linear]; intros H pos; cbn [WriteProofs.ctree linear]; auto;
    rewrite ?tree_constant; unfold op_tok, tok_is, tok; cbn [tk_type]; cbn [ttype_eqb String.eqb Ascii.eqb Bool.eqb]; repeat split; try (now apply IHa); try (now apply IHb); try discriminate; tauto.
Qed.
Lemma tree_safe e : is_linear e -> forall pos, division_safe (ctree pos e).
Proof.
  induction e as [n|k|a IH|a IHa b IHb|a IHa b IHb|a IHa b IHb|a IHa b IHb]; cbn [is_linear]; intros H pos; cbn [WriteProofs.ctree division_safe]; auto;
    unfold op_tok, tok_is, tok; cbn [tk_type]; cbn [ttype_eqb String.eqb Ascii.eqb Bool.eqb]; repeat split; try (now apply IHa); try (now apply IHb); try discriminate.
  intros _ F. apply H. intros beta. rewrite <- (F beta). symmetry. apply tree_val.
Qed.
Lemma tree_members pos e : exists c, members (ctree pos e) = [c] /\ forall beta, val beta c = value beta e.
Proof.
  exists (inner pos e). split.
  - destruct e; reflexivity.
  - intros beta. rewrite <- (tree_val beta e pos). destruct (ctree_inner code pos e) as [l [r [-> _]]]. reflexivity.
Qed.
Lemma tree_equation pos e : equation (ctree pos e) = None.
Proof. destruct e; reflexivity. Qed.

(** Equations. *)
Definition eq_len (q : expr * expr) : nat := String.length (written_equation q).
Definition eq_tree (pos : nat) (q : expr * expr) : cst :=
  CBin (ctree pos (fst q)) (op_tok code "=" (pos + len (fst q))) (ctree (pos + len (fst q) + 1) (snd q)).
Lemma eq_valid pos q : valid documented_constraint_ops documented_constraint_atoms (eq_tree pos q).
Proof. eapply bin_valid; [|apply tree_valid|apply tree_valid]. cbn; auto. Qed.
Lemma eq_holds beta pos q : holds beta (eq_tree pos q) <-> solves beta q.
Proof.
  unfold eq_tree, solves. cbn [holds]. unfold op_tok, tok_is, tok. cbn [tk_type]. cbn [ttype_eqb String.eqb Ascii.eqb Bool.eqb]. cbn [members]. unfold tok_is. cbn [tk_type]. cbn [ttype_eqb String.eqb Ascii.eqb Bool.eqb].
  destruct (tree_members pos (fst q)) as [c [-> Hc]]. destruct (tree_members (pos + len (fst q) + 1) (snd q)) as [d [-> Hd]]. cbn [app].
  split; intros [v H]; exists v.
  - inversion H as [|x l X1 X2]; subst. inversion X2 as [|x2 l2 X3 _]; subst. now rewrite <- Hc, <- Hd.
  - constructor; [now rewrite Hc|]. constructor; [now rewrite Hd|constructor].
Qed.
Lemma eq_linear names pos q : proper_equation names q -> linear_constraint_expr (eq_tree pos q) /\ division_safe (eq_tree pos q).
Proof.
  intros [_ [_ [L1 [L2 Hd]]]]. split.
  - unfold eq_tree. cbn [linear_constraint_expr]. unfold op_tok, tok_is, tok. cbn [tk_type]. cbn [ttype_eqb String.eqb Ascii.eqb Bool.eqb]. rewrite !tree_equation.
    split; [congruence|]. split; [congruence|]. split; [now apply tree_linear|]. split; [now apply tree_linear|]. intros F. apply Hd. intros b1 b2. specialize (F b1 b2). rewrite !tree_val in F. exact F.
  - unfold eq_tree. cbn [division_safe]. split; [now apply tree_safe|]. split; [now apply tree_safe|]. discriminate.
Qed.
Lemma lex_equation names q : readable_names names -> names <> [] -> proper_equation names q -> forall pos p' r toks rest, p' = pos + eq_len q -> lexes names code p' r toks rest ->
  lexes names code pos (written_equation q ++ r) (yield (eq_tree pos q) ++ toks) rest.
Proof.
  intros Hr Hne [A1 [A2 _]] pos p' r toks rest -> H. unfold written_equation, eq_tree. cbn [yield]. rewrite !app_assoc_str, <- !app_assoc. cbn [app].
  eapply lex_expr; [exact Hr|exact Hne|exact A1|reflexivity|]. unfold op_tok. change (TName "=") with (punct_type "="). eapply lex_punct; [cbn; auto|reflexivity|]. cbn [String.length].
  eapply lex_expr; [exact Hr|exact Hne|exact A2|reflexivity|]. unfold eq_len, written_equation in H. rewrite !length_app_str in H. unfold len. cbn in H |- *.
  replace (pos + _ + 1 + _) with (pos + (String.length (written (fst q)) + S (String.length (written (snd q))))) by lia. exact H.
Qed.
End Read.

(** * Systems of equations *)
Section System.
Variables (names : list string) (code : string).
Hypothesis Hr : readable_names names.
Hypothesis Hne : names <> [].
Definition good (s : string) (c : cst) (qs : list (expr * expr)) : Prop :=
  (forall r toks rest, lexes names code (String.length s) r toks rest -> lexes names code 0 (s ++ r) (yield c ++ toks) rest) /\
  valid documented_constraint_ops documented_constraint_atoms c /\
  right_open documented_constraint_ops (fun q => (-100 <= q)%Z) c /\
  linear_constraint_expr c /\ division_safe c /\
  (forall beta, holds beta c <-> Forall (solves beta) qs).
Lemma good_first q : proper_equation names q -> good (written_equation q) (eq_tree code 0 q) [q].
Proof.
  intros Hq. split; [|split; [|split; [|split; [|split]]]].
  - intros r toks rest H. eapply lex_equation; [exact Hr|exact Hne|exact Hq| |exact H]. reflexivity.
  - apply eq_valid.
  - unfold eq_tree. eapply (ro_bin _ _ _ _ _ 0%Z); [apply declares_op; cbn; auto|lia|apply right_open_tree].
  - eapply eq_linear, Hq.
  - eapply eq_linear, Hq.
  - intros beta. rewrite eq_holds. split; [intros H; constructor; [exact H|constructor]|intros H; now inversion H].
Qed.
Lemma good_more s c qs q : proper_equation names q -> good s c qs ->
  good (s ++ "," ++ written_equation q) (CBin c (op_tok code "," (String.length s)) (eq_tree code (String.length s + 1) q)) (qs ++ [q]).
Proof.
  intros Hq [G1 [G2 [G3 [G4 [G5 G6]]]]]. split; [|split; [|split; [|split; [|split]]]].
  - intros r toks rest H. cbn [yield]. rewrite !app_assoc_str, <- !app_assoc. cbn [List.app]. apply G1. unfold op_tok. change (TName ",") with (punct_type ",").
    eapply lex_punct; [cbn; auto|reflexivity|]. cbn [String.length]. eapply lex_equation; [exact Hr|exact Hne|exact Hq|reflexivity|].
    rewrite !length_app_str in H. cbn [String.length] in H. unfold eq_len. replace (String.length s + 1 + _) with (String.length s + (1 + String.length (written_equation q))) by lia. exact H.
  - eapply (v_bin _ _ _ _ _ (-100)%Z); [discriminate|apply declares_op; cbn; auto|exact G2|apply eq_valid|exact G3|].
    unfold eq_tree. eapply (lo_bin _ _ _ _ _ 0%Z); [apply declares_op; cbn; auto|lia|apply left_open_tree].
  - eapply (ro_bin _ _ _ _ _ (-100)%Z); [apply declares_op; cbn; auto|lia|]. unfold eq_tree. eapply (ro_bin _ _ _ _ _ 0%Z); [apply declares_op; cbn; auto|lia|apply right_open_tree].
  - change (linear_constraint_expr c /\ linear_constraint_expr (eq_tree code (String.length s + 1) q)). split; [exact G4|]. eapply eq_linear, Hq.
  - cbn [division_safe]. split; [exact G5|]. split; [eapply eq_linear, Hq|discriminate].
  - intros beta. change (holds beta c /\ holds beta (eq_tree code (String.length s + 1) q) <-> Forall (solves beta) (qs ++ [q])).
    rewrite G6, eq_holds, Forall_app. split; intros [H1 H2]; (split; [exact H1|]); [constructor; [exact H2|constructor]|now inversion H2].
Qed.
Lemma good_all more : forall s c qs, Forall (proper_equation names) more -> good s c qs ->
  exists c', good (fold_left (fun s q => s ++ "," ++ written_equation q)%string more s) c' (qs ++ more).
Proof.
  induction more as [|q more IH]; intros s c qs H G; cbn [fold_left].
  - exists c. now rewrite app_nil_r.
  - inversion H; subst. destruct (IH _ _ _ H3 (good_more s c qs q H2 G)) as [c' G']. exists c'. now rewrite <- app_assoc in G'.
Qed.
End System.

Lemma written_reads names first more : readable_names names -> names <> [] -> Forall (proper_equation names) (first :: more) ->
  exists c, reads names (written_system first more) c /\ linear_constraint_expr c /\ division_safe c /\ forall beta, holds beta c <-> Forall (solves beta) (first :: more).
Proof.
  intros Hr Hne H. inversion H; subst. destruct (good_all names (written_system first more) Hr Hne more _ _ _ H3 (good_first names (written_system first more) Hr Hne first H2)) as [c G].
  destruct G as [G1 [G2 [_ [G4 [G5 G6]]]]]. exists c. split; [|auto]. split; [|exact G2].
  specialize (G1 ""%string [] ""%string (lx_stop _ _ _ _)). rewrite app_nil_r, app_nil_str in G1. exact G1.
Qed.
Lemma about_names names e : about names e -> names = [] -> fixed e.
Proof.
  intros H ->. unfold fixed. intros b1 b2. induction e; cbn [about] in H; cbn [value]; try contradiction; try reflexivity;
    try (destruct H as [Ha Hb]; now rewrite (IHe1 Ha), (IHe2 Hb)). now rewrite (IHe H).
Qed.
Lemma proper_names names q : proper_equation names q -> names <> [].
Proof. intros [A1 [A2 [_ [_ N]]]] E. apply N. apply about_names with (names := names); [split; assumption|exact E]. Qed.

Lemma written_accepted names first more : NoDup names -> readable_names names -> Forall (proper_equation names) (first :: more) ->
  exists lc, linear_constraint (LikeString (written_system first more)) names = Ok lc /\ lc_names lc = names /\ well_shaped lc /\
    forall beta, satisfies lc beta <-> Forall (solves beta) (first :: more).
Proof.
  intros Hnd Hr H. assert (Hne : names <> []) by (inversion H; subst; eapply proper_names; eassumption).
  destruct (written_reads names first more Hr Hne H) as [c [R [L [D Hh]]]].
  pose proof (accepts_lemma names _ c Hnd R D) as A. destruct (linear_constraint (LikeString (written_system first more)) names) as [lc|e] eqn:E; [|tauto].
  exists lc. split; [reflexivity|]. destruct (strings_meaning names [written_system first more] lc) as [cs [F [N [W S]]]]; [discriminate|exact E|].
  split; [exact N|]. split; [exact W|]. intros beta. rewrite S. inversion F as [|x y l l' R' F']; subst. inversion F'; subst.
  assert (y = c). { destruct R as [R1 R2], R' as [R1' R2']. apply tokenize_ok_iff in R1, R1'. rewrite R1 in R1'. injection R1' as Et. symmetry.
    exact (unambiguous_lemma _ _ _ _ constraint_table_good R2 R2' Et). }
  subst y. rewrite <- Hh. split; [intros X; now inversion X|intros X; constructor; [exact X|constructor]].
Qed.

(** * Matrices *)
Lemma some_inj {A} (x y : A) : Some x = Some y -> x = y.
Proof. now intros [= ->]. Qed.
Lemma qz_pos_nonzero n : 0 < n -> Qc_eq_bool (qz (Z.of_nat n)) 0%Qc = false.
Proof.
  intros H. unfold Qc_eq_bool. destruct (Qc_eq_dec (qz (Z.of_nat n)) 0%Qc) as [E|]; [exfalso|reflexivity]. unfold qz in E. apply Qc_is_canon in E || idtac.
  assert (Q : (inject_Z (Z.of_nat n) == 0)%Q). { rewrite <- (Qred_correct (inject_Z (Z.of_nat n))). change (Qred (inject_Z (Z.of_nat n))) with (this (Q2Qc (inject_Z (Z.of_nat n)))). rewrite E. reflexivity. }
  unfold Qeq in Q. cbn in Q. lia.
Qed.
Lemma fraction_value beta q : value beta (fraction q) = Some q.
Proof.
  unfold fraction. assert (N : value beta (if (Qnum (this q) <? 0)%Z then ENeg (ENum (Z.to_nat (Z.abs (Qnum (this q))))) else ENum (Z.to_nat (Z.abs (Qnum (this q))))) = Some (qz (Qnum (this q)))).
  { destruct (Z.ltb_spec (Qnum (this q)) 0) as [L|L]; cbn [value option_map]; rewrite Z2Nat.id by lia; f_equal.
    - rewrite Z.abs_neq by lia. unfold qz. apply Qc_is_canon. cbn [this Qcopp Q2Qc]. rewrite !Qred_correct. unfold Qeq. cbn. lia.
    - now rewrite Z.abs_eq by lia. }
  cbn [value]. rewrite N. cbn [lift2]. rewrite qz_pos_nonzero by lia. f_equal. rewrite positive_nat_Z. unfold qz. apply Qc_is_canon.
  unfold Qcdiv. cbn [this Qcmult Qcinv Q2Qc]. rewrite !Qred_correct. destruct q as [[n d] c]. cbn [this Qnum Qden]. unfold Qeq, Qmult, Qinv, inject_Z. cbn. lia.
Qed.
Lemma combination_value beta names : forall row, length row = length names -> value beta (combination names row) = Some (dot row (map beta names)).
Proof.
  induction names as [|n names IH]; intros [|q row] L; try discriminate; cbn [combination map dot]; [reflexivity|]. cbn [value]. rewrite fraction_value, IH by (cbn in L; lia). reflexivity.
Qed.
Lemma fraction_linear names q : about names (fraction q) /\ is_linear (fraction q).
Proof.
  unfold fraction. split.
  - cbn [about]. split; [|exact Logic.I]. destruct (Qnum q <? 0)%Z; exact Logic.I.
  - cbn [is_linear]. split; [destruct (Qnum q <? 0)%Z; exact Logic.I|]. split; [exact Logic.I|]. split; [intros b1 b2; reflexivity|]. intros F. specialize (F (fun _ => 0%Qc)). cbn [value] in F.
    apply some_inj in F. pose proof (qz_pos_nonzero (Pos.to_nat (Qden q)) ltac:(lia)) as Z. rewrite F in Z. discriminate Z.
Qed.
Lemma fraction_fixed q : fixed (fraction q).
Proof. intros b1 b2. now rewrite !fraction_value. Qed.
Lemma combination_linear all names : forall row, incl names all -> about all (combination names row) /\ is_linear (combination names row).
Proof.
  induction names as [|n names IH]; intros [|q row] Hi; cbn [combination about is_linear]; auto. destruct (IH row (fun x Hx => Hi x (or_intror Hx))) as [A L].
  pose proof (fraction_linear all q) as [F1 F2]. split; [split; [split; [exact F1|apply Hi; now left]|exact A]|split; [split; [exact F2|split; [exact Logic.I|left; apply fraction_fixed]]|exact L]].
Qed.
Lemma row_proper names row k : NoDup names -> length row = length names -> existsb (fun q => negb (Qc_eq_bool q 0%Qc)) row = true -> proper_equation names (row_equation names row k).
Proof.
  intros Hnd L Hz. unfold row_equation. destruct (combination_linear names names row (fun x Hx => Hx)) as [A1 L1]. destruct (fraction_linear names k) as [A2 L2].
  split; [exact A1|]. split; [exact A2|]. split; [exact L1|]. split; [exact L2|]. cbn [fst snd]. intros F.
  assert (Z : all_zero row = true). { apply (never_changes names Hnd row L). intros b1 b2. specialize (F b1 b2). cbn [value] in F. rewrite !fraction_value, !combination_value in F by exact L. cbn [lift2] in F. apply some_inj in F.
    assert (dot row (map b1 names) = dot row (map b1 names) - k + k)%Qc as -> by ring. rewrite F. ring. }
  clear - Z Hz. unfold all_zero in Z. induction row as [|q row IH]; cbn in *; [discriminate|]. apply andb_true_iff in Z. destruct Z as [Z1 Z2]. rewrite Z1 in Hz. cbn in Hz. auto.
Qed.
Lemma row_solves beta names row k : length row = length names -> (solves beta (row_equation names row k) <-> dot row (map beta names) = k).
Proof.
  intros L. unfold solves, row_equation. cbn [fst snd]. rewrite fraction_value, combination_value by exact L. split; [intros [v [[= <-] [= H]]]; congruence|]. intros <-. eauto.
Qed.

(** * Names alone *)
Lemma name_reads names n : In n names -> readable_start n -> reads names n (CAtom (tok n (TName "VARIABLE") n 0)).
Proof.
  intros Hn R. split; [|apply atom_valid; cbn; auto]. cbn [yield]. rewrite <- (app_nil_str n) at 2. change 0 with 0. eapply lx_token with (r := ""%string); [|constructor].
  destruct n as [|c n]; [contradiction|]. destruct R as [_ R]. constructor; [cbn [append]; now apply not_punct|exact Hn|discriminate|].
  intros y Hy [t Ht]. rewrite app_nil_str in Ht. rewrite Ht, length_app_str. lia.
Qed.
