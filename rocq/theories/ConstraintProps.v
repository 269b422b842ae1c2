(** Properties C41-C45 of patsy/constraint.py. *)
From Coq Require Import Ascii.
From Verif Require Import Base InfixModel InfixSpec DescModel NumModel ConstraintModel ConstraintSpec
  ConstraintLexProofs ConstraintProofs ConstraintTopProofs.
Open Scope nat_scope.

(** C41.  If a list of constraint strings is accepted, each has a reading as an
    expression, and the parameter values satisfying A beta = b are exactly those making
    every one of the expressions hold. *)
Theorem constraint_string_meaning : forall names codes lc, codes <> [] ->
  linear_constraint (LikeStrings codes) names = Ok lc ->
  exists cs, Forall2 (reads names) codes cs /\ lc_names lc = names /\ well_shaped lc /\
    forall beta, satisfies lc beta <-> Forall (holds beta) cs.
Proof. exact strings_meaning. Qed.
Print Assumptions constraint_string_meaning.

(** C41.  There is only one reading. *)
Theorem constraint_reading_unique : forall names code c1 c2,
  reads names code c1 -> reads names code c2 -> c1 = c2.
Proof.
  intros names code c1 c2 [L1 V1] [L2 V2]. apply tokenize_ok_iff in L1, L2. rewrite L1 in L2. injection L2 as E.
  exact (InfixProofs.unambiguous_lemma _ _ _ _ constraint_table_good V1 V2 E).
Qed.
Print Assumptions constraint_reading_unique.

(** C41.  The number a numeral stands for. *)
Theorem constraint_numbers : forall a b e f,
  digits a -> digits b -> b <> ""%string -> exponent_factor e f ->
  decimal_value (a ++ "." ++ b ++ e) = ((qz (place_value a) + qz (place_value b) / ten_to (String.length b)) * f)%Qc /\
  decimal_value (b ++ e) = (qz (place_value b) * f)%Qc.
Proof. exact decimal_lemma. Qed.
Print Assumptions constraint_numbers.

(** C42.  A readable constraint without division by zero is accepted iff it is linear:
    at most one non-constant factor in a product, a constant divisor, and parameters
    that do not cancel out in any equation; otherwise PatsyError. *)
Theorem constraint_linear_iff_accepted : forall names code c,
  NoDup names -> reads names code c -> division_safe c ->
  match linear_constraint (LikeString code) names with
  | Ok _ => linear_constraint_expr c
  | Err e => is_patsy_error e = true /\ ~ linear_constraint_expr c
  end.
Proof. exact accepts_lemma. Qed.
Print Assumptions constraint_linear_iff_accepted.

(** C42.  A string with no reading raises a PatsyError pointing into it. *)
Theorem constraint_unreadable : forall names code,
  (exists toks, toks <> [] /\ lexes names code 0 code toks "") \/ ~ (exists toks, lexes names code 0 code toks "") ->
  ~ (exists c, reads names code c) ->
  exists m o, linear_constraint (LikeString code) names = Err (PatsyError m (Some o)) /\ o_code o = code.
Proof. exact unreadable_lemma. Qed.
Print Assumptions constraint_unreadable.

(** C42, finding: a blank string raises IndexError, not PatsyError. *)
Theorem constraint_blank_patsyerror_refuted : forall names code,
  lexes names code 0 code [] "" -> linear_constraint (LikeString code) names = Err IndexError.
Proof. exact blank_lemma. Qed.
Print Assumptions constraint_blank_patsyerror_refuted.

(** C43.  [combine] stacks the rows in order and is satisfied exactly by the values
    satisfying every constraint. *)
Theorem combine_is_conjunction : forall cs c,
  lc_combine cs = Ok c -> Forall well_shaped cs ->
  cs <> [] /\ Forall (fun d => lc_names d = lc_names c) cs /\ well_shaped c /\
  lc_coefs c = flat_map lc_coefs cs /\ lc_consts c = flat_map lc_consts cs /\
  forall beta, satisfies c beta <-> Forall (fun d => satisfies d beta) cs.
Proof. exact combine_ok_iff. Qed.
Print Assumptions combine_is_conjunction.

(** C43.  It succeeds iff there is at least one constraint and all are about the same
    parameters. *)
Theorem combine_accepts : forall cs, Forall well_shaped cs ->
  ((exists c, lc_combine cs = Ok c) <-> cs <> [] /\ exists names, Forall (fun d => lc_names d = names) cs) /\
  (forall e, lc_combine cs = Err e -> exists m, e = ValueError m).
Proof. exact combine_total. Qed.
Print Assumptions combine_accepts.

(** C44.  The tokenizer returns [toks] iff the whole string can be read left to right as
    [toks] and skipped blanks, each token being a paren or operator, else the longest
    parameter name, else the longest number. *)
Theorem constraint_tokens : forall code names toks,
  tokenize_constraint code names = Ok toks <-> lexes names code 0 code toks "".
Proof. exact tokenize_ok_iff. Qed.
Print Assumptions constraint_tokens.

(** C44.  Otherwise reading stops at some character where nothing can be read, and the
    error points at this character. *)
Theorem constraint_token_errors : forall code names e,
  tokenize_constraint code names = Err e <->
  exists toks rest m, lexes names code 0 code toks rest /\ rest <> ""%string /\
    (forall x ty r, rest = (x ++ r)%string -> ~ lexstep names x ty r) /\
    m = "unrecognized token in constraint"%string /\
    e = PatsyError m (Some (mkOrigin code (String.length code - String.length rest) (String.length code - String.length rest + 1))).
Proof. exact tokenize_err_iff. Qed.
Print Assumptions constraint_token_errors.

(** C44.  There is at most one way to read the next token. *)
Theorem constraint_next_token_unique : forall names x ty r x' ty' r',
  lexstep names x ty r -> lexstep names x' ty' r' -> (x ++ r = x' ++ r')%string -> x = x' /\ ty = ty' /\ r = r'.
Proof. exact lexstep_det. Qed.
Print Assumptions constraint_next_token_unique.

(** C45.  An accepted mapping gives one row per entry, in order, satisfied iff each named
    parameter has the given value. *)
Theorem mapping_constraint_rows : forall names items lc,
  linear_constraint (LikeMapping items) names = Ok lc ->
  lc_names lc = names /\ well_shaped lc /\ length (lc_coefs lc) = length items /\
  exists idxs, Forall2 (fun it i => names_column names (fst it) i) items idxs /\
    lc_coefs lc = map (fun i => set_nth (repeat 0%Qc (length names)) i 1%Qc) idxs /\ lc_consts lc = map snd items /\
    forall beta, satisfies lc beta <-> Forall2 (fun it i => forall x, nth_error names i = Some x -> beta x = snd it) items idxs.
Proof. exact mapping_lemma. Qed.
Print Assumptions mapping_constraint_rows.

(** C45.  A mapping without negative positions is accepted iff it is not empty, every key
    names a parameter, and no two keys name the same one; otherwise ValueError or (a
    position out of range) IndexError. *)
Theorem mapping_constraint_accepts : forall names items,
  Forall (fun it => match fst it with KInt z => (0 <= z)%Z | KName _ => True end) items ->
  ((exists lc, linear_constraint (LikeMapping items) names = Ok lc) <->
   items <> [] /\ exists idxs, Forall2 (fun it i => names_column names (fst it) i) items idxs /\ NoDup idxs) /\
  (forall e, linear_constraint (LikeMapping items) names = Err e -> (exists m, e = ValueError m) \/ e = IndexError).
Proof. exact mapping_accept_lemma. Qed.
Print Assumptions mapping_constraint_accepts.

(** C45, finding: with negative positions a parameter constrained twice is not detected. *)
Theorem mapping_duplicates_rejected_refuted : exists names items lc i,
  NoDup names /\ linear_constraint (LikeMapping items) names = Ok lc /\
  Forall (fun it => names_column names (fst it) i) items /\ length items = 2 /\ NoDup (map fst items).
Proof.
  exists ["a"; "b"]%string, [(KName "b", 1%Qc); (KInt (-1), 0%Qc)].
  eexists. exists 1. split; [repeat constructor; cbn; intuition discriminate|]. split; [vm_compute; reflexivity|].
  split; [|split; [reflexivity|repeat constructor; cbn; intuition discriminate]].
  constructor; [|constructor; [|constructor]].
  - split; [reflexivity|]. intros [|j] H; [cbn; congruence|lia].
  - cbn. lia.
Qed.
Print Assumptions mapping_duplicates_rejected_refuted.

(** C61.  A coefficient matrix, alone or with constants, is accepted iff its shape fits the parameters;
    the constraint says that matrix times parameters equals the constants, zero if none are given. *)
Theorem matrix_constraint_meaning : forall names coefs consts,
  let k := match consts with Some c => c | None => map (fun _ => 0%Qc) coefs end in
  match linear_constraint (match consts with Some c => LikePair coefs c | None => LikeArray coefs end) names with
  | Ok lc => well_shaped (mkLcon names coefs k) /\ lc = mkLcon names coefs k /\
      forall beta, satisfies lc beta <-> Forall2 (fun row c => dot row (map beta names) = c) coefs k
  | Err e => (exists m, e = ValueError m) /\ ~ well_shaped (mkLcon names coefs k)
  end.
Proof. exact matrix_meaning. Qed.
Print Assumptions matrix_constraint_meaning.

(** A constraint object is taken as it is if its columns are those of the model, and refused otherwise. *)
Theorem constraint_object : forall names c,
  match linear_constraint (LikeConstraint c) names with
  | Ok lc => lc = c /\ lc_names c = names
  | Err e => (exists m, e = ValueError m) /\ lc_names c <> names
  end.
Proof.
  intros names c. cbn. destruct (names_eqb (lc_names c) names) eqn:E.
  - split; [reflexivity|now apply names_eqb_iff].
  - split; [eauto|]. intros H. apply names_eqb_iff in H. congruence.
Qed.
Print Assumptions constraint_object.

(** * Examples *)
Definition lcon_view (c : lcon) : list (list Q) * list Q := (map (map this) (lc_coefs c), map this (lc_consts c)).
Example cx_array : match linear_constraint (LikeArray [[qz 1; qz (-1)]; [qz 0; qz 2]]) ["a"; "b"]%string with
  | Ok c => lcon_view c = ([[1 # 1; -1 # 1]; [0 # 1; 2 # 1]], [0 # 1; 0 # 1])%Q | Err _ => False end.
Proof. vm_compute. reflexivity. Qed.
Example cx_object : exists c m, linear_constraint (LikeArray [[qz 1; qz (-1)]]) ["a"; "b"]%string = Ok c /\
  linear_constraint (LikeConstraint c) ["a"; "b"]%string = Ok c /\
  linear_constraint (LikeConstraint c) ["b"; "a"]%string = Err (ValueError m).
Proof. do 2 eexists. vm_compute. repeat split; reflexivity. Qed.
Definition cx_names : list string := ["a"; "ab"; "x:y"]%string.
Definition cx_code : string := "2*ab - (a + 1)/4 = x:y = 3e1, a".
Example cx_tokens : match tokenize_constraint cx_code cx_names with
  | Ok toks => map (fun t => ttext t) toks =
      ["2"; "*"; "ab"; "-"; "("; "a"; "+"; "1"; ")"; "/"; "4"; "="; "x:y"; "="; "3e1"; ","; "a"]%string
  | Err _ => False end.
Proof. vm_compute. reflexivity. Qed.
Example cx_value : match linear_constraint (LikeStrings [cx_code]) cx_names with
  | Ok lc => lcon_view lc = ([[-1 # 4; 2 # 1; -1 # 1]; [0 # 1; 0 # 1; 1 # 1]; [1 # 1; 0 # 1; 0 # 1]],
                             [1 # 4; 30 # 1; 0 # 1])%Q
  | Err _ => False end.
Proof. vm_compute. reflexivity. Qed.
Definition cx_tok (ty s : string) (i : nat) : token := mkToken (TName ty) (mkOrigin "ab=a" i (i + String.length s)) (Some s).
Definition cx_cst : cst := CBin (CAtom (cx_tok "VARIABLE" "ab" 0)) (cx_tok "=" "=" 2) (CAtom (cx_tok "VARIABLE" "a" 3)).
(** ["ab=a"] has a reading, is linear, and safe. *)
Example cx_reads : reads cx_names "ab=a" cx_cst /\ division_safe cx_cst /\ NoDup cx_names.
Proof.
  split; [|split; [cbn; intuition discriminate|repeat constructor; cbn; intuition discriminate]].
  split; [apply tokenize_ok_iff; vm_compute; reflexivity|].
  assert (D : declares documented_constraint_ops 2 (TName "=") 0).
  { exists [mkOp (TName ",") 2 (-100)]. eexists. split; [reflexivity|]. intros o Ho. cbn in Ho. intuition (subst; discriminate). }
  assert (A : forall i s, valid documented_constraint_ops documented_constraint_atoms (CAtom (cx_tok "VARIABLE" s i))).
  { intros i s. constructor; [discriminate| |cbn; tauto]. intros p F. apply find_declares in F. cbn in F. intuition discriminate. }
  apply (v_bin _ _ _ _ _ 0%Z); [discriminate|exact D|apply A|apply A|constructor|constructor].
Qed.
Example cx_linear : match linear_constraint (LikeString "ab=a") cx_names with Ok lc => lcon_view lc = ([[-1 # 1; 1 # 1; 0 # 1]], [0 # 1])%Q | Err _ => False end.
Proof. vm_compute. reflexivity. Qed.
(** Non-linear and constant constraints. *)
Example cx_rejected : forallb (fun s => match linear_constraint (LikeString s) cx_names with Err e => is_patsy_error e | Ok _ => false end)
  ["a*ab"; "1/a"; "1 = 2"; "a - a"; "a + ab = ab + a"; "(a = ab)*2"; "a ? 1"; "a +"; "a b"]%string = true.
Proof. vm_compute. reflexivity. Qed.
Example cx_unreadable : ~ (exists toks, lexes cx_names "a ? 1" 0 "a ? 1" toks "").
Proof. intros [toks H]. apply tokenize_ok_iff in H. vm_compute in H. discriminate. Qed.
Example cx_blank : lexes cx_names "  " 0 "  " [] "".
Proof. apply tokenize_ok_iff. vm_compute. reflexivity. Qed.
Example cx_number : this (decimal_value "12.50e-1") = (5 # 4)%Q /\ exponent_factor "e-1" (/ ten_to 1)%Qc.
Proof. split; [vm_compute; reflexivity|]. apply (ef_neg "e" "1"); cbn; auto; [reflexivity|discriminate]. Qed.
Example cx_combine : match lc_combine [mkLcon ["a"]%string [[qz 2]] [qz 1]; mkLcon ["a"]%string [[qz 1]; [qz 0]] [qz 0; qz 3]] with
  | Ok c => lcon_view c = ([[2 # 1]; [1 # 1]; [0 # 1]], [1 # 1; 0 # 1; 3 # 1])%Q | Err _ => False end.
Proof. vm_compute. reflexivity. Qed.
Example cx_mapping : match linear_constraint (LikeMapping [(KName "x:y", qz 5); (KInt 0, qz 7)]) cx_names with
  | Ok c => lcon_view c = ([[0 # 1; 0 # 1; 1 # 1]; [1 # 1; 0 # 1; 0 # 1]], [5 # 1; 7 # 1])%Q | Err _ => False end.
Proof. vm_compute. reflexivity. Qed.
