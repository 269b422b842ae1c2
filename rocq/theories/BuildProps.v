(** Building design matrices: C20, C23-C28, C36, C37. *)
From Coq Require Import Sorted Permutation.
From Verif Require Import Base RankSpec RedundancySpec RedundancyProofs DescModel FormulaModel BuildModel BuildSpec BuildProofs BuildSubtermProofs BuildInfoProofs
  BuildMatrixProofs BuildAllProofs BuildTopProofs BuildOrderProofs BuildSubsetProofs BuildDesignProofs BuildChunkProofs.

Open Scope string_scope. Open Scope list_scope.

(** * A design used in the examples: 1 + a + x + a:x, with [a] categorical (3 levels, treatment
    coding) and [x] numeric with two columns *)
Definition exw (f : factor) : Z := if String.eqb f "a" then 1 else if String.eqb f "b" then 2 else 4.
Definition exhash (s : list (bool * factor)) : Z := fold_right (fun p n => (exw (snd p) + n)%Z) 0%Z s.
Definition excm (f : factor) (full : bool) : result (@ctr Z) :=
  Ok (if full then mkCtr [[1;0;0];[0;1;0];[0;0;1]]%Z ["[p]";"[q]";"[r]"]%string
      else mkCtr [[0;0];[1;0];[0;1]]%Z ["[T.q]";"[T.r]"]%string).
Definition exnum : list (factor * nat) := [("x"%string, 2)].
Definition exfis : finfos := [("a"%string, mkFI 1 "a" (FCat 3)); ("x"%string, mkFI 2 "x" (FNum 2))].
Definition exterms : list term := [[]; ["x"]; ["a"]; ["a"; "x"]]%string.
Definition exd : @design_info Z :=
  match design_for exnum excm exhash exfis exterms with Ok d => d | Err _ => mkDI [] None None None [] end.
Example exd_ok : design_for exnum excm exhash exfis exterms = Ok exd /\
  column_names exd = ["Intercept"; "a[T.q]"; "a[T.r]"; "x[0]"; "x[1]"; "a[T.q]:x[0]"; "a[T.r]:x[0]"; "a[T.q]:x[1]"; "a[T.r]:x[1]"]%string.
Proof. vm_compute. split; reflexivity. Qed.
Definition exdata : list (Z * Z * Z) := [(0, 10, 20); (2, 11, 21); (-1, 12, 22); (1, 13, 23)]%Z.
Definition exrow_ev := row_ev (V := Z) (I := nat) (fun _ '(a, x, y) => [x; y]) (fun _ '(a, x, y) => a) (fun fi '(a, x, y) => match fi_kind fi with FCat _ => Z.eqb a (-1) | FNum _ => false end)
  (fun _ => false) (fun _ => 0).
(** The formula "a + x" *)
Definition exorigin (f : factor) : option origin := if String.eqb f "a" then Some (mkOrigin "a + x" 0 1) else Some (mkOrigin "a + x" 4 5).
Definition exbuild (rows : list (Z * Z * Z)) (act : on_na) (want_df : bool) (dis : list design_info) :=
  build_design_matrices 1%Z Z.mul (fun n => n) Nat.eqb exorigin (exrow_ev rows) None act want_df dis.
Definition exm : @dmat Z := mkMat 3 [[1;1;1]; [0;0;1]; [0;1;0]; [10;11;13]; [20;21;23]; [0;0;13]; [0;11;0]; [0;0;23]; [0;21;0]]%Z.
Example exbuild_ok : exbuild exdata NADrop true [exd] = Ok ([exm], Some [0; 1; 3]).
Proof. vm_compute. reflexivity. Qed.
Example exbuild_raise : exbuild exdata NARaise true [exd] = Err (PatsyError "factor contains missing values" (Some (mkOrigin "a + x" 0 1))).
Proof. vm_compute. reflexivity. Qed.
Lemma exd_constructed : constructed exd.
Proof. exact (proj1 (design_for_lemma exnum excm exhash exfis exterms exd (proj1 exd_ok))). Qed.
Example ex_hyps : Forall constructed [exd] /\ identities (all_infos [exd]) /\
  forall fi, In fi (all_infos [exd]) -> exists e, exrow_ev exdata fi = Ok e /\ fits fi e.
Proof.
  split; [constructor; [exact exd_constructed|constructor]|]. split.
  - vm_compute. intros a b Ha Hb. destruct Ha as [<-|[<-|[]]], Hb as [<-|[<-|[]]]; cbn; congruence.
  - intros fi _. apply row_fits.
Qed.

(** * C23: order of the terms *)
Theorem term_order : forall (V : Type) num_cols code_cm hash terms (d : list (term * list (@subterm_info V))),
  make_subterm_infos num_cols code_cm hash terms = Ok d ->
  Permutation (map fst d) terms /\
  StronglySorted (comes_before (fun f => exists n, In (f, n) num_cols) terms) (map fst d) /\
  distinct_keys term_eqb d.
Proof. exact @order_lemma. Qed.
Print Assumptions term_order.

Example term_order_ex : exists d, make_subterm_infos exnum excm exhash [["a"; "x"]; ["a"; "b"]; ["x"]; ["b"]; []]%string = Ok d /\
  map fst d = [[]; ["b"]; ["a"; "b"]; ["x"]; ["a"; "x"]]%string.
Proof. eexists. split; vm_compute; reflexivity. Qed.

(** * C20: number of columns *)
Theorem design_column_count : forall (V : Type) num_cols (code_cm : factor -> bool -> result (@ctr V)) hash terms d t0 Ss levels (same : term -> term -> bool),
  make_subterm_infos num_cols code_cm hash terms = Ok d -> In t0 terms -> Forall (@NoDup factor) terms -> collision_free hash (List.concat terms) ->
  (forall f b m, In f (List.concat terms) -> code_cm f b = Ok m -> ct_ncols m = if b then levels f else levels f - 1) ->
  (forall f, In f (List.concat terms) -> 1 <= levels f) ->
  (forall a b, same a b = true <-> same_bucket (fun f => exists n, In (f, n) num_cols) a b) ->
  lists_subsets (is_num num_cols) (filter (same t0) terms) Ss ->
  sumn (fun p => sumn (@si_ncols V) (snd p)) (filter (fun p => same t0 (fst p)) d) =
  prodn (fun f => match dget String.eqb f num_cols with Some k => k | None => 0 end) (filter (is_num num_cols) t0) *
  sumn (prodn (fun f => levels f - 1)) Ss.
Proof.
  intros V num_cols code_cm hash terms d t0 Ss levels same H1 H2 H3 H4 H5 H6 Hs H7.
  assert (E : forall t, same t0 t = same_num num_cols t0 t).
  { intros t. destruct (same t0 t) eqn:A, (same_num num_cols t0 t) eqn:B; try reflexivity.
    - apply Hs, same_bucket_iff in A. unfold same_num in B. congruence.
    - apply same_bucket_iff, Hs in B. congruence. }
  rewrite (filter_ext _ _ E) in H7.
  rewrite (filter_ext (fun p => same t0 (fst p)) (fun p => same_num num_cols t0 (fst p))) by (intros p; apply E).
  exact (column_count_lemma num_cols code_cm hash terms d t0 Ss levels H1 H2 H3 H4 H5 H6 H7).
Qed.
Print Assumptions design_column_count.

Lemma exhash_free : collision_free exhash (List.concat exterms).
Proof.
  assert (G : forall l : list factor, incl l ["a"; "x"]%string -> exhash (map (fun f : factor => (false, f)) l) =
    (Z.of_nat (count_occ string_dec l "a"%string) + 4 * Z.of_nat (count_occ string_dec l "x"%string))%Z).
  { induction l as [|f l IH]; intros Hl; [reflexivity|]. cbn [map exhash fold_right snd]. fold (exhash (map (fun f : factor => (false, f)) l)).
    rewrite IH by (intros x Hx; apply Hl; now right). destruct (Hl f (or_introl eq_refl)) as [<-|[<-|[]]];
      cbn [count_occ]; repeat (destruct (string_dec _ _); try discriminate; try congruence); cbn [exw String.eqb Ascii.eqb Bool.eqb]; lia. }
  assert (Hincl : incl (List.concat exterms) ["a"; "x"]%string).
  { intros x Hx. vm_compute in Hx. vm_compute. intuition. }
  assert (One : forall l f, NoDup l -> (count_occ string_dec l f = 1 <-> In f l) /\ count_occ string_dec l f <= 1).
  { intros l f Hl. pose proof (proj1 (NoDup_count_occ string_dec l) Hl f) as H. split; [|exact H].
    rewrite (count_occ_In string_dec). lia. }
  intros a b Ha Hb Hna Hnb. assert (Ha' : incl a ["a"; "x"]%string) by (eapply incl_tran; eassumption).
  assert (Hb' : incl b ["a"; "x"]%string) by (eapply incl_tran; eassumption).
  rewrite (G a Ha'), (G b Hb').
  destruct (One a "a"%string Hna) as [A1 A2], (One a "x"%string Hna) as [A3 A4], (One b "a"%string Hnb) as [B1 B2], (One b "x"%string Hnb) as [B3 B4].
  split.
  - intros E f. assert (E1 : count_occ string_dec a "a"%string = count_occ string_dec b "a"%string) by lia.
    assert (E2 : count_occ string_dec a "x"%string = count_occ string_dec b "x"%string) by lia. split; intros Hf.
    + destruct (Ha' f Hf) as [<-|[<-|[]]]; [apply B1|apply B3]; [rewrite <- E1; now apply A1|rewrite <- E2; now apply A3].
    + destruct (Hb' f Hf) as [<-|[<-|[]]]; [apply A1|apply A3]; [rewrite E1; now apply B1|rewrite E2; now apply B3].
  - intros E. pose proof (E "a"%string) as Ea. pose proof (E "x"%string) as Ex. rewrite <- A1, <- B1 in Ea. rewrite <- A3, <- B3 in Ex. lia.
Qed.
Example design_column_count_hyps : Forall (@NoDup factor) exterms /\ collision_free exhash (List.concat exterms) /\
  (forall f b m, In f (List.concat exterms) -> excm f b = Ok m -> ct_ncols m = if b then 3 else 3 - 1) /\
  lists_subsets (is_num exnum) (filter (same_num exnum ["x"%string]) exterms) [[]; ["a"%string]].
Proof.
  split; [repeat constructor; cbn; intuition discriminate|]. split; [exact exhash_free|]. split.
  - intros f b m _ [= <-]. destruct b; reflexivity.
  - vm_compute filter. split; [repeat constructor; cbn; intuition|]. split.
    + intros i j a b Hi Hj Hs. pose proof (Hs "a"%string) as H0.
      destruct i as [|[|i]], j as [|[|j]]; cbn in Hi, Hj; try reflexivity; try (destruct i; discriminate); try (destruct j; discriminate);
        injection Hi as <-; injection Hj as <-; cbn in H0; exfalso; intuition discriminate.
    + intros S. split.
      * intros [S' [HS' Hsame]]. exists ["a"; "x"]%string. split; [cbn; auto|]. intros f Hf. apply Hsame in Hf.
        destruct HS' as [<-|[<-|[]]]; [destruct Hf|]. destruct Hf as [<-|[]]. split; [now left|reflexivity].
      * intros [t [Ht Hsub]].
        assert (Hall : forall f, In f S -> f = "a"%string).
        { intros f Hf. destruct (Hsub f Hf) as [H1 H2]. destruct Ht as [<-|[<-|[]]].
          - destruct H1 as [<-|[]]. vm_compute in H2. discriminate.
          - destruct H1 as [<-|[<-|[]]]; [reflexivity|]. vm_compute in H2. discriminate. }
        destruct S as [|f S]; [exists []; split; [now left|intros f; reflexivity]|]. exists ["a"%string]. split; [right; now left|].
        intros g. split; [intros Hg; rewrite (Hall g Hg); now left|]. intros [<-|[]]. rewrite <- (Hall f); now left.
Qed.
Example design_column_count_ex : sumn (fun p => sumn (@si_ncols Z) (snd p)) (filter (fun p => same_num exnum ["x"%string] (fst p)) (codings_of exd)) = 2 * (1 + 2).
Proof. vm_compute. reflexivity. Qed.

(** * C24: names and values of columns *)
(** Every combination occurs once, at the place where the leftmost factor varies fastest. *)
Theorem combinations_leftmost_fastest : forall counts,
  List.length (column_combinations counts) = product_of counts /\
  (forall c, In c (column_combinations counts) <-> in_range c counts) /\ NoDup (column_combinations counts) /\
  (forall c, in_range c counts -> nth_error (column_combinations counts) (radix c counts) = Some c).
Proof.
  intros counts. rewrite column_combinations_combos. split; [apply combos_length|]. split; [intros c; split; [apply combos_in_range|intros H; eapply nth_error_In, combos_radix, H]|].
  split; [apply combos_NoDup|]. apply combos_radix.
Qed.
Print Assumptions combinations_leftmost_fastest.

Theorem subterm_names_and_values_aligned : forall (V : Type) (vone : V) vmul fis (s : @subterm_info V) values n t names cols,
  subterm_ok fis s -> values_fit fis values n (si_factors s) ->
  subterm_column_names fis s = Ok names -> build_subterm vone vmul fis s values n = Ok cols ->
  List.length names = si_ncols s /\ List.length cols = si_ncols s /\ product_of (counts_of fis s) = si_ncols s /\
  forall c, in_range c (counts_of fis s) ->
    nth_error names (radix c (counts_of fis s)) = Some (label fis s c) /\
    exists col, nth_error cols (radix c (counts_of fis s)) = Some col /\
      map Some col = map (entry vone vmul fis (fun g => dget String.eqb g values) (t, s, c)) (seq 0 n).
Proof. exact @subterm_columns_aligned. Qed.
Print Assumptions subterm_names_and_values_aligned.

(** The names of a design made from terms are the labels of its columns, in order. *)
Theorem design_column_names : forall (V : Type) num_cols code_cm hash fis termlist (d : @design_info V),
  design_for num_cols code_cm hash fis termlist = Ok d ->
  constructed d /\ make_subterm_infos num_cols code_cm hash termlist = Ok (codings_of d) /\
  column_names d = map (fun id => label (infos_of d) (snd (fst id)) (snd id)) (columns_of (infos_of d) (codings_of d)) /\
  forall f, In f (List.concat termlist) -> dget String.eqb f (infos_of d) = dget String.eqb f fis.
Proof. exact @design_for_lemma. Qed.
Print Assumptions design_column_names.

Example combinations_ex : column_combinations [2; 3] = [[0;0]; [1;0]; [0;1]; [1;1]; [0;2]; [1;2]].
Proof. reflexivity. Qed.
Example aligned_ex : let s := mkSI ["a"; "x"]%string [("a"%string, mkCtr [[0;0];[1;0];[0;1]]%Z ["[T.q]";"[T.r]"]%string)] 4 in
  let values := [("x"%string, VNum 2 [[10;20];[11;21]]%Z); ("a"%string, VCat [1;2]%Z)] in
  subterm_ok exfis s /\ values_fit exfis values 2 (si_factors s) /\
  subterm_column_names exfis s = Ok ["a[T.q]:x[0]"; "a[T.r]:x[0]"; "a[T.q]:x[1]"; "a[T.r]:x[1]"]%string /\
  build_subterm 1%Z Z.mul exfis s values 2 = Ok [[10;0]; [0;11]; [20;0]; [0;21]]%Z.
Proof.
  cbn zeta. split; [split; [|reflexivity]|split; [|split; vm_compute; reflexivity]].
  - intros f [<-|[<-|[]]]; [exists (mkFI 1 "a" (FCat 3)); split; [reflexivity|]; eexists; split; reflexivity|
      exists (mkFI 2 "x" (FNum 2)); split; reflexivity].
  - intros f [<-|[<-|[]]]; eexists _, _; (split; [reflexivity|]; split; [reflexivity|]; split; reflexivity).
Qed.

(** * C25, C27, C28: what is built *)
(** Building succeeds with given matrices and row labels exactly when all row counts agree, all row labels
    agree, nothing is missing (with 'raise'), the number of rows can be told, every matrix has, for each of
    its columns and each kept row, the product of the factors' contributions, and the labels are those of the
    kept rows ([built]). *)
Theorem build_design_matrices_correct : forall (V : Type) (vone : V) vmul (I : Type) (ieqb : I -> I -> bool) (origin_of : factor -> option origin),
  (forall a b, ieqb a b = true <-> a = b) -> forall ev df ilabel dis,
  Forall constructed dis -> identities (all_infos dis) ->
  (forall fi, In fi (all_infos dis) -> exists e, ev fi = Ok e /\ fits fi e) ->
  forall act want_df ms labels,
  build_design_matrices vone vmul ilabel ieqb origin_of ev df act want_df dis = Ok (ms, labels) <->
  built vone vmul ilabel ev df act want_df dis ms labels.
Proof. exact @build_iff. Qed.
Print Assumptions build_design_matrices_correct.

(** C27: the rows kept. *)
Theorem rows_kept : forall (V : Type) (vone : V) vmul (I : Type) (ieqb : I -> I -> bool) (origin_of : factor -> option origin),
  (forall a b, ieqb a b = true <-> a = b) -> forall ev df ilabel dis,
  Forall constructed dis -> identities (all_infos dis) ->
  (forall fi, In fi (all_infos dis) -> exists e, ev fi = Ok e /\ fits fi e) ->
  forall act want_df ms labels,
  build_design_matrices vone vmul ilabel ieqb origin_of ev df act want_df dis = Ok (ms, labels) ->
  exists n ks, rows_are df (evals ev (all_infos dis)) n /\ StronglySorted lt ks /\
    (forall k, In k ks <-> k < n /\ forall fi e, In fi (all_infos dis) -> ev fi = Ok e -> nth k (ev_isna e) false = false) /\
    (act = NARaise -> ks = seq 0 n) /\
    Forall (fun m => m_rows m = List.length ks /\ Forall (fun col => List.length col = List.length ks) (m_cols m)) ms /\
    forall full l, labels = Some l -> labels_are ilabel df (evals ev (all_infos dis)) n full -> l = pick full ks.
Proof. intros V vone vmul I ieqb origin_of He ev df ilabel. exact (rows_kept_lemma vone vmul (fun _ => false) ilabel ieqb origin_of He ev df). Qed.
Print Assumptions rows_kept.

(** [NAAction.handle_NA] on arrays with as many rows as the masks. *)
Theorem handle_NA_correct : forall (V I : Type) act (values : list (@arr V I)) masks origins n nv,
  List.length values = List.length masks -> List.length masks = List.length origins -> (forall a, In a values -> arows a = n) -> (forall m, In m masks -> List.length m = n) ->
  (handle_NA act values masks origins = Ok nv <->
   (act = NARaise -> forall k, k < n -> existsb (fun m => nth k m false) masks = false) /\
   nv = map (apick (kept_by act masks n)) values).
Proof. exact @handle_NA_iff. Qed.
Print Assumptions handle_NA_correct.

(** With 'raise' the error points to the first of the factors that have missing values. *)
Theorem handle_NA_raise_is_patsy_error : forall (V I : Type) (values : list (@arr V I)) masks origins,
  List.length values = List.length masks -> List.length masks = List.length origins ->
  forall i m org, nth_error masks i = Some m -> In true m -> (forall j m', j < i -> nth_error masks j = Some m' -> ~ In true m') -> nth_error origins i = Some org ->
  handle_NA NARaise values masks origins = Err (PatsyError "factor contains missing values" org).
Proof. exact @handle_NA_raise_err. Qed.
Print Assumptions handle_NA_raise_is_patsy_error.

(** A factor is marked missing in a row iff a number there is NaN (and NaN counts as missing) or the category is missing. *)
Theorem eval_factor_marks_missing : forall (V : Type) (visnan : V -> bool) (I : Type) (origin_of : factor -> option origin) nan_is_na fi r (e : @evaluated V I),
  (forall i, match r with RawNum _ _ _ rows idx => idx = Some i -> List.length i = List.length rows | RawCodes codes idx => idx = Some i -> List.length i = List.length codes end) ->
  eval_factor visnan origin_of nan_is_na fi r = Ok e ->
  fits fi e /\
  forall k, nth k (ev_isna e) false = true <->
    match ev_value e with
    | VNum _ rows => exists row x, nth_error rows k = Some row /\ In x row /\ nan_is_na = true /\ visnan x = true
    | VCat codes => nth_error codes k = Some (-1)%Z
    end.
Proof. exact @eval_factor_lemma. Qed.
Print Assumptions eval_factor_marks_missing.

Example eval_factor_ex : eval_factor (V := Z) (I := nat) (fun z => Z.eqb z 99) exorigin true (mkFI 2 "x" (FNum 2)) (RawNum 2 2 true [[1; 2]; [3; 99]]%Z (Some [5; 6])) =
  Ok (mkEv (VNum 2 [[1; 2]; [3; 99]]%Z) [false; true] (Some [5; 6])).
Proof. reflexivity. Qed.
Example handle_NA_raise_ex : handle_NA NARaise [AVal (VCat [0; 1]%Z); AVal (VCat [0; -1]%Z); @AIdx Z nat [7; 8]] [[false; false]; [false; true]; [false; false]] [Some (mkOrigin "a + x" 0 1); Some (mkOrigin "a + x" 4 5); None] =
  Err (PatsyError "factor contains missing values" (Some (mkOrigin "a + x" 4 5))).
Proof. reflexivity. Qed.
Example handle_NA_ex : handle_NA NADrop [AVal (VCat [0; 1; 2]%Z); @AIdx Z nat [7; 8; 9]] [[false; true; false]; [false; false; false]] [Some (mkOrigin "a + x" 0 1); None] =
  Ok [AVal (VCat [0; 2]%Z); AIdx [7; 9]].
Proof. reflexivity. Qed.

(** C28: differing row counts are an error, whatever else happens; it points to one of the factors. *)
Theorem row_mismatch_is_error : forall (V : Type) (vone : V) vmul (I : Type) ilabel (ieqb : I -> I -> bool) (origin_of : factor -> option origin),
  (forall a b, ieqb a b = true <-> a = b) -> forall ev df dis,
  Forall constructed dis -> identities (all_infos dis) ->
  (forall fi, In fi (all_infos dis) -> exists e, ev fi = Ok e /\ fits fi e) ->
  forall act want_df, ~ (exists n, rows_are df (evals ev (all_infos dis)) n) ->
  exists fi msg, In fi (all_infos dis) /\ build_design_matrices vone vmul ilabel ieqb origin_of ev df act want_df dis = Err (PatsyError msg (origin_of (fi_factor fi))).
Proof. exact @mismatch_lemma. Qed.
Print Assumptions row_mismatch_is_error.

(** C28: when building succeeds. *)
Theorem building_succeeds_iff : forall (V : Type) (vone : V) vmul (I : Type) ilabel (ieqb : I -> I -> bool) (origin_of : factor -> option origin),
  (forall a b, ieqb a b = true <-> a = b) -> forall ev df dis,
  Forall constructed dis -> identities (all_infos dis) ->
  (forall fi, In fi (all_infos dis) -> exists e, ev fi = Ok e /\ fits fi e) ->
  forall act want_df, Forall proper_design dis ->
  (forall fi e, In fi (all_infos dis) -> ev fi = Ok e -> proper_value fi e) ->
  let es := evals ev (all_infos dis) in
  ((exists res, build_design_matrices vone vmul ilabel ieqb origin_of ev df act want_df dis = Ok res) <->
   exists n full, rows_are df es n /\ labels_are ilabel df es n full /\
     (act = NARaise -> forall k, k < n -> missing_in es k = false) /\ (es = [] -> df = None -> dis = [])).
Proof. intros V vone vmul I ilabel ieqb. exact (succeeds_iff vone vmul (fun _ => false) ilabel ieqb). Qed.
Print Assumptions building_succeeds_iff.

Example row_mismatch_ex : build_design_matrices 1%Z Z.mul (fun n => n) Nat.eqb exorigin (exrow_ev exdata) (Some [0; 1]) NADrop false [exd] =
  Err (PatsyError "Number of rows mismatch" (Some (mkOrigin "a + x" 4 5))).
Proof. vm_compute. reflexivity. Qed.
Example row_mismatch_ex_hyp : ~ exists n, rows_are (Some [0; 1]) (evals (exrow_ev exdata) (all_infos [exd])) n.
Proof.
  intros [n [H1 H2]]. specialize (H1 _ eq_refl). cbn in H1. subst n.
  assert (Hin : exists e, In e (evals (exrow_ev exdata) (all_infos [exd])) /\ vrows (ev_value e) = 4) by (eexists; split; [left; reflexivity|reflexivity]).
  destruct Hin as [e [He E]]. specialize (H2 e He). congruence.
Qed.
Example succeeds_ex_hyp : Forall proper_design [exd] /\ forall fi e, In fi (all_infos [exd]) -> exrow_ev exdata fi = Ok e -> proper_value fi e.
Proof.
  split.
  - constructor; [|constructor]. intros t ss s f c row. change (codings_of exd) with (ltac:(let x := eval vm_compute in (codings_of exd) in exact x)).
    intros Ht Hs Hc Hr. cbn in Ht. repeat (destruct Ht as [Ht|Ht]; [injection Ht as <- <-|]); try contradiction;
      cbn in Hs; repeat (destruct Hs as [Hs|Hs]; [subst s|]); try contradiction; cbn in Hc;
      repeat (destruct Hc as [Hc|Hc]; [injection Hc as <- <-|]); try contradiction; cbn in Hr;
      repeat (destruct Hr as [Hr|Hr]; [subst row; reflexivity|]); contradiction.
  - intros fi e Hfi He. vm_compute in Hfi. destruct Hfi as [<-|[<-|[]]]; injection He as <-; unfold proper_value; cbn [ev_value fi_kind ev_isna].
    + intros row Hr. repeat (destruct Hr as [Hr|Hr]; [subst row; reflexivity|]). contradiction.
    + intros k z Hk. destruct k as [|[|[|[|k]]]]; cbn in Hk;
        try (injection Hk as <-; cbn; first [left; split; reflexivity|right; split; [reflexivity|lia]]).
      destruct k; discriminate.
Qed.

(** * C26: chunks *)
Theorem chunked_building : forall (V : Type) (vone : V) vmul (I : Type) ilabel (ieqb : I -> I -> bool) (origin_of : factor -> option origin),
  (forall a b, ieqb a b = true <-> a = b) -> forall (D : Type) gnum gcat gna carries (lab : D -> I) is_df want_df act dis,
  Forall constructed dis -> identities (all_infos dis) ->
  let build rows := build_design_matrices vone vmul ilabel ieqb origin_of (row_ev gnum gcat gna carries lab rows)
                      (if is_df : bool then Some (map lab rows) else None) act want_df dis in
  forall chunks ms, chunks <> [] ->
  ((exists L, build (List.concat chunks) = Ok (ms, L)) <->
   exists mss, Forall2 (fun rows m => exists L, build rows = Ok (m, L)) chunks mss /\ stacked mss ms).
Proof. exact @chunks_lemma. Qed.
Print Assumptions chunked_building.

Theorem chunked_labels : forall (V : Type) (vone : V) vmul (I : Type) ilabel (ieqb : I -> I -> bool) (origin_of : factor -> option origin),
  (forall a b, ieqb a b = true <-> a = b) -> forall (D : Type) gnum gcat gna carries (lab : D -> I) is_df want_df act dis,
  Forall constructed dis -> identities (all_infos dis) ->
  let build rows := build_design_matrices vone vmul ilabel ieqb origin_of (row_ev gnum gcat gna carries lab rows)
                      (if is_df : bool then Some (map lab rows) else None) act want_df dis in
  forall chunks ms L ls, is_df = true -> want_df = true -> chunks <> [] -> build (List.concat chunks) = Ok (ms, L) ->
  Forall2 (fun rows l => exists m, build rows = Ok (m, Some l)) chunks ls -> L = Some (List.concat ls).
Proof. exact @chunks_labels_lemma. Qed.
Print Assumptions chunked_labels.

Example chunks_ex : exists m1 m2, exbuild (firstn 1 exdata) NADrop false [exd] = Ok ([m1], None) /\
  exbuild (skipn 1 exdata) NADrop false [exd] = Ok ([m2], None) /\ stacked [[m1]; [m2]] [exm].
Proof.
  eexists _, _. split; [vm_compute; reflexivity|]. split; [vm_compute; reflexivity|].
  match goal with |- stacked [?a; ?b] ?c => change c with (vstacks a b) end. repeat constructor.
Qed.

(** * C36: slices *)
Theorem term_slices_partition_columns : forall (V : Type) names infos codings (d : @design_info V), dicts infos codings ->
  mk_design_info names infos codings = Ok d ->
  column_names d = names /\ NoDup names /\
  flat_map positions_in (map snd (di_name_slices d)) = seq 0 (List.length names) /\
  NoDup (map fst (di_name_slices d)) /\
  (forall i name, nth_error names i = Some name -> di_slice d (CName name) = Ok (Z.of_nat i, Z.of_nat (i + 1))) /\
  (forall s p, In (s, p) (di_name_slices d) -> di_slice d (CName s) = Ok (zslice p)) /\
  match codings with
  | Some cs => exists sl, di_term_slices d = Some sl /\ map fst sl = map fst cs /\ map snd sl = map snd (di_name_slices d) /\
      map fst (di_name_slices d) = map (fun p => term_name (fst p)) cs /\
      Forall2 (fun p q => List.length (positions_in (snd q)) = term_columns (snd p)) cs sl /\
      (forall t ss, In (t, ss) cs -> exists p, In (t, p) sl /\ di_slice d (CTerm t) = Ok (zslice p) /\ di_slice d (CName (term_name t)) = Ok (zslice p))
  | None => map fst (di_name_slices d) = names
  end.
Proof. exact @slices_lemma. Qed.
Print Assumptions term_slices_partition_columns.

Theorem slice_other_ways : forall (V : Type) (d : @design_info V),
  (forall i, exists a b, di_slice d (CInt i) = Ok (a, b) /\ forall k, (a <= k < b)%Z <-> k = i) /\
  (forall a b, di_slice d (CSlice a b) = Ok (a, b)) /\
  (forall s, ~ In s (map fst (di_name_slices d)) -> ~ In s (column_names d) -> di_slice d (CName s) = Err (PatsyError "unknown column specified" None)) /\
  (forall t, (forall sl u p, di_term_slices d = Some sl -> In (u, p) sl -> term_eqb u t = false) -> di_slice d (CTerm t) = Err (PatsyError "unknown column specified" None)).
Proof.
  intros V d. split; [|split; [|split]].
  - intros i. eexists _, _. split; [reflexivity|]. intros k. lia.
  - reflexivity.
  - apply minimal_slice_unknown.
  - intros t H. cbn [di_slice]. destruct (di_term_slices d) as [sl|]; [|reflexivity].
    assert (G : dget term_eqb t sl = None) by (apply dget_none; intros [u p] Hp; exact (H sl u p eq_refl Hp)). now rewrite G.
Qed.
Print Assumptions slice_other_ways.

Example slices_ex : di_slice exd (CTerm ["x"; "a"]%string) = Ok (5, 9)%Z /\ di_slice exd (CName "a:x") = Ok (5, 9)%Z /\ di_slice exd (CName "x[1]") = Ok (4, 5)%Z /\
  di_slice exd (CName "nope") = Err (PatsyError "unknown column specified" None).
Proof. vm_compute. repeat split. Qed.
Example slices_ex_collision : mk_design_info (V := Z) ["x"; "x"]%string None None = Err AssertionError.
Proof. vm_compute. reflexivity. Qed.

(** * C37: subset *)
Theorem subset_selects_columns : forall (V : Type) (vone : V) vmul (I : Type) (d d' : @design_info V) ws, constructed d -> subset d ws = Ok d' ->
  exists sel pos,
  Forall2 (fun w t => selects w t /\ In t (map fst (codings_of d))) ws sel /\ pos = flat_map (term_at d) sel /\
  constructed d' /\ column_names d' = pick (column_names d) pos /\
  (forall fi, In fi (map snd (infos_of d')) -> In fi (map snd (infos_of d))) /\
  forall (ev : finfo -> result (@evaluated V I)) ks m, matrix_is vone vmul ev ks d m ->
    matrix_is vone vmul ev ks d' (mkMat (m_rows m) (pick (m_cols m) pos)).
Proof. exact @subset_lemma. Qed.
Print Assumptions subset_selects_columns.

(** Built together, the subset's matrix consists of the selected columns of the full matrix. *)
Theorem subset_built_together : forall (V : Type) (vone : V) vmul (I : Type) (ieqb : I -> I -> bool) (origin_of : factor -> option origin),
  (forall a b, ieqb a b = true <-> a = b) -> forall ev df ilabel (d d' : @design_info V) ws,
  constructed d -> identities (all_infos [d]) -> (forall fi, In fi (all_infos [d]) -> exists e, ev fi = Ok e /\ fits fi e) ->
  subset d ws = Ok d' -> forall act want_df m m' labels,
  build_design_matrices vone vmul ilabel ieqb origin_of ev df act want_df [d; d'] = Ok ([m; m'], labels) ->
  exists sel, Forall2 (fun w t => selects w t /\ In t (map fst (codings_of d))) ws sel /\
    m' = mkMat (m_rows m) (pick (m_cols m) (flat_map (term_at d) sel)) /\
    column_names d' = pick (column_names d) (flat_map (term_at d) sel).
Proof. exact @subset_together_lemma. Qed.
Print Assumptions subset_built_together.

Example subset_ex : exists d', subset exd [WTerm ["a"; "x"]%string; WName "x"] = Ok d' /\
  column_names d' = ["a[T.q]:x[0]"; "a[T.r]:x[0]"; "a[T.q]:x[1]"; "a[T.r]:x[1]"; "x[0]"; "x[1]"]%string /\
  exbuild exdata NADrop false [exd; d'] = Ok ([exm; mkMat 3 [[0;0;13]; [0;11;0]; [0;0;23]; [0;21;0]; [10;11;13]; [20;21;23]]%Z], None).
Proof. eexists. split; [vm_compute; reflexivity|]. split; vm_compute; reflexivity. Qed.
Example subset_ex_repeated : subset exd [WName "x"; WName "x"] = Err AssertionError.
Proof. vm_compute. reflexivity. Qed.
