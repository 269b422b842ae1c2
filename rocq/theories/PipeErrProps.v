(** C92: what can go wrong when designs are used on data, and where the errors point. *)
From Coq Require Import ZArith Permutation.
From Verif Require Import Base DescModel FormulaModel BuildModel BuildSpec BuildErrProofs MemorizeModel CategoricalModel CategoricalSpec PipeModel PipeSpec EntrySpec PipeErrSpec PipeErrProofs.
Open Scope string_scope.
Open Scope list_scope.
Open Scope nat_scope.

(** C92.  Any error raised when matrices are built with designs made by design_matrix_builders is one of those that
    [goes_wrong] lists: the argument [NA_action] is not acceptable, evaluating a factor fails, or its value does not
    suit what was learned about it, which is told with the place of the factor in the formula. *)
Theorem new_data_errors : forall {V I C S D : Type} (vone : V) (vmul : V -> V -> V) (visnan : V -> bool) (ilabel : nat -> I) (ieqb : I -> I -> bool)
  (passes : factor -> result (S * Z)) (chunk : factor -> S -> nat -> D -> result S) (finish : factor -> S -> nat -> result S) (eval : factor -> S -> D -> result (@fobj V I C))
  (origin_of : factor -> option origin) (code_cm : list pval -> option C -> bool -> result (@ctr V)) hash set_order order_mem order_exam addr hash_order (df_index : D -> option (list I)),
  (forall a b, ieqb a b = true <-> a = b) ->
  (forall l, Permutation (set_order l) l) -> (forall n l, Permutation (order_mem n l) l) -> (forall n l, Permutation (order_exam n l) l) ->
  indexed eval -> (forall f s d o, eval f s d = Ok o -> tidy o) ->
  (forall levels c full m, code_cm levels c full = Ok m -> forall row, In row (ct_rows m) -> List.length row = ct_ncols m) ->
  forall data na act tls ds used,
  design_matrix_builders passes chunk finish eval origin_of code_cm hash set_order order_mem order_exam addr hash_order data na tls = Ok ds -> get_action na = Ok act -> incl used ds ->
  forall d na' want err, build vone vmul visnan ilabel ieqb eval origin_of df_index used d na' want = Err err ->
  match get_action na' with
  | Ok act' => goes_wrong passes chunk finish eval origin_of addr hash_order df_index visnan (na_what act) (na_what act') data d (factors_of tls) (factors_in used)
                 (match na_on act' with NARaise => true | NADrop => false end) err
  | Err e => err = e
  end.
Proof.
  intros V I C S D vone vmul visnan ilabel ieqb passes chunk finish eval origin_of code_cm hash set_order order_mem order_exam addr hash_order df_index He H1 H2 H3 Hx Ht Hc data na act tls ds used Hb Ha Hu d na' want err H.
  destruct (get_action na') as [act'|e] eqn:E.
  - destruct (build_wrong vone vmul visnan ilabel ieqb He passes chunk finish eval origin_of code_cm hash set_order order_mem order_exam addr hash_order df_index H1 H2 H3 Hx Ht Hc data na tls ds used act Hb Hu Ha (na_what act') d na' want err H) as [X|[a [X G]]]; [congruence|].
    assert (a = act') by congruence. subst a. now apply G.
  - unfold build in H. rewrite E in H. cbn [bind] in H. congruence.
Qed.
Print Assumptions new_data_errors.

(** So a PatsyError always points to one of the factors of the designs, with three exceptions: a factor's own code
    raised it (in [eval]); the design has no factors and no number of rows; or a categorical factor has more than one
    dimension, which is told without a place. *)
Theorem errors_point_to_factors : forall {V I C S D : Type} passes chunk finish (eval : factor -> S -> D -> result (@fobj V I C)) origin_of addr hash_order (df_index : D -> option (list I)) visnan na na' data d fs used raise msg org,
  goes_wrong passes chunk finish eval origin_of addr hash_order df_index visnan na na' data d fs used raise (PatsyError msg org) ->
  (exists f, In f used /\ org = origin_of f) \/ (exists f s, In f used /\ eval f s d = Err (PatsyError msg org)) \/ (used = [] /\ org = None) \/
  (msg = "categorical data cannot be >1-dimensional" /\ org = None).
Proof.
  intros V I C S D passes chunk finish eval origin_of addr hash_order df_index visnan na na' data d fs used raise msg org H.
  inversion H; subst; try (match goal with G : gives _ _ _ _ _ _ _ _ _ _ _ _ ?f _ _ _ |- _ => left; exists f; split; [exact (proj1 G)|reflexivity] end).
  - right. left. eauto.
  - match goal with G : gives _ _ _ _ _ _ _ _ _ _ _ _ ?f _ _ _, E : categorical_to_int _ _ _ _ = _ |- _ => destruct (to_int_err _ _ _ _ _ _ E) as [->|[-> ->]]; [left; exists f; split; [exact (proj1 G)|reflexivity]|auto] end.
  - right. right. auto.
Qed.
Print Assumptions errors_point_to_factors.

(** The same for any way to evaluate the factors, in the order in which things are noticed: the first factor that
    fails or does not agree with those before it; then (with 'raise') the first factor with missing values. *)
Theorem building_errors : forall {V I : Type} (vone : V) vmul ilabel (ieqb : I -> I -> bool) (origin_of : factor -> option origin),
  (forall a b, ieqb a b = true <-> a = b) -> forall (ev : finfo -> result (@evaluated V I)) df (dis : list (@design_info V)),
  Forall constructed dis -> identities (all_infos dis) ->
  (forall fi e, In fi (all_infos dis) -> ev fi = Ok e -> fits fi e /\ proper_value fi e) -> Forall proper_design dis ->
  let infos := all_infos dis in let has_missing fi := exists e, ev fi = Ok e /\ In true (ev_isna e) in
  forall act want err, build_design_matrices vone vmul ilabel ieqb origin_of ev df act want dis = Err err ->
  (exists pre fi post, infos = pre ++ fi :: post /\ (forall g, In g pre -> exists e, ev g = Ok e) /\
    (ev fi = Err err \/
     exists e, ev fi = Ok e /\
      ((~ rows_are df (evals ev pre) (vrows (ev_value e)) /\ err = PatsyError "Number of rows mismatch" (origin_of (fi_factor fi))) \/
       (exists i j, ev_index e = Some i /\ j <> i /\ (df = Some j \/ exists e', In e' (evals ev pre) /\ ev_index e' = Some j) /\
          err = PatsyError "Index mismatch" (origin_of (fi_factor fi)))))) \/
  (act = NARaise /\ exists pre fi post, infos = pre ++ fi :: post /\ has_missing fi /\ (forall g, In g pre -> ~ has_missing g) /\
    err = PatsyError "factor contains missing values" (origin_of (fi_factor fi))) \/
  (infos = [] /\ df = None /\ dis <> [] /\ err = PatsyError "I can't tell how many rows the design matrix should have!" None).
Proof. intros V I vone vmul ilabel ieqb origin_of. exact (build_errors vone vmul ilabel ieqb origin_of). Qed.
Print Assumptions building_errors.

(** * What is wrong with these errors *)
(** The message about the number of columns has the numbers in the wrong order: a numerical factor that had [n] columns
    and now has [nc] is reported as "I got [n] columns instead of the [nc] I was expecting". *)
Theorem columns_message : forall {V I : Type} (visnan : V -> bool) (origin_of : factor -> option origin) nan id f n ndim nc isnum rows (idx : option (list I)), ndim <= 2 -> nc <> n ->
  eval_factor visnan origin_of nan (mkFI id f (FNum n)) (RawNum ndim nc isnum rows idx) =
  Err (PatsyError ("when evaluating factor " ++ f ++ ", I got " ++ nat_str n ++ " columns instead of the " ++ nat_str nc ++ " I was expecting") (origin_of f)).
Proof.
  intros V I visnan origin_of nan id f n ndim nc isnum rows idx Hd Hn. unfold eval_factor. cbn [fi_kind fi_factor].
  destruct (Nat.ltb_spec 2 ndim); [lia|]. destruct (Nat.eqb_spec nc n); [contradiction|]. reflexivity.
Qed.
Print Assumptions columns_message.
Theorem columns_message_refuted : ~ forall (f : factor) n nc, nc <> n ->
  exists org, @eval_factor Z (fun _ => false) nat (fun _ => None) true (mkFI 0 f (FNum n)) (RawNum 2 nc true [] None) =
    Err (PatsyError ("when evaluating factor " ++ f ++ ", I got " ++ nat_str nc ++ " columns instead of the " ++ nat_str n ++ " I was expecting") org).
Proof. intros H. destruct (H "x" 2 3 ltac:(discriminate)) as [org X]. vm_compute in X. discriminate. Qed.
Print Assumptions columns_message_refuted.

(** A numerical factor that comes out as something other than numbers is not always reported with a PatsyError: for a
    pandas object, the message cannot be made. *)
Theorem nonnumeric_reported_refuted : ~ forall (fi : finfo) n nc rows (idx : option (list nat)) err, fi_kind fi = FNum n ->
  @eval_factor Z (fun _ => false) nat (fun _ => None) true fi (RawNum 2 nc false rows idx) = Err err -> is_patsy_error err = true.
Proof. intros H. specialize (H (mkFI 0 "x" (FNum 1)) 1 1 [[0%Z]] (Some [0]) AttributeError eq_refl eq_refl). discriminate. Qed.
Print Assumptions nonnumeric_reported_refuted.
(** It is, for everything else. *)
Theorem nonnumeric_reported : forall {V I : Type} (visnan : V -> bool) (origin_of : factor -> option origin) nan fi n ndim nc isnum rows err, fi_kind fi = FNum n ->
  @eval_factor V visnan I origin_of nan fi (RawNum ndim nc isnum rows None) = Err err -> exists msg, err = PatsyError msg (origin_of (fi_factor fi)).
Proof.
  intros V I visnan origin_of nan fi n ndim nc isnum rows err Ek. unfold eval_factor. rewrite Ek. destruct (Nat.ltb 2 ndim); [intros [= <-]; eauto|]. destruct (negb (Nat.eqb nc n)); [intros [= <-]; eauto|].
  destruct (negb isnum); [intros [= <-]; eauto|discriminate].
Qed.
Print Assumptions nonnumeric_reported.

(** * Examples *)
(** Rows have a category (or None) and a number; [a] is categorical and [x] numerical.  Data can also have columns of
    different lengths, and an [x] of strings, as a pandas object or not. *)
Inductive edata := EGood (cats : list pval) (nums : list Z) | EStrings (cats : list pval) (pandas : bool) | EWide (cats : list pval).
Definition eeval (f : factor) (s : unit) (d : edata) : result (@fobj Z nat unit) :=
  let cats := match d with EGood c _ | EStrings c _ | EWide c => c end in
  if String.eqb f "a" then Ok (mkObj (Plain (DSeq false cats)) 1 1 false [] None)
  else if String.eqb f "x" then
    match d with
    | EGood _ nums => Ok (mkObj (Plain (DArray true 2 1)) 2 1 true (map (fun z => [z]) nums) None)
    | EStrings _ pandas => Ok (mkObj (Plain (DSeq false cats)) 2 1 false (map (fun _ => [0%Z]) cats) (if pandas then Some (seq 0 (List.length cats)) else None))
    | EWide _ => Ok (mkObj (Plain (DArray true 2 2)) 2 2 true (map (fun _ => [0%Z; 0%Z]) cats) None)
    end
  else Err NameError.
Definition eorigin (f : factor) : option origin := if String.eqb f "a" then Some (mkOrigin "a + x" 0 1) else Some (mkOrigin "a + x" 4 5).
Definition ecm (levels : list pval) (c : option unit) (full : bool) : result (@ctr Z) :=
  let n := List.length levels in
  let unit_row (k : nat) (i : nat) := if Nat.eqb i k then 1%Z else 0%Z in
  let label v := match v with VStr s => s | _ => "?" end in
  if full then Ok (mkCtr (map (fun i => map (fun k => unit_row k i) (seq 0 n)) (seq 0 n)) (map (fun v => "[" ++ label v ++ "]")%string levels))
  else Ok (mkCtr (map (fun i => map (fun k => unit_row k i) (seq 1 (n - 1))) (seq 0 n)) (map (fun v => "[T." ++ label v ++ "]")%string (tl levels))).
Definition ebuilders := design_matrix_builders (fun _ => Ok (tt, 0%Z)) (fun _ _ _ _ => Ok tt) (fun _ _ _ => Ok tt) eeval eorigin ecm
  (fun _ => 0%Z) (fun l => l) (fun _ l => l) (fun _ l => l) (fun _ => 0) (fun l => l).
Definition etrain := EGood [VStr "p"; VStr "q"; VStr "p"] [1; 2; 3]%Z.
Definition eds := match ebuilders (fun _ => [etrain]) (NAStr "drop") [[["a"]; ["x"]]] with Ok ds => ds | Err _ => [] end.
Definition ebuild d na := build 1%Z Z.mul (fun z => Z.eqb z 99) (fun n => n) Nat.eqb eeval eorigin (fun _ : edata => None) eds d na false.
Example new_data_ex :
  ebuild (EGood [VStr "q"; VStr "p"] [7; 8]%Z) (NAStr "raise") = Ok ([mkMat 2 [[0; 1]; [1; 0]; [7; 8]]%Z], None) /\
  ebuild (EGood [VStr "q"; VStr "p"] [7; 8; 9]%Z) (NAStr "raise") = Err (PatsyError "Number of rows mismatch" (Some (mkOrigin "a + x" 4 5))) /\
  ebuild (EGood [VStr "q"; VNone] [7; 99]%Z) (NAStr "raise") = Err (PatsyError "factor contains missing values" (Some (mkOrigin "a + x" 0 1))) /\
  ebuild (EGood [VStr "q"; VStr "p"] [7; 99]%Z) (NAStr "raise") = Err (PatsyError "factor contains missing values" (Some (mkOrigin "a + x" 4 5))) /\
  ebuild (EGood [VStr "q"; VStr "r"] [7; 8]%Z) (NAStr "drop") = Err (PatsyError "Error converting data to categorical: observation does not match any of the expected levels" (Some (mkOrigin "a + x" 0 1))) /\
  ebuild (EStrings [VStr "q"] false) (NAStr "drop") = Err (PatsyError "when evaluating numeric factor x, I got non-numeric data" (Some (mkOrigin "a + x" 4 5))) /\
  ebuild (EStrings [VStr "q"] true) (NAStr "drop") = Err AttributeError /\
  ebuild (EWide [VStr "q"]) (NAStr "drop") = Err (PatsyError "when evaluating factor x, I got 1 columns instead of the 2 I was expecting" (Some (mkOrigin "a + x" 4 5))) /\
  exists msg, ebuild (EWide [VStr "q"]) (NAStr "ignore") = Err (ValueError msg).
Proof. repeat split; try (vm_compute; reflexivity). eexists. vm_compute. reflexivity. Qed.
Example new_data_hyps : indexed eeval /\ (forall f s d o, eeval f s d = Ok o -> tidy o) /\
  (forall levels c full m, ecm levels c full = Ok m -> forall row, In row (ct_rows m) -> List.length row = ct_ncols m) /\
  ebuilders (fun _ => [etrain]) (NAStr "drop") [[["a"]; ["x"]]] = Ok eds.
Proof.
  split; [|split; [|split; [|vm_compute; reflexivity]]].
  - intros f s d o i. unfold eeval. destruct (String.eqb f "a"); [intros [= <-]; discriminate|]. destruct (String.eqb f "x"); [|discriminate]. destruct d as [c n|c [|]|c]; intros [= <-]; try discriminate.
    intros [= <-]. cbn [o_rows o_value]. rewrite seq_length, map_length. split; [reflexivity|]. intros categories na org codes. unfold categorical_to_int. cbn [shape_fix bind].
    destruct (negb (forallb hashable categories)); [discriminate|]. intros H. clear -H. revert codes H. induction c as [|v c IH]; intros codes; cbn [mapM]; [intros [= <-]; reflexivity|].
    destruct (code_value na org _ v); cbn [bind]; [|discriminate]. destruct (mapM _ c) as [cs|]; cbn [bind]; [|discriminate]. intros [= <-]. cbn. f_equal. now apply IH.
  - intros f s d o. unfold eeval. destruct (String.eqb f "a"); [intros [= <-]; split; [intros row []|split; [exact Logic.I|intros; discriminate]]|]. destruct (String.eqb f "x"); [|discriminate].
    destruct d as [c n|c p|c]; intros [= <-]; (split; [intros row Hr; cbn in Hr; apply in_map_iff in Hr; destruct Hr as [z [<- _]]; reflexivity|split; [exact Logic.I|intros; discriminate]]).
  - intros levels c full m. unfold ecm. destruct full; intros [= <-] row Hr; cbn in Hr; apply in_map_iff in Hr; destruct Hr as [i [<- _]]; unfold ct_ncols; cbn [ct_suffixes]; rewrite !map_length, seq_length; [reflexivity|].
    destruct levels; cbn [tl List.length]; lia.
Qed.
