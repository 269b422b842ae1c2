(** C81: the rank of whole design matrices, with numeric factors. *)
From Coq Require Import ZArith QArith Qcanon Permutation Ring_theory ZArithRing Sorted.
From Verif Require Import Base RedundancyModel RedundancySpec RankSpec DescModel FormulaModel BuildModel BuildSpec MemorizeModel MemorizeSpec MemorizeProofs MemorizeProps CategoricalModel CategoricalSpec PipeModel PipeSpec PipeProofs
  FitModel FitSpec FitProofs FitProps EntryModel EntrySpec EntryProofs EntryFitProofs EntryProps ContrastModel ContrastSpec ContrastProofs ContrastTopProofs ContrastProps RankMatSpec RankMatProofs RankPipeSpec RankPipeProofs.
Open Scope string_scope.
Open Scope list_scope.
Open Scope nat_scope.

(** C81.  For any terms: the columns of the design span exactly the sums, over the terms, of products of numeric
    columns with functions of the levels of the categorical factors, whatever the data; and if within every
    combination of levels the products of numeric columns are independent, the columns are independent. *)
Theorem design_rank : forall {R : Type} (rO rI : R) radd rmul rsub ropp {P : Type} (ok : P -> Prop) num_cols (code_cm : factor -> bool -> result (@ctr R)) hash level number fis terms nlev ncol M cs,
  ring_theory rO rI radd rmul rsub ropp (@eq R) ->
  let num f := dget String.eqb f num_cols in
  (forall f n, In f (concat terms) -> num f = Some n -> exists fi, dget String.eqb f fis = Some fi /\ fi_kind fi = FNum n) ->
  contrasts_are rO code_cm nlev ncol M -> Forall (@NoDup factor) terms -> collision_free hash (concat terms) ->
  (forall f, In f (all_categoricals num terms) -> good_coding rO rI radd rmul nlev ncol M f) ->
  (forall p, ok p -> legit nlev (all_categoricals num terms) (level p)) ->
  make_subterm_infos num_cols code_cm hash terms = Ok cs ->
  let cols := map (column rO rI rmul level number) (columns_of fis cs) in
  (rich rO rI radd rmul ok num level number nlev terms -> independent rO radd rmul ok cols) /\ forall Y, in_span rO radd rmul ok cols Y <-> in_model rO rI radd rmul ok num level number terms Y.
Proof.
  intros R rO rI radd rmul rsub ropp P ok num_cols code_cm hash level number fis terms nlev ncol M cs Rth num Hfis Hcm Hnd Hcf Hg Hl Hmk.
  exact (matrix_rank rO rI radd rmul rsub ropp Rth ok num_cols code_cm hash level number fis terms Hfis nlev ncol M Hcm Hnd Hcf Hg Hl cs Hmk).
Qed.
Print Assumptions design_rank.

(** C81.  The same for the matrices that come out, for any factor objects, terms and data.  [level] and [number]
    are the levels and numbers that the factors have in the rows of the matrix. *)
Theorem matrix_full_rank : forall {V I C S D : Type} (rO rI : V) radd rmul rsub ropp (visnan : V -> bool) (ilabel : nat -> I) (ieqb : I -> I -> bool)
  (passes : factor -> result (S * Z)) (chunk : factor -> S -> nat -> D -> result S) (finish : factor -> S -> nat -> result S) (eval : factor -> S -> D -> result (@fobj V I C))
  (origin_of : factor -> option origin) (code_cm : list pval -> option C -> bool -> result (@ctr V)) (hash : list (bool * factor) -> Z)
  (set_order : list factor -> list factor) (order_mem order_exam : nat -> list factor -> list factor) (addr : pval -> nat) (hash_order : list pval -> list pval) (df_index : D -> option (list I)),
  ring_theory rO rI radd rmul rsub ropp (@eq V) ->
  (forall a b, ieqb a b = true <-> a = b) ->
  (forall l, Permutation (set_order l) l) -> (forall n l, Permutation (order_mem n l) l) -> (forall n l, Permutation (order_exam n l) l) ->
  indexed eval ->
  forall (data : nat -> list D) na tls ds used d na' w ms labels,
  let value_is f g := exists s, trained passes chunk finish data f s /\ forall d, g d = eval f s d in
  design_matrix_builders passes chunk finish eval origin_of code_cm hash set_order order_mem order_exam addr hash_order data na tls = Ok ds ->
  incl used ds ->
  (forall f g o, In f (factors_in used) -> value_is f g -> g d = Ok o -> proper_codes (o_value o)) ->
  build rI rmul visnan ilabel ieqb eval origin_of df_index used d na' w = Ok (ms, labels) ->
  exists act act' n ks, get_action na = Ok act /\ get_action na' = Ok act' /\
    rows_used visnan origin_of addr hash_order value_is (na_what act) (exam_chunks passes data (factors_of tls)) (na_what act') d (df_index d) (factors_in used) n ks /\
    (na_on act' = NARaise -> ks = seq 0 n) /\
    forall i j tl x m num levels contrast level number, nth_error tls j = Some tl -> nth_error ds j = Some x -> nth_error used i = Some x -> nth_error ms i = Some m ->
      Forall (@NoDup factor) tl -> collision_free hash (concat tl) ->
      describes (factor_value origin_of addr hash_order value_is (na_what act) (exam_chunks passes data (factors_of tls)) (na_what act') d) ks tl num levels contrast level number ->
      let cm f b := code_cm (levels f) (contrast f) b in
      (forall f, In f (all_categoricals num tl) -> good_coding rO rI radd rmul (fun f => length (levels f)) (fun f b => cm_cols (cm f b)) (fun f b => cm_entry rO (cm f b)) f) ->
      (rich rO rI radd rmul (matrix_row m) num level number (fun f => length (levels f)) tl -> independent rO radd rmul (matrix_row m) (matrix_columns rO m)) /\
      forall Y, in_span rO radd rmul (matrix_row m) (matrix_columns rO m) Y <-> in_model rO rI radd rmul (matrix_row m) num level number tl Y.
Proof.
  intros V I C S D rO rI radd rmul rsub ropp visnan ilabel ieqb passes chunk finish eval origin_of code_cm hash set_order order_mem order_exam addr hash_order df_index Rth Hi Hs Hm He Hx data na tls ds used d na' w ms labels value_is Hb Hu Hp Hr.
  refine (pipe_rank rO rI radd rmul rsub ropp Rth visnan ilabel ieqb Hi passes chunk finish eval origin_of code_cm hash set_order order_mem order_exam addr hash_order df_index Hs Hm He Hx value_is _ data tls _ na used ds d na' w ms labels Hb Hu _ Hr).
  - intros f g g' [s [[s0 [k [Ep R]]] Eg]] [s' [[s0' [k' [Ep' R']]] Eg']] x. rewrite Eg, Eg'. rewrite Ep in Ep'. injection Ep' as <- <-. rewrite R in R'. injection R' as <-. reflexivity.
  - intros f s _ Ht. exists s. now split.
  - intros f s o Hf _ Ht Eo. apply (Hp f (eval f s) o Hf); [exists s; now split|exact Eo].
Qed.
Print Assumptions matrix_full_rank.

(** C81.  For the factors of formulas. *)
Theorem formula_full_rank : forall {V I C St val D : Type} (rO rI : V) radd rmul rsub ropp (visnan : V -> bool) (ilabel : nat -> I) (ieqb : I -> I -> bool)
  (code : factor -> @texpr val D St) (bins : factor -> list (list string)) (as_obj : val -> @fobj V I C)
  (origin_of : factor -> option origin) (code_cm : list pval -> option C -> bool -> result (@ctr V)) (hash : list (bool * factor) -> Z)
  (set_order : list factor -> list factor) (order_mem order_exam : nat -> list factor -> list factor) (addr : pval -> nat) (hash_order : list pval -> list pval) (df_index : D -> option (list I)),
  ring_theory rO rI radd rmul rsub ropp (@eq V) ->
  (forall a b, ieqb a b = true <-> a = b) ->
  (forall l, Permutation (set_order l) l) -> (forall n l, Permutation (order_mem n l) l) -> (forall n l, Permutation (order_exam n l) l) ->
  let eval := ef_eval code origin_of as_obj in
  indexed eval ->
  forall (chunks : list D) na tls ds used d na' w ms labels,
  (forall f, In f (factors_of tls) -> NoDup (map fst (calls (code f))) /\ inner_first (code f) (bins f)) ->
  let value_of f d := match fitted_value chunks (code f) d with Ok v => Ok (as_obj v) | Err _ => Err (PatsyError "Error evaluating factor" (origin_of f)) end in
  let value_is f (g : D -> result (@fobj V I C)) := forall d, g d = value_of f d in
  design_matrix_builders (ef_passes code bins) (ef_chunk code bins origin_of) (ef_finish code bins) eval origin_of code_cm hash set_order order_mem order_exam addr hash_order (fun _ => chunks) na tls = Ok ds ->
  incl used ds ->
  (forall f v, In f (factors_in used) -> fitted_value chunks (code f) d = Ok v -> proper_codes (o_value (as_obj v))) ->
  build rI rmul visnan ilabel ieqb eval origin_of df_index used d na' w = Ok (ms, labels) ->
  exists act act' n ks, get_action na = Ok act /\ get_action na' = Ok act' /\
    rows_used visnan origin_of addr hash_order value_is (na_what act) chunks (na_what act') d (df_index d) (factors_in used) n ks /\
    (na_on act' = NARaise -> ks = seq 0 n) /\
    forall i j tl x m num levels contrast level number, nth_error tls j = Some tl -> nth_error ds j = Some x -> nth_error used i = Some x -> nth_error ms i = Some m ->
      Forall (@NoDup factor) tl -> collision_free hash (concat tl) ->
      describes (factor_value origin_of addr hash_order value_is (na_what act) chunks (na_what act') d) ks tl num levels contrast level number ->
      let cm f b := code_cm (levels f) (contrast f) b in
      (forall f, In f (all_categoricals num tl) -> good_coding rO rI radd rmul (fun f => length (levels f)) (fun f b => cm_cols (cm f b)) (fun f b => cm_entry rO (cm f b)) f) ->
      (rich rO rI radd rmul (matrix_row m) num level number (fun f => length (levels f)) tl -> independent rO radd rmul (matrix_row m) (matrix_columns rO m)) /\
      forall Y, in_span rO radd rmul (matrix_row m) (matrix_columns rO m) Y <-> in_model rO rI radd rmul (matrix_row m) num level number tl Y.
Proof.
  intros V I C St val D rO rI radd rmul rsub ropp visnan ilabel ieqb code bins as_obj origin_of code_cm hash set_order order_mem order_exam addr hash_order df_index Rth Hi Hs Hm He eval Hx chunks na tls ds used d na' w ms labels Hc value_of value_is Hb Hu Hp Hr.
  assert (Hv : forall f s, In f (factors_of tls) -> trained (ef_passes code bins) (ef_chunk code bins origin_of) (ef_finish code bins) (fun _ => chunks) f s -> value_is f (eval f s)).
  { intros f s Hf Ht x. apply (trained_fit code bins origin_of chunks _ (fun _ => eq_refl)) in Ht. destruct (Hc f Hf) as [H1 H2]. destruct (fitted_factor_value (code f) (bins f) chunks H1 H2) as [_ H]. destruct (H s Ht) as [_ E].
    unfold eval, ef_eval, value_of. rewrite E. now destruct (fitted_value chunks (code f) x). }
  change chunks with (exam_chunks (ef_passes code bins) (fun _ : nat => chunks) (factors_of tls)).
  refine (pipe_rank rO rI radd rmul rsub ropp Rth visnan ilabel ieqb Hi _ _ _ eval origin_of code_cm hash set_order order_mem order_exam addr hash_order df_index Hs Hm He Hx value_is _ (fun _ => chunks) tls Hv na used ds d na' w ms labels Hb Hu _ Hr).
  - intros f g g' E E' x. now rewrite E, E'.
  - intros f s o Hf Hin Ht Eo. rewrite (Hv f s Hin Ht d) in Eo. unfold value_of in Eo. destruct (fitted_value chunks (code f) d) as [v|] eqn:E; [|discriminate]. injection Eo as <-. eapply Hp; eassumption.
Qed.
Print Assumptions formula_full_rank.

(** C81, the contract on contrasts: it holds for Treatment, Sum, Helmert and Diff with any levels (over the
    rationals), whenever they give contrast matrices at all. *)
Theorem builtin_contrasts_good : forall (L : Type) (leqb : L -> L -> bool) as_int readable argsort (coding : factor -> builtin L) (levels : factor -> list L) (f : factor),
  sorts argsort -> levels f <> [] ->
  let ctr_of (c : contrast) := @mkCtr Qc (cm_matrix c) (cm_suffixes c) in
  let cm f (full : bool) := let* c := (if full then code_with_intercept leqb as_int readable argsort (coding f) (levels f) else code_without_intercept leqb as_int readable argsort (coding f) (levels f)) in Ok (ctr_of c) in
  (forall b, exists m, cm f b = Ok m) ->
  good_coding 0%Qc 1%Qc Qcplus Qcmult (fun f => length (levels f)) (fun f b => cm_cols (cm f b)) (fun f b => cm_entry 0%Qc (cm f b)) f.
Proof.
  intros L leqb as_int readable argsort coding levels f Hs Hne ctr_of cm Hok. destruct (Hok true) as [m1 E2], (Hok false) as [m0 E1]. unfold cm in E1, E2. cbn [bind] in E1, E2.
  destruct (code_without_intercept leqb as_int readable argsort (coding f) (levels f)) as [cr|] eqn:C1; [|discriminate]. destruct (code_with_intercept leqb as_int readable argsort (coding f) (levels f)) as [cf|] eqn:C2; [|discriminate]. clear E1 E2.
  destruct (ref_exists leqb as_int readable argsort (coding f) (levels f) cr Hne C1) as [r Hr].
  destruct (builtin_codings_entries L leqb as_int readable argsort (coding f) (levels f) r Hs Hne Hr) as [cr' [cf' [E1' [_ [[Hl _] [E2' [_ Hl2]]]]]]].
  destruct (builtin_codings_full_rank L leqb as_int readable argsort (coding f) (levels f) r Hs Hne Hr) as [cr'' [cf'' [E1'' [E2'' [_ [Hi1 Hi2]]]]]].
  rewrite C1 in E1', E1''. rewrite C2 in E2', E2''. injection E1' as <-. injection E2' as <-. injection E1'' as <-. injection E2'' as <-.
  assert (0 < length (levels f)) by (destruct (levels f); [congruence|cbn; lia]).
  unfold good_coding, cm. rewrite C1, C2. cbn [bind cm_cols cm_entry]. unfold ct_ncols. cbn [ctr_of ct_suffixes ct_rows]. split; [exact Hl2|]. split; [rewrite Hl; lia|]. split; assumption.
Qed.
Print Assumptions builtin_contrasts_good.

(** A limit: nothing looks at the numbers, so terms that are multiples of each other give dependent columns: with
    [x] and [z = 2 x] the design of [0 + x + z] has the columns (x, z), for any data. *)
Theorem numeric_redundancy_refuted : forall (code_cm : factor -> bool -> result (@ctr Z)) hash (ok : nat -> Prop) (x : nat -> Z),
  let num_cols := [("x", 1); ("z", 1)] in
  let fis := [("x", mkFI 0 "x" (FNum 1)); ("z", mkFI 1 "z" (FNum 1))] in
  let number p f (i : nat) := if String.eqb f "x" then x p else (2 * x p)%Z in
  exists cs, make_subterm_infos num_cols code_cm hash [["x"]; ["z"]] = Ok cs /\ length (columns_of fis cs) = 2 /\
    ~ independent 0%Z Z.add Z.mul ok (map (column 0%Z 1%Z Z.mul (fun _ _ => 0) number) (columns_of fis cs)).
Proof.
  intros code_cm hash ok x num_cols fis number.
  exists [(["x"], [mkSI ["x"] [] 1]); (["z"], [mkSI ["z"] [] 1])]. split; [vm_compute; reflexivity|]. split; [reflexivity|]. intros H. specialize (H [2; -1]%Z eq_refl).
  assert (F : Forall (fun c => c = 0%Z) [2; -1]%Z); [|inversion F; discriminate]. apply H. intros p _. unfold comb. cbn -[Z.mul Z.add]. lia.
Qed.
Print Assumptions numeric_redundancy_refuted.

(** * Example: [a * center(x)], with the factors of EntryProps. *)
Definition mhas (f : factor) (l : list (bool * factor)) (n : Z) : Z := if existsb (fun p => String.eqb (snd p) f) l then n else 0%Z.
Definition mhash (l : list (bool * factor)) : Z := (mhas "a" l 1 + mhas "center(x)" l 2)%Z.
Definition mbuilders := design_matrix_builders (ef_passes ycode ybins) (ef_chunk ycode ybins yorigin) (ef_finish ycode ybins) (ef_eval ycode yorigin yobj) yorigin ycm
  mhash (fun l => l) (fun _ l => l) (fun _ l => l) (fun _ => 0) (fun l => l).
Definition mterms : list term := [[]; ["a"]; ["center(x)"]; ["a"; "center(x)"]].
Definition mchunks : list ydata := [[("p", 1); ("q", 2); ("p", 3); ("q", 6)]]%Z.
Definition mdata : ydata := [("p", 1); ("q", 2); ("p", -99); ("p", 3); ("q", 6)]%Z.
Definition mdesigns := match mbuilders (fun _ => mchunks) (NAStr "drop") [mterms] with Ok ds => ds | Err _ => [] end.
Definition mmatrix : @dmat Z := mkMat 4 [[1; 1; 1; 1]; [0; 1; 0; 1]; [-2; -1; 0; 3]; [0; -1; 0; 3]]%Z.
Definition mnum (f : factor) : option nat := if String.eqb f "center(x)" then Some 1 else None.
Definition mlevels (f : factor) : list pval := [VStr "p"; VStr "q"].
Definition mlevel (r : nat) (f : factor) : nat := nth r [0; 1; 0; 1] 0.
Definition mnumber (r : nat) (f : factor) (i : nat) : Z := nth r [-2; -1; 0; 3]%Z 0%Z.
Lemma mhas_in f (l : list factor) n : mhas f (map (fun f => (false, f)) l) n = if in_dec string_dec f l then n else 0%Z.
Proof.
  unfold mhas. destruct (existsb _ _) eqn:E; destruct (in_dec string_dec f l) as [H|H]; try reflexivity; exfalso.
  - apply H. apply existsb_exists in E. destruct E as [p [Hp E]]. apply in_map_iff in Hp. destruct Hp as [g [<- Hg]]. apply String.eqb_eq in E. cbn in E. now subst.
  - apply not_true_iff_false in E. apply E. apply existsb_exists. exists (false, f). split; [apply in_map_iff; eauto|apply String.eqb_refl].
Qed.
Example mhash_free : collision_free mhash (concat mterms).
Proof.
  intros a b Ha Hb _ _. unfold mhash. rewrite !mhas_in.
  assert (K : forall l, incl l (concat mterms) -> forall f, In f l -> f = "a" \/ f = "center(x)") by (intros l Hl f Hf; apply Hl in Hf; cbn in Hf; intuition).
  destruct (in_dec string_dec "a" a), (in_dec string_dec "center(x)" a), (in_dec string_dec "a" b), (in_dec string_dec "center(x)" b); split; intros H; try discriminate; try reflexivity;
    try (intros f; split; intros Hf; [destruct (K a Ha f Hf); subst|destruct (K b Hb f Hf); subst]; tauto);
    exfalso; pose proof (H "a"); pose proof (H "center(x)"); tauto.
Qed.
Example mgood : good_coding 0%Z 1%Z Z.add Z.mul (fun f => length (mlevels f)) (fun f b => cm_cols (ycm (mlevels f) None b)) (fun f b => cm_entry 0%Z (ycm (mlevels f) None b)) "a".
Proof.
  split; [reflexivity|]. split; [reflexivity|].
  split; [exists (fun i j : nat => match i, j with O, O => 1%Z | O, Datatypes.S _ => 0%Z | Datatypes.S _, O => (-1)%Z | Datatypes.S _, Datatypes.S _ => 1%Z end)|exists (fun i j => if i =? j then 1%Z else 0%Z)];
    split; intros [|[|i]] [|[|j]] Hi Hj; cbn in Hi, Hj; try lia; reflexivity.
Qed.
Example mrich : rich 0%Z 1%Z Z.add Z.mul (matrix_row mmatrix) mnum mlevel mnumber (fun f => length (mlevels f)) mterms.
Proof.
  intros rho Hrho ms Hms Hd.
  assert (Hr : rho "a" < 2) by (apply (Hrho "a"); now left).
  assert (G : forall a, In a ms -> a = [] \/ a = [("center(x)", 0)]).
  { intros a Ha. rewrite Forall_forall in Hms. destruct (Hms a Ha) as [t [ks [Ht [Hc ->]]]]. unfold chooses in Hc. cbn in Ht.
    destruct Ht as [<-|[<-|[<-|[<-|[]]]]]; cbn in Hc; inversion Hc as [|k f ks' l Hk Hc']; subst; try (now left); inversion Hc'; subst; right; unfold width in Hk; cbn in Hk; destruct k; [reflexivity|lia|reflexivity|lia]. }
  assert (Q : forall p, p < 4 -> mlevel p "a" = rho "a" -> forall f, In f (all_categoricals mnum mterms) -> mlevel p f = rho f).
  { intros p _ E f Hf. cbn in Hf. destruct Hf as [<-|[<-|[]]]; exact E. }
  assert (R : forall p, p < 4 -> mlevel p "a" = rho "a" -> matrix_row mmatrix p /\ forall f, In f (all_categoricals mnum mterms) -> mlevel p f = rho f) by (intros p H1 H2; split; [exact H1|now apply Q]).
  assert (D : ms = [] \/ ms = [[]] \/ ms = [[("center(x)", 0)]] \/ ms = [[]; [("center(x)", 0)]] \/ ms = [[("center(x)", 0)]; []]).
  { clear - G Hd. destruct ms as [|a [|b [|c ms]]]; [now left| | |].
    - destruct (G a (or_introl eq_refl)) as [->| ->]; tauto.
    - inversion Hd as [|x y H1 _]; subst. inversion H1 as [|x y H2 _]; subst. destruct (G a (or_introl eq_refl)) as [->| ->], (G b (or_intror (or_introl eq_refl))) as [->| ->]; try tauto; destruct H2; intros q; tauto.
    - exfalso. inversion Hd as [|x y H1 H2]; subst. inversion H1 as [|x y H3 H4]; subst. inversion H4 as [|x y H5 _]; subst. inversion H2 as [|x y H6 _]; subst. inversion H6 as [|x y H7 _]; subst.
      destruct (G a (or_introl eq_refl)) as [->| ->], (G b (or_intror (or_introl eq_refl))) as [->| ->], (G c (or_intror (or_intror (or_introl eq_refl)))) as [->| ->]; first [apply H3; intros q; tauto|apply H5; intros q; tauto|apply H7; intros q; tauto]. }
  clear G Hms Hd.
  assert (E0 : rho "a" = 0 \/ rho "a" = 1) by lia.
  assert (W : forall l co, (forall p, matrix_row mmatrix p /\ (forall f, In f (all_categoricals mnum mterms) -> mlevel p f = rho f) -> comb 0%Z Z.add Z.mul co (map (product 1%Z Z.mul mnumber) l) p = 0%Z) ->
    exists p q, mnumber p "center(x)" 0 <> mnumber q "center(x)" 0 /\ comb 0%Z Z.add Z.mul co (map (product 1%Z Z.mul mnumber) l) p = 0%Z /\ comb 0%Z Z.add Z.mul co (map (product 1%Z Z.mul mnumber) l) q = 0%Z).
  { intros l co Hz. destruct E0 as [E0|E0]; [exists 0, 2|exists 1, 3]; (split; [discriminate|]); split; apply Hz; apply R; rewrite ?E0; try reflexivity; lia. }
  destruct D as [->|[->|[->|[->| ->]]]]; intros co Hl Hz; destruct (W _ _ Hz) as [p [q [Hne [A B]]]]; unfold comb, product in A, B.
  - destruct co; [constructor|discriminate].
  - destruct co as [|c [|? ?]]; try discriminate. cbn -[Z.mul Z.add mnumber] in A, B. constructor; [lia|constructor].
  - destruct co as [|c [|? ?]]; try discriminate. cbn -[Z.mul Z.add mnumber] in A, B. constructor; [nia|constructor].
  - destruct co as [|c [|c' [|? ?]]]; try discriminate. cbn -[Z.mul Z.add mnumber] in A, B. assert (c' = 0%Z) by nia. subst. constructor; [nia|]. constructor; [reflexivity|constructor].
  - destruct co as [|c [|c' [|? ?]]]; try discriminate. cbn -[Z.mul Z.add mnumber] in A, B. assert (c = 0%Z) by nia. subst. constructor; [reflexivity|]. constructor; [nia|constructor].
Qed.
Definition mvalue f (g : ydata -> result (@fobj Z nat unit)) := forall d, g d = match fitted_value mchunks (ycode f) d with Ok v => Ok (yobj v) | Err _ => Err (PatsyError "Error evaluating factor" (yorigin f)) end.
Definition mact := match get_action (NAStr "drop") with Ok act => act | Err _ => mkAction NARaise (mkNA false false) end.
Lemma mvalue_a : factor_value yorigin (fun _ => 0) (fun l => l) mvalue (na_what mact) mchunks (na_what mact) mdata "a" (mlevels "a") None (VCat [0; 1; 0; 0; 1]%Z).
Proof.
  eapply fv_cat with (g := fun d => match fitted_value mchunks (ycode "a") d with Ok v => Ok (yobj v) | Err _ => Err (PatsyError "Error evaluating factor" (yorigin "a")) end).
  * intros d. reflexivity.
  * vm_compute. reflexivity.
  * vm_compute. reflexivity.
  * vm_compute. reflexivity.
  * cbn [o_value]. eapply ca_values with (d := DSeq false [VStr "p"; VStr "q"; VStr "p"; VStr "p"; VStr "q"]); [left; split; [reflexivity|intros [c [z E]]; discriminate]|constructor|].
    assert (N : forall s, nan_text s = false -> ~ missing {| nan_is_na := true; none_is_na := true |} (VStr s)) by (intros s E [[_ [[i H]|[s' [H H']]]]|[_ H]]; [discriminate|injection H as <-; congruence|discriminate]).
    assert (Kp : CategoricalSpec.coded {| nan_is_na := true; none_is_na := true |} [VStr "p"; VStr "q"] (VStr "p") 0%Z) by (right; split; [now apply N|]; exists [], (VStr "p"), [VStr "q"]; repeat split; [intros x [<-|[]] H; discriminate]).
    assert (Kq : CategoricalSpec.coded {| nan_is_na := true; none_is_na := true |} [VStr "p"; VStr "q"] (VStr "q") 1%Z) by (right; split; [now apply N|]; exists [VStr "p"], (VStr "q"), []; repeat split; [intros x []]).
    repeat (apply Forall2_cons; [assumption|]); apply Forall2_nil.
Qed.
Lemma mvalue_x : factor_value yorigin (fun _ => 0) (fun l => l) mvalue (na_what mact) mchunks (na_what mact) mdata "center(x)" [] None (VNum 1 [[-2]; [-1]; [-99]; [0]; [3]]%Z).
Proof.
  eapply (fv_num _ _ _ _ _ _ _ _ _ (fun d => match fitted_value mchunks (ycode "center(x)") d with Ok v => Ok (yobj v) | Err _ => Err (PatsyError "Error evaluating factor" (yorigin "center(x)")) end) 1
    (yobj (inr [-2; -1; -99; 0; 3]%Z))); try reflexivity; [|cbn; lia]. intros d. reflexivity.
Qed.
(** The matrix, and what the factors have in its rows (0, 1, 3 and 4 of the data; row 2 is missing x). *)
Example rank_ex : mbuilders (fun _ => mchunks) (NAStr "drop") [mterms] = Ok mdesigns /\ length mdesigns = 1 /\
  build 1%Z Z.mul (Z.eqb (-99)) (fun n => n) Nat.eqb (ef_eval ycode yorigin yobj) yorigin (fun _ : ydata => None) mdesigns mdata (NAStr "drop") false = Ok ([mmatrix], None) /\
  Forall (@NoDup factor) mterms /\
  forall act, get_action (NAStr "drop") = Ok act ->
  describes (factor_value yorigin (fun _ => 0) (fun l => l) mvalue (na_what act) mchunks (na_what act) mdata) [0; 1; 3; 4] mterms mnum mlevels (fun _ => None) mlevel mnumber.
Proof.
  split; [vm_compute; reflexivity|]. split; [vm_compute; reflexivity|]. split; [vm_compute; reflexivity|]. split; [repeat constructor; cbn; intuition discriminate|].
  intros act [= <-] f Hf.
  assert (Ef : f = "a" \/ f = "center(x)") by (cbn in Hf; intuition). destruct Ef as [->| ->]; cbn [mnum String.eqb Ascii.eqb Bool.eqb].
  - exists [0; 1; 0; 0; 1]%Z. split.
    + exact mvalue_a.
    + intros [|[|[|[|r]]]] k H; cbn in H; try (injection H as <-; vm_compute; split; [reflexivity|lia]). destruct r; discriminate.
  - exists [[-2]; [-1]; [-99]; [0]; [3]]%Z. split.
    + exact mvalue_x.
    + intros [|[|[|[|r]]]] k row i v H1 H2 H3; cbn in H1; try (injection H1 as <-; cbn in H2; injection H2 as <-; destruct i as [|[|i]]; [injection H3 as <-; reflexivity|discriminate..]). destruct r; discriminate.
Qed.
Example builtin_good_ex : forall full : bool, exists m, (let* c := (if full then code_with_intercept zl_eqb zl_int zl_str ex_argsort (Sum (Some (inr "b"))) abc else code_without_intercept zl_eqb zl_int zl_str ex_argsort (Sum (Some (inr "b"))) abc) in
  Ok (@mkCtr Qc (cm_matrix c) (cm_suffixes c))) = Ok m.
Proof. intros []; eexists; vm_compute; reflexivity. Qed.
