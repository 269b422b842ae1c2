From Coq Require Import ZArith Permutation.
From Verif Require Import Base NumModel ContrastSpec ContrastProofs StateModel StateSpec StateProofs StateProps LinModel SplineModel SplineSpec SplineProofs CrsSpec BsModel BsSpec BsProofs SplineNumProofs SplitSpec SplitProofs SplitProps FitModel IncrModel IncrSpec IncrClassSpec.
Open Scope nat_scope.
Open Scope list_scope.

Section Rows.
Context {row : Type}.
Variable all : list row.
Hypothesis Hall : all <> [].
Local Notation pieces := (pieces_of_all row_cells all).
Local Notation by_row := (by_row row_cells all).

(** * One argument *)
Lemma single_pieces (g : row -> list Qc) argss : pieces [PerRow g] argss ->
  exists ps xs, ps <> [] /\ ~ In [] ps /\ Permutation (concat ps) all /\ argss = map (fun x => [x]) xs /\ Forall2 (fun p x => row_cells x (map g p)) ps xs.
Proof.
  intros [ps [H1 [H2 [H3 H4]]]]. assert (H : exists xs, argss = map (fun x => [x]) xs /\ Forall2 (fun p x => row_cells x (map g p)) ps xs).
  { clear - H4. induction H4 as [|p args ps argss H F IH]; [exists []; split; auto|]. destruct IH as [xs [-> F']].
    inversion H as [|m v ms vs Hm Hn E1 E2]; subst. inversion Hn; subst. exists (v :: xs). split; [reflexivity|]. constructor; auto. }
  destruct H as [xs [E F]]. eauto 10.
Qed.
Lemma one_arg (g : row -> list Qc) rows vs : all_mean row_cells [PerRow g] rows vs -> exists x, vs = [x] /\ row_cells x (map g rows).
Proof. intros H. inversion H as [|m v ms vs' Hm Hn E1 E2]; subst. inversion Hn; subst. eauto. Qed.
Lemma fold_single {A B} (f : A -> B -> result A) (emb : A -> tstate) (step : tstate -> list B -> result tstate) :
  (forall s x, step (emb s) [x] = let* s := f s x in Ok (emb s)) ->
  forall xs s, foldM step (map (fun x => [x]) xs) (emb s) = let* s := foldM f xs s in Ok (emb s).
Proof.
  intros H xs. induction xs as [|x xs IH]; intros s; [reflexivity|]. cbn [foldM map]. rewrite H. destruct (f s x) as [s'|]; [|reflexivity]. cbn [bind]. apply IH.
Qed.
Lemma cells_cols (g : row -> list Qc) k rows x : rows <> [] -> (forall r, In r rows -> length (g r) = k) -> row_cells x (map g rows) -> has_cols k x.
Proof.
  intros Hn Hg [E [_ F]]. split.
  - rewrite E in F. destruct rows as [|r rows]; [easy|]. inversion F; subst. rewrite <- (Hg r); [easy|now left].
  - rewrite E. apply Forall_forall. intros r Hr. apply in_map_iff in Hr. destruct Hr as [y [<- Hy]]. auto.
Qed.
Lemma pieces_cols (g : row -> list Qc) k ps xs : (forall r, In r all -> length (g r) = k) -> ~ In [] ps -> Permutation (concat ps) all ->
  Forall2 (fun p x => row_cells x (map g p)) ps xs -> Forall (has_cols k) xs /\ rows_of xs = map g (concat ps).
Proof.
  intros Hg Hne P F. assert (Hin : incl (concat ps) all) by (intros r Hr; eapply Permutation_in; eauto). clear P.
  induction F as [|p x ps xs H F IH]; [split; [constructor|reflexivity]|].
  destruct IH as [I1 I2]; [intros H'; apply Hne; now right|intros r Hr; apply Hin; cbn; apply in_app_iff; auto|]. split.
  - constructor; auto. apply (cells_cols g k p); auto; [intros ->; apply Hne; now left|intros r Hr; apply Hg, Hin; cbn; apply in_app_iff; auto].
  - cbn [concat]. rewrite map_app, <- I2. cbn. destruct H as [-> _]. reflexivity.
Qed.
Lemma pieces_nonempty ps : Permutation (concat ps) all -> ps <> [].
Proof. intros P ->. apply Permutation_nil in P. auto. Qed.
Lemma f2_length {A B} (P : A -> B -> Prop) l m : Forall2 P l m -> length l = length m.
Proof. induction 1; cbn; congruence. Qed.

(** A function of the columns. *)
Lemma by_column_cells f k (g : row -> list Qc) rows x y : rows <> [] -> (forall r, In r rows -> length (g r) = k) -> row_cells x (map g rows) ->
  by_column f x y -> row_cells y (map (fun r => entrywise k f (g r)) rows).
Proof.
  intros Hn Hg Hx B. pose proof (cells_cols g k rows x Hn Hg Hx) as Hk. destruct (by_column_rows f k x y Hk B) as [Hy [L G]].
  destruct Hx as [E _]. rewrite E in L, G. rewrite map_length in L, G. destruct Hy as [K1 K2]. split; [|split; [reflexivity|rewrite K1; exact K2]].
  apply (nth_ext _ _ [] []); [now rewrite map_length|]. intros i Hi. rewrite L in Hi.
  destruct rows as [|r0 rows0] eqn:Er; [easy|]. rewrite <- Er in *. rewrite (nth_map_lt (fun r => entrywise k f (g r)) rows i [] r0) by exact Hi.
  assert (Ln : length (nth i (snd (to_2d y)) []) = k) by (rewrite Forall_forall in K2; apply K2, nth_In; lia).
  apply (nth_ext _ _ 0%Qc 0%Qc); [unfold entrywise; now rewrite map_length, seq_length|]. intros j Hj. rewrite Ln in Hj.
  unfold entrywise. rewrite (nth_map_lt (fun j => f j (nth j (g (nth i rows r0)) 0%Qc)) (seq 0 k) j 0%Qc 0) by (now rewrite seq_length). rewrite seq_nth by exact Hj. cbn [Nat.add].
  specialize (G i j Hi Hj). unfold get in G. rewrite G. now rewrite (nth_map_lt g rows i [] r0) by exact Hi.
Qed.
Lemma perm_mean (m m' : mat) j : Permutation m m' -> col_mean m j = col_mean m' j.
Proof. intros P. unfold col_mean. now rewrite (col_sum_perm m m' j P), (Permutation_length P). Qed.

Lemma center_row_lemma k (g : row -> list Qc) : (forall r, In r all -> length (g r) = k) ->
  by_row center_class [PerRow g] (PerRow (fun r => entrywise k (fun j q => (q - col_mean (map g all) j)%Qc) (g r))).
Proof.
  intros Hg. assert (Fit : forall argss, pieces [PerRow g] argss -> exists xs, Forall (has_cols k) xs /\ xs <> [] /\ Permutation (rows_of xs) (map g all) /\
    fit_on center_class argss = let* s := center_memorize xs in Ok (ObCenter s)).
  { intros argss H. destruct (single_pieces g argss H) as [ps [xs [H1 [H2 [H3 [-> F]]]]]]. destruct (pieces_cols g k ps xs Hg H2 H3 F) as [C E]. exists xs. split; [exact C|]. split.
    - intros ->. inversion F; subst. easy.
    - split; [rewrite E; now apply Permutation_map|]. unfold fit_on. cbn [c_chunk c_new c_finish center_class].
      rewrite (fold_single center_chunk ObCenter) by reflexivity. unfold center_memorize. destruct (foldM center_chunk xs center_init); reflexivity. }
  assert (Ne : forall xs, Permutation (rows_of xs) (map g all) -> rows_of xs <> []).
  { intros xs P E. rewrite E in P. apply Permutation_nil in P. now destruct all. }
  split.
  - intros argss argss' s H H'. destruct (Fit argss H) as [xs [C [N [P ->]]]]. destruct (Fit argss' H') as [ys [C' [N' [P' ->]]]].
    rewrite (center_split_order k xs ys); auto. etransitivity; [exact P|now symmetry].
  - intros argss s rows vs H Hs Hr Hi Hv. destruct (Fit argss H) as [xs [C [N [P E]]]]. rewrite E in Hs.
    destruct (center_subtracts_mean k xs (Ne xs P) C) as [st [Em T]]. rewrite Em in Hs. cbn in Hs. injection Hs as <-.
    destruct (one_arg g rows vs Hv) as [x [-> Hx]]. assert (Hgr : forall r, In r rows -> length (g r) = k) by auto.
    destruct (T x (cells_cols g k rows x Hr Hgr Hx)) as [y [Ey B]]. exists y. split; [exact Ey|]. cbn [means].
    pose proof (by_column_cells _ k g rows x y Hr Hgr Hx B) as R. replace (map (fun r => entrywise k (fun j q => (q - col_mean (map g all) j)%Qc) (g r)) rows)
      with (map (fun r => entrywise k (fun j q => (q - col_mean (rows_of xs) j)%Qc) (g r)) rows); [exact R|].
    apply map_ext. intros r. unfold entrywise. apply map_ext. intros j. now rewrite (perm_mean _ _ j P).
Qed.
Lemma std_row_lemma sqrt ce re ddof k (g : row -> list Qc) : (forall r, In r all -> length (g r) = k) ->
  (re = true -> ddof < length all /\ forall j, j < k -> sqrt (col_dev (map g all) j / qn (length all - ddof))%Qc <> 0%Qc) ->
  by_row (standardize_class sqrt ce re ddof) [PerRow g] (PerRow (fun r => entrywise k (std_entry sqrt (map g all) ce re ddof) (g r))).
Proof.
  intros Hg Hs0. assert (Fit : forall argss, pieces [PerRow g] argss -> exists xs, Forall (has_cols k) xs /\ xs <> [] /\ Permutation (rows_of xs) (map g all) /\
    fit_on (standardize_class sqrt ce re ddof) argss = let* s := std_memorize xs in Ok (ObStandardize s)).
  { intros argss H. destruct (single_pieces g argss H) as [ps [xs [H1 [H2 [H3 [-> F]]]]]]. destruct (pieces_cols g k ps xs Hg H2 H3 F) as [C E]. exists xs. split; [exact C|]. split.
    - intros ->. inversion F; subst. easy.
    - split; [rewrite E; now apply Permutation_map|]. unfold fit_on. cbn [c_chunk c_new c_finish standardize_class].
      rewrite (fold_single std_chunk ObStandardize) by reflexivity. unfold std_memorize. destruct (foldM std_chunk xs std_init); reflexivity. }
  assert (Ne : forall xs, Permutation (rows_of xs) (map g all) -> rows_of xs <> []).
  { intros xs P E. rewrite E in P. apply Permutation_nil in P. now destruct all. }
  split.
  - intros argss argss' s H H'. destruct (Fit argss H) as [xs [C [N [P ->]]]]. destruct (Fit argss' H') as [ys [C' [N' [P' ->]]]].
    rewrite (standardize_split_order k xs ys); auto. etransitivity; [exact P|now symmetry].
  - intros argss s rows vs H Hs Hr Hi Hv. destruct (Fit argss H) as [xs [C [N [P E]]]]. rewrite E in Hs.
    destruct (standardize_exact sqrt k xs ce re ddof (Ne xs P) C) as [st [Em T]].
    { intros Hre. destruct (Hs0 Hre) as [D1 D2]. pose proof (Permutation_length P) as L. rewrite map_length in L. rewrite L. split; [exact D1|]. intros j Hj. rewrite (col_dev_perm _ _ j P). auto. }
    rewrite Em in Hs. cbn in Hs. injection Hs as <-.
    destruct (one_arg g rows vs Hv) as [x [-> Hx]]. assert (Hgr : forall r, In r rows -> length (g r) = k) by auto.
    destruct (T x (cells_cols g k rows x Hr Hgr Hx)) as [y [Ey B]]. exists y. split; [exact Ey|]. cbn [means].
    pose proof (by_column_cells _ k g rows x y Hr Hgr Hx B) as R. replace (map (fun r => entrywise k (std_entry sqrt (map g all) ce re ddof) (g r)) rows)
      with (map (fun r => entrywise k (std_entry sqrt (rows_of xs) ce re ddof) (g r)) rows); [exact R|].
    apply map_ext. intros r. unfold entrywise. apply map_ext. intros j. unfold std_entry.
    now rewrite (perm_mean _ _ j P), (col_dev_perm _ _ j P), (Permutation_length P).
Qed.

(** * Splines of one argument *)
Section Vector.
Variable value : row -> Qc.
Local Notation g := (fun r => [value r]).
Lemma cells_vector rows x : row_cells x (map g rows) -> rows <> [] -> as_vector x = Ok (map value rows) /\ piece_values x (map value rows).
Proof.
  intros Hx Hn. pose proof (cells_cols g 1 rows x Hn (fun _ _ => eq_refl) Hx) as [K _]. destruct Hx as [E _]. destruct x as [q|l|k m]; cbn in *.
  - destruct rows as [|r [|r' rows]]; try discriminate. injection E as ->. split; constructor.
  - assert (l = map value rows) as ->; [|split; constructor]. clear - E. revert rows E. induction l as [|q l IH]; intros [|r rows] E; try discriminate; [reflexivity|]. cbn in *. injection E as -> E. f_equal. auto.
  - subst k m. cbn. split; [|constructor; now rewrite map_map]. f_equal. unfold column. rewrite map_map. reflexivity.
Qed.
Lemma vector_pieces argss : pieces [PerRow g] argss -> exists xs vs, xs <> [] /\ argss = map (fun x => [x]) xs /\ Forall2 piece_values xs vs /\ Permutation (concat vs) (map value all).
Proof.
  intros H. destruct (single_pieces g argss H) as [ps [xs [H1 [H2 [H3 [E F]]]]]]. exists xs, (map (map value) ps). split; [intros ->; inversion F; subst; easy|]. split; [exact E|]. split.
  - clear - F H2. induction F as [|p x ps xs H F IH]; [constructor|]. cbn. constructor; [|apply IH; intros X; apply H2; now right]. apply cells_vector; auto. intros ->. apply H2. now left.
  - rewrite <- concat_map. now apply Permutation_map.
Qed.
Lemma pieces_same xs vs : xs <> [] -> Forall2 piece_values xs vs -> Permutation (concat vs) (map value all) -> same_values [A1 (map value all)] xs.
Proof.
  intros N F P. split; [easy|]. split; [exact N|]. exists [map value all], vs. split; [repeat constructor|]. split; [exact F|]. cbn. rewrite app_nil_r. now symmetry.
Qed.
(** Transforms that make a row out of each number. *)
Lemma vector_row_lemma (c : @tclass arr tstate) s (trans : arr -> result (nat * mat)) n F :
  (forall argss xs vs, argss = map (fun x => [x]) xs -> xs <> [] -> Forall2 piece_values xs vs -> Permutation (concat vs) (map value all) -> fit_on c argss = Ok s) ->
  (forall x, c_transform c s [x] = matrix_value (trans x)) ->
  (forall rows x, rows <> [] -> incl rows all -> as_vector x = Ok (map value rows) -> trans x = Ok (n, map F (map value rows))) ->
  (forall q, length (F q) = n) ->
  by_row c [PerRow g] (PerRow (fun r => one_row (trans (A1 [value r])))).
Proof.
  intros Hfit Htr Hrow Hlen. split.
  - intros argss argss' s0 H H'. destruct (vector_pieces argss H) as [xs [vs [N [E [P1 P2]]]]]. destruct (vector_pieces argss' H') as [ys [ws [N' [E' [Q1 Q2]]]]].
    rewrite (Hfit argss xs vs E N P1 P2), (Hfit argss' ys ws E' N' Q1 Q2). auto.
  - intros argss s0 rows vs H Hs Hr Hi Hv. destruct (vector_pieces argss H) as [xs [ws [N [E [P1 P2]]]]]. rewrite (Hfit argss xs ws E N P1 P2) in Hs. injection Hs as <-.
    destruct (one_arg g rows vs Hv) as [x [-> Hx]]. destruct (cells_vector rows x Hx Hr) as [Ev _]. rewrite Htr, (Hrow rows x Hr Hi Ev). cbn.
    eexists. split; [reflexivity|]. split; cbn [to_2d fst snd].
    + rewrite map_map. apply map_ext_in. intros r Hr'. rewrite (Hrow [r] (A1 [value r])); [reflexivity|easy| |reflexivity]. intros z [<-|[]]. auto.
    + split; [reflexivity|]. cbn. apply Forall_forall. intros r Hr'. apply in_map_iff in Hr'. destruct Hr' as [q [<- _]]. apply Hlen.
Qed.

Lemma bs_row_lemma a st n m : bs_memorize a [A1 (map value all)] = Ok st -> bs_transform a st (A1 (map value all)) = Ok (n, m) ->
  by_row (bs_class a) [PerRow g] (PerRow (fun r => one_row (bs_transform a st (A1 [value r])))).
Proof.
  intros Hm Ht.
  set (ks := np_sort (bs_all_knots st)). set (nb := length ks - (bs_deg st + 1)).
  set (F0 := fun v => map (fun i => splev v ks (unit_vec nb i) (bs_deg st)) (seq 0 nb)).
  apply (vector_row_lemma (bs_class a) (ObBs st) (bs_transform a st) (if bs_intercept a then nb else nb - 1) (fun q => if bs_intercept a then F0 q else tl (F0 q))).
  - intros argss xs vs -> N F P. unfold fit_on. cbn [c_chunk c_new c_finish bs_class]. rewrite (fold_single (bs_chunk a) ObBsTmp) by reflexivity.
    rewrite (bs_split_order a _ xs (pieces_same xs vs N F P)) in Hm. unfold bs_memorize in Hm. destruct (foldM (bs_chunk a) xs None) as [[[a' l]|]|]; try discriminate. cbn [bind] in *. now rewrite Hm.
  - reflexivity.
  - intros rows x Hr Hi Ev. unfold bs_transform in *. rewrite Ev. cbn [as_vector bind] in *. unfold eval_basis in *. fold ks in Ht |- *. fold nb in Ht |- *.
    destruct (map value all) as [|q0 qs] eqn:Eall; [discriminate|]. rewrite <- Eall in *.
    destruct (qltb (np_min (map value all)) (np_min ks) || qltb (np_max ks) (np_max (map value all))) eqn:Eb; [discriminate|].
    destruct (map value rows) as [|p0 ps] eqn:Er; [destruct rows; easy|]. rewrite <- Er in *.
    assert (Nr : map value rows <> []) by now rewrite Er. assert (Na : map value all <> []) by now rewrite Eall.
    assert (Eb' : qltb (np_min (map value rows)) (np_min ks) || qltb (np_max ks) (np_max (map value rows)) = false).
    { apply orb_false_iff in Eb. destruct Eb as [B1 B2]. destruct (np_min_least _ Na) as [_ L1]. destruct (np_min_least _ Nr) as [L2 _]. destruct (np_max_greatest _ Na) as [_ G1]. destruct (np_max_greatest _ Nr) as [G2 _].
      assert (Iv : incl (map value rows) (map value all)) by (intros z Hz; apply in_map_iff in Hz; destruct Hz as [r [<- Hz]]; apply in_map; auto).
      apply qltb_not in B1. apply qltb_not in B2. apply orb_false_iff. split; apply qltb_not; [eapply Qcle_trans; [exact B1|apply L1, Iv, L2]|eapply Qcle_trans; [apply G1, Iv, G2|exact B2]]. }
    rewrite Eb'. destruct (Nat.ltb 5 (bs_deg st)); [discriminate|]. cbn [bind fst snd] in *. destruct (bs_intercept a); [reflexivity|]. cbn [fst snd]. now rewrite map_map.
  - intros q. assert (L : length (F0 q) = nb) by (unfold F0; now rewrite map_length, seq_length). destruct (bs_intercept a); [exact L|]. rewrite <- L. destruct (F0 q); cbn; lia.
Qed.
Lemma crs_row_lemma qr cyclic a st n m : crs_memorize cyclic a [A1 (map value all)] = Ok st -> crs_transform qr cyclic st (A1 (map value all)) = Ok (n, m) ->
  by_row (crs_class qr cyclic a) [PerRow g] (PerRow (fun r => one_row (crs_transform qr cyclic st (A1 [value r])))).
Proof.
  intros Hm Ht.
  assert (FF : exists F0, (forall q, length (F0 q) = crs_dim cyclic (crs_all_knots st)) /\ forall v, free_crs_dmatrix v (crs_all_knots st) cyclic = Ok (map F0 v)).
  { unfold crs_transform in Ht. cbn [as_vector bind] in Ht. destruct (free_crs_dmatrix (map value all) (crs_all_knots st) cyclic) as [dm|] eqn:Ef; [|discriminate]. clear - Ef. unfold free_crs_dmatrix, crs_dim in *. destruct cyclic.
    - unfold map_cyclic in *. destruct (qleb _ _); [discriminate|]. cbn [bind] in *. destruct (cyclic_f (crs_all_knots st)); [|discriminate]. cbn [bind] in *. eexists. split; [|intros v; rewrite !map_map; reflexivity].
      intros q. cbn beta. destruct (base_functions _ _) as [[[[? ?] ?] ?] ?]. now rewrite map_length, seq_length.
    - cbn [bind] in *. destruct (natural_f (crs_all_knots st)); [|discriminate]. cbn [bind] in *. eexists. split; [|intros v; reflexivity].
      intros q. cbn beta. destruct (base_functions _ _) as [[[[? ?] ?] ?] ?]. rewrite map_length, seq_length. lia. }
  destruct FF as [F0 [L0 E0]].
  assert (AA : exists F, (forall q, length (F q) = n) /\ forall v, absorb_opt qr (crs_dim cyclic (crs_all_knots st), map F0 v) (crs_cons st) = Ok (n, map F v)).
  { unfold crs_transform in Ht. cbn [as_vector bind] in Ht. rewrite E0 in Ht. cbn [bind] in Ht. unfold absorb_opt in *. destruct (crs_cons st) as [cn|].
    - unfold absorb_constraints in *. destruct (qr _ _) as [p|]; [|discriminate]. cbn [bind fst snd] in *. destruct (Nat.eqb _ _); [|discriminate]. injection Ht as <- _.
      eexists. split; [|intros v; unfold matmul; rewrite map_map; reflexivity]. intros q. cbn beta. now rewrite map_length, seq_length.
    - injection Ht as <- _. exists F0. split; [exact L0|reflexivity]. }
  destruct AA as [F [L E]].
  apply (vector_row_lemma (crs_class qr cyclic a) (ObCrs st) (crs_transform qr cyclic st) n F).
  - intros argss xs vs -> N Fp P. unfold fit_on. cbn [c_chunk c_new c_finish crs_class]. rewrite (fold_single (crs_chunk a) ObCrsTmp) by reflexivity.
    rewrite (crs_split_order cyclic a _ xs (pieces_same xs vs N Fp P)) in Hm. unfold crs_memorize in Hm. destruct (foldM (crs_chunk a) xs None) as [[[a' l]|]|]; try discriminate. cbn [bind] in *. now rewrite Hm.
  - reflexivity.
  - intros rows x Hr Hi Ev. unfold crs_transform. rewrite Ev. cbn [bind]. rewrite E0. cbn [bind]. apply E.
  - exact L.
Qed.
End Vector.

(** * Tensor products *)
Section Tensor.
Variable gs : list (nat * (row -> list Qc)).
Hypothesis Hgs : gs <> [].
Hypothesis Hk : forall k g, In (k, g) gs -> 0 < k /\ forall r, In r all -> length (g r) = k.
Local Notation ms := (map (fun kg => PerRow (snd kg)) gs).
Let K := fold_right Nat.mul 1 (map fst gs).
Let P (r : row) : list Qc := all_products (map (fun kg => snd kg r) gs).
Lemma margin_args rows args : rows <> [] -> incl rows all -> all_mean row_cells ms rows args -> map to_2d args = map (fun kg => (fst kg, map (snd kg) rows)) gs.
Proof.
  intros Hr Hi H. unfold all_mean in H. assert (Hk' : forall k g, In (k, g) gs -> forall r, In r all -> length (g r) = k) by (intros k g Hg; now apply Hk).
  clear Hgs Hk P K. revert args H. induction gs as [|[k g] l IH]; intros args H; inversion H as [|m v ms0 vs Hm Hn E1 E2]; subst; [reflexivity|]. cbn [map fst snd]. f_equal; [|apply IH; auto; intros k' g' Hg'; apply Hk'; now right].
  pose proof (cells_cols g k rows v Hr (fun r Hr' => Hk' k g (or_introl eq_refl) r (Hi r Hr')) Hm) as [C _]. destruct Hm as [E _]. rewrite <- C, <- E. now destruct (to_2d v).
Qed.
Lemma margins_args rows : map to_2d (margins gs rows) = map (fun kg => (fst kg, map (snd kg) rows)) gs.
Proof. unfold margins. rewrite map_map. reflexivity. Qed.
Lemma margin_shapes rows : incl rows all -> Forall (fun dm => 0 < fst dm /\ has_shape (length rows) (fst dm) (snd dm)) (map (fun kg : nat * (row -> list Qc) => (fst kg, map (snd kg) rows)) gs).
Proof.
  intros Hi. apply Forall_forall. intros dm Hd. apply in_map_iff in Hd. destruct Hd as [[k g] [<- Hd]]. destruct (Hk k g Hd) as [K1 K2]. cbn [fst snd]. split; [exact K1|]. split; [apply map_length|].
  apply Forall_forall. intros r Hr. apply in_map_iff in Hr. destruct Hr as [z [<- Hz]]. auto.
Qed.
Lemma margin_product rows : incl rows all -> row_tensor_product (map (fun kg => (fst kg, map (snd kg) rows)) gs) = Ok (K, map P rows).
Proof.
  intros Hi. destruct (row_tensor_ok (length rows) (map (fun kg => (fst kg, map (snd kg) rows)) gs)) as [tp [E [[L _] R]]].
  - now destruct gs.
  - now apply margin_shapes.
  - rewrite E. f_equal. f_equal; [unfold K; now rewrite map_map|]. destruct rows as [|r0 rows0] eqn:Er; [now destruct tp|]. rewrite <- Er in *.
    apply (nth_ext _ _ [] []); [now rewrite map_length|]. intros i Hl. rewrite L in Hl. rewrite R by exact Hl. rewrite (nth_map_lt P rows i [] r0) by exact Hl. unfold P. f_equal. rewrite map_map. apply map_ext. intros kg. cbn [snd].
    now rewrite (nth_map_lt (snd kg) rows i [] r0) by exact Hl.
Qed.
Lemma product_length r : In r all -> length (P r) = K.
Proof.
  intros Hr. unfold P, K. rewrite all_products_length. f_equal. rewrite map_map. apply map_ext_in. intros [k g] Hg. cbn. now apply (Hk k g Hg).
Qed.
Lemma fold_te c argss s : foldM (c_chunk (te_class (fun _ _ => Err KeyError) c)) argss (ObTeTmp s) = let* t := foldM (te_chunk c) argss s in Ok (ObTeTmp t).
Proof. revert s. induction argss as [|args argss IH]; intros s; [reflexivity|]. cbn [foldM c_chunk te_class]. destruct (te_chunk c s args) as [t|]; [|reflexivity]. cbn [bind]. apply IH. Qed.
Lemma te_pieces argss : pieces ms argss -> argss <> [] /\ Forall (te_piece K) argss /\ exists tps, mapM (fun args => row_tensor_product (map to_2d args)) argss = Ok tps /\ Permutation (concat (map snd tps)) (map P all).
Proof.
  intros [ps [H1 [H2 [H3 H4]]]]. split; [intros ->; inversion H4; subst; easy|].
  assert (Hin : incl (concat ps) all) by (intros r Hr; eapply Permutation_in; eauto).
  assert (G : Forall (te_piece K) argss /\ mapM (fun args => row_tensor_product (map to_2d args)) argss = Ok (map (fun p => (K, map P p)) ps)).
  { clear H1 H3. induction H4 as [|p args ps argss H F IH]; [split; [constructor|reflexivity]|].
    destruct IH as [I1 I2]; [intros X; apply H2; now right|intros r Hr; apply Hin; cbn; apply in_app_iff; auto|].
    assert (Hp : p <> []) by (intros ->; apply H2; now left). assert (Ip : incl p all) by (intros r Hr; apply Hin; cbn; apply in_app_iff; auto).
    pose proof (margin_args p args Hp Ip H) as E. split.
    - constructor; [|exact I1]. split; [intros ->; inversion H; destruct gs; easy|]. split.
      + exists (length p). pose proof (margin_shapes p Ip) as S. rewrite <- E, Forall_map in S. exact S.
      + unfold K. replace (map (fun a => fst (to_2d a)) args) with (map fst (map to_2d args)) by (now rewrite map_map). rewrite E, map_map. reflexivity.
    - cbn [mapM]. rewrite E, margin_product by exact Ip. cbn [bind]. rewrite I2. reflexivity. }
  destruct G as [G1 G2]. split; [exact G1|]. eexists. split; [exact G2|]. rewrite map_map. cbn [snd]. rewrite <- concat_map. now apply Permutation_map.
Qed.
Lemma te_plain c argss : c <> Centering -> argss <> [] -> foldM (te_chunk c) argss te_init = Ok (mkTe (Some c) None 0).
Proof.
  intros Hc Hn. assert (G : forall l, foldM (te_chunk c) l (mkTe (Some c) None 0) = Ok (mkTe (Some c) None 0)).
  { induction l as [|args l IH]; [reflexivity|]. cbn [foldM]. replace (te_chunk c (mkTe (Some c) None 0) args) with (Ok (mkTe (Some c) None 0)); [exact IH|]. destruct c; try easy. }
  destruct argss as [|args argss]; [easy|]. cbn [foldM]. replace (te_chunk c te_init args) with (Ok (mkTe (Some c) None 0)); [apply G|]. destruct c; try easy.
Qed.
Lemma te_row_lemma qr c cn n m : te_memorize c [margins gs all] = Ok cn -> te_transform qr cn (margins gs all) = Ok (n, m) ->
  by_row (te_class qr c) ms (PerRow (fun r => one_row (te_transform qr cn (margins gs [r])))).
Proof.
  intros Hm Ht. assert (Whole : pieces ms [margins gs all]).
  { exists [all]. split; [easy|]. split; [intros [E|[]]; auto|]. split; [cbn; now rewrite app_nil_r|]. constructor; [|constructor]. unfold all_mean, margins.
    assert (H : forall k g, In (k, g) gs -> forall r, In r all -> length (g r) = k) by (intros k g Hg; now apply Hk). clear - H. induction gs as [|[k g] l IH]; cbn; constructor; [|apply IH; intros k' g' Hg; apply H; now right].
    split; [reflexivity|]. split; [reflexivity|]. cbn. apply Forall_forall. intros r Hr. apply in_map_iff in Hr. destruct Hr as [z [<- Hz]]. apply (H k g); [now left|exact Hz]. }
  assert (Fit : forall argss, pieces ms argss -> fit_on (te_class qr c) argss = Ok (ObTe cn)).
  { intros argss H. assert (E : te_memorize c argss = Ok cn).
    { rewrite <- Hm. destruct (te_pieces argss H) as [N [T [tps [E Pm]]]]. destruct (te_pieces _ Whole) as [N' [T' [tps' [E' Pm']]]].
      destruct c; [| |]; [| |]; try (unfold te_memorize; rewrite !te_plain by easy; reflexivity). apply (te_split_order K argss [margins gs all] tps tps'); auto. etransitivity; [exact Pm|now symmetry]. }
    unfold fit_on. unfold te_memorize in E. pose proof (fold_te c argss te_init) as G. cbn [c_chunk c_new c_finish te_class] in *. rewrite G. destruct (foldM (te_chunk c) argss te_init) as [t|]; [|discriminate]. cbn [bind] in *. now rewrite E. }
  assert (AA : exists A, (forall q, length q = K -> length (A q) = n) /\ forall v, absorb_opt qr (K, v) cn = Ok (n, map A v)).
  { unfold te_transform in Ht. rewrite margins_args, margin_product in Ht by (intros z Hz; exact Hz). cbn [bind] in Ht. unfold absorb_opt in *. destruct cn as [cn|].
    - unfold absorb_constraints in *. destruct (qr _ _) as [p|]; [|discriminate]. cbn [bind fst snd] in *. destruct (Nat.eqb _ _); [|discriminate]. injection Ht as <- _.
      eexists. split; [|intros v; unfold matmul; reflexivity]. intros q _. cbn beta. now rewrite map_length, seq_length.
    - injection Ht as <- _. exists (fun q => q). split; [auto|]. intros v. now rewrite map_id. }
  destruct AA as [A [LA EA]].
  assert (T : forall rows, incl rows all -> (let* tp := row_tensor_product (map (fun kg => (fst kg, map (snd kg) rows)) gs) in absorb_opt qr tp cn) = Ok (n, map A (map P rows))).
  { intros rows Hi. rewrite margin_product by exact Hi. cbn [bind]. apply EA. }
  split.
  - intros argss argss' s H H'. now rewrite (Fit argss H), (Fit argss' H').
  - intros argss s rows vs H Hs Hr Hi Hv. rewrite (Fit argss H) in Hs. injection Hs as <-. cbn [c_transform te_class]. unfold te_transform at 1. rewrite (margin_args rows vs Hr Hi Hv), (T rows Hi). cbn.
    eexists. split; [reflexivity|]. split; cbn [to_2d fst snd].
    + rewrite map_map. apply map_ext_in. intros r Hr'. unfold te_transform. rewrite margins_args, T; [reflexivity|]. intros z [<-|[]]. auto.
    + split; [reflexivity|]. cbn. apply Forall_forall. intros q Hq. apply in_map_iff in Hq. destruct Hq as [z [<- Hz]]. apply in_map_iff in Hz. destruct Hz as [r [<- Hz]]. apply LA, product_length. auto.
Qed.
End Tensor.

(** * Values in general *)
Section Lift.
Context {val cell : Type}.
Variable as_arr : val -> result arr.
Variable of_arr : arr -> val.
Variable holds : val -> list cell -> Prop.
Variable embed : list Qc -> cell.
Hypothesis H : arrays_among as_arr of_arr holds embed.
Local Notation up gs := (map (fun g => PerRow (fun r => embed (g r))) gs).
Lemma lift_args (gs : list (row -> list Qc)) rows vs : rows <> [] -> all_mean holds (up gs) rows vs -> exists xs, mapM as_arr vs = Ok xs /\ all_mean row_cells (map PerRow gs) rows xs.
Proof.
  intros Hr. unfold all_mean. revert vs. induction gs as [|g gs IH]; intros vs F; inversion F as [|m v ms0 vs0 Hm Hn E1 E2]; subst; [exists []; split; [reflexivity|constructor]|].
  destruct (IH _ Hn) as [xs [E G]]. cbn [means] in Hm. rewrite <- (map_map g embed) in Hm. apply H in Hm; [|now destruct rows]. destruct Hm as [x [Ex Hx]]. exists (x :: xs). cbn [mapM map]. rewrite Ex. cbn [bind]. rewrite E. split; [reflexivity|]. constructor; [exact Hx|exact G].
Qed.
Lemma lift_pieces (gs : list (row -> list Qc)) argss : pieces_of_all holds all (up gs) argss ->
  exists xss, mapM (mapM as_arr) argss = Ok xss /\ pieces (map PerRow gs) xss.
Proof.
  intros [ps [H1 [H2 [H3 H4]]]]. assert (G : exists xss, mapM (mapM as_arr) argss = Ok xss /\ Forall2 (all_mean row_cells (map PerRow gs)) ps xss).
  { clear - H4 H2 H. induction H4 as [|p args ps argss F0 F IH]; [exists []; split; [reflexivity|constructor]|]. destruct IH as [xss [E G]]; [intros X; apply H2; now right|]. destruct (lift_args gs p args) as [xs [Ex Gx]]; [intros ->; apply H2; now left|exact F0|].
    exists (xs :: xss). cbn [mapM]. rewrite Ex. cbn [bind]. rewrite E. split; [reflexivity|]. now constructor. }
  destruct G as [xss [E G]]. exists xss. split; [exact E|]. exists ps. auto.
Qed.
Lemma lift_fit {St} (c : @tclass arr St) argss xss : mapM (mapM as_arr) argss = Ok xss -> fit_on (on_values as_arr of_arr c) argss = fit_on c xss.
Proof.
  unfold fit_on. cbn [c_chunk c_new c_finish on_values]. generalize (c_new c) as s. revert xss. induction argss as [|args argss IH]; intros xss s E0; cbn [mapM] in E0.
  - injection E0 as <-. reflexivity.
  - destruct (mapM as_arr args) as [xs|] eqn:E; [|discriminate]. cbn [bind] in E0. destruct (mapM (mapM as_arr) argss) as [yss|] eqn:E'; [|discriminate]. injection E0 as <-. cbn [foldM]. rewrite E. cbn [bind].
    destruct (c_chunk c s xs) as [s'|]; [|reflexivity]. cbn [bind]. now apply IH.
Qed.
Lemma lift_row_lemma {St} (c : @tclass arr St) (gs : list (row -> list Qc)) g : by_row c (map PerRow gs) (PerRow g) ->
  IncrSpec.by_row holds all (on_values as_arr of_arr c) (up gs) (PerRow (fun r => embed (g r))).
Proof.
  intros [H1 H2]. split.
  - intros argss argss' s P P'. destruct (lift_pieces gs argss P) as [xss [E Q]]. destruct (lift_pieces gs argss' P') as [xss' [E' Q']]. rewrite (lift_fit c _ _ E), (lift_fit c _ _ E'). apply H1; assumption.
  - intros argss s rows vs P Hs Hr Hi Hv. destruct (lift_pieces gs argss P) as [xss [E Q]]. rewrite (lift_fit c _ _ E) in Hs. destruct (lift_args gs rows vs Hr Hv) as [xs [Ex Gx]].
    destruct (H2 xss s rows xs Q Hs Hr Hi Gx) as [y [Ey My]]. exists (of_arr y). cbn [c_transform on_values]. rewrite Ex. cbn [bind]. rewrite Ey. split; [reflexivity|].
    cbn [means]. rewrite <- (map_map g embed). apply H; [now destruct rows|]. exists y. split; [apply H|exact My].
Qed.
End Lift.
End Rows.
