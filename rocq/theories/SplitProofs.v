(** What splines memorize does not depend on how the data is split, nor on the order of its rows. *)
From Coq Require Import ZArith Permutation.
From Verif Require Import Base NumModel PySort RankSpec RankProofs ContrastSpec ContrastProofs StateModel StateSpec StateProofs LinModel LinProofs SplineModel SplineSpec SplineNumProofs SplineProofs BsModel BsSpec BsProofs CrsProofs CrsSpec CrsCenterProofs SplitSpec.
Open Scope nat_scope.
Open Scope list_scope.

Lemma crs_chunks a xs : forall a0 l, foldM (crs_chunk a) xs (Some (a0, l)) =
  let* vs := mapM as_vector xs in Ok (Some (match xs with [] => a0 | _ => a end, l ++ vs)).
Proof.
  induction xs as [|x xs IH]; intros a0 l; cbn [foldM mapM]; [cbn; now rewrite app_nil_r|]. unfold crs_chunk at 1. destruct (as_vector x) as [v|]; [|reflexivity]. cbn [bind].
  rewrite IH. destruct (mapM as_vector xs) as [vs|]; [|reflexivity]. cbn. rewrite <- app_assoc. now destruct xs.
Qed.
Lemma crs_memorize_concat cyclic a xs : xs <> [] -> crs_memorize cyclic a xs = let* vs := mapM as_vector xs in crs_finish cyclic a (concat vs).
Proof.
  destruct xs as [|x xs]; [easy|]. intros _. unfold crs_memorize. cbn [foldM mapM]. unfold crs_chunk at 1. destruct (as_vector x) as [v|]; [|reflexivity]. cbn [bind]. rewrite crs_chunks.
  destruct (mapM as_vector xs) as [vs|]; [|reflexivity]. cbn. now destruct xs.
Qed.
Lemma bs_chunks a xs : forall a0 l, foldM (bs_chunk a) xs (Some (a0, l)) =
  let* vs := mapM as_vector xs in Ok (Some (match xs with [] => a0 | _ => a end, l ++ vs)).
Proof.
  induction xs as [|x xs IH]; intros a0 l; cbn [foldM mapM]; [cbn; now rewrite app_nil_r|]. unfold bs_chunk at 1. destruct (as_vector x) as [v|]; [|reflexivity]. cbn [bind].
  rewrite IH. destruct (mapM as_vector xs) as [vs|]; [|reflexivity]. cbn. rewrite <- app_assoc. now destruct xs.
Qed.
Lemma bs_memorize_concat a xs : xs <> [] -> bs_memorize a xs = let* vs := mapM as_vector xs in bs_finish a (concat vs).
Proof.
  destruct xs as [|x xs]; [easy|]. intros _. unfold bs_memorize. cbn [foldM mapM]. unfold bs_chunk at 1. destruct (as_vector x) as [v|]; [|reflexivity]. cbn [bind]. rewrite bs_chunks.
  destruct (mapM as_vector xs) as [vs|]; [|reflexivity]. cbn. now destruct xs.
Qed.

(** * Order *)
Lemma np_sort_perm l m : Permutation l m -> np_sort l = np_sort m.
Proof.
  intros H. apply sorted_unique; [apply np_sort_sorted|apply np_sort_sorted|]. unfold np_sort. rewrite <- !py_sort_perm. exact H.
Qed.
Lemma np_min_perm l m : Permutation l m -> np_min l = np_min m.
Proof.
  intros H. destruct l as [|a l]; [apply Permutation_nil in H; now subst|]. apply (least_unique (a :: l)); [now apply np_min_least|].
  assert (Hm : m <> []) by (intros ->; now apply Permutation_sym, Permutation_nil in H). destruct (np_min_least m Hm) as [A B]. split.
  - eapply Permutation_in; [symmetry; exact H|exact A].
  - intros v Hv. apply B. eapply Permutation_in; [exact H|exact Hv].
Qed.
Lemma np_max_perm l m : Permutation l m -> np_max l = np_max m.
Proof.
  intros H. destruct l as [|a l]; [apply Permutation_nil in H; now subst|]. apply (greatest_unique (a :: l)); [now apply np_max_greatest|].
  assert (Hm : m <> []) by (intros ->; now apply Permutation_sym, Permutation_nil in H). destruct (np_max_greatest m Hm) as [A B]. split.
  - eapply Permutation_in; [symmetry; exact H|exact A].
  - intros v Hv. apply B. eapply Permutation_in; [exact H|exact Hv].
Qed.
Lemma np_unique_perm l m : Permutation l m -> np_unique l = np_unique m.
Proof. intros H. unfold np_unique. now rewrite (np_sort_perm l m H). Qed.
Lemma percentile_perm l m p : Permutation l m -> percentile l p = percentile m p.
Proof. intros H. unfold percentile. now rewrite (np_sort_perm l m H). Qed.
Lemma filter_perm {A} (f : A -> bool) l m : Permutation l m -> Permutation (filter f l) (filter f m).
Proof.
  induction 1 as [|x l m H IH|x y l|l m k H1 IH1 H2 IH2]; cbn; [constructor|..].
  - destruct (f x); [now constructor|exact IH].
  - destruct (f x), (f y); try constructor; apply Permutation_refl.
  - now transitivity (filter f m).
Qed.
Lemma case_nil {A B} (l m : list A) (x y : B) : Permutation l m -> match l with [] => x | _ => y end = match m with [] => x | _ => y end.
Proof. intros H. destruct l, m; auto; [now apply Permutation_nil in H|now apply Permutation_sym, Permutation_nil in H]. Qed.

Lemma all_sorted_knots_perm x y n inner lower upper : Permutation x y -> all_sorted_knots x n inner lower upper = all_sorted_knots y n inner lower upper.
Proof.
  intros H. unfold all_sorted_knots. rewrite (np_min_perm x y H), (np_max_perm x y H).
  rewrite (case_nil x y (Err (ValueError "Cannot set lower exterior knot location")) (Ok (np_min y)) H), (case_nil x y (Err (ValueError "Cannot set upper exterior knot location")) (Ok (np_max y)) H).
  destruct (match lower with Some l => Ok l | None => _ end) as [lb|]; [|reflexivity]. cbn [bind].
  destruct (match upper with Some l => Ok l | None => _ end) as [ub|]; [|reflexivity]. cbn [bind].
  now rewrite (np_unique_perm _ _ (filter_perm (fun v => qleb lb v && qleb v ub) x y H)).
Qed.

Definition res_perm {A} (a b : result (list A)) : Prop :=
  match a, b with Ok l, Ok m => Permutation l m | Err e, Err e' => e = e' | _, _ => False end.
Lemma free_perm x y knots cyclic : Permutation x y -> res_perm (free_crs_dmatrix x knots cyclic) (free_crs_dmatrix y knots cyclic).
Proof.
  intros H. unfold free_crs_dmatrix. destruct cyclic.
  - unfold map_cyclic. destruct (qleb _ _); [cbn; reflexivity|]. cbn [bind]. destruct (cyclic_f knots); [|cbn; reflexivity]. cbn. now do 3 apply Permutation_map.
  - cbn [bind]. destruct (natural_f knots); [|cbn; reflexivity]. cbn. now apply Permutation_map.
Qed.
Lemma free_sized x knots cyclic dm : free_crs_dmatrix x knots cyclic = Ok dm -> sized (crs_dim cyclic knots) dm.
Proof.
  unfold free_crs_dmatrix, crs_dim. destruct cyclic.
  - unfold map_cyclic. destruct (qleb _ _); [discriminate|]. cbn [bind]. destruct (cyclic_f knots); [|discriminate]. cbn [bind]. intros H. injection H as <-.
    apply Forall_forall. intros r Hr. apply in_map_iff in Hr. destruct Hr as [v [<- _]]. destruct (base_functions v knots) as [[[[? ?] ?] ?] ?]. now rewrite map_length, seq_length.
  - cbn [bind]. destruct (natural_f knots); [|discriminate]. cbn [bind]. intros H. injection H as <-.
    apply Forall_forall. intros r Hr. apply in_map_iff in Hr. destruct Hr as [v [<- _]]. destruct (base_functions v knots) as [[[[? ?] ?] ?] ?]. rewrite map_length, seq_length. lia.
Qed.
Lemma col_sum_perm (m m' : mat) j : Permutation m m' -> col_sum m j = col_sum m' j.
Proof. unfold col_sum. induction 1 as [| | |l m k H1 IH1 H2 IH2]; cbn [rsum]; [reflexivity|now f_equal|ring|congruence]. Qed.
Lemma sized_perm k (m m' : mat) : Permutation m m' -> sized k m -> sized k m'.
Proof. unfold sized. rewrite !Forall_forall. intros H1 H2 r Hr. apply H2. eapply Permutation_in; [symmetry; exact H1|exact Hr]. Qed.
Lemma col_sums_perm k m m' : Permutation m m' -> sized k m -> col_sums k m = col_sums k m'.
Proof.
  intros H Hs. pose proof (sized_perm k m m' H Hs) as Hs'. unfold col_sums.
  apply (nth_ext _ _ 0%Qc 0%Qc); [rewrite !(col_sums_length k) by (auto using repeat_length); reflexivity|].
  intros j Hj. rewrite (col_sums_length k) in Hj by (auto using repeat_length). rewrite !(col_sums_nth k) by (auto using repeat_length). now rewrite (col_sum_perm m m').
Qed.
Lemma centering_perm k m m' : Permutation m m' -> sized k m -> centering_row k m = centering_row k m'.
Proof.
  intros H Hs. unfold centering_row. rewrite (col_sums_perm k m m' H Hs), (Permutation_length H). now apply case_nil.
Qed.
Lemma crs_finish_perm cyclic a x y : Permutation x y -> crs_finish cyclic a x = crs_finish cyclic a y.
Proof.
  intros H. unfold crs_finish.
  assert (E : forall n, (let* knots := all_sorted_knots x n (crs_knots a) (crs_lower a) (crs_upper a) in
      match crs_constr a with
      | NoConstraint => Ok (mkCrs knots None)
      | c => let* cn := match c with Constraint k rows => Ok (k, rows) | _ => let* dm := free_crs_dmatrix x knots cyclic in centering_row (crs_dim cyclic knots) dm end in
             if Nat.eqb (fst cn) (crs_dim cyclic knots) then Ok (mkCrs knots (Some cn)) else Err (ValueError "Constraints array should have a column for each parameter")
      end) = (let* knots := all_sorted_knots y n (crs_knots a) (crs_lower a) (crs_upper a) in
      match crs_constr a with
      | NoConstraint => Ok (mkCrs knots None)
      | c => let* cn := match c with Constraint k rows => Ok (k, rows) | _ => let* dm := free_crs_dmatrix y knots cyclic in centering_row (crs_dim cyclic knots) dm end in
             if Nat.eqb (fst cn) (crs_dim cyclic knots) then Ok (mkCrs knots (Some cn)) else Err (ValueError "Constraints array should have a column for each parameter")
      end)).
  { intros n. rewrite (all_sorted_knots_perm x y n _ _ _ H). destruct (all_sorted_knots y _ _ _ _) as [knots|]; [|reflexivity]. cbn [bind].
    assert (F : (let* dm := free_crs_dmatrix x knots cyclic in centering_row (crs_dim cyclic knots) dm) = (let* dm := free_crs_dmatrix y knots cyclic in centering_row (crs_dim cyclic knots) dm)).
    { pose proof (free_perm x y knots cyclic H) as P. pose proof (free_sized x knots cyclic) as S.
      destruct (free_crs_dmatrix x knots cyclic) as [m|], (free_crs_dmatrix y knots cyclic) as [m'|]; cbn in P; [|easy|easy|now subst].
      cbn [bind]. apply centering_perm; auto. }
    destruct (crs_constr a); [reflexivity|now rewrite F|reflexivity]. }
  destruct (crs_df a) as [df|], (crs_knots a) as [ks|]; try reflexivity; cbn [bind]; try apply E;
    (destruct (df <? _)%Z; [reflexivity|]; cbn [bind]; apply E).
Qed.
Lemma bs_finish_perm a x y : Permutation x y -> bs_finish a x = bs_finish a y.
Proof.
  intros H. unfold bs_finish. destruct (bs_degree a <? 0)%Z; [reflexivity|].
  rewrite (np_min_perm x y H), (np_max_perm x y H).
  rewrite (case_nil x y (Err (ValueError "zero-size array")) (Ok (np_min y)) H), (case_nil x y (Err (ValueError "zero-size array")) (Ok (np_max y)) H).
  assert (Q : forall n, quantile_knots x n = quantile_knots y n).
  { intros n. unfold quantile_knots. destruct n as [|n]; [now destruct x, y|].
    rewrite (case_nil x y (Err IndexError) _ H). destruct y; [reflexivity|]. f_equal. apply map_ext. intros pq. now apply percentile_perm. }
  destruct (bs_df a); [|reflexivity]. destruct (_ <? 0)%Z; [reflexivity|]. destruct (bs_knots a); [reflexivity|]. now rewrite Q.
Qed.

(** * te, center and standardize *)
Lemma te_split k chunks chunks' tps tps' : Forall (te_piece k) chunks -> Forall (te_piece k) chunks' -> chunks <> [] -> chunks' <> [] ->
  mapM (fun args => row_tensor_product (map to_2d args)) chunks = Ok tps ->
  mapM (fun args => row_tensor_product (map to_2d args)) chunks' = Ok tps' ->
  Permutation (concat (map snd tps)) (concat (map snd tps')) ->
  te_memorize Centering chunks = te_memorize Centering chunks'.
Proof.
  intros F F' N N' E E' P. unfold te_memorize. destruct (te_fold k chunks F) as (st & -> & tps1 & I1 & I2 & I3 & I4 & I5).
  destruct (te_fold k chunks' F') as (st' & -> & tps1' & J1 & J2 & J3 & J4 & J5). cbn [bind].
  rewrite E in I1. injection I1 as <-. rewrite E' in J1. injection J1 as <-.
  destruct chunks as [|c chunks]; [easy|]. destruct chunks' as [|c' chunks']; [easy|]. clear N N'. destruct I5 as (s & Is & Il & In'), J5 as (s' & Js & Jl & Jn).
  unfold te_finish. rewrite I3, J3, Is, Js, I4, J4, (Permutation_length P). assert (s = s') as ->; [|reflexivity].
  apply (nth_ext _ _ 0%Qc 0%Qc); [congruence|]. intros j Hj. rewrite In', Jn by lia. now apply col_sum_perm.
Qed.
Lemma center_split k xs ys : Forall (has_cols k) xs -> Forall (has_cols k) ys -> xs <> [] -> ys <> [] -> Permutation (rows_of xs) (rows_of ys) ->
  center_memorize xs = center_memorize ys.
Proof.
  intros F F' N N' P. destruct (center_memorized k xs N F) as (st & -> & A & s & B & L & C). destruct (center_memorized k ys N' F') as (st' & -> & A' & s' & B' & L' & C').
  f_equal. destruct st as [o n], st' as [o' n']. cbn in *. subst. rewrite (Permutation_length P). f_equal. f_equal.
  apply (nth_ext _ _ 0%Qc 0%Qc); [congruence|]. intros j Hj. rewrite C, C' by lia. now apply col_sum_perm.
Qed.
Lemma col_dev_perm (m m' : mat) j : Permutation m m' -> col_dev m j = col_dev m' j.
Proof.
  intros P. assert (M : col_mean m j = col_mean m' j) by (unfold col_mean; now rewrite (col_sum_perm m m' j P), (Permutation_length P)).
  unfold col_dev. rewrite M. clear M. set (c := col_mean m' j). clearbody c. unfold qsum. induction P as [| | |l1 l2 l3 H1 IH1 H2 IH2]; cbn [rsum]; [reflexivity|now rewrite IHP|ring|congruence].
Qed.
Lemma std_split k xs ys : Forall (has_cols k) xs -> Forall (has_cols k) ys -> rows_of xs <> [] -> Permutation (rows_of xs) (rows_of ys) ->
  std_memorize xs = std_memorize ys.
Proof.
  intros F F' N P. assert (N' : rows_of ys <> []) by (intros E; rewrite E in P; now apply Permutation_sym, Permutation_nil in P).
  destruct (std_memorized k xs N F) as (st & mean & -> & A & B & L & L2 & C). destruct (std_memorized k ys N' F') as (st' & mean' & -> & A' & B' & L' & L2' & C').
  f_equal. destruct st as [o n M], st' as [o' n' M']. cbn in *. subst. rewrite (Permutation_length P).
  assert (mean = mean') as ->. { apply (nth_ext _ _ 0%Qc 0%Qc); [congruence|]. intros j Hj. destruct (C j), (C' j); try lia. unfold col_mean in *. rewrite (col_sum_perm _ _ j P), (Permutation_length P) in *. congruence. }
  assert (M = M') as ->; [|reflexivity]. apply (nth_ext _ _ 0%Qc 0%Qc); [congruence|]. intros j Hj. destruct (C j), (C' j); try lia. rewrite (col_dev_perm _ _ j P) in *. congruence.
Qed.

Lemma piece_vector x l : piece_values x l -> as_vector x = Ok l.
Proof. destruct 1 as [| |rows l ->]; cbn; try reflexivity. f_equal. unfold column. rewrite map_map. apply map_id. Qed.
Lemma pieces_vectors xs vs : Forall2 piece_values xs vs -> mapM as_vector xs = Ok vs.
Proof. induction 1 as [|x v xs vs H _ IH]; [reflexivity|]. cbn. now rewrite (piece_vector x v H), IH. Qed.
Lemma crs_split cyclic a xs ys : same_values xs ys -> crs_memorize cyclic a xs = crs_memorize cyclic a ys.
Proof.
  intros (N & N' & vs & ws & F & F' & P). rewrite !crs_memorize_concat by assumption. rewrite (pieces_vectors _ _ F), (pieces_vectors _ _ F'). now apply crs_finish_perm.
Qed.
Lemma bs_split a xs ys : same_values xs ys -> bs_memorize a xs = bs_memorize a ys.
Proof.
  intros (N & N' & vs & ws & F & F' & P). rewrite !bs_memorize_concat by assumption. rewrite (pieces_vectors _ _ F), (pieces_vectors _ _ F'). now apply bs_finish_perm.
Qed.
