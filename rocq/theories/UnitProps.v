(** C109: what bs(), cr(), cc() and standardize() compute does not depend on the units of the variable. *)
From Coq Require Import ZArith.
From Verif Require Import Base NumModel StateModel StateSpec StateProofs StateProps LinModel SplineModel SplineSpec BsModel CrsSpec UnitSpec UnitProofs UnitStdProofs.
Open Scope nat_scope.
Open Scope list_scope.

(** C109: bs() gives the same matrix, or fails in the same way, after every number in the units of the variable
    has been converted: the training data, in any pieces, the new data, the knots and the bounds. *)
Theorem bs_units : forall c d a xs y, (0 < c)%Qc -> Forall proper xs -> proper y ->
  (let* st := bs_memorize (conv_bs c d a) (map (conv_arr c d) xs) in bs_transform (conv_bs c d a) st (conv_arr c d y)) =
  (let* st := bs_memorize a xs in bs_transform a st y).
Proof.
  intros c d a xs y Hc F P. rewrite bs_memorize_m by auto. destruct (bs_memorize a xs) as [st|] eqn:E; [|reflexivity]. cbn [conv_res bind].
  apply bs_transform_m; auto. unfold bs_memorize in E. destruct (foldM (bs_chunk a) xs None) as [[[a' xs']|]|]; try discriminate. cbn [bind] in E. now apply knots_enough in E.
Qed.
Print Assumptions bs_units.

(** C109: the same for cr() and cc() with enough knots, whatever the constraint. *)
Theorem crs_units : forall qr c d cyclic a xs st, (0 < c)%Qc -> Forall proper xs -> crs_memorize cyclic a xs = Ok st ->
  enough_knots cyclic (crs_all_knots st) ->
  exists st', crs_memorize cyclic (conv_crs c d a) (map (conv_arr c d) xs) = Ok st' /\
    crs_all_knots st' = map (conv c d) (crs_all_knots st) /\
    forall y, proper y -> crs_transform qr cyclic st' (conv_arr c d y) = crs_transform qr cyclic st y.
Proof.
  intros qr c d cyclic a xs st Hc F E He. destruct (crs_memorize_m c d Hc _ _ _ _ F E He) as [H1 H2].
  exists (conv_cr c d st). split; auto. split; [reflexivity|]. intros y P. now apply crs_transform_m.
Qed.
Print Assumptions crs_units.

(** C109: where the knots come from the data alone, only the data has to be converted. *)
Theorem bs_df_units : forall c d df degree intercept xs y, (0 < c)%Qc -> Forall proper xs -> proper y ->
  let a := mkBsArgs (Some df) None degree intercept None None in
  (let* st := bs_memorize a (map (conv_arr c d) xs) in bs_transform a st (conv_arr c d y)) = (let* st := bs_memorize a xs in bs_transform a st y).
Proof. intros c d df degree intercept xs y Hc F P a. exact (bs_units c d a xs y Hc F P). Qed.
Print Assumptions bs_df_units.

(** C109: standardize() gives the same values in any units. *)
Theorem standardize_units : forall sqrt c d k xs ddof, (0 < c)%Qc -> rows_of xs <> [] -> Forall (has_cols k) xs -> ddof < length (rows_of xs) ->
  (forall j, j < k -> let v := (col_dev (rows_of xs) j / qn (length (rows_of xs) - ddof))%Qc in sqrt v <> 0%Qc /\ sqrt (c * c * v)%Qc = (c * sqrt v)%Qc) ->
  exists st st', std_memorize xs = Ok st /\ std_memorize (map (conv_arr c d) xs) = Ok st' /\
    forall x, has_cols k x -> exists y, std_transform sqrt st x true true ddof = Ok y /\ std_transform sqrt st' (conv_arr c d x) true true ddof = Ok y.
Proof.
  intros sqrt c d k xs ddof Hc N F Hd Hs. pose proof (c_nz c Hc) as Cz.
  assert (N' : rows_of (map (conv_arr c d) xs) <> []) by (rewrite rows_of_m; now destruct (rows_of xs)).
  assert (F' : Forall (has_cols k) (map (conv_arr c d) xs)) by (rewrite Forall_map; eapply Forall_impl; [|exact F]; intros x; apply has_cols_m).
  assert (V : forall j, j < k -> (col_dev (rows_of (map (conv_arr c d) xs)) j / qn (length (rows_of (map (conv_arr c d) xs)) - ddof) = c * c * (col_dev (rows_of xs) j / qn (length (rows_of xs) - ddof)))%Qc).
  { intros j Hj. rewrite rows_of_m, map_length, dev_m by (auto; eapply rows_wide; eauto). unfold Qcdiv. ring. }
  destruct (standardize_exact sqrt k xs true true ddof N F) as (st & E & T); [intros _; split; auto; intros j Hj; now apply Hs|].
  destruct (standardize_exact sqrt k _ true true ddof N' F') as (st' & E' & T').
  { intros _. split; [now rewrite rows_of_m, map_length|]. intros j Hj. rewrite V by auto. destruct (Hs j Hj) as [S1 S2]. rewrite S2. intros X. apply Qcmult_integral in X as [X|X]; auto. }
  exists st, st'. split; auto. split; auto. intros x Hx. destruct (T x Hx) as (y & Ey & B), (T' _ (has_cols_m c d k x Hx)) as (y' & Ey' & B').
  exists y. split; auto. rewrite Ey'. f_equal. apply (by_column_unique k _ _ _ _ Hx) with (2 := B). revert B'. apply (by_column_m c d _ _ k x y' Hx). intros j q Hj.
  unfold std_entry. rewrite V by auto. destruct (Hs j Hj) as [S1 S2]. rewrite S2. rewrite rows_of_m, mean_m by (auto; eapply rows_wide; eauto). rewrite m_sub. field. auto.
Qed.
Print Assumptions standardize_units.

(** C109: what center() gives is in the new units too. *)
Theorem center_units : forall c d k xs, rows_of xs <> [] -> Forall (has_cols k) xs ->
  exists st st', center_memorize xs = Ok st /\ center_memorize (map (conv_arr c d) xs) = Ok st' /\
    forall x, has_cols k x -> exists y, center_transform st x = Ok y /\ center_transform st' (conv_arr c d x) = Ok (conv_arr c 0 y).
Proof.
  intros c d k xs N F.
  assert (N' : rows_of (map (conv_arr c d) xs) <> []) by (rewrite rows_of_m; now destruct (rows_of xs)).
  assert (F' : Forall (has_cols k) (map (conv_arr c d) xs)) by (rewrite Forall_map; eapply Forall_impl; [|exact F]; intros x; apply has_cols_m).
  destruct (center_subtracts_mean k xs N F) as (st & E & T), (center_subtracts_mean k _ N' F') as (st' & E' & T').
  exists st, st'. split; auto. split; auto. intros x Hx. destruct (T x Hx) as (y & Ey & B), (T' _ (has_cols_m c d k x Hx)) as (y' & Ey' & B').
  exists y. split; auto. rewrite Ey'. f_equal. apply (by_column_then c 0 _ k x y Hx) in B. apply (by_column_unique k _ _ _ _ Hx) with (2 := B).
  revert B'. apply (by_column_m c d _ _ k x y' Hx). intros j q Hj. rewrite rows_of_m, mean_m by (auto; eapply rows_wide; eauto). unfold conv. ring.
Qed.
Print Assumptions center_units.

(** * Examples *)
(** Degrees Celsius and Fahrenheit. *)
Definition celsius : list arr := [A1 (map qz [0; 5; 10]%Z); A2 1 (map (fun z => [qz z]) [20; 15; 30]%Z)].
Definition nine_fifths : Qc := (qz 9 / qz 5)%Qc.
Example bs_units_example : let a := mkBsArgs (Some 5%Z) None 3%Z false None (Some (qz 40)) in
  exists m, (let* st := bs_memorize a celsius in bs_transform a st (A1 [qz 10; qz 25])) = Ok (5, m) /\
    (let* st := bs_memorize (conv_bs nine_fifths (qz 32) a) (map (conv_arr nine_fifths (qz 32)) celsius) in
     bs_transform (conv_bs nine_fifths (qz 32) a) st (A1 [qz 50; qz 77])) = Ok (5, m) /\ Forall (fun r => nth 1 r 0%Qc <> 0%Qc) m.
Proof.
  intros a. destruct (let* st := bs_memorize a celsius in bs_transform a st (A1 [qz 10; qz 25])) as [[k m]|] eqn:E; [|vm_compute in E; discriminate].
  pose proof (bs_units nine_fifths (qz 32) a celsius (A1 [qz 10; qz 25]) eq_refl) as H. rewrite E in H.
  assert (Ey : conv_arr nine_fifths (qz 32) (A1 [qz 10; qz 25]) = A1 [qz 50; qz 77]) by (unfold conv_arr; f_equal; cbn [map]; repeat f_equal; apply Qc_is_canon; vm_compute; reflexivity).
  rewrite Ey in H. assert (Hp : Forall proper celsius) by (repeat constructor). specialize (H Hp I).
  vm_compute in E. injection E as <- <-. eexists. split; [reflexivity|]. split; [exact H|]. repeat constructor; vm_compute; discriminate.
Qed.
(** The converted numbers must be in the same order: read backwards, the columns are other ones. *)
Example bs_units_backwards : let a := mkBsArgs (Some 4%Z) None 3%Z false None None in let x := A1 (map qz [0; 1; 2; 4]%Z) in
  (let* st := bs_memorize a (map (conv_arr (- (1)) 0) [x]) in bs_transform a st (conv_arr (- (1)) 0 x)) <> (let* st := bs_memorize a [x] in bs_transform a st x).
Proof. intros a x. vm_compute. discriminate. Qed.
Example crs_units_example : let a := mkCrsArgs (Some 3%Z) None (Some (qz (-10))) None Centering in
  exists st, crs_memorize false a celsius = Ok st /\ enough_knots false (crs_all_knots st) /\ Forall proper celsius /\ length (crs_all_knots st) = 4.
Proof.
  intros a. destruct (crs_memorize false a celsius) as [st|] eqn:E; [|vm_compute in E; discriminate]. exists st. split; [reflexivity|].
  vm_compute in E. injection E as <-. split; [unfold enough_knots; cbn; lia|]. split; [repeat constructor|reflexivity].
Qed.
Example cc_units_example : let a := mkCrsArgs (Some 3%Z) None None None NoConstraint in
  exists st, crs_memorize true a celsius = Ok st /\ enough_knots true (crs_all_knots st).
Proof.
  intros a. destruct (crs_memorize true a celsius) as [st|] eqn:E; [|vm_compute in E; discriminate]. exists st. split; [reflexivity|].
  vm_compute in E. injection E as <-. unfold enough_knots. cbn. lia.
Qed.
(** The roots of 1 and of the square of 9/5. *)
Definition root (v : Qc) : Qc := if Qc_eq_dec v 1%Qc then 1%Qc else (qz 9 / qz 5)%Qc.
Example standardize_units_example : exists st st', std_memorize [A1 (map qz [1; 1]%Z); A1 (map qz [3; 3]%Z)] = Ok st /\
  std_memorize (map (conv_arr nine_fifths (qz 32)) [A1 (map qz [1; 1]%Z); A1 (map qz [3; 3]%Z)]) = Ok st' /\
  forall x, has_cols 1 x -> exists y, std_transform root st x true true 0 = Ok y /\ std_transform root st' (conv_arr nine_fifths (qz 32) x) true true 0 = Ok y.
Proof.
  apply standardize_units; [reflexivity|discriminate|repeat constructor|cbn; lia|]. intros j Hj. assert (j = 0) by lia. subst. cbv zeta.
  match goal with |- root ?v <> _ /\ _ => assert (E : v = 1%Qc) by (apply Qc_is_canon; vm_compute; reflexivity); rewrite E end.
  split; vm_compute; [discriminate|apply Qc_is_canon; reflexivity].
Qed.
