(** C54, C64: bs(). *)
From Coq Require Import ZArith Sorted Permutation.
From Verif Require Import Base NumModel RankSpec ContrastSpec StateModel LinModel SplineModel SplineSpec SplineNumProofs BsModel BsSpec BsProofs.
Open Scope nat_scope.
Open Scope list_scope.

(** C64 (state): what bs() remembers are the bounds, given or the least and greatest training value, each
    repeated degree + 1 times around the inner knots in order: the given ones if any. *)
Theorem bs_remembers : forall a x st, bs_finish a x = Ok st ->
  exists lo hi inner, lower_is (bs_lower a) x lo /\ upper_is (bs_upper a) x hi /\
    Forall (fun k => (lo <= k)%Qc /\ (k <= hi)%Qc) inner /\
    padded lo hi (S (Z.to_nat (bs_degree a))) inner (bs_all_knots st) /\ bs_deg st = Z.to_nat (bs_degree a) /\
    (forall ks, bs_knots a = Some ks -> inner = ks).
Proof.
  intros a x st H. destruct (bs_finish_spec a x st H) as (_ & Ed & lo & hi & inner & H1 & H2 & _ & H3 & H4 & H5 & _).
  exists lo, hi, inner. rewrite <- Ed. repeat (split; [first [assumption|now apply Forall_forall]|]). auto.
Qed.
Print Assumptions bs_remembers.

(** C54 (bs): the number of columns is df, if given, and otherwise degree plus the number of knots, plus one
    with include_intercept. *)
Theorem bs_columns : forall a x st y k m, bs_finish a x = Ok st -> bs_transform a st y = Ok (k, m) ->
  (exists v, as_vector y = Ok v /\ has_shape (length v) k m) /\
  (forall df, bs_df a = Some df -> Z.of_nat k = df) /\
  (forall ks, bs_knots a = Some ks -> Z.of_nat k = (bs_degree a + Z.of_nat (length ks) + if bs_intercept a then 1 else 0)%Z).
Proof.
  intros a x st y k m Hf E. destruct (bs_finish_spec a x st Hf) as (Hd & Ed & lo & hi & inner & _ & _ & Hlh & Hi & Hp & Hk & Hdf).
  unfold bs_transform in E. destruct (as_vector y) as [v|]; [|discriminate]. cbn [bind] in E.
  destruct (eval_basis v (bs_all_knots st) (bs_deg st)) as [[k0 m0]|] eqn:Ev; [|discriminate]. cbn [bind] in E.
  destruct (eval_basis_ok v lo hi _ inner _ Hlh Hi Hp _ _ Ev) as (_ & _ & _ & -> & ->).
  assert (L : Forall (fun r => length r = S (bs_deg st) + length inner) (map (fun v => basis_row v (bs_all_knots st) (bs_deg st)) v)).
  { apply Forall_map, Forall_forall. intros w _. unfold basis_row. rewrite map_length, seq_length. destruct Hp as (s & P & _ & ->).
    rewrite !app_length, !repeat_length, <- (Permutation_length P). lia. }
  assert (K : has_shape (length v) k m /\ k + (if bs_intercept a then 0 else 1) = S (bs_deg st) + length inner).
  { destruct (bs_intercept a).
    - injection E as <- <-. split; [split; [now rewrite map_length|exact L]|lia].
    - injection E as <- <-. cbn [fst snd]. split; [|lia]. split; [now rewrite !map_length|].
      rewrite Forall_map. eapply Forall_impl; [|exact L]. intros r Hr. destruct r; [discriminate|]. cbn in *. lia. }
  destruct K as [K1 K2]. split; eauto. split.
  - intros df Edf. specialize (Hdf df Edf). destruct (bs_intercept a); lia.
  - intros ks Eks. specialize (Hk ks Eks). subst inner. destruct (bs_intercept a); lia.
Qed.
Print Assumptions bs_columns.

(** C64 (values): with include_intercept, entry [i] of the row for a value is the [i]-th B-spline of the
    remembered knots at that value, by the Cox-de Boor recursion; without it, the first column is left out. *)
Theorem bs_basis : forall a x st y k m, bs_finish a x = Ok st -> bs_transform a st y = Ok (k, m) ->
  (first_knot (bs_all_knots st) < last_knot (bs_all_knots st))%Qc ->
  let t := fun i => nth i (bs_all_knots st) 0%Qc in
  let p := bs_deg st in
  let skip := if bs_intercept a then 0 else 1 in
  exists v, as_vector y = Ok v /\
    Forall2 (fun w row => exists l, in_interval t p (k + skip - 1) w l /\
               forall i, i < k -> nth i row 0%Qc = bspline t l p (i + skip) w) v m.
Proof.
  intros a x st y k m Hf E Hlt t p skip. destruct (bs_finish_spec a x st Hf) as (Hd & Ed & lo & hi & inner & _ & _ & Hlh & Hi & Hp & Hk & Hdf).
  unfold bs_transform in E. destruct (as_vector y) as [v|]; [|discriminate]. cbn [bind] in E.
  destruct (eval_basis v (bs_all_knots st) (bs_deg st)) as [[k0 m0]|] eqn:Ev; [|discriminate]. cbn [bind] in E.
  destruct (eval_basis_ok v lo hi _ inner _ Hlh Hi Hp _ _ Ev) as (_ & _ & Hv & -> & ->). exists v. split; auto.
  assert (Ends : first_knot (bs_all_knots st) = lo /\ last_knot (bs_all_knots st) = hi).
  { destruct Hp as (s & P & _ & Et). rewrite Et. unfold first_knot, last_knot. split; [reflexivity|].
    rewrite app_nth2; rewrite !app_length, !repeat_length; [|lia]. rewrite app_nth2 by lia.
    rewrite (nth_indep _ 0%Qc hi) by (rewrite repeat_length; lia). apply nth_repeat. }
  destruct Ends as [-> ->] in Hlt.
  assert (R : forall w, In w v -> exists l, in_interval t p (p + length inner) w l /\
     length (basis_row w (bs_all_knots st) p) = S p + length inner /\
     forall i, i < S p + length inner -> nth i (basis_row w (bs_all_knots st) p) 0%Qc = bspline t l p i w).
  { intros w Hw. destruct (Hv w Hw) as [W1 W2]. destruct (basis_row_ok lo hi p inner (bs_all_knots st) w Hlt Hp Hi W1 W2) as (_ & L & l & I & B & _).
    exists l. replace (S p + length inner - 1) with (p + length inner) in I by lia. auto. }
  unfold skip. clearbody t. destruct (bs_intercept a); inversion E; subst k m; cbn [fst snd]; clear -R.
  - induction v as [|w v IH]; cbn [map]; constructor.
    + destruct (R w) as (l & I & _ & B); [now left|]. exists l. split.
      * match goal with |- in_interval _ _ ?e _ _ => replace e with (p + length inner) by (unfold p; lia) end. exact I.
      * intros i Hi. rewrite Nat.add_0_r. apply B. exact Hi.
    + apply IH. intros w' Hw. apply R. now right.
  - induction v as [|w v IH]; cbn [map]; constructor.
    + destruct (R w) as (l & I & L & B); [now left|]. exists l. split.
      * match goal with |- in_interval _ _ ?e _ _ => replace e with (p + length inner) by (unfold p; lia) end. exact I.
      * intros i Hi. rewrite <- B by (unfold p; lia).
        fold p. destruct (basis_row w (bs_all_knots st) p); [discriminate L|]. now rewrite Nat.add_1_r.
    + apply IH. intros w' Hw. apply R. now right.
Qed.
Print Assumptions bs_basis.

(** C64 (rows): with include_intercept every row is nonnegative and sums to one, if the bounds differ and no
    inner knot is at the upper bound, or else the value is not the upper bound. *)
Theorem bs_rows_sum_to_one : forall a x st y k m v, bs_finish a x = Ok st -> bs_intercept a = true ->
  bs_transform a st y = Ok (k, m) -> as_vector y = Ok v ->
  (first_knot (bs_all_knots st) < last_knot (bs_all_knots st))%Qc ->
  Forall2 (fun w row => (w < last_knot (bs_all_knots st))%Qc \/ (nth (k - 1) (bs_all_knots st) 0 < last_knot (bs_all_knots st))%Qc ->
             Forall (fun q => (0 <= q)%Qc) row /\ qsum (fun q => q) row = 1%Qc) v m.
Proof.
  intros a x st y k m v Hf Hint E Ey Hlt. destruct (bs_finish_spec a x st Hf) as (Hd & Ed & lo & hi & inner & _ & _ & Hlh & Hi & Hp & Hk & Hdf).
  unfold bs_transform in E. rewrite Ey, Hint in E. cbn [bind] in E. set (p := bs_deg st) in *.
  destruct (eval_basis v (bs_all_knots st) p) as [[k0 m0]|] eqn:Ev; [|discriminate]. cbn [bind] in E. injection E as -> ->.
  destruct (eval_basis_ok v lo hi _ inner _ Hlh Hi Hp _ _ Ev) as (_ & _ & Hv & -> & ->).
  assert (Ends : first_knot (bs_all_knots st) = lo /\ last_knot (bs_all_knots st) = hi).
  { destruct Hp as (s & P & _ & Et). rewrite Et. unfold first_knot, last_knot. split; [reflexivity|].
    rewrite app_nth2; rewrite !app_length, !repeat_length; [|lia]. rewrite app_nth2 by lia.
    rewrite (nth_indep _ 0%Qc hi) by (rewrite repeat_length; lia). apply nth_repeat. }
  destruct Ends as [El Eh]. rewrite El, Eh in *.
  assert (Hbelow : (nth (S p + length inner - 1) (bs_all_knots st) 0 < hi)%Qc -> forall k, In k inner -> (k < hi)%Qc).
  { intros Hl k Hk'. destruct Hp as (s & P & Hs & Et). rewrite Et in Hl. pose proof (Permutation_length P) as Lp.
    assert (Hks : In k s) by (eapply Permutation_in; eauto). destruct (In_nth s k 0%Qc Hks) as (j & Hj & Ej).
    rewrite app_nth2 in Hl; rewrite repeat_length in *; [|destruct inner; cbn in *; [easy|lia]].
    rewrite app_nth1 in Hl by (destruct s; [easy|cbn in *; lia]).
    eapply Qcle_lt_trans; [|exact Hl]. rewrite <- Ej. apply sorted_nth; auto; lia. }
  clear -Hv Hlt Hp Hi Hbelow. induction v as [|w v IH]; cbn [map]; constructor.
  - destruct (Hv w) as [W1 W2]; [now left|]. destruct (basis_row_ok lo hi p inner (bs_all_knots st) w Hlt Hp Hi W1 W2) as (_ & L & l & I & B & S).
    intros [X|X]; apply S; auto.
  - apply IH. intros w' Hw. apply Hv. now right.
Qed.
Print Assumptions bs_rows_sum_to_one.

(** C64 (range): after successful memorizing, data between the bounds is accepted for degrees up to 5, and
    data outside is refused with NotImplementedError. *)
Theorem bs_range : forall a x st y v, bs_finish a x = Ok st -> as_vector y = Ok v -> v <> [] ->
  ((forall w, In w v -> (first_knot (bs_all_knots st) <= w)%Qc /\ (w <= last_knot (bs_all_knots st))%Qc) -> bs_deg st <= 5 ->
     exists k m, bs_transform a st y = Ok (k, m)) /\
  ((exists w, In w v /\ ((w < first_knot (bs_all_knots st))%Qc \/ (last_knot (bs_all_knots st) < w)%Qc)) ->
     bs_transform a st y = Err NotImplementedError).
Proof.
  intros a x st y v Hf Ey Nv. destruct (bs_finish_spec a x st Hf) as (Hd & Ed & lo & hi & inner & _ & _ & Hlh & Hi & Hp & Hk & Hdf).
  assert (Ends : first_knot (bs_all_knots st) = lo /\ last_knot (bs_all_knots st) = hi).
  { destruct Hp as (s & P & _ & Et). rewrite Et. unfold first_knot, last_knot. split; [reflexivity|].
    rewrite app_nth2; rewrite !app_length, !repeat_length; [|lia]. rewrite app_nth2 by lia.
    rewrite (nth_indep _ 0%Qc hi) by (rewrite repeat_length; lia). apply nth_repeat. }
  destruct Ends as [-> ->]. unfold bs_transform. rewrite Ey. cbn [bind]. split.
  - intros Hv H5. destruct (eval_basis_inside v lo hi _ inner _ Hlh Hi Hp Nv H5 Hv) as (m & ->). cbn [bind]. destruct (bs_intercept a); eauto.
  - intros Ho. rewrite (eval_basis_outside v lo hi _ inner _ Hlh Hi Hp Ho). reflexivity.
Qed.
Print Assumptions bs_range.

(** * Examples *)
Definition show_mat (r : result (nat * mat)) : option (nat * list (list Q)) :=
  match r with Ok (k, m) => Some (k, map (map this) m) | Err _ => None end.
Definition ex_bs := mkBsArgs (Some 5%Z) None 2%Z true None None.
Definition ex_x := map qz [0; 1; 2; 4; 6; 8]%Z.
Definition ex_bs_run a x y := let* st := bs_memorize a [A1 x] in bs_transform a st y.
Example ex_bs_memorize : match bs_finish ex_bs ex_x with Ok st => Some (bs_deg st, map this (bs_all_knots st)) | _ => None end
  = Some (2, [0; 0; 0; 5 # 3; 14 # 3; 8; 8; 8]%Q).
Proof. vm_compute. reflexivity. Qed.
Example ex_bs_values : show_mat (ex_bs_run (mkBsArgs None (Some (map qz [2; 4]%Z)) 2%Z true None None) ex_x (A1 (map qz [0; 1; 8]%Z)))
  = Some (5, [[1; 0; 0; 0; 0]; [1 # 4; 5 # 8; 1 # 8; 0; 0]; [0; 0; 0; 0; 1]]%Q).
Proof. vm_compute. reflexivity. Qed.
Example ex_bs_no_intercept : show_mat (ex_bs_run (mkBsArgs (Some 4%Z) (Some (map qz [2; 4]%Z)) 2%Z false None None) ex_x (A1 (map qz [0; 1; 8]%Z)))
  = Some (4, [[0; 0; 0; 0]; [5 # 8; 1 # 8; 0; 0]; [0; 0; 0; 1]]%Q).
Proof. vm_compute. reflexivity. Qed.
Example ex_bs_outside : ex_bs_run ex_bs ex_x (A0 (qz 9)) = Err NotImplementedError.
Proof. vm_compute. reflexivity. Qed.
Example ex_bs_degree0 : show_mat (ex_bs_run (mkBsArgs None (Some [qz 1]) 0%Z true None None) (map qz [0; 1; 2]%Z) (A1 (map qz [0; 1; 2]%Z)))
  = Some (2, [[1; 0]; [0; 1]; [0; 1]]%Q).
Proof. vm_compute. reflexivity. Qed.

(** C64 (finding): with an inner knot at the upper bound, which happens when the upper quantiles of the data
    are all equal, the row of a value at the upper bound is all zeros and does not sum to one. *)
Theorem bs_rows_sum_to_one_at_bound_refuted : exists a x y k m, (let* st := bs_finish a x in bs_transform a st y) = Ok (k, m) /\
  bs_intercept a = true /\ bs_knots a = None /\ y = A1 x /\ exists row, In row m /\ qsum (fun q => q) row = 0%Qc.
Proof.
  exists (mkBsArgs (Some 5%Z) None 3%Z true None None), (map qz [0; 1; 3; 3; 3]%Z), (A1 (map qz [0; 1; 3; 3; 3]%Z)).
  eexists _, _. split; [vm_compute; reflexivity|]. repeat (split; [reflexivity|]).
  eexists. split; [do 2 right; left; reflexivity|]. vm_compute. reflexivity.
Qed.
Print Assumptions bs_rows_sum_to_one_at_bound_refuted.
