(** C107: what bs() can draw. *)
From Coq Require Import ZArith Sorted Permutation.
From Verif Require Import Base NumModel RankSpec RankProofs ContrastSpec ContrastProofs StateModel LinModel SplineModel SplineSpec SplineNumProofs BsModel BsSpec BsProofs BsProps BsCurveSpec BsCurveProofs BsDimProofs.
Open Scope nat_scope.
Open Scope list_scope.

(** C107.  Every spline of the degree of bs(), on its knots, is a combination of its columns; without
    include_intercept, a constant is needed too.  This holds between the bounds, and at the upper bound unless an inner
    knot is there. *)
Theorem bs_draws_splines : forall a x st lo hi inner f, bs_finish a x = Ok st -> (first_knot (bs_all_knots st) < last_knot (bs_all_knots st))%Qc ->
  padded lo hi (S (bs_deg st)) inner (bs_all_knots st) -> spline (bs_deg st) inner f ->
  exists c0 co, (bs_intercept a = true -> c0 = 0%Qc) /\
    forall y k m v, bs_transform a st y = Ok (k, m) -> as_vector y = Ok v -> length co = k /\
      Forall2 (fun w row => (w < hi)%Qc \/ (forall q, In q inner -> (q < hi)%Qc) ->
                 (c0 + qsum (fun i => nth i co 0 * nth i row 0) (seq 0 k))%Qc = f w) v m.
Proof.
  intros a x st lo hi inner f Hf Hlt Hp0 Hs. destruct (bs_finish_spec a x st Hf) as (Hd & Ed & lo' & hi' & inner' & _ & _ & Hlh & Hi & Hp & Hk & Hdf).
  set (p := bs_deg st) in *. set (T := bs_all_knots st) in *.
  assert (Ends : forall l h n, padded l h (S p) n T -> first_knot T = l /\ last_knot T = h).
  { intros l h n (s & P & _ & ->). unfold first_knot, last_knot. split; [reflexivity|].
    rewrite app_nth2; rewrite !app_length, !repeat_length; [|lia]. rewrite app_nth2 by lia.
    rewrite (nth_indep _ 0%Qc h) by (rewrite repeat_length; lia). apply nth_repeat. }
  destruct (Ends _ _ _ Hp) as [E1 E2]. destruct (Ends _ _ _ Hp0) as [E3 E4]. rewrite E3 in E1. rewrite E4 in E2. rewrite E3, E4 in Hlt. subst lo' hi'.
  assert (P : Permutation inner inner').
  { destruct Hp as (s & Ps & _ & Et), Hp0 as (s0 & Ps0 & _ & Et0). assert (L : length s = length s0).
    { pose proof (f_equal (@length Qc) Et) as A. pose proof (f_equal (@length Qc) Et0) as B. rewrite !app_length, !repeat_length in A, B. lia. }
    rewrite Et in Et0. apply app_inv_head in Et0. assert (X : s = s0). { clear - L Et0. revert s0 L Et0. induction s as [|q s IH]; intros [|q0 s0] L E; try discriminate; [reflexivity|]. cbn in E. injection E as -> E. f_equal. apply IH; [now injection L|exact E]. }
    subst s0. transitivity s; [exact Ps0|now symmetry]. }
  assert (Hi0 : forall q, In q inner -> (lo <= q)%Qc /\ (q <= hi)%Qc) by (intros q Hq; apply Hi; now apply (Permutation_in _ P)).
  destruct (represented_spline lo hi p inner T Hlt Hp0 Hi0 f Hs) as [co Hco]. set (n := S p + length inner) in *.
  set (skip := if bs_intercept a then 0 else 1).
  exists (if bs_intercept a then 0%Qc else co 0), (map (fun i => (co (i + skip)%nat - if bs_intercept a then 0 else co 0%nat)%Qc) (seq 0 (n - skip))).
  split; [intros ->; reflexivity|]. intros y k m v Ht Ey.
  assert (Rows : forall w, (lo <= w)%Qc -> (w <= hi)%Qc -> (w < hi)%Qc \/ (forall q, In q inner -> (q < hi)%Qc) -> length (basis_row w T p) = n /\
     qsum (fun i => (co i * nth i (basis_row w T p) 0)%Qc) (seq 0 n) = f w /\ qsum (fun i => nth i (basis_row w T p) 0%Qc) (seq 0 n) = 1%Qc).
  { intros w W1 W2 Hg. destruct (basis_row_ok lo hi p inner T w Hlt Hp0 Hi0 W1 W2) as (_ & L & l & I & B & Sm). fold n in L, I, B. split; [exact L|].
    destruct (Sm Hg) as [_ S1]. rewrite qsum_list, L in S1. split; [|exact S1]. rewrite <- (Hco w l I).
    - apply (rsum_ext 0%Qc Qcplus). intros i Hin. apply in_seq in Hin. rewrite B by lia. reflexivity.
    - destruct I as [I1 [I2 [I3 I4]]]. destruct (Qclt_le_dec (nth l T 0) (nth (l + 1) T 0))%Qc as [G|G]; [exact G|exfalso].
      destruct I4 as [I4|[-> I4]]; [apply (Qclt_not_le _ _ I4); now apply (Qcle_trans _ (nth l T 0%Qc))|].
      assert (T2 : nth (n - 1 + 1) T 0%Qc = hi).
      { replace (n - 1 + 1) with n by (unfold n; lia). destruct Hp0 as (s & Ps & _ & Et). rewrite Et, app_nth2; rewrite repeat_length; [|unfold n; lia]. rewrite app_nth2 by (rewrite <- (Permutation_length Ps); unfold n; lia).
        rewrite (nth_indep _ 0%Qc hi) by (rewrite repeat_length, <- (Permutation_length Ps); unfold n; lia). apply nth_repeat. }
      rewrite T2 in *. destruct Hg as [Hg|Hg].
      + apply (Qclt_not_le _ _ Hg). now apply (Qcle_trans _ (nth (n - 1) T 0%Qc)).
      + apply (Qcle_not_lt _ _ G). destruct Hp0 as (s & Ps & _ & Et). destruct s as [|q s].
        * rewrite Et. apply Permutation_length in Ps. cbn in Ps. rewrite app_nth1 by (rewrite repeat_length; unfold n; lia). rewrite (nth_indep _ 0%Qc lo) by (rewrite repeat_length; unfold n; lia). now rewrite nth_repeat.
        * apply Hg. apply (Permutation_in _ (Permutation_sym Ps)). apply Permutation_length in Ps. rewrite Et. rewrite app_nth2; rewrite repeat_length; [|unfold n; cbn in Ps; lia]. rewrite app_nth1 by (unfold n; cbn in *; lia). apply nth_In. unfold n. cbn in *; lia. }
  unfold bs_transform in Ht. rewrite Ey in Ht. cbn [bind] in Ht. fold T p in Ht.
  destruct (eval_basis v T p) as [[k0 m0]|] eqn:Ev; [|discriminate]. cbn [bind] in Ht.
  destruct (eval_basis_ok v lo hi _ inner _ (Qclt_le_weak _ _ Hlt) Hi0 Hp0 _ _ Ev) as (_ & _ & Hv & -> & ->).
  rewrite map_length, seq_length. unfold skip. destruct (bs_intercept a); injection Ht as <- <-; cbn [fst snd]; (split; [unfold n; lia|]).
  - clear - Hv Rows. induction v as [|w v IH]; cbn [map]; constructor.
    + intros Hg. destruct (Hv w (or_introl eq_refl)) as [W1 W2]. destruct (Rows w W1 W2 Hg) as [L [E _]]. rewrite <- E, Qcplus_0_l. fold n. rewrite Nat.sub_0_r.
      apply (rsum_ext 0%Qc Qcplus). intros i Hin. apply in_seq in Hin. rewrite nth_map_seq by lia. rewrite Nat.add_0_r. ring.
    + apply IH. intros u Hu. apply Hv. now right.
  - clear - Hv Rows. induction v as [|w v IH]; cbn [map]; constructor.
    + intros Hg. destruct (Hv w (or_introl eq_refl)) as [W1 W2]. destruct (Rows w W1 W2 Hg) as [L [E E1]]. set (r := basis_row w T p) in *. clearbody r.
      unfold n in E, E1, L. cbn [Nat.add Nat.sub] in *. rewrite !Nat.sub_0_r in *. set (n0 := p + length inner) in *. clearbody n0. destruct r as [|r0 r]; [discriminate|].
      cbn [seq] in E, E1. rewrite <- seq_shift in E, E1. cbn [rsum nth] in E, E1. rewrite (rsum_map 0%Qc Qcplus) in E, E1. cbn [nth tl] in *.
      transitivity (co 0%nat + (qsum (fun i => (co (S i) * nth i r 0)%Qc) (seq 0 n0) - co 0%nat * qsum (fun i => nth i r 0%Qc) (seq 0 n0)))%Qc.
      * f_equal. rewrite <- (rsum_scale 0%Qc 1%Qc Qcplus Qcmult Qcminus Qcopp Qcrt), <- qsum_sub. apply (rsum_ext 0%Qc Qcplus). intros i Hin. apply in_seq in Hin. rewrite nth_map_seq by lia. rewrite Nat.add_1_r. ring.
      * rewrite <- E. assert (X : (qsum (fun i => nth i r 0%Qc) (seq 0 n0) = 1 - r0)%Qc) by (rewrite <- E1; ring). rewrite X. ring.
    + apply IH. intros u Hu. apply Hv. now right.
Qed.
Print Assumptions bs_draws_splines.
(** The curve 3 + x - 2x^2 that gains 5(x - 2)^2 at 2 is drawn by the five columns of bs() with knots at 2 and 4. *)
Definition ex_curve_args := mkBsArgs None (Some (map qz [2; 4]%Z)) 2%Z true None None.
Definition ex_curve_state := mkBs 2 (map qz [0; 0; 0; 2; 4; 8; 8; 8]%Z).
Definition ex_curve x := (poly (map qz [3; 1; -2]%Z) x + qz 5 * power_from (qz 2) 2 x)%Qc.
Example ex_curve_hypotheses : bs_finish ex_curve_args ex_x = Ok ex_curve_state /\ (first_knot (bs_all_knots ex_curve_state) < last_knot (bs_all_knots ex_curve_state))%Qc /\
  padded (qz 0) (qz 8) 3 (map qz [2; 4]%Z) (bs_all_knots ex_curve_state) /\ spline 2 (map qz [2; 4]%Z) ex_curve.
Proof.
  split; [vm_compute; reflexivity|]. split; [reflexivity|]. split.
  - exists (map qz [2; 4]%Z). split; [reflexivity|]. split; [|vm_compute; reflexivity]. repeat constructor. discriminate.
  - exists (map qz [3; 1; -2]%Z), [(qz 2, 0, qz 5)]. split; [cbn; lia|]. split.
    + constructor; [|constructor]. split; [vm_compute|]; lia.
    + intros x. unfold ex_curve. cbn [rsum Nat.sub]. ring.
Qed.
Definition ex_curve_coefs := map qz [3; 4; -10; 5; 63]%Z.
Example ex_curve_drawn : let y := map qz [0; 1; 3; 8]%Z in
  match bs_transform ex_curve_args ex_curve_state (A1 y) with
  | Ok (k, m) => map (fun row => this (qsum (fun i => nth i ex_curve_coefs 0 * nth i row 0)%Qc (seq 0 k))) m = [3; 2; -7; 63]%Q | _ => False end
  /\ map (fun w => this (ex_curve w)) y = [3; 2; -7; 63]%Q.
Proof. vm_compute. split; reflexivity. Qed.

(** C107, the other direction.  With the inner knots between the bounds, and no more of them in one place than the degree plus
    one, whatever is drawn with the columns of bs() and a constant is a spline of the degree on the knots. *)
Theorem bs_draws_only_splines : forall a st lo hi inner c0 co, (lo < hi)%Qc -> padded lo hi (S (bs_deg st)) inner (bs_all_knots st) ->
  (forall k, In k inner -> (lo < k)%Qc /\ (k < hi)%Qc /\ count_occ Qc_eq_dec inner k <= S (bs_deg st)) ->
  exists f, spline (bs_deg st) inner f /\ forall y k m v, bs_transform a st y = Ok (k, m) -> as_vector y = Ok v ->
    Forall2 (fun w row => (c0 + qsum (fun i => nth i co 0 * nth i row 0) (seq 0 k))%Qc = f w) v m.
Proof. intros a st lo hi inner c0 co H1 H2 H3. exact (only_splines a st lo hi inner H1 H2 H3 c0 co). Qed.
Print Assumptions bs_draws_only_splines.

(** C107, uniqueness: under the same conditions different coefficients draw different curves. *)
Theorem bs_coefficients_unique : forall a st lo hi inner c0 co c0' co', (lo < hi)%Qc -> padded lo hi (S (bs_deg st)) inner (bs_all_knots st) ->
  (forall k, In k inner -> (lo < k)%Qc /\ (k < hi)%Qc /\ count_occ Qc_eq_dec inner k <= S (bs_deg st)) ->
  bs_deg st <= 5 -> (bs_intercept a = true -> c0 = 0%Qc /\ c0' = 0%Qc) -> length co = length co' ->
  length co = (if bs_intercept a then S (bs_deg st) + length inner else S (bs_deg st) + length inner - 1) ->
  (forall y k m, bs_transform a st y = Ok (k, m) ->
     Forall (fun row => (c0 + qsum (fun i => nth i co 0 * nth i row 0) (seq 0 k) = c0' + qsum (fun i => nth i co' 0 * nth i row 0) (seq 0 k))%Qc) m) ->
  c0 = c0' /\ co = co'.
Proof. intros a st lo hi inner c0 co c0' co' H1 H2 H3. exact (unique_coefficients a st lo hi inner H1 H2 H3 c0 co c0' co'). Qed.
Print Assumptions bs_coefficients_unique.

(** The example meets the conditions; and three knots in one place with degree 1 give a column of zeros, which any coefficient suits. *)
Example ex_curve_conditions : (forall k, In k (map qz [2; 4]%Z) -> (qz 0 < k)%Qc /\ (k < qz 8)%Qc /\ count_occ Qc_eq_dec (map qz [2; 4]%Z) k <= 3) /\
  bs_deg ex_curve_state <= 5 /\ length ex_curve_coefs = S (bs_deg ex_curve_state) + length (map qz [2; 4]%Z).
Proof. split; [|split; [cbn; lia|reflexivity]]. intros k [<-|[<-|[]]]; (split; [reflexivity|split; [reflexivity|vm_compute; lia]]). Qed.
Example ex_curve_triple : show_mat (ex_bs_run (mkBsArgs None (Some (map qz [2; 2; 2]%Z)) 1%Z true None None) ex_x (A1 (map qz [0; 1; 2; 4; 8]%Z)))
  = Some (5, [[1; 0; 0; 0; 0]; [1 # 2; 1 # 2; 0; 0; 0]; [0; 0; 0; 1; 0]; [0; 0; 0; 2 # 3; 1 # 3]; [0; 0; 0; 0; 1]]%Q).
Proof. vm_compute. reflexivity. Qed.
