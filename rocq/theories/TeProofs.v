(** Proofs for the surfaces of te() (C108). *)
From Coq Require Import ZArith.
From Verif Require Import Base NumModel RankSpec RankProofs ContrastSpec ContrastProofs ContrastMatProofs StateModel StateSpec StateProofs LinModel LinProofs SplineModel SplineSpec SplineNumProofs SplineProofs BsSpec BsProofs CrsProofs CrsSpec CrsCurveProofs CrsSolveProofs CrsSplineProofs CrsCyclicProofs CrsConsProofs CrsFinalProofs CrsCenterProofs TeSpec.
Open Scope nat_scope.
Open Scope list_scope.

Lemma map_nth_all {A} (l : list (list A)) : map (fun i => nth i l []) (seq 0 (length l)) = l.
Proof. induction l as [|a l IH]; [reflexivity|]. cbn [length seq map nth]. f_equal. rewrite <- seq_shift, map_map. exact IH. Qed.
Lemma products_length rows : length (all_products rows) = fold_right Nat.mul 1 (map (@length Qc) rows).
Proof.
  induction rows as [|r rows IH]; [reflexivity|]. cbn [all_products map fold_right]. rewrite <- IH. clear IH. induction r as [|a r IH]; [reflexivity|]. cbn [flat_map length]. rewrite app_length, map_length, IH. reflexivity.
Qed.
Lemma rows_choices ks nrows args i : margins ks nrows args -> i < nrows -> length (all_products (rows_at args i)) = n_choices ks.
Proof.
  intros M Hi. rewrite products_length. unfold n_choices. f_equal. unfold rows_at. induction M as [|k a ks args [E [S1 S2]] M IH]; [reflexivity|]. cbn [map]. f_equal; [|exact IH].
  rewrite Forall_forall in S2. apply S2, nth_In. lia.
Qed.
Section Draw.
Variable qr : nat -> mat -> result (mat * mat).
Hypothesis Hqr : qr_sound qr.
Variables (ks : list nat) (cn : option (nat * mat)).
Hypothesis Hne : ks <> [].
Hypothesis Hpos : Forall (fun k => 0 < k) ks.
Let n := n_choices ks.
Lemma tensor_of nrows args : margins ks nrows args -> exists tp, row_tensor_product (map to_2d args) = Ok (n, tp) /\ has_shape nrows n tp /\ forall i, i < nrows -> nth i tp [] = all_products (rows_at args i).
Proof.
  intros M. destruct (row_tensor_ok nrows (map to_2d args)) as [tp [E [S R]]].
  - destruct M; [easy|discriminate].
  - clear - M Hpos. induction M as [|k a ks args [E S] M IH]; cbn [map]; constructor; inversion Hpos; subst; [split; assumption|now apply IH].
  - assert (En : fold_right Nat.mul 1 (map fst (map to_2d args)) = n).
    { unfold n, n_choices. f_equal. clear - M. induction M as [|k a ks args [E S] M IH]; cbn [map]; congruence. }
    rewrite En in *. exists tp. split; [exact E|]. split; [exact S|]. intros i Hi. rewrite (R i Hi). unfold rows_at. now rewrite map_map.
Qed.
Hypothesis Hcn : constraint_for cn n.
(** From coefficients to weights and back. *)
Lemma weights : exists (up down : list Qc -> list Qc),
  (forall gam, length gam = n - n_constraints cn -> length (up gam) = n /\ satisfies cn (up gam) /\ te_draws qr cn ks gam (up gam) /\ ((exists p, match cn with None => True | Some c => qr n (transpose n (snd c)) = Ok p end) -> down (up gam) = gam)) /\
  (forall theta, length theta = n -> satisfies cn theta -> length (down theta) = n - n_constraints cn /\ (independent_constraints cn -> (exists p, match cn with None => True | Some c => qr n (transpose n (snd c)) = Ok p end) -> up (down theta) = theta)) /\
  (cn = None -> forall gam, up gam = gam).
Proof.
  destruct cn as [[n0 rows]|] eqn:Ecn; cbn [n_constraints satisfies independent_constraints snd fst constraint_for] in *.
  - destruct Hcn as [-> Hrows]. destruct (qr n (transpose n rows)) as [[q r]|e] eqn:Eq.
    + assert (Q : is_qr n (length rows) (transpose n rows) q r) by (apply Hqr; auto; apply transpose_shape).
      exists (spread n rows q), (gather n rows q). split; [|split; [|discriminate]].
      * intros gam Lg. split; [apply spread_length|]. split; [|split].
        -- apply Forall_forall. intros row Hr. destruct (In_nth rows row [] Hr) as [i [Hi <-]]. now apply (spread_zero n rows q r).
        -- intros nrows args k dm M Et. destruct (tensor_of nrows args M) as [tp [E [[S1 S2] R]]]. unfold te_transform in Et. rewrite E in Et. cbn [bind absorb_opt] in Et. unfold absorb_constraints in Et. cbn [fst snd] in Et.
           rewrite Eq in Et. cbn [bind fst] in Et. rewrite Nat.eqb_refl in Et. injection Et as <- <-. split; [exact Lg|]. intros i Hi. unfold matmul. rewrite (nth_map_lt _ _ _ _ []) by lia. rewrite inner_dot by (rewrite map_length, seq_length; lia).
           rewrite (R i Hi). unfold surface. pose proof (rows_choices ks nrows args i M Hi) as L. fold n in L. rewrite inner_dot by (now rewrite spread_length). apply (dot_spread n rows q r); auto.
        -- intros _. apply (gather_spread n rows q r); auto.
      * intros theta Lt Ht. split; [now rewrite gather_length|]. intros Ind _. apply (spread_gather n rows q r); auto. intros i Hi. rewrite Forall_forall in Ht. apply Ht. now apply nth_In.
    + exists (fun _ => repeat 0%Qc n), (fun _ => repeat 0%Qc (n - length rows)). split; [|split; [|discriminate]].
      * intros gam Lg. split; [apply repeat_length|]. split; [|split].
        -- apply Forall_forall. intros row _. unfold inner. apply qzero. intros i _. rewrite nth_zeros. ring.
        -- intros nrows args k dm M Et. exfalso. destruct (tensor_of nrows args M) as [tp [E _]]. unfold te_transform in Et. rewrite E in Et. cbn [bind absorb_opt] in Et. unfold absorb_constraints in Et. cbn [fst snd] in Et. rewrite Eq in Et. discriminate.
        -- intros [p Ep]. discriminate.
      * intros theta Lt Ht. split; [apply repeat_length|]. intros _ [p Ep]. discriminate.
  - exists (fun g => g), (fun g => g). split; [|split; [|reflexivity]].
    + intros gam Lg. rewrite Nat.sub_0_r in Lg. split; [exact Lg|]. split; [exact I|]. split; [|reflexivity]. intros nrows args k dm M Et. destruct (tensor_of nrows args M) as [tp [E [_ R]]]. unfold te_transform in Et. rewrite E in Et. cbn [bind absorb_opt] in Et. injection Et as <- <-.
      split; [exact Lg|]. intros i Hi. now rewrite (R i Hi).
    + intros theta Lt _. split; [lia|reflexivity].
Qed.
End Draw.

(** * Products of telling rows are telling *)
Lemma inner_app a b c : length a <= length c -> inner (a ++ b) c = (inner a (firstn (length a) c) + inner b (skipn (length a) c))%Qc.
Proof.
  intros H. unfold inner. rewrite app_length, seq_app, qsum_app. f_equal.
  - apply qsum_ext. intros i Hi. apply in_seq in Hi. rewrite app_nth1 by lia. f_equal. rewrite <- (firstn_skipn (length a) c) at 1. rewrite app_nth1; [reflexivity|rewrite firstn_length; lia].
  - cbn [Nat.add]. replace (seq (length a) (length b)) with (map (Nat.add (length a)) (seq 0 (length b))) by (rewrite seq_plus; f_equal; lia). rewrite (rsum_map 0%Qc Qcplus). apply qsum_ext. intros i Hi. rewrite app_nth2 by lia.
    replace (length a + i - length a) with i by lia. now rewrite nth_skipn'.
Qed.
Lemma skipn_skipn {A} a b (l : list A) : skipn a (skipn b l) = skipn (b + a) l.
Proof. revert l. induction b as [|b IH]; intros l; [reflexivity|]. destruct l; [now rewrite !skipn_nil|]. cbn [skipn Nat.add]. apply IH. Qed.
Lemma inner_cons a r b l : inner (a :: r) (b :: l) = (a * b + inner r l)%Qc.
Proof. unfold inner. cbn [length seq rsum nth]. f_equal. rewrite <- seq_shift, (rsum_map 0%Qc Qcplus). reflexivity. Qed.
Lemma inner_scale c r l : inner (map (fun b => (c * b)%Qc) r) l = (c * inner r l)%Qc.
Proof. unfold inner. rewrite map_length, <- qsum_scale. apply qsum_ext. intros i Hi. apply in_seq in Hi. rewrite (nth_map_lt _ _ _ _ 0%Qc) by lia. ring. Qed.
(** Weights for a first margin with [k] columns, and [m] choices of the others: the weights for each of its columns. *)
Definition part (m : nat) (theta : list Qc) (j : nat) : list Qc := firstn m (skipn (j * m) theta).
Lemma surface_cons m r rest : length (all_products rest) = m -> forall theta, length theta = length r * m ->
  surface theta (r :: rest) = inner r (map (fun j => surface (part m theta j) rest) (seq 0 (length r))).
Proof.
  intros Hm. unfold surface. cbn [all_products]. induction r as [|a r IH]; intros theta L; [reflexivity|]. cbn [flat_map length] in *. assert (Lm : length (map (fun b => (a * b)%Qc) (all_products rest)) = m) by (now rewrite map_length).
  rewrite inner_app by (rewrite Lm; lia). rewrite Lm. rewrite IH by (rewrite skipn_length; lia). cbn [seq map]. rewrite inner_cons, inner_scale. f_equal. f_equal. rewrite <- seq_shift, map_map. apply map_ext. intros j. f_equal. unfold part. f_equal. rewrite skipn_skipn. reflexivity.
Qed.
Lemma part_zero m k theta : length theta = k * m -> (forall j, j < k -> part m theta j = repeat 0%Qc m) -> theta = repeat 0%Qc (k * m).
Proof.
  revert theta. induction k as [|k IH]; intros theta L H; [now destruct theta|]. cbn [Nat.mul] in *. rewrite <- (firstn_skipn m theta), repeat_app. f_equal; [exact (H 0 ltac:(lia))|].
  apply IH; [rewrite skipn_length; lia|]. intros j Hj. rewrite <- (H (S j) ltac:(lia)). unfold part. rewrite skipn_skipn. reflexivity.
Qed.
Lemma telling_products ks Rs : Forall2 telling ks Rs -> Forall (fun k => 0 < k) ks -> forall theta, length theta = n_choices ks ->
  (forall rows, Forall2 (fun (R : list Qc -> Prop) r => R r) Rs rows -> surface theta rows = 0%Qc) -> theta = repeat 0%Qc (n_choices ks).
Proof.
  induction 1 as [|k R ks Rs T F IH]; intros Hp theta L Z.
  - destruct theta as [|a [|]]; try discriminate. cbn. f_equal. specialize (Z [] (Forall2_nil _)). unfold surface, inner in Z. cbn in Z. rewrite <- Z. ring.
  - inversion Hp as [|? ? P1 P2]; subst. destruct T as [TL T]. unfold n_choices in *. cbn [fold_right] in *. fold (n_choices ks) in *. set (m := n_choices ks) in *. apply part_zero; [exact L|]. intros j Hj.
    apply (IH P2); [unfold part; rewrite firstn_length, skipn_length; nia|]. intros rows Hr.
    assert (Lr : length (all_products rows) = m).
    { rewrite products_length. unfold m, n_choices. f_equal. clear - F Hr. revert rows Hr. induction F as [|k R ks Rs [TL _] F IH]; intros rows Hr; inversion Hr; subst; [reflexivity|]. cbn [map]. f_equal; [now apply TL|now apply IH]. }
    assert (E : map (fun i => surface (part m theta i) rows) (seq 0 k) = repeat 0%Qc k).
    { apply T; [now rewrite map_length, seq_length|]. intros r Rr. pose proof (TL r Rr) as Lk. rewrite <- Lk. rewrite <- (surface_cons m r rows Lr theta) by lia. apply Z. now constructor. }
    pose proof (f_equal (fun l => nth j l 0%Qc) E) as E'. cbn beta in E'. rewrite nth_map_seq in E' by exact Hj. rewrite E'. apply nth_zeros.
Qed.
Lemma surface_minus a b rows : length a = length b -> surface (map (fun i => nth i a 0 - nth i b 0)%Qc (seq 0 (length a))) rows = (surface a rows - surface b rows)%Qc.
Proof.
  intros L. unfold surface, inner. rewrite <- qsum_sub. apply qsum_ext. intros i _. destruct (Nat.lt_ge_cases i (length a)) as [H|H]; [rewrite nth_map_seq by exact H; ring|]. rewrite (nth_overflow a), (nth_overflow b), (nth_overflow (map _ _)) by (rewrite ?map_length, ?seq_length; lia). ring.
Qed.
Lemma same_surface ks Rs a b : Forall2 telling ks Rs -> Forall (fun k => 0 < k) ks -> length a = n_choices ks -> length b = n_choices ks ->
  (forall rows, Forall2 (fun (R : list Qc -> Prop) r => R r) Rs rows -> surface a rows = surface b rows) -> a = b.
Proof.
  intros T P La Lb E. assert (Z : map (fun i => nth i a 0 - nth i b 0)%Qc (seq 0 (length a)) = repeat 0%Qc (n_choices ks)).
  { apply (telling_products ks Rs T P); [now rewrite map_length, seq_length|]. intros rows Hr. rewrite surface_minus by lia. rewrite (E rows Hr). ring. }
  apply nth_ext_Qc; [lia|]. intros i Hi. pose proof (f_equal (fun l => nth i l 0%Qc) Z) as Zi. cbn beta in Zi. rewrite nth_map_seq, nth_zeros in Zi by exact Hi.
  transitivity (nth i a 0 - nth i b 0 + nth i b 0)%Qc; [ring|]. rewrite Zi. ring.
Qed.
Lemma te_transform_ok qr ks cn nrows args : ks <> [] -> Forall (fun k => 0 < k) ks -> constraint_for cn (n_choices ks) -> (forall n m, exists p, qr n m = Ok p) -> margins ks nrows args -> exists k dm, te_transform qr cn args = Ok (k, dm).
Proof.
  intros Ne P C Q M. destruct (tensor_of ks Ne P nrows args M) as [tp [E _]]. unfold te_transform. rewrite E. cbn [bind]. destruct cn as [[n rows]|]; cbn [absorb_opt]; [|eauto]. destruct C as [C _]. cbn [fst snd] in C. subst n.
  unfold absorb_constraints. cbn [fst snd]. destruct (Q (n_choices ks) (transpose (n_choices ks) rows)) as [p ->]. cbn [bind]. rewrite Nat.eqb_refl. eauto.
Qed.
Lemma unique_weights qr ks cn Rs gam gam' : qr_sound qr -> (forall n m, exists p, qr n m = Ok p) -> ks <> [] -> Forall (fun k => 0 < k) ks -> constraint_for cn (n_choices ks) -> Forall2 telling ks Rs ->
  length gam = n_choices ks - n_constraints cn -> length gam' = n_choices ks - n_constraints cn ->
  (forall args k dm, margins ks 1 args -> Forall2 (fun (R : list Qc -> Prop) r => R r) Rs (rows_at args 0) -> te_transform qr cn args = Ok (k, dm) -> inner (nth 0 dm []) gam = inner (nth 0 dm []) gam') -> gam = gam'.
Proof.
  intros Hq Q Ne P C T L L' H. destruct (weights qr Hq ks cn Ne P C) as [up [down [U [_ _]]]]. destruct (U gam L) as [U1 [_ [U3 U4]]]. destruct (U gam' L') as [V1 [_ [V3 V4]]].
  assert (X : exists p, match cn with None => True | Some c => qr (n_choices ks) (transpose (n_choices ks) (snd c)) = Ok p end) by (destruct cn; [apply Q|exists ([], []); exact I]).
  rewrite <- (U4 X), <- (V4 X). f_equal. apply (same_surface ks Rs); auto. intros rows Hr.
  set (args := map (fun r => A2 (length r) [r]) rows). assert (E : rows_at args 0 = rows) by (unfold rows_at, args; rewrite map_map; cbn; apply map_id).
  assert (M : margins ks 1 args).
  { unfold args. clear - T Hr. revert rows Hr. induction T as [|k R ks Rs [TL _] T IH]; intros rows Hr; inversion Hr as [|? r ? rows' R1 R2]; subst; cbn [map]; constructor; [|now apply IH].
    cbn [to_2d fst snd]. rewrite (TL r R1). split; [reflexivity|]. split; [reflexivity|]. constructor; [now apply TL|constructor]. }
  destruct (te_transform_ok qr ks cn 1 args Ne P C Q M) as [k [dm Et]]. destruct (U3 1 args k dm M Et) as [_ A]. destruct (V3 1 args k dm M Et) as [_ B]. specialize (A 0 ltac:(lia)). specialize (B 0 ltac:(lia)). rewrite E in A, B. rewrite <- A, <- B.
  apply (H args k dm M); [now rewrite E|exact Et].
Qed.

(** * Centering *)
Lemma inner_sums k D s theta c : Forall (fun r => length r = k) D -> length s = k -> (forall l, l < k -> nth l s 0%Qc = col_sum D l) -> inner (map (fun q => q / c)%Qc s) theta = (qsum (fun row => inner row theta) D / c)%Qc.
Proof.
  intros F L H. unfold inner at 1. rewrite map_length, L. transitivity (qsum (fun i => qsum (fun row => nth i row 0 * nth i theta 0)%Qc D / c)%Qc (seq 0 k)).
  - apply qsum_ext. intros i Hi. apply in_seq in Hi. rewrite (nth_map_lt _ _ _ _ 0%Qc) by lia. rewrite (H i) by lia. unfold col_sum. rewrite qsum_scale_r. unfold Qcdiv. ring.
  - unfold Qcdiv. rewrite qsum_scale_r. f_equal. rewrite qswap. apply qsum_ext. intros row Hr. unfold inner. rewrite Forall_forall in F. now rewrite (F row Hr).
Qed.
Lemma center_lemma k chunks cn : Forall (te_piece k) chunks -> te_memorize Centering chunks = Ok cn ->
  constraint_for cn k /\ n_constraints cn = 1 /\ forall theta, satisfies cn theta <-> qsum (fun args => qsum (fun i => surface theta (rows_at args i)) (seq 0 (n_rows args))) chunks = 0%Qc.
Proof.
  intros F Em. destruct (te_fold k chunks F) as (st & E & tps & I1 & I2 & I3 & I4 & I5). unfold te_memorize in Em. rewrite E in Em. cbn [bind] in Em.
  unfold te_finish in Em. rewrite I3 in Em. destruct chunks as [|c0 chunks0]; [discriminate|]. destruct I5 as (s & Es & Ls & Hs). rewrite Es in Em.
  set (chunks := c0 :: chunks0) in *. set (D := concat (map snd tps)) in *. destruct (Nat.eqb_spec (te_count st) 0) as [|Nz]; [discriminate|]. injection Em as <-.
  assert (FD : Forall (fun r => length r = k) D).
  { unfold D. clear -I2. induction I2 as [|tp tps [_ H] _ IH]; cbn; auto. apply Forall_app. auto. }
  split; [|split; [reflexivity|]].
  - cbn [constraint_for fst snd]. split; [exact Ls|]. constructor; [now rewrite map_length|constructor].
  - intros theta. cbn [satisfies snd]. assert (Ed : qsum (fun row => inner row theta) D = qsum (fun args => qsum (fun i => surface theta (rows_at args i)) (seq 0 (n_rows args))) chunks).
    { unfold D. clear - F I1. clearbody chunks. revert tps I1. induction F as [|args l [Ne [[nrows Fa] Ek]] F IH]; intros tps I1; cbn [mapM] in I1; [injection I1 as <-; reflexivity|].
      destruct (row_tensor_ok nrows (map to_2d args)) as [tp [Et [[S1 _] R]]]; [now destruct args|now rewrite Forall_map|]. rewrite Et in I1. cbn [bind] in I1. destruct (mapM _ l) as [tps'|] eqn:Em; [|discriminate]. cbn [bind] in I1. injection I1 as <-.
      cbn [map concat snd rsum]. rewrite qsum_app. f_equal; [|now apply IH]. assert (En : n_rows args = nrows) by (destruct args as [|a args]; [easy|]; cbn [n_rows]; inversion Fa as [|? ? [_ [X _]] _]; exact X).
      rewrite En, <- S1. rewrite <- (map_nth_all tp) at 1. rewrite (rsum_map 0%Qc Qcplus). apply qsum_ext. intros i Hi. apply in_seq in Hi. unfold surface. f_equal. rewrite (R i) by lia. unfold rows_at. now rewrite map_map. }
    rewrite <- Ed. split.
    + intros H. apply Forall_inv in H. rename H into H1. rewrite (inner_sums k D s theta _ FD Ls Hs) in H1. assert (N : qn (te_count st) <> 0%Qc) by (now apply qn_nz). transitivity (qsum (fun row => inner row theta) D / qn (te_count st) * qn (te_count st))%Qc; [field; exact N|rewrite H1; ring].
    + intros H. constructor; [|constructor]. rewrite (inner_sums k D s theta _ FD Ls Hs), H. unfold Qcdiv. ring.
Qed.
