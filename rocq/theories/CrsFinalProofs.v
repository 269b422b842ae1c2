From Coq Require Import ZArith Lqa Sorted Field.
From Verif Require Import Base NumModel RankSpec RankProofs ContrastSpec ContrastProofs ContrastMatProofs StateModel StateSpec StateProofs LinModel LinProofs SplineModel SplineSpec SplineNumProofs SplineProofs BsSpec BsProofs CrsProofs CrsSpec CrsCurveProofs CrsSolveProofs CrsSplineProofs CrsCyclicProofs CrsConsProofs.
Open Scope nat_scope.
Open Scope list_scope.

Lemma free_knots_length cyclic knots : length (free_knots cyclic knots) = crs_dim cyclic knots.
Proof. unfold free_knots, crs_dim. destruct cyclic; [apply removelast_length|lia]. Qed.

Section Base.
Variables (cyclic : bool) (knots : list Qc).
Hypothesis Hinc : increasing knots.
Hypothesis Hn : enough_knots cyclic knots.
Let n := crs_dim cyclic knots.
Lemma free_curve beta : length beta = n -> exists s, is_spline cyclic knots s /\ map s (free_knots cyclic knots) = beta /\
  forall x, exists dm, free_crs_dmatrix x knots cyclic = Ok dm /\ map (fun r => dot r beta) dm = map s x.
Proof.
  intros Lb. unfold n, crs_dim, enough_knots, is_spline, free_knots in *. destruct cyclic.
  - destruct (cyclic_curve knots Hinc Hn beta Lb) as (s & Hs & Hk & Hd). exists s. split; auto. split; auto.
    assert (Lm : length (map s (removelast knots)) = length knots - 1) by now rewrite map_length, removelast_length.
    apply nth_ext_Qc; [congruence|]. intros i Hi. rewrite Lm in Hi. rewrite (nth_map_lt _ _ _ _ 0%Qc) by (rewrite removelast_length; lia). rewrite nth_removelast by lia. now apply Hk.
  - rewrite Nat.sub_0_r in Lb. destruct (natural_curve knots Hinc Hn beta Lb) as (s & Hs & Hk & Hd). exists s. split; auto. split; auto.
    apply nth_ext_Qc; [now rewrite map_length|]. intros i Hi. rewrite map_length in Hi. rewrite (nth_map_lt _ _ _ _ 0%Qc) by auto. now apply Hk.
Qed.
Lemma free_complete s : is_spline cyclic knots s ->
  forall x, exists dm, free_crs_dmatrix x knots cyclic = Ok dm /\ map (fun r => dot r (map s (free_knots cyclic knots))) dm = map s x.
Proof.
  unfold enough_knots, is_spline, free_knots in *. destruct cyclic; intros Hs; [now apply cyclic_complete|now apply natural_complete].
Qed.
Lemma const_spline a : is_spline cyclic knots (fun _ => a).
Proof.
  unfold enough_knots, is_spline in *. destruct cyclic; [now apply const_cyclic|].
  destruct (line_natural knots Hn a 0%Qc) as (l & p & r & H1 & H2 & H3 & H4). exists l, p, r. split; auto.
  assert (Z : forall x, (a + 0 * x)%Qc = a) by (intros; ring). repeat split; intros; rewrite <- (Z x); eauto.
Qed.

(** ** The centering constraint *)
Variable x : list Qc.
Lemma centering_inner cn s : is_spline cyclic knots s -> (let* dm := free_crs_dmatrix x knots cyclic in centering_row n dm) = Ok cn ->
  exists row, snd cn = [row] /\ fst cn = n /\ length row = n /\ x <> [] /\ inner row (map s (free_knots cyclic knots)) = (qsum s x / qn (length x))%Qc.
Proof.
  intros Hs E. destruct (free_complete s Hs x) as (dm & Ed & Em). rewrite Ed in E. cbn [bind] in E.
  apply free_crs_shape in Ed as [D1 D2]. fold n in D2.
  assert (Hx : x <> []) by (intros ->; destruct dm; [discriminate|cbn in D1; lia]).
  unfold centering_row in E. destruct dm as [|r0 dm0] eqn:Edm; [discriminate|]. rewrite <- Edm in *. injection E as <-. cbn [fst snd].
  eexists. split; [reflexivity|]. split; auto. assert (L : length (col_sums n dm) = n) by (apply col_sums_length; [apply repeat_length|exact D2]).
  split; [now rewrite map_length|]. split; auto. unfold inner. rewrite map_length, L.
  transitivity (qsum (fun i => qsum (fun r => nth i r 0 * nth i (map s (free_knots cyclic knots)) 0)%Qc dm / qn (length x))%Qc (seq 0 n)).
  - apply qsum_ext. intros i Hi. apply in_seq in Hi. rewrite (nth_map_lt _ _ _ _ 0%Qc) by lia. unfold col_sums. rewrite (col_sums_nth n) by (auto using repeat_length; lia).
    rewrite nth_zeros. rewrite D1. unfold col_sum, Qcdiv.
    transitivity ((qsum (fun r => nth i r 0) dm * nth i (map s (free_knots cyclic knots)) 0) * / qn (length x))%Qc; [ring|]. f_equal.
    rewrite Qcmult_comm, <- qsum_scale. apply qsum_ext. intros. ring.
  - unfold Qcdiv. transitivity (qsum (fun i => / qn (length x) * qsum (fun r => nth i r 0 * nth i (map s (free_knots cyclic knots)) 0)%Qc dm)%Qc (seq 0 n)).
    { apply qsum_ext. intros. ring. }
    rewrite qsum_scale, Qcmult_comm. f_equal. rewrite qswap.
    transitivity (qsum (fun y => y) (map s x)); [rewrite <- Em|]; rewrite rsum_map; [|reflexivity].
    apply qsum_ext. intros r Hr. rewrite Forall_forall in D2. rewrite (dot_qsum n) by (auto; rewrite map_length; apply free_knots_length). reflexivity.
Qed.
End Base.

Lemma div_zero a n : 0 < n -> (a / qn n = 0 <-> a = 0)%Qc.
Proof.
  intros Hn. assert (Hz : qn n <> 0%Qc) by (apply qn_nz; lia). split; intros H.
  - transitivity (a / qn n * qn n)%Qc; [field; auto|]. rewrite H. ring.
  - rewrite H. unfold Qcdiv. ring.
Qed.
Lemma cons_info cyclic a x st : crs_finish cyclic a x = Ok st -> enough_knots cyclic (crs_all_knots st) -> well_formed (crs_constr a) ->
  let knots := crs_all_knots st in let n := crs_dim cyclic knots in
  increasing knots /\
  match crs_cons st with
  | None => crs_constr a = NoConstraint
  | Some cn => fst cn = n /\ Forall (fun r => length r = n) (snd cn) /\ crs_constr a <> NoConstraint /\
      (forall s, is_spline cyclic knots s -> meets_constraint (crs_constr a) (free_knots cyclic knots) x s <->
                 forall i, i < length (snd cn) -> inner (nth i (snd cn) []) (map s (free_knots cyclic knots)) = 0%Qc) /\
      (independent (crs_constr a) -> independent_rows n (snd cn))
  end.
Proof.
  intros Hf He Hw knots n. destruct (crs_finish_spec _ _ _ _ Hf) as (ni & Ek & _ & Hc). fold knots in Ek, Hc, He.
  apply all_sorted_knots_spec in Ek as (lo & hi & _ & _ & Hinc & _). split; auto. fold n in Hc.
  destruct (crs_constr a) as [| |kc rows], (crs_cons st) as [cn|]; try easy.
  - destruct (centering_inner cyclic knots Hinc He x cn (fun _ => 1%Qc) (const_spline _ _ He _) Hc) as (row & E1 & E2 & E3 & E4 & E5).
    assert (Hx : 0 < length x) by (destruct x; [congruence|cbn; lia]).
    rewrite E1. split; auto. split; [auto|]. split; [discriminate|]. split.
    + intros s Hs. destruct (centering_inner cyclic knots Hinc He x cn s Hs Hc) as (row' & F1 & _ & _ & _ & F5). rewrite E1 in F1. injection F1 as <-.
      cbn [meets_constraint length]. split.
      * intros H [|i] Hi; [|lia]. cbn [nth]. rewrite F5, H. unfold Qcdiv. ring.
      * intros H. specialize (H 0 ltac:(lia)). cbn [nth] in H. rewrite F5 in H. now apply div_zero in H.
    + intros _ w H i Hi. cbn [length] in Hi. assert (i = 0) by lia. subst i. cbn [length seq] in H.
      assert (Z : (w 0%nat * inner row (map (fun _ => 1%Qc) (free_knots cyclic knots)) = 0)%Qc).
      { unfold inner. rewrite E3, <- qsum_scale. apply qzero. intros l Hl. apply in_seq in Hl. specialize (H l ltac:(lia)).
        unfold get in H. cbn [nth rsum] in H. transitivity ((nth l row 0 * w 0%nat + 0) * nth l (map (fun _ => 1) (free_knots cyclic knots)) 0)%Qc; [ring|].
        rewrite H. ring. }
      rewrite E5, qsum_const in Z. assert (Hz : qn (length x) <> 0%Qc) by (apply qn_nz; lia).
      transitivity (w 0%nat * (qn (length x) * 1 / qn (length x)))%Qc; [field; auto|exact Z].
  - destruct Hc as [-> ->]. cbn [fst snd well_formed meets_constraint independent] in *. split; auto. split; auto. split; [discriminate|]. split; auto.
    intros s _. rewrite Forall_forall. split.
    + intros H i Hi. apply H, nth_In, Hi.
    + intros H row Hr. destruct (In_nth _ _ [] Hr) as (i & Hi & <-). now apply H.
Qed.

Section Draw.
Variables (qr : nat -> mat -> result (mat * mat)) (cyclic : bool) (a : crs_args) (x : list Qc) (st : crs).
Hypothesis Hqr : qr_sound qr.
Hypothesis Hf : crs_finish cyclic a x = Ok st.
Let knots := crs_all_knots st.
Let n := crs_dim cyclic knots.
Let fk := free_knots cyclic knots.
Hypothesis He : enough_knots cyclic knots.
Hypothesis Hw : well_formed (crs_constr a).
Variables (y0 : arr) (k : nat) (dm0 : mat).
Hypothesis Ht : crs_transform qr cyclic st y0 = Ok (k, dm0).
Let Hinc : increasing knots. Proof. apply (cons_info _ _ _ _ Hf He Hw). Qed.
Let fk_length : length fk = n. Proof. apply free_knots_length. Qed.

(** The coefficients as values at the knots, and back. *)
Lemma param : exists up down, (forall gam, length gam = k -> length (up gam) = n /\ down (up gam) = gam) /\
  (crs_constr a = NoConstraint -> k = n /\ forall gam, up gam = gam) /\
  (forall beta, length beta = n -> length (down beta) = k) /\
  (forall gam s, length gam = k -> is_spline cyclic knots s -> map s fk = up gam -> meets_constraint (crs_constr a) fk x s /\ draws qr cyclic st k gam s) /\
  (independent (crs_constr a) -> forall s, is_spline cyclic knots s -> meets_constraint (crs_constr a) fk x s -> up (down (map s fk)) = map s fk).
Proof.
  destruct (cons_info _ _ _ _ Hf He Hw) as [_ Hc]. fold knots in Hc. fold fk in Hc. unfold crs_transform in Ht.
  destruct (as_vector y0) as [v0|]; [|discriminate]. cbn [bind] in Ht. fold knots in Ht.
  destruct (free_crs_dmatrix v0 knots cyclic) as [f0|]; [|discriminate]. cbn [bind] in Ht. fold n in Ht.
  destruct (crs_cons st) as [cn|] eqn:Ecn; cbn [absorb_opt] in Ht.
  - destruct Hc as (C1 & C2 & C3 & C4 & C5). fold n in C1, C2, C5. unfold absorb_constraints in Ht. rewrite C1 in Ht. cbn [fst snd] in Ht.
    destruct (qr n (transpose n (snd cn))) as [[q r]|] eqn:Eq; [|discriminate]. cbn [bind fst] in Ht. rewrite Nat.eqb_refl in Ht. injection Ht as Hk _.
    assert (Q : is_qr n (length (snd cn)) (transpose n (snd cn)) q r) by (apply Hqr; auto; apply transpose_shape).
    exists (spread n (snd cn) q), (gather n (snd cn) q). split; [|split; [easy|split; [|split]]].
    + intros gam Lg. split; [apply spread_length|]. apply (gather_spread n (snd cn) q r); auto. lia.
    + intros. rewrite gather_length. lia.
    + intros gam s Lg Hs Es. split.
      * apply C4; auto. intros i Hi. rewrite Es. apply (spread_zero n (snd cn) q r); auto.
      * intros y v Ey. destruct (free_complete cyclic knots Hinc He s Hs v) as (dm & Ed & Em). unfold crs_transform. rewrite Ey. cbn [bind]. fold knots.
        rewrite Ed, Ecn. cbn [bind absorb_opt]. unfold absorb_constraints. fold n. rewrite C1. cbn [fst snd]. rewrite Eq. cbn [bind fst]. rewrite Nat.eqb_refl.
        eexists. split; [now rewrite Hk|]. apply free_crs_shape in Ed as [_ Ed]. fold n in Ed. rewrite Forall_forall in Ed. unfold matmul. rewrite map_map, <- Em.
        apply map_ext_in. intros row Hr. rewrite inner_dot by (rewrite map_length, seq_length; lia). fold fk. rewrite Es.
        rewrite <- Hk. apply (dot_spread n (snd cn) q r); auto. lia.
    + intros Hi s Hs Hm. apply (spread_gather n (snd cn) q r); auto; [now rewrite map_length|]. now apply C4.
  - injection Ht as Hk _. exists (fun g => g), (fun g => g). rewrite <- Hk. split; [auto|]. split; [auto|]. split; [auto|]. split; [|auto].
    intros gam s Lg Hs Es. split; [now rewrite Hc|]. intros y v Ey. destruct (free_complete cyclic knots Hinc He s Hs v) as (dm & Ed & Em).
    unfold crs_transform. rewrite Ey. cbn [bind]. fold knots. rewrite Ed, Ecn. cbn [bind absorb_opt]. fold n. eexists. split; [reflexivity|].
    rewrite <- Em. apply free_crs_shape in Ed as [_ Ed]. rewrite Forall_forall in Ed. apply map_ext_in. intros row Hr. fold fk. rewrite Es. apply inner_dot. rewrite Ed by auto. auto.
Qed.
Lemma draw_sound gam : length gam = k -> exists s, is_spline cyclic knots s /\ meets_constraint (crs_constr a) fk x s /\
  (crs_constr a = NoConstraint -> map s fk = gam) /\ draws qr cyclic st k gam s.
Proof.
  intros Lg. destruct param as (up & down & P1 & P2 & P3 & P4 & P5). destruct (P1 gam Lg) as [U1 U2].
  destruct (free_curve cyclic knots Hinc He (up gam) U1) as (s & Hs & Es & _). destruct (P4 gam s Lg Hs Es) as [M D]. exists s. split; auto. split; auto. split; auto.
  intros N. fold fk in Es. rewrite Es. now apply P2.
Qed.
Lemma draw_complete s : independent (crs_constr a) -> is_spline cyclic knots s -> meets_constraint (crs_constr a) fk x s ->
  exists gam, length gam = k /\ draws qr cyclic st k gam s /\ forall gam', length gam' = k -> draws qr cyclic st k gam' s -> gam' = gam.
Proof.
  intros Hi Hs Hm. destruct param as (up & down & P1 & P2 & P3 & P4 & P5).
  assert (L : length (map s fk) = n) by now rewrite map_length.
  exists (down (map s fk)). split; [auto|]. split; [apply P4; auto; symmetry; auto|].
  intros gam' Lg D. destruct (P1 gam' Lg) as [U1 U2]. destruct (free_curve cyclic knots Hinc He (up gam') U1) as (s' & Hs' & Es' & _).
  destruct (P4 gam' s' Lg Hs' Es') as [_ D']. destruct (D (A1 fk) fk eq_refl) as (dm & E1 & E2). destruct (D' (A1 fk) fk eq_refl) as (dm' & E1' & E2').
  rewrite E1 in E1'. injection E1' as <-. rewrite <- E2, E2'. fold fk in Es'. now rewrite Es', U2.
Qed.
End Draw.
