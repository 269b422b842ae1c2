From Coq Require Import ZArith Lqa Sorted Field.
From Verif Require Import Base NumModel RankSpec RankProofs ContrastSpec ContrastProofs ContrastMatProofs StateModel StateProofs LinModel LinProofs SplineModel SplineSpec SplineNumProofs SplineProofs BsSpec BsProofs CrsProofs CrsSpec.
Open Scope nat_scope.
Open Scope list_scope.

(** * cc() with three or two knots *)
Definition third : Qc := (1 / (1 + 1 + 1))%Qc.
Lemma slope_left p u : length p <= 4 ->
  ((1 + 1) * peval (pderiv p) u = - qz 11 * peval p u + qz 18 * peval p (u + third) - qz 9 * peval p (u + third + third) + (1 + 1) * peval p (u + 1))%Qc.
Proof.
  intros H. unfold third. change (qz 11) with ((1 + 1) * (1 + 1 + 1) * (1 + 1) - 1)%Qc. change (qz 18) with ((1 + 1) * (1 + 1 + 1) * (1 + 1 + 1))%Qc. change (qz 9) with ((1 + 1 + 1) * (1 + 1 + 1))%Qc.
  destruct p as [|c0 [|c1 [|c2 [|c3 [|]]]]]; cbn [length] in H; try lia; cbn [peval pderiv tl pderiv_from]; change (qn 1) with 1%Qc; change (qn 2) with (1 + 1)%Qc; change (qn 3) with (1 + 1 + 1)%Qc; field; discriminate.
Qed.
Lemma slope_right p u : length p <= 4 ->
  ((1 + 1) * peval (pderiv p) (u + 1) = - (1 + 1) * peval p u + qz 9 * peval p (u + third) - qz 18 * peval p (u + third + third) + qz 11 * peval p (u + 1))%Qc.
Proof.
  intros H. unfold third. change (qz 11) with ((1 + 1) * (1 + 1 + 1) * (1 + 1) - 1)%Qc. change (qz 18) with ((1 + 1) * (1 + 1 + 1) * (1 + 1 + 1))%Qc. change (qz 9) with ((1 + 1 + 1) * (1 + 1 + 1))%Qc.
  destruct p as [|c0 [|c1 [|c2 [|c3 [|]]]]]; cbn [length] in H; try lia; cbn [peval pderiv tl pderiv_from]; change (qn 1) with 1%Qc; change (qn 2) with (1 + 1)%Qc; change (qn 3) with (1 + 1 + 1)%Qc; field; discriminate.
Qed.
Definition cc_args (d : Z) := mkCrsArgs (Some d) None None None NoConstraint.
Definition cc_data (d : Z) : list Qc := if Z.eqb d 1 then [0; 1]%Qc else [0; 1; 1 + 1]%Qc.
Lemma map_this_inj l l' : map this l = map this l' -> l = l'.
Proof.
  revert l'. induction l as [|a l IH]; intros [|b l'] H; try discriminate; auto. cbn in H. injection H as H1 H2. f_equal; auto.
  apply Qc_is_canon. rewrite H1. reflexivity.
Qed.
Ltac get_values Ev := repeat match type of Ev with _ :: _ = _ :: _ => let H := fresh "V" in pose proof (f_equal (hd 0%Qc) Ev) as H; cbn [hd] in H; apply (f_equal (@tl Qc)) in Ev; cbn [tl] in Ev end.
Lemma cc_one qr st s : crs_finish true (cc_args 1) (cc_data 1) = Ok st -> is_cyclic_spline (crs_all_knots st) s -> ~ draws qr true st 1 [1%Qc] s.
Proof.
  intros Hf. assert (K : Ok (mkCrs [0; 1]%Qc None) = crs_finish true (cc_args 1) (cc_data 1)) by (vm_compute; reflexivity).
  rewrite Hf in K. injection K as <-. cbn [crs_all_knots]. intros (ps & (L & F & _ & _ & M & _) & C & _) D.
  change (nth (length [0%Qc; 1%Qc] - 2) ps []) with (nth 0 ps []) in M. change (last_knot [0; 1])%Qc with (0 + 1)%Qc in M. change (first_knot [0; 1])%Qc with 0%Qc in M.
  assert (Lp : length (nth 0 ps []) <= 4) by (rewrite Forall_forall in F; apply F, nth_In; cbn in L; lia). set (p := nth 0 ps []) in *.
  destruct (D (A1 [0; 0 + third; 0 + third + third; 0 + 1]%Qc) _ eq_refl) as (dm & Et & Ev).
  assert (V : match crs_transform qr true (mkCrs [0; 1]%Qc None) (A1 [0; 0 + third; 0 + third + third; 0 + 1]%Qc) with Ok (k, dm) => map (fun row => inner row [1]%Qc) dm | _ => [] end = [1; third; third; 1]%Qc)
    by (apply map_this_inj; vm_compute; reflexivity).
  rewrite Et, Ev in V. clear Ev. symmetry in V. cbn [map] in V.
  assert (I : forall x, (0 <= x)%Qc -> (x <= 1)%Qc -> s x = peval p x) by (intros; apply (C 0); cbn; auto).
  get_values V. rewrite I in V0, V1, V2, V3 by (apply Qcle_alt; vm_compute; discriminate).
  apply (f_equal (fun z => (1 + 1) * z)%Qc) in M. rewrite (slope_left p 0 Lp), (slope_right p 0 Lp), <- V0, <- V1, <- V2, <- V3 in M.
  apply (f_equal this) in M. vm_compute in M. discriminate.
Qed.
Lemma cc_two qr st s : crs_finish true (cc_args 2) (cc_data 2) = Ok st -> is_cyclic_spline (crs_all_knots st) s -> ~ draws qr true st 2 [1; 1]%Qc s.
Proof.
  intros Hf. assert (K : Ok (mkCrs [0; 1; 1 + 1]%Qc None) = crs_finish true (cc_args 2) (cc_data 2)) by (vm_compute; reflexivity).
  rewrite Hf in K. injection K as <-. cbn [crs_all_knots]. intros (ps & (L & F & M & _) & C & _) D.
  specialize (M 0 ltac:(cbn; lia)) as (_ & M & _). change (nth (0 + 1) [0; 1; 1 + 1] 0)%Qc with (0 + 1)%Qc in M at 1. change (nth (0 + 1) [0; 1; 1 + 1] 0)%Qc with 1%Qc in M.
  assert (Lp : forall i, i < 2 -> length (nth i ps []) <= 4) by (intros i Hi; rewrite Forall_forall in F; apply F, nth_In; cbn in L; lia).
  set (pts := [0; 0 + third; 0 + third + third; 0 + 1; 1; 1 + third; 1 + third + third; 1 + 1]%Qc). set (w := Q2Qc (17 # 15)).
  destruct (D (A1 pts) _ eq_refl) as (dm & Et & Ev).
  assert (V : match crs_transform qr true (mkCrs [0; 1; 1 + 1]%Qc None) (A1 pts) with Ok (k, dm) => map (fun row => inner row [1; 1]%Qc) dm | _ => [] end = [1; w; w; 1; 1; w; w; 1]%Qc) by (apply map_this_inj; vm_compute; reflexivity).
  rewrite Et, Ev in V. clear Ev. symmetry in V. unfold pts in V. cbn [map] in V.
  assert (I0 : forall x, (0 <= x)%Qc -> (x <= 1)%Qc -> s x = peval (nth 0 ps []) x) by (intros; apply (C 0); cbn; auto).
  assert (I1 : forall x, (1 <= x)%Qc -> (x <= 1 + 1)%Qc -> s x = peval (nth 1 ps []) x) by (intros; apply (C 1); cbn; auto).
  get_values V. rewrite I0 in V0, V1, V2, V3 by (apply Qcle_alt; vm_compute; discriminate). rewrite I1 in V4, V5, V6, V7 by (apply Qcle_alt; vm_compute; discriminate).
  apply (f_equal (fun z => (1 + 1) * z)%Qc) in M. change (0 + 1)%nat with 1%nat in M.
  rewrite (slope_right (nth 0 ps []) 0), (slope_left (nth 1 ps []) 1), <- V0, <- V1, <- V2, <- V3, <- V4, <- V5, <- V6, <- V7 in M by (apply Lp; lia).
  apply (f_equal this) in M. vm_compute in M. discriminate.
Qed.

(** * cr() with two knots *)
Lemma cr_two knots x : length knots = 2 -> exists msg, free_crs_dmatrix x knots false = Err (ValueError msg).
Proof. destruct knots as [|a [|b [|]]]; try discriminate. intros _. eexists. reflexivity. Qed.
