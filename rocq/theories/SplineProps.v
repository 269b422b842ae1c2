(** C51, C52, C53: cyclic mapping, knot intervals and tensor products. *)
From Coq Require Import ZArith Sorted.
From Verif Require Import Base NumModel RankSpec ContrastSpec SplineModel SplineSpec SplineNumProofs SplineProofs.
Open Scope nat_scope.
Open Scope list_scope.

(** C51: every value is moved by a whole number of periods into the interval between the bounds, and stays
    where it is when it is already there. *)
Theorem cyclic_mapping : forall x lb ub, (lb < ub)%Qc ->
  exists y, map_cyclic x lb ub = Ok y /\
    Forall2 (fun v w => (lb <= w)%Qc /\ (w <= ub)%Qc /\ (exists k, v = w + qz k * (ub - lb))%Qc /\
                        ((lb <= v)%Qc -> (v <= ub)%Qc -> w = v)) x y.
Proof. exact map_cyclic_ok. Qed.
Print Assumptions cyclic_mapping.

(** C51 (errors): other bounds are refused. *)
Theorem cyclic_mapping_bad_bounds : forall x lb ub, (ub <= lb)%Qc -> exists msg, map_cyclic x lb ub = Err (ValueError msg).
Proof. exact map_cyclic_bad. Qed.
Print Assumptions cyclic_mapping_bad_bounds.

(** C52: the interval found for a value is an interval of the knots, half-open to the left around the value
    if the value is within the knots, the first interval for values up to the first knot and the last one for
    values beyond the last knot. *)
Theorem knot_interval : forall x knots, increasing knots -> 2 <= length knots ->
  exists j, find_lower x knots = Z.of_nat j /\ j <= length knots - 2 /\
    ((x <= first_knot knots)%Qc -> j = 0) /\
    ((last_knot knots < x)%Qc -> j = length knots - 2) /\
    ((first_knot knots < x)%Qc -> (x <= last_knot knots)%Qc -> (nth j knots 0 < x)%Qc /\ (x <= nth (j + 1) knots 0)%Qc).
Proof. exact find_lower_spec. Qed.
Print Assumptions knot_interval.

(** C53: row [i] of the tensor product has one entry for every choice of an entry from row [i] of each
    factor: the product of the chosen entries, at the choice's place in row-major order.  Every place is taken
    by exactly one choice. *)
Theorem tensor_product_rows : forall nrows dms, dms <> [] ->
  Forall (fun dm => 0 < fst dm /\ has_shape nrows (fst dm) (snd dm)) dms ->
  exists tp, row_tensor_product dms = Ok (fold_right Nat.mul 1 (map fst dms), tp) /\
    has_shape nrows (fold_right Nat.mul 1 (map fst dms)) tp /\
    forall i, i < nrows -> let rows := map (fun dm => nth i (snd dm) []) dms in
      (forall js, choice rows js -> row_major rows js < fold_right Nat.mul 1 (map fst dms) /\ get tp i (row_major rows js) = choice_product rows js) /\
      (forall p, p < fold_right Nat.mul 1 (map fst dms) -> exists js, choice rows js /\ row_major rows js = p /\
         forall ks, choice rows ks -> row_major rows ks = p -> ks = js).
Proof.
  intros nrows dms Hne H. destruct (row_tensor_ok nrows dms Hne H) as (tp & E & S & R). exists tp. split; auto. split; auto.
  intros i Hi rows. destruct S as [S1 S2]. specialize (R i Hi). fold rows in R.
  assert (L : fold_right Nat.mul 1 (map fst dms) = length (all_products rows)).
  { rewrite <- R. rewrite Forall_forall in S2. symmetry. apply S2, nth_In. lia. }
  rewrite L. split.
  - intros js C. unfold get. rewrite R. now apply all_products_nth.
  - intros p Hp. destruct (row_major_onto rows p Hp) as (js & C & Ep). exists js. split; auto. split; auto.
    intros ks Ck Ek. apply (row_major_inj rows); auto. congruence.
Qed.
Print Assumptions tensor_product_rows.

(** C53 (errors): no factors, or factors with different numbers of rows. *)
Theorem tensor_product_errors : forall dms,
  dms = [] \/ (exists a b, In a dms /\ In b dms /\ length (snd a) <> length (snd b)) ->
  exists msg, row_tensor_product dms = Err (ValueError msg).
Proof. exact row_tensor_bad. Qed.
Print Assumptions tensor_product_errors.

(** * Examples *)
Definition show_vec (r : result (list Qc)) : option (list Q) := match r with Ok l => Some (map this l) | Err _ => None end.
Example ex_cyclic_bounds : (qz 2 < qz 5)%Qc. Proof. reflexivity. Qed.
Example ex_cyclic : show_vec (map_cyclic (map qz [0; 3; 5; 11; 12; -1]%Z) (qz 2) (qz 5)) = Some (map inject_Z [3; 3; 5; 2; 3; 5]%Z).
Proof. vm_compute. reflexivity. Qed.
Example ex_cyclic_bad : show_vec (map_cyclic [qz 1] (qz 2) (qz 2)) = None.
Proof. vm_compute. reflexivity. Qed.
Definition ex_knots : list Qc := map qz [1; 3; 4; 8]%Z.
Example ex_knots_increasing : increasing ex_knots.
Proof. unfold increasing, ex_knots. cbn [map]. repeat constructor. Qed.
Example ex_interval : map (fun x => find_lower (qz x) ex_knots) [0; 1; 2; 3; 4; 5; 8; 9]%Z = [0; 0; 0; 0; 1; 2; 2; 2]%Z.
Proof. vm_compute. reflexivity. Qed.
Definition ex_dms : list (nat * mat) := [(2, [map qz [1; 2]%Z; map qz [3; 4]%Z]); (3, [map qz [5; 6; 7]%Z; map qz [1; 0; 2]%Z])].
Example ex_tensor_hyps : Forall (fun dm => 0 < fst dm /\ has_shape 2 (fst dm) (snd dm)) ex_dms.
Proof. repeat constructor. Qed.
Example ex_tensor : match row_tensor_product ex_dms with Ok (n, tp) => Some (n, map (map this) tp) | Err _ => None end
  = Some (6, map (map inject_Z) [[5; 6; 7; 10; 12; 14]; [3; 0; 6; 4; 0; 8]]%Z).
Proof. vm_compute. reflexivity. Qed.
Example ex_tensor_choice : choice (map (fun dm => nth 0 (snd dm) []) ex_dms) [1; 2] /\ row_major (map (fun dm => nth 0 (snd dm) []) ex_dms) [1; 2] = 5.
Proof. split; [repeat constructor|reflexivity]. Qed.
