(** C54, C63: cr(), cc() and te(). *)
From Coq Require Import ZArith Sorted.
From Verif Require Import Base NumModel RankSpec ContrastSpec StateModel LinModel SplineModel SplineSpec SplineProofs BsSpec CrsProofs.
Open Scope nat_scope.
Open Scope list_scope.

(** C63: the knots that cr() and cc() remember are strictly increasing, from the lower to the upper bound, each
    as given or the least or greatest training value; if inner knots were given then they are exactly the knots
    in between, and none of them is a bound. *)
Theorem crs_knots_spec : forall cyclic a x st, crs_finish cyclic a x = Ok st ->
  let knots := crs_all_knots st in
  exists lo hi, lower_is (crs_lower a) x lo /\ upper_is (crs_upper a) x hi /\ (lo < hi)%Qc /\
    increasing knots /\ first_knot knots = lo /\ last_knot knots = hi /\
    (forall ks, crs_knots a = Some ks -> ~ In lo ks /\ ~ In hi ks /\ forall k, In k knots <-> k = lo \/ k = hi \/ In k ks).
Proof.
  intros cyclic a x st H knots. destruct (crs_finish_spec _ _ _ _ H) as (ni & Ek & _).
  destruct (all_sorted_knots_spec _ _ _ _ _ _ Ek) as (lo & hi & H1 & H2 & H3 & H4 & H5 & H6 & _ & H8).
  exists lo, hi. repeat (split; [assumption|]). split; [|auto]. rewrite <- H5, <- H6. clear -H3 H4. generalize dependent (crs_all_knots st). intros knots H3 H4.
  destruct knots as [|u [|w r]]; cbn in H4; try lia. inversion H3 as [|? ? _ F]; subst. rewrite Forall_forall in F. apply F.
  unfold last_knot. cbn [length]. replace (S (S (length r)) - 1) with (S (length r)) by lia. apply (nth_In (w :: r)). cbn. lia.
Qed.
Print Assumptions crs_knots_spec.

(** C54 (cr and cc): the number of columns is df if given, else the number of knots with the two bounds, one less for cc(),
    less the number of constraints; and there is a row for each value. *)
Theorem crs_columns : forall qr cyclic a x st y k dm, crs_finish cyclic a x = Ok st -> crs_transform qr cyclic st y = Ok (k, dm) ->
  (exists v, as_vector y = Ok v /\ has_shape (length v) k dm) /\
  (forall df, crs_df a = Some df -> Z.of_nat k = df) /\
  k = length (crs_all_knots st) - (if cyclic then 1 else 0) - (match crs_constr a with NoConstraint => 0 | Centering => 1 | Constraint _ rows => length rows end).
Proof. intros qr cyclic a x st y k dm Hf E. destruct (crs_columns_ok _ _ _ _ _ _ _ _ Hf E) as (v & H1 & H2 & H3 & H4). split; eauto. Qed.
Print Assumptions crs_columns.

(** C54 (te): the number of columns is the product of those of the arguments, less the number of constraints. *)
Theorem te_columns : forall qr cn args nrows k dm, args <> [] ->
  Forall (fun a => 0 < fst (to_2d a) /\ has_shape nrows (fst (to_2d a)) (snd (to_2d a))) args ->
  te_transform qr cn args = Ok (k, dm) ->
  has_shape nrows k dm /\
  k = fold_right Nat.mul 1 (map (fun a => fst (to_2d a)) args) - match cn with None => 0 | Some c => length (snd c) end.
Proof.
  intros qr cn args nrows k dm Na F E. unfold te_transform in E.
  destruct (row_tensor_ok nrows (map to_2d args)) as (tp & Et & Hs & _); [now destruct args|now rewrite Forall_map|].
  rewrite Et, map_map in E. rewrite map_map in Hs. cbn [bind] in E. destruct cn as [c|]; cbn [absorb_opt] in E.
  - destruct (absorb_shape _ _ _ _ _ _ _ E (proj1 Hs)) as (_ & -> & H). auto.
  - injection E as <- <-. split; auto. lia.
Qed.
Print Assumptions te_columns.

(** * Examples *)
Definition ex_args := mkCrsArgs (Some 4%Z) None None None Centering.
Definition ex_data := map qz [0; 1; 2; 3; 4; 6]%Z.
Example ex_cr_knots : match crs_finish false ex_args ex_data with Ok st => Some (map this (crs_all_knots st)) | _ => None end = Some [0; 5 # 4; 5 # 2; 15 # 4; 6]%Q.
Proof. vm_compute. reflexivity. Qed.
Example ex_cc_knots : match crs_finish true (mkCrsArgs None (Some (map qz [4; 1; 4]%Z)) None (Some (qz 7)) NoConstraint) ex_data with Ok st => Some (map this (crs_all_knots st)) | _ => None end
  = Some [0; 1; 4; 7]%Q.
Proof. vm_compute. reflexivity. Qed.
Example ex_cr_values : match (let* st := crs_finish false (mkCrsArgs (Some 3%Z) (Some [qz 2]) None (Some (qz 4)) NoConstraint) ex_data in
                              crs_transform (fun _ _ => Err OutOfFuel) false st (A1 (map qz [0; 1; 2; 5]%Z))) with
                       | Ok (k, dm) => Some (k, map (map this) dm) | _ => None end
  = Some (3, [[1; 0; 0]; [13 # 32; 11 # 16; - 3 # 32]; [0; 1; 0]; [1 # 8; -3 # 4; 13 # 8]]%Q).
Proof. vm_compute. reflexivity. Qed.
Example ex_te : match te_transform (fun _ _ => Err OutOfFuel) None [A2 2 [map qz [1; 2]; map qz [3; 4]]%Z; A1 (map qz [5; 6]%Z)] with
                | Ok (k, dm) => Some (k, map (map this) dm) | _ => None end = Some (2, [[5; 10]; [18; 24]]%Q).
Proof. vm_compute. reflexivity. Qed.
