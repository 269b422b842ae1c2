(** C78: what a transform remembers of the data does not depend on how the data is split into pieces (chunks of
    an iterator), nor on the order of the rows. *)
From Coq Require Import ZArith QArith Permutation.
From Verif Require Import Base NumModel ContrastSpec StateModel StateSpec LinModel SplineModel CrsSpec BsModel SplitSpec SplitProofs.
Open Scope nat_scope.
Open Scope list_scope.

Theorem crs_split_order cyclic a xs ys : same_values xs ys -> crs_memorize cyclic a xs = crs_memorize cyclic a ys.
Proof. exact (crs_split cyclic a xs ys). Qed.
Print Assumptions crs_split_order.

Theorem bs_split_order a xs ys : same_values xs ys -> bs_memorize a xs = bs_memorize a ys.
Proof. exact (bs_split a xs ys). Qed.
Print Assumptions bs_split_order.

(** te(): the pieces' tensor products have the same rows. *)
Theorem te_split_order k xs ys tps tps' : Forall (te_piece k) xs -> Forall (te_piece k) ys -> xs <> [] -> ys <> [] ->
  mapM (fun args => row_tensor_product (map to_2d args)) xs = Ok tps ->
  mapM (fun args => row_tensor_product (map to_2d args)) ys = Ok tps' ->
  Permutation (concat (map snd tps)) (concat (map snd tps')) ->
  te_memorize Centering xs = te_memorize Centering ys.
Proof. exact (te_split k xs ys tps tps'). Qed.
Print Assumptions te_split_order.

Theorem center_split_order k xs ys : Forall (has_cols k) xs -> Forall (has_cols k) ys -> xs <> [] -> ys <> [] ->
  Permutation (rows_of xs) (rows_of ys) -> center_memorize xs = center_memorize ys.
Proof. exact (center_split k xs ys). Qed.
Print Assumptions center_split_order.

Theorem standardize_split_order k xs ys : Forall (has_cols k) xs -> Forall (has_cols k) ys -> rows_of xs <> [] ->
  Permutation (rows_of xs) (rows_of ys) -> std_memorize xs = std_memorize ys.
Proof. exact (std_split k xs ys). Qed.
Print Assumptions standardize_split_order.

(** * Examples *)
Definition ex_whole := [A1 (map qz [0; 1; 2; 4; 6; 8]%Z)].
Definition ex_pieces := [A1 (map qz [8; 2; 1]%Z); A0 (qz 0); A2 1 [[qz 6]; [qz 4]]].
Example ex_same : same_values ex_whole ex_pieces.
Proof.
  split; [discriminate|]. split; [discriminate|]. exists [map qz [0; 1; 2; 4; 6; 8]%Z], [map qz [8; 2; 1]%Z; [qz 0]; map qz [6; 4]%Z].
  split; [repeat constructor|]. split; [repeat constructor|].
  assert (E : forall f : Z -> Qc, concat [map f [0; 1; 2; 4; 6; 8]%Z] = map f [0; 1; 2; 4; 6; 8]%Z /\ concat [map f [8; 2; 1]%Z; [f 0%Z]; map f [6; 4]%Z] = map f [8; 2; 1; 0; 6; 4]%Z) by (split; reflexivity).
  destruct (E qz) as [-> ->]. clear E.
  apply Permutation_map. change [8; 2; 1; 0; 6; 4]%Z with ([8; 2; 1] ++ 0 :: [6; 4])%Z. apply Permutation_cons_app. cbn.
  change [8; 2; 1; 6; 4]%Z with ([8; 2] ++ 1 :: [6; 4])%Z. apply Permutation_cons_app. cbn.
  change [8; 2; 6; 4]%Z with ([8] ++ 2 :: [6; 4])%Z. apply Permutation_cons_app. cbn.
  change [8; 6; 4]%Z with ([8; 6] ++ 4 :: [])%Z. apply Permutation_cons_app. cbn. apply perm_swap.
Qed.
Example ex_crs_pieces : match crs_memorize false (mkCrsArgs (Some 4%Z) None None None NoConstraint) ex_pieces with Ok st => Some (map this (crs_all_knots st)) | _ => None end
  = Some [0; 5 # 3; 14 # 3; 8]%Q.
Proof. vm_compute. reflexivity. Qed.
Example ex_bs_pieces : match bs_memorize (mkBsArgs (Some 5%Z) None 2%Z true None None) ex_pieces with Ok st => Some (map this (bs_all_knots st)) | _ => None end
  = Some [0; 0; 0; 5 # 3; 14 # 3; 8; 8; 8]%Q.
Proof. vm_compute. reflexivity. Qed.
