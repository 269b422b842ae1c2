(** C93: the knots that bs(), cr() and cc() choose for a number of degrees of freedom. *)
From Coq Require Import ZArith Permutation.
From Verif Require Import Base NumModel StateModel LinModel SplineModel SplineSpec BsModel BsSpec KnotSpec KnotProofs.
Open Scope nat_scope.
Open Scope list_scope.

(** C93.  Without given knots, the inner knots of bs() are the quantiles that divide all the training data into equal
    shares, as many as the degrees of freedom leave room for. *)
Theorem bs_knots_are_quantiles : forall a x st, bs_finish a x = Ok st -> bs_knots a = None ->
  exists lo hi inner df, lower_is (bs_lower a) x lo /\ upper_is (bs_upper a) x hi /\ padded lo hi (S (Z.to_nat (bs_degree a))) inner (bs_all_knots st) /\
    bs_df a = Some df /\ (Z.of_nat (length inner) = df - bs_degree a - if bs_intercept a then 1 else 0)%Z /\ quantiles x inner.
Proof.
  intros a x st H Hk. destruct (bs_quantiles a x st H Hk) as (lo & hi & inner & H1 & H2 & H3 & H4 & H5).
  destruct (bs_df a) as [df|] eqn:Ed.
  - exists lo, hi, inner, df. auto 10.
  - exfalso. unfold bs_finish in H. rewrite Ed, Hk in H. destruct (_ <? 0)%Z; discriminate.
Qed.
Print Assumptions bs_knots_are_quantiles.

(** C93.  Those of cr() and cc() divide the different values that the training data has between the bounds. *)
Theorem crs_knots_are_quantiles : forall cyclic a x st, crs_finish cyclic a x = Ok st -> crs_knots a = None ->
  exists lo hi u inner, lower_is (crs_lower a) x lo /\ upper_is (crs_upper a) x hi /\ values_between lo hi x u /\ quantiles u inner /\
    (forall k, In k (crs_all_knots st) <-> k = lo \/ k = hi \/ In k inner) /\ length (crs_all_knots st) = length inner + 2.
Proof. exact crs_quantiles. Qed.
Print Assumptions crs_knots_are_quantiles.

(** C93.  A quantile is determined by the data, whatever the order of its rows, and divides it: more than the share [p]
    of the [n - 1] steps between its values are up to it, more than the share [1 - p] from it. *)
Theorem quantile_divides : forall x p q, quantile x p q ->
  (forall y q', Permutation x y -> quantile y p q' -> q' = q) /\
  (p * qn (length x - 1) < qn (length (filter (fun v => qleb v q) x)))%Qc /\
  ((1 - p) * qn (length x - 1) < qn (length (filter (fun v => qleb q v) x)))%Qc.
Proof.
  intros x p q H. split; [|now apply quantile_shares]. intros y q' P (s & Ps & S & A). apply (quantile_fun x p); [|exact H]. exists s. rewrite (Permutation_length P).
  split; [now rewrite P|]. auto.
Qed.
Print Assumptions quantile_divides.

(** * Examples *)
Definition kx := map qz [4; 0; 10; 2; 2]%Z.
Example bs_knots_ex : match bs_finish (mkBsArgs (Some 5%Z) None 3 false None None) kx with Ok st => Some (map this (bs_all_knots st)) | _ => None end
  = Some [0; 0; 0; 0; 2; 10 # 3; 10; 10; 10; 10]%Q.
Proof. vm_compute. reflexivity. Qed.
Example crs_knots_ex : match crs_finish false (mkCrsArgs (Some 3%Z) None None (Some (qz 6)) NoConstraint) kx with Ok st => Some (map this (crs_all_knots st)) | _ => None end
  = Some [0; 2; 6]%Q.
Proof. vm_compute. reflexivity. Qed.
