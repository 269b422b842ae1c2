(** C112: more knots for cr() and cc() only add curves. *)
From Coq Require Import ZArith Sorted.
From Verif Require Import Base NumModel RankSpec ContrastSpec StateModel LinModel SplineModel SplineSpec CrsProps CrsSpec CrsSplineProps CrsNestProofs.
Open Scope nat_scope.
Open Scope list_scope.

Lemma ends l : 2 <= length l -> l = first_knot l :: removelast (tl l) ++ [last_knot l].
Proof.
  destruct l as [|x l]; [cbn; lia|]. intros H. unfold first_knot, last_knot. cbn [nth length tl]. replace (S (length l) - 1) with (length l) by lia. f_equal.
  destruct l as [|y l _] using rev_ind; [cbn in H; lia|]. rewrite removelast_last, app_length, Nat.add_comm. cbn [length Nat.add nth]. now rewrite app_nth2, Nat.sub_diag by lia.
Qed.
Lemma sub_length l l' : sub l l' -> length l <= length l'. Proof. induction 1; cbn; lia. Qed.
Lemma cyclic_more f e m m' s : increasing (f :: m ++ [e]) -> increasing (f :: m' ++ [e]) -> incl (f :: m ++ [e]) (f :: m' ++ [e]) ->
  is_cyclic_spline (f :: m ++ [e]) s -> is_cyclic_spline (f :: m' ++ [e]) s.
Proof.
    intros H H' Hc Hs.
    assert (Hm : sub m m').
    { assert (Em : forall u, increasing (f :: u ++ [e]) -> increasing u /\ Forall (fun x => (f < x)%Qc /\ (x < e)%Qc) u).
      { intros u Hu. inversion Hu as [|? ? H1 F]; subst. clear - H1 F. induction u as [|x u IH]; [repeat constructor|]. cbn in *. inversion H1 as [|? ? H2 F2]; subst. inversion F; subst.
        destruct IH as [I1 I2]; auto. apply Forall_app in F2. destruct F2 as [F2 F3]. inversion F3; subst. split; constructor; auto. }
      destruct (Em _ H) as [M1 M2], (Em _ H') as [M1' _]. apply inc_sub; auto. intros w Hw. rewrite Forall_forall in M2. specialize (M2 _ Hw).
      destruct (Hc w) as [<-|Hin]; [right; apply in_or_app; auto| |].
      - destruct M2 as [M2 _]. exfalso. exact (Qclt_not_eq _ _ M2 eq_refl).
      - apply in_app_or in Hin. destruct Hin as [|[<-|[]]]; auto. destruct M2 as [_ M2]. exfalso. exact (Qclt_not_eq _ _ M2 eq_refl). }
    apply (sub_chain (fun k => is_cyclic_spline k s) [e] 1) with (l := m) (pre := [f]); auto.
    intros l1 z l2 Hi Hn. apply insert_cyclic; auto. rewrite !app_length. cbn. lia.
Qed.
(** A spline on some knots is one on more; for a cyclic one the outer knots stay. *)
Lemma spline_on_more cyclic knots knots' s : increasing knots -> increasing knots' -> incl knots knots' -> 3 <= length knots ->
  (cyclic = true -> first_knot knots' = first_knot knots /\ last_knot knots' = last_knot knots) -> is_spline cyclic knots s -> is_spline cyclic knots' s.
Proof.
  intros H H' Hc Hl He Hs. assert (S0 := inc_sub _ H' _ H Hc). assert (L := sub_length _ _ S0). destruct cyclic; cbn in *.
  - destruct (He eq_refl) as [E1 E2]. assert (K := ends knots ltac:(lia)). assert (K' := ends knots' ltac:(lia)). rewrite E1, E2 in K'.
    clear E1 E2 He. generalize dependent (first_knot knots). generalize dependent (last_knot knots). generalize dependent (removelast (tl knots)). generalize dependent (removelast (tl knots')).
    intros m' m e f K K'. subst knots knots'. apply (cyclic_more f e m m' s); auto.
  - assert (G := sub_chain (fun k => 2 <= length k /\ is_natural_spline k s) [] 0). rewrite <- (app_nil_r knots') in H' |- *. rewrite <- (app_nil_r knots) in Hs, Hl.
    apply (G) with (l := knots) (pre := []); auto; [|split; auto; cbn; lia]. intros l1 z l2 Hi _ [G1 G2]. split; [rewrite app_length in *; cbn; lia|]. apply insert_natural; auto.
Qed.

(** C112: let every knot of one cr() or cc(), with the bounds, be a knot of another; for cc() with the same bounds.  If the
    second has no constraint, or both are centered over the same training data, then every curve of the first on all data is a
    curve of the second: the models are nested. *)
Theorem crs_nested : forall qr cyclic a x st y0 k dm0 a' x' st' y0' k' dm0', qr_sound qr ->
  crs_finish cyclic a x = Ok st -> crs_transform qr cyclic st y0 = Ok (k, dm0) -> enough_knots cyclic (crs_all_knots st) -> well_formed (crs_constr a) ->
  crs_finish cyclic a' x' = Ok st' -> crs_transform qr cyclic st' y0' = Ok (k', dm0') ->
  (forall t, In t (crs_all_knots st) -> In t (crs_all_knots st')) ->
  (cyclic = true -> first_knot (crs_all_knots st') = first_knot (crs_all_knots st) /\ last_knot (crs_all_knots st') = last_knot (crs_all_knots st)) ->
  crs_constr a' = NoConstraint \/ crs_constr a = Centering /\ crs_constr a' = Centering /\ x' = x ->
  forall gam, length gam = k -> exists gam', length gam' = k' /\
    forall y v, as_vector y = Ok v -> exists dm dm', crs_transform qr cyclic st y = Ok (k, dm) /\ crs_transform qr cyclic st' y = Ok (k', dm') /\
      map (fun row => inner row gam) dm = map (fun row => inner row gam') dm'.
Proof.
  intros qr cyclic a x st y0 k dm0 a' x' st' y0' k' dm0' Hq Hf Ht He Hw Hf' Ht' Hc Hb Hcon gam Hg.
  destruct (crs_curves qr cyclic a x st y0 k dm0 Hq Hf He Hw Ht gam Hg) as (s & Hs & Hm & _ & Hd).
  destruct (crs_knots_spec _ _ _ _ Hf) as (_ & _ & _ & _ & _ & Hinc & _), (crs_knots_spec _ _ _ _ Hf') as (_ & _ & _ & _ & _ & Hinc' & _).
  assert (L3 : 3 <= length (crs_all_knots st)) by (unfold enough_knots in He; destruct cyclic; lia).
  assert (Ll := sub_length _ _ (inc_sub _ Hinc' _ Hinc Hc)).
  assert (He' : enough_knots cyclic (crs_all_knots st')) by (unfold enough_knots in *; destruct cyclic; lia).
  destruct (crs_all_curves qr cyclic a' x' st' y0' k' dm0' Hq Hf' He') with (s := s) as (gam' & Lg & Hd' & _); auto.
  - destruct Hcon as [E|(_ & E & _)]; rewrite E; exact I.
  - destruct Hcon as [E|(_ & E & _)]; rewrite E; exact I.
  - apply (spline_on_more cyclic (crs_all_knots st)); auto.
  - destruct Hcon as [E|(E & E' & Ex)]; [rewrite E; exact I|]. rewrite E' , Ex. rewrite E in Hm. exact Hm.
  - exists gam'. split; auto. intros y v Ey. destruct (Hd y v Ey) as (dm & T & M), (Hd' y v Ey) as (dm' & T' & M'). exists dm, dm'. split; auto. split; auto. now rewrite M, M'.
Qed.
Print Assumptions crs_nested.

(** * Examples *)
(** Knots at 1 and 2 between 0 and 4, and knots at 1, 2 and 3. *)
Definition nest_cargs ks := mkCrsArgs None (Some ks) None None NoConstraint.
Definition nest_x : list Qc := map qz [0; 4]%Z.
Example crs_nested_example : forall cyclic, exists st st', crs_finish cyclic (nest_cargs (map qz [1; 2]%Z)) nest_x = Ok st /\ crs_finish cyclic (nest_cargs (map qz [3; 1; 2]%Z)) nest_x = Ok st' /\
  enough_knots cyclic (crs_all_knots st) /\ (forall t, In t (crs_all_knots st) -> In t (crs_all_knots st')) /\
  first_knot (crs_all_knots st') = first_knot (crs_all_knots st) /\ last_knot (crs_all_knots st') = last_knot (crs_all_knots st).
Proof.
  intros cyclic. destruct (crs_finish cyclic (nest_cargs (map qz [1; 2]%Z)) nest_x) as [st|] eqn:E; [|destruct cyclic; vm_compute in E; discriminate].
  destruct (crs_finish cyclic (nest_cargs (map qz [3; 1; 2]%Z)) nest_x) as [st'|] eqn:E'; [|destruct cyclic; vm_compute in E'; discriminate].
  exists st, st'. split; auto. split; auto.
  assert (K : crs_all_knots st = map qz [0; 1; 2; 4]%Z) by (destruct cyclic; vm_compute in E; injection E as <-; vm_compute; reflexivity).
  assert (K' : crs_all_knots st' = map qz [0; 1; 2; 3; 4]%Z) by (destruct cyclic; vm_compute in E'; injection E' as <-; vm_compute; reflexivity).
  rewrite K, K'. split; [unfold enough_knots; destruct cyclic; cbn [map length]; lia|]. split; [|split; reflexivity]. intros t Ht. cbn [map In] in *. tauto.
Qed.
(** With the values 0, 1, 0, 0 at the knots, at 3: the same value, with the curve's own values at the new knots. *)
Definition nest_run cyclic ks ts := match (let* st := crs_finish cyclic (nest_cargs (map qz ks)) nest_x in crs_transform (fun _ _ => Err OutOfFuel) cyclic st (A1 ts)) with
  | Ok (_, dm) => Some dm | _ => None end.
Example nest_values : exists v w, 
  option_map (map (fun row => inner row (map qz [0; 1; 0; 0]%Z))) (nest_run false [1; 2]%Z [qz 3; Q2Qc (7 # 2)]) = Some [v; w] /\
  option_map (map (fun row => inner row [0; 1; 0; v; 0]%Qc)) (nest_run false [1; 2; 3]%Z [qz 3; Q2Qc (7 # 2)]) = Some [v; w] /\ v <> 0%Qc /\ w <> 0%Qc.
Proof. eexists _, _. split; [vm_compute; reflexivity|]. split; [vm_compute; reflexivity|]. split; discriminate. Qed.
