From Coq Require Import ZArith Lqa Sorted Permutation Qround.
From Verif Require Import Base NumModel PySort RankSpec ContrastSpec ContrastProofs StateModel StateProofs LinModel LinProofs SplineModel SplineSpec SplineNumProofs SplineProofs BsSpec BsProofs.
Open Scope nat_scope.
Open Scope list_scope.

(** * np.unique *)
Lemma dedup_in l x : In x (dedup l) <-> In x l.
Proof.
  induction l as [|a l IH]; [reflexivity|]. cbn [dedup]. destruct l as [|b l]; [reflexivity|]. destruct (Qc_eq_bool a b) eqn:E.
  - apply Qc_eqb_spec in E. subst b. rewrite IH. cbn. tauto.
  - cbn [In]. rewrite IH. reflexivity.
Qed.
Lemma dedup_increasing l : nondecreasing l -> increasing (dedup l).
Proof.
  intros H. induction H as [|a l H IH F]; [constructor|]. cbn [dedup]. destruct l as [|b l]; [repeat constructor|]. destruct (Qc_eq_bool a b) eqn:E; auto.
  constructor; auto. apply Forall_forall. intros x Hx. rewrite dedup_in in Hx. rewrite Forall_forall in F.
  assert (Hab : (a < b)%Qc).
  { destruct (Qclt_le_dec a b) as [L|L]; auto. apply not_true_iff_false in E. exfalso. apply E, Qc_eqb_spec, Qcle_antisym; auto. apply F. now left. }
  destruct Hx as [->|Hx]; auto. eapply Qclt_le_trans; [exact Hab|]. inversion H as [|? ? _ Fb]; subst. rewrite Forall_forall in Fb. now apply Fb.
Qed.
Lemma np_unique_in l x : In x (np_unique l) <-> In x l.
Proof. unfold np_unique. rewrite dedup_in. apply py_sort_in. Qed.
Lemma np_unique_increasing l : increasing (np_unique l).
Proof. apply dedup_increasing, np_sort_sorted. Qed.
Lemma increasing_nondec l : increasing l -> nondecreasing l.
Proof. intros H. induction H as [|a l H IH F]; constructor; auto. eapply Forall_impl; [|exact F]. intros. now apply Qclt_le_weak. Qed.

(** * Percentiles lie between the data *)
Lemma this_pos_qn n : (0 <= this (qn n))%Q.
Proof. unfold qn. rewrite this_qz. change 0%Q with (inject_Z 0). rewrite <- Zle_Qle. lia. Qed.
Lemma percentile_between x p lo hi : x <> [] -> (0 <= p)%Qc -> (p <= qz 100)%Qc -> (forall v, In v x -> (lo <= v)%Qc /\ (v <= hi)%Qc) ->
  (lo <= percentile x p)%Qc /\ (percentile x p <= hi)%Qc.
Proof.
  intros Nx P0 P1 Hx. unfold percentile. set (s := np_sort x). assert (Ls : 1 <= length s).
  { unfold s, np_sort. rewrite py_sort_length. destruct x; [easy|cbn; lia]. }
  set (n := length s - 1). set (pos := (p / qz 100 * qn n)%Qc).
  assert (H0 : (0 <= p / qz 100)%Qc) by (apply Qcdiv_nonneg; auto; reflexivity).
  assert (H1 : (p / qz 100 <= 1)%Qc).
  { assert (E : (1 - p / qz 100 = (qz 100 - p) / qz 100)%Qc) by (field; discriminate).
    assert (0 <= 1 - p / qz 100)%Qc by (rewrite E; apply Qcdiv_nonneg; [qq; lra|reflexivity]). qq. lra. }
  assert (Hn : (0 <= qn n)%Qc) by (unfold Qcle; apply this_pos_qn).
  assert (Q0 : (0 <= pos)%Qc) by (now apply Qcmul_nonneg).
  assert (Q1 : (pos <= qn n)%Qc).
  { assert (0 <= (1 - p / qz 100) * qn n)%Qc by (apply Qcmul_nonneg; auto; qq; lra).
    unfold pos. replace (p / qz 100 * qn n)%Qc with (qn n - (1 - p / qz 100) * qn n)%Qc by ring. generalize dependent ((1 - p / qz 100) * qn n)%Qc. intros. qq. lra. }
  destruct (qfloor_spec pos) as [F1 F2]. set (f := qfloor pos) in *.
  assert (F0 : (0 <= f)%Z).
  { assert (this (qz (-1)) < this (qz f))%Q as X. { assert (this (qz (-1)) == -1)%Q by reflexivity. qq. lra. }
    rewrite !this_qz in X. rewrite <- Zlt_Qlt in X. lia. }
  assert (Fn : (f <= Z.of_nat n)%Z).
  { assert (this (qz f) <= this (qn n))%Q as X by (qq; lra). unfold qn in X. rewrite !this_qz in X. now rewrite <- Zle_Qle in X. }
  assert (Ef : qn (Z.to_nat f) = qz f) by (unfold qn; now rewrite Z2Nat.id). rewrite Ef.
  assert (In1 : forall k, k < length s -> (lo <= nth k s 0)%Qc /\ (nth k s 0 <= hi)%Qc).
  { intros k Hk. apply Hx, (py_sort_in qltb), nth_In, Hk. }
  destruct (In1 (Z.to_nat f)) as [A1 A2]; [unfold n in *; lia|]. destruct (In1 (Nat.min (Z.to_nat f + 1) n)) as [B1 B2]; [unfold n; lia|].
  set (u := nth (Z.to_nat f) s 0%Qc) in *. set (w := nth (Nat.min (Z.to_nat f + 1) n) s 0%Qc) in *.
  set (g := (pos - qz f)%Qc). assert (G0 : (0 <= g)%Qc) by (unfold g; qq; lra). assert (G1 : (0 <= 1 - g)%Qc) by (unfold g; qq; lra).
  clearbody g u w. clear -A1 A2 B1 B2 G0 G1.
  assert (C1 : (0 <= (1 - g) * (u - lo))%Qc) by (apply Qcmul_nonneg; auto; qq; lra).
  assert (C2 : (0 <= g * (w - lo))%Qc) by (apply Qcmul_nonneg; auto; qq; lra).
  assert (C3 : (0 <= (1 - g) * (hi - u))%Qc) by (apply Qcmul_nonneg; auto; qq; lra).
  assert (C4 : (0 <= g * (hi - w))%Qc) by (apply Qcmul_nonneg; auto; qq; lra).
  qq. split; nra.
Qed.
Lemma linspace_between n q : In q (linspace_inner 0%Qc (qz 100) n) -> (0 <= q)%Qc /\ (q <= qz 100)%Qc.
Proof.
  unfold linspace_inner. rewrite in_map_iff. intros (i & <- & Hi). apply in_seq in Hi.
  assert (Hn : (0 < qn (n + 1))%Qc). { unfold Qclt, qn. rewrite this_qz. change (inject_Z 0 < inject_Z (Z.of_nat (n + 1)))%Q. rewrite <- Zlt_Qlt. lia. }
  assert (Nz : qn (n + 1) <> 0%Qc) by (intros E; rewrite E in Hn; now apply Qclt_not_eq in Hn).
  assert (Hi0 : (0 <= qn i)%Qc) by (unfold Qcle; apply this_pos_qn).
  assert (Hi1 : (0 <= qn (n + 1) - qn i)%Qc). { qq. unfold qn. rewrite !this_qz. assert (inject_Z (Z.of_nat i) <= inject_Z (Z.of_nat (n + 1)))%Q by (rewrite <- Zle_Qle; lia). lra. }
  assert (E1 : (0 + (qz 100 - 0) * qn i / qn (n + 1) = qz 100 * (qn i / qn (n + 1)))%Qc) by (field; auto).
  assert (E2 : (qz 100 - qz 100 * (qn i / qn (n + 1)) = qz 100 * ((qn (n + 1) - qn i) / qn (n + 1)))%Qc) by (field; auto).
  rewrite E1. split; [apply Qcmul_nonneg; [discriminate|now apply Qcdiv_nonneg]|].
  assert (0 <= qz 100 - qz 100 * (qn i / qn (n + 1)))%Qc by (rewrite E2; apply Qcmul_nonneg; [discriminate|now apply Qcdiv_nonneg]).
  generalize dependent (qz 100 * (qn i / qn (n + 1)))%Qc. intros. qq. lra.
Qed.

(** * The knots *)
Lemma inc_ends l lo hi : increasing l -> In lo l -> In hi l -> (forall v, In v l -> (lo <= v)%Qc /\ (v <= hi)%Qc) ->
  first_knot l = lo /\ last_knot l = hi.
Proof.
  intros H Hlo Hhi Hb. unfold first_knot, last_knot. assert (Ll : 0 < length l) by (destruct l; [easy|cbn; lia]).
  destruct (In_nth l lo 0%Qc Hlo) as (i & Hi & Ei). destruct (In_nth l hi 0%Qc Hhi) as (j & Hj & Ej). split.
  - apply Qcle_antisym; [rewrite <- Ei; apply inc_nth_le; auto; lia|apply Hb, nth_In, Ll].
  - apply Qcle_antisym; [apply Hb, nth_In; lia|rewrite <- Ej; apply inc_nth_le; auto; lia].
Qed.
Lemma all_sorted_knots_spec x n_inner inner lower upper knots : all_sorted_knots x n_inner inner lower upper = Ok knots ->
  exists lo hi, lower_is lower x lo /\ upper_is upper x hi /\ increasing knots /\ 2 <= length knots /\ first_knot knots = lo /\ last_knot knots = hi /\
    (forall n, n_inner = Some n -> Z.of_nat (length knots) = n + 2)%Z /\
    (forall ks, inner = Some ks -> ~ In lo ks /\ ~ In hi ks /\ forall k, In k knots <-> k = lo \/ k = hi \/ In k ks).
Proof.
  unfold all_sorted_knots. intros E.
  match type of E with bind ?m _ = _ => destruct m as [lo|] eqn:El; [|discriminate] end. cbn [bind] in E.
  match type of E with bind ?m _ = _ => destruct m as [hi|] eqn:Eu; [|discriminate] end. cbn [bind] in E.
  destruct (qltb hi lo) eqn:Elh; [discriminate|]. apply qltb_not in Elh.
  match type of E with bind ?m _ = _ => destruct m as [[ks n]|] eqn:Ep; [|discriminate] end. cbn [bind fst snd] in E.
  destruct (Z.eqb_spec (Z.of_nat (length (np_unique (lo :: hi :: ks)))) (n + 2)) as [En|]; [|discriminate].
  assert (knots = np_unique (lo :: hi :: ks)) by congruence. subst knots. clear E.
  assert (Hlo : lower_is lower x lo).
  { destruct lower; [now injection El|]. destruct x as [|a x]; [discriminate|]. assert (lo = np_min (a :: x)) by congruence. subst. now apply np_min_least. }
  assert (Hhi : upper_is upper x hi).
  { destruct upper; [now injection Eu|]. destruct x as [|a x]; [discriminate|]. assert (hi = np_max (a :: x)) by congruence. subst. now apply np_max_greatest. }
  assert (K : (forall k, In k ks -> (lo <= k)%Qc /\ (k <= hi)%Qc) /\ (0 <= n)%Z /\ (forall m, n_inner = Some m -> m = n) /\
     (forall l, inner = Some l -> ks = np_unique l /\ n = Z.of_nat (length (np_unique l)))).
  { destruct inner as [l|].
    - set (u := np_unique l) in *. cbv zeta in Ep. destruct (match n_inner with Some _ => _ | None => _ end) eqn:Em; [discriminate|].
      destruct (existsb (fun k => qltb k lo) u) eqn:E1; [discriminate|]. destruct (existsb (fun k => qltb hi k) u) eqn:E2; [discriminate|].
      injection Ep as <- <-. split; [|split; [lia|split]].
      + intros k Hk. split; apply qltb_not; [exact (proj1 (qltb_existsb_false _ _) E1 k Hk)|exact (proj1 (qltb_existsb_false _ _) E2 k Hk)].
      + intros m ->. apply negb_false_iff, Z.eqb_eq in Em. exact Em.
      + intros l' [= <-]. auto.
    - destruct n_inner as [m|]; [|discriminate]. destruct (Z.ltb_spec m 0); [discriminate|]. cbv zeta in Ep.
      set (f := np_unique (filter (fun v => qleb lo v && qleb v hi) x)) in *.
      assert (Hf : forall v, In v f -> (lo <= v)%Qc /\ (v <= hi)%Qc).
      { intros v Hv. unfold f in Hv. rewrite np_unique_in in Hv. apply filter_In in Hv as [_ Hv]. apply andb_true_iff in Hv as [V1 V2]. apply qleb_iff in V1, V2. auto. }
      destruct f as [|a f0] eqn:Ef.
      + destruct (m =? 0)%Z; [|discriminate]. injection Ep as <- <-. split; [easy|]. split; auto. split; [congruence|discriminate].
      + rewrite <- Ef in *. injection Ep as <- <-. split; [|split; auto; split; [congruence|discriminate]].
        intros k Hk. apply in_map_iff in Hk as (q & <- & Hq). apply linspace_between in Hq as [Q1 Q2]. apply percentile_between; auto. rewrite Ef; easy. }
  destruct K as (K1 & K2 & K3 & K4).
  assert (Inc := np_unique_increasing (lo :: hi :: ks)). set (all := np_unique (lo :: hi :: ks)) in *.
  assert (Ha : forall k, In k all <-> lo = k \/ hi = k \/ In k ks) by (intros k; apply np_unique_in).
  assert (Hb : forall v, In v all -> (lo <= v)%Qc /\ (v <= hi)%Qc).
  { intros v Hv. apply Ha in Hv as [<-|[<-|Hv]]; auto; split; auto; apply Qcle_refl. }
  destruct (inc_ends all lo hi Inc) as [F L]; auto; [apply Ha; auto|apply Ha; auto|].
  exists lo, hi. repeat (split; [first [assumption|lia]|]). split.
  - intros m Hm. apply K3 in Hm. lia.
  - intros l Hl. apply K4 in Hl as [-> ->].
    assert (Du : NoDup all /\ NoDup (np_unique l)).
    { assert (D : forall z, increasing z -> NoDup z).
      { intros z Hz. induction Hz as [|a z Hz IH Fa]; constructor; auto. intros X. rewrite Forall_forall in Fa. apply Fa in X. now apply Qclt_not_eq in X. }
      split; apply D; auto. apply np_unique_increasing. }
    assert (Not : forall e, In e (np_unique l) -> (e = lo \/ e = hi) -> False).
    { intros e He Hc. assert (incl all ((if Qc_eq_bool e lo then hi else lo) :: np_unique l)) as I.
      { intros v Hv. apply Ha in Hv. destruct (Qc_eq_bool e lo) eqn:Ee.
        - apply Qc_eqb_spec in Ee. subst e. destruct Hv as [<-|[<-|Hv]]; cbn; auto.
        - destruct Hc as [-> | ->]; [now rewrite (proj2 (Qc_eqb_spec lo lo) eq_refl) in Ee|]. destruct Hv as [<-|[<-|Hv]]; cbn; auto. }
      apply NoDup_incl_length in I; [|apply Du]. cbn [length] in I. lia. }
    split; [|split].
    + intros X. apply (Not lo); auto. now apply np_unique_in.
    + intros X. apply (Not hi); auto. now apply np_unique_in.
    + intros k. rewrite Ha, np_unique_in. split; intros [<-|[<-|X]]; auto.
Qed.

(** * Column counts *)
Lemma free_crs_shape x knots cyclic dm : free_crs_dmatrix x knots cyclic = Ok dm -> has_shape (length x) (crs_dim cyclic knots) dm.
Proof.
  unfold free_crs_dmatrix, crs_dim. intros E.
  assert (Lx : exists x', (if cyclic then map_cyclic x (np_min knots) (np_max knots) else Ok x) = Ok x' -> length x' = length x) by (exists x; auto).
  destruct (if cyclic then map_cyclic x (np_min knots) (np_max knots) else Ok x) as [x'|] eqn:Ex; [|discriminate]. cbn [bind] in E.
  assert (Lx' : length x' = length x).
  { destruct cyclic; [|congruence]. unfold map_cyclic in Ex. destruct (qleb _ _); [discriminate|]. injection Ex as <-. now rewrite !map_length. }
  destruct (if cyclic then cyclic_f knots else natural_f knots) as [f|]; [|discriminate]. cbn [bind] in E. injection E as <-.
  split; [now rewrite map_length|]. rewrite Forall_map. apply Forall_forall. intros v _.
  destruct (base_functions v knots) as [[[[? ?] ?] ?] ?]. rewrite map_length, seq_length. destruct cyclic; lia.
Qed.
Lemma absorb_shape qr r k dm cn k' dm' : absorb_constraints qr (k, dm) cn = Ok (k', dm') -> length dm = r ->
  k = fst cn /\ k' = k - length (snd cn) /\ has_shape r k' dm'.
Proof.
  unfold absorb_constraints. cbn [fst snd]. intros E L. destruct (qr _ _) as [p|]; [|discriminate]. cbn [bind] in E.
  destruct (Nat.eqb_spec k (fst cn)) as [->|]; [|discriminate]. injection E as <- <-. split; auto. split; auto. unfold matmul. split; [now rewrite map_length|].
  rewrite Forall_map. apply Forall_forall. intros. now rewrite map_length, seq_length.
Qed.
Definition n_constraints (c : constr) : nat := match c with NoConstraint => 0 | Centering => 1 | Constraint _ rows => length rows end.
Lemma crs_finish_spec cyclic a x st : crs_finish cyclic a x = Ok st ->
  exists n_inner, all_sorted_knots x n_inner (crs_knots a) (crs_lower a) (crs_upper a) = Ok (crs_all_knots st) /\
    (forall df, crs_df a = Some df -> 1 <= df /\ n_inner = Some (df - 2 + Z.of_nat (n_constraints (crs_constr a)) + if cyclic then 1 else 0))%Z /\
    match crs_constr a, crs_cons st with
    | NoConstraint, None => True
    | Centering, Some cn => (let* dm := free_crs_dmatrix x (crs_all_knots st) cyclic in centering_row (crs_dim cyclic (crs_all_knots st)) dm) = Ok cn
    | Constraint k rows, Some cn => cn = (k, rows) /\ k = crs_dim cyclic (crs_all_knots st)
    | _, _ => False
    end.
Proof.
  unfold crs_finish. intros E.
  assert (E' : (let* n_inner := match crs_df a with
        | None => Ok None
        | Some df =>
            let min_df := if negb cyclic && Nat.eqb (n_constraints (crs_constr a)) 0 then 2%Z else 1%Z in
            if (df <? min_df)%Z then Err (ValueError "'df' must be greater than or equal to")
            else
              let n := (df - 2 + Z.of_nat (n_constraints (crs_constr a)))%Z in
              Ok (Some (if cyclic then n + 1 else n)%Z)
        end in
      let* knots := all_sorted_knots x n_inner (crs_knots a) (crs_lower a) (crs_upper a) in
      match crs_constr a with
      | NoConstraint => Ok (mkCrs knots None)
      | c =>
          let* cn := match c with
            | Constraint k rows => Ok (k, rows)
            | _ => let* dm := free_crs_dmatrix x knots cyclic in centering_row (crs_dim cyclic knots) dm
            end in
          if Nat.eqb (fst cn) (crs_dim cyclic knots) then Ok (mkCrs knots (Some cn))
          else Err (ValueError "Constraints array should have a column for each parameter")
      end) = Ok st) by (destruct (crs_df a), (crs_knots a); try exact E; discriminate).
  clear E. rename E' into E.
  match type of E with bind ?m _ = _ => destruct m as [ni|] eqn:En; [|discriminate] end. cbn [bind] in E.
  destruct (all_sorted_knots _ _ _ _ _) as [knots|] eqn:Ek; [|discriminate]. cbn [bind] in E. exists ni.
  assert (K : crs_all_knots st = knots /\ match crs_constr a, crs_cons st with
    | NoConstraint, None => True
    | Centering, Some cn => (let* dm := free_crs_dmatrix x (crs_all_knots st) cyclic in centering_row (crs_dim cyclic (crs_all_knots st)) dm) = Ok cn
    | Constraint k rows, Some cn => cn = (k, rows) /\ k = crs_dim cyclic (crs_all_knots st)
    | _, _ => False
    end).
  { destruct (crs_constr a) as [| |k rows].
    - injection E as <-. cbn [crs_all_knots crs_cons]. auto.
    - match type of E with bind ?m _ = _ => destruct m as [cn|] eqn:Ec; [|discriminate] end. cbn [bind] in E.
      destruct (Nat.eqb_spec (fst cn) (crs_dim cyclic knots)); [|discriminate]. injection E as <-. cbn [crs_all_knots crs_cons]. auto.
    - cbn [bind fst] in E. destruct (Nat.eqb_spec k (crs_dim cyclic knots)); [|discriminate]. injection E as <-. cbn [crs_all_knots crs_cons]. auto. }
  destruct K as [-> K]. split; auto. split; auto. intros df Ed. rewrite Ed in En. cbv zeta in En.
  destruct (Z.ltb_spec df (if negb cyclic && Nat.eqb (n_constraints (crs_constr a)) 0 then 2 else 1)%Z) as [|L]; [discriminate|]. injection En as <-.
  split; [destruct (negb cyclic && _)%bool; lia|]. f_equal. destruct cyclic; lia.
Qed.
Lemma centering_row_shape n dm cn : centering_row n dm = Ok cn -> fst cn = n /\ length (snd cn) = 1.
Proof. unfold centering_row. destruct dm; [discriminate|]. intros [= <-]. auto. Qed.
Lemma crs_columns_ok qr cyclic a x st y k dm : crs_finish cyclic a x = Ok st -> crs_transform qr cyclic st y = Ok (k, dm) ->
  exists v, as_vector y = Ok v /\ has_shape (length v) k dm /\
    k = crs_dim cyclic (crs_all_knots st) - n_constraints (crs_constr a) /\ (forall df, crs_df a = Some df -> Z.of_nat k = df).
Proof.
  intros Hf E. destruct (crs_finish_spec _ _ _ _ Hf) as (ni & Ek & Hn & Hc). unfold crs_transform in E.
  destruct (as_vector y) as [v|]; [|discriminate]. cbn [bind] in E. destruct (free_crs_dmatrix v _ _) as [fm|] eqn:Ef; [|discriminate]. cbn [bind] in E.
  apply free_crs_shape in Ef. exists v. split; auto.
  assert (K : k = crs_dim cyclic (crs_all_knots st) - n_constraints (crs_constr a) /\ has_shape (length v) k dm).
  { unfold absorb_opt in E. destruct (crs_constr a) as [| |kc rows], (crs_cons st) as [cn|]; try easy.
    - injection E as <- <-. cbn. rewrite Nat.sub_0_r. auto.
    - destruct (free_crs_dmatrix x _ _); [|discriminate]. cbn [bind] in Hc. apply centering_row_shape in Hc as [C1 C2].
      apply (absorb_shape qr (length v)) in E as (E1 & E2 & E3); [|apply Ef]. cbn. rewrite <- C2. auto.
    - destruct Hc as [-> ->]. apply (absorb_shape qr (length v)) in E as (E1 & E2 & E3); [|apply Ef]. cbn in *. auto. }
  destruct K as [Kk Ks]. split; auto. split; auto. intros df Ed. destruct (Hn df Ed) as [D1 D2]. subst ni.
  apply all_sorted_knots_spec in Ek as (lo & hi & _ & _ & _ & K2 & _ & _ & Kn & _). specialize (Kn _ eq_refl).
  unfold crs_dim in Kk. destruct cyclic; lia.
Qed.
