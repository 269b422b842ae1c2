(** Rewriting a factor's code, and its memorization passes. *)
From Coq Require Import Ascii Sorted Permutation.
From Verif Require Import Base TokensModel TokensSpec TokensProofs BuildModel EvalModel EvalSpec EvalTextProofs EvalMarkProofs EvalCaptureProofs EvalBinsProofs MemorizeModel MemorizeSpec.
Open Scope string_scope.
Open Scope list_scope.

(** * Calls in terms of marks *)
Fixpoint takem (d : Z) (ml : list mtok) : list mtok :=
  match ml with [] => [] | t :: r => t :: if Z.eqb (d + dz (fst t)) 0 then [] else takem (d + dz (fst t)) r end.
Lemma take_expand ml : forall pd d, d <> 0%Z -> Forall good_mark ml -> mok pd ml -> take_call d (flat_map expand ml) = flat_map expand (takem d ml).
Proof.
  induction ml as [|[t [o|]] ml IH]; intros pd d Hd Hg Hm; [reflexivity| |]; inversion Hg as [|? ? G1 G2]; subst; destruct Hm as [H1 H2].
  - destruct H1 as [A [B [C [D E]]]]; [discriminate|]. destruct G1 as [[i [s ->]] _].
    assert (Ed : dz t = 0%Z) by (unfold dz; rewrite C, D; reflexivity).
    cbn [takem fst]. rewrite Ed, Z.add_0_r. destruct (Z.eqb_spec d 0); [contradiction|]. cbn [flat_map]. unfold expand at 1 3. cbn [snd].
    unfold method_of. cbn [app take_call].
    change (dz (PNAME, obj_name i s)) with 0%Z. change (dz (POTHER, ".")) with 0%Z. change (dz (PNAME, "transform")) with 0%Z. rewrite !Z.add_0_r.
    destruct (Z.eqb_spec d 0); [contradiction|]. do 3 f_equal. eapply IH; eassumption.
  - cbn [flat_map takem fst]. unfold expand at 1 3. cbn [snd fst app take_call]. f_equal. destruct (Z.eqb_spec (d + dz t) 0); [reflexivity|]. eapply IH; eassumption.
Qed.
Lemma takem_prefix ml : forall d, exists suf, ml = takem d ml ++ suf.
Proof.
  induction ml as [|t r IH]; intros d; [now exists []|]. cbn. destruct (Z.eqb _ 0); [exists r; reflexivity|].
  destruct (IH (d + dz (fst t))%Z) as [suf E]. exists suf. cbn. now rewrite <- E.
Qed.
Lemma depth_app a b : depth (a ++ b) = (depth a + depth b)%Z.
Proof. induction a as [|t r IH]; [reflexivity|]. cbn [app depth]. rewrite IH. lia. Qed.
Lemma depth_cons t r : depth (t :: r) = (dz t + depth r)%Z.
Proof. reflexivity. Qed.
Lemma takem_len ml : forall d n, (0 < d)%Z ->
  (n < List.length (takem d ml) <-> n < List.length ml /\ forall b1 t b2, firstn n (map fst ml) = b1 ++ t :: b2 -> (0 < d + depth (b1 ++ [t]))%Z).
Proof.
  induction ml as [|t r IH]; intros d n Hd; [cbn; split; [lia|tauto]|]. cbn [takem List.length]. pose proof (dz_ge (fst t)) as Hz.
  destruct n as [|n].
  { split; [intros _|lia]. split; [lia|]. intros b1 x b2 E. cbn in E. destruct b1; discriminate. }
  destruct (Z.eqb_spec (d + dz (fst t)) 0) as [E0|E0].
  - cbn. split; [lia|]. intros [_ H]. specialize (H [] (fst t) (firstn n (map fst r)) eq_refl). cbn [app] in H. rewrite depth_cons in H. cbn [depth] in H. lia.
  - rewrite <- Nat.succ_lt_mono, IH by lia. split.
    + intros [A B]. split; [lia|]. intros b1 x b2 E. cbn in E. destruct b1 as [|y b1]; cbn in E; injection E as Ey E; [subst x|subst y].
      * cbn [app]. rewrite depth_cons. cbn [depth]. lia.
      * specialize (B _ _ _ E). cbn [app]. rewrite depth_cons. lia.
    + intros [A B]. split; [lia|]. intros b1 x b2 E. specialize (B (fst t :: b1) x b2). cbn [map firstn app] in B. rewrite E in B. specialize (B eq_refl).
      rewrite depth_cons in B. lia.
Qed.

Definition objs_of (ml : list mtok) : list string := flat_map (fun t => match snd t with Some o => [o] | None => [] end) ml.
Lemma objs_app a b : objs_of (a ++ b) = objs_of a ++ objs_of b.
Proof. unfold objs_of. apply flat_map_app. Qed.
Lemma object_in_iff p ml : object_in p ml = true <-> exists o, In o (objs_of ml) /\ p o = true.
Proof.
  unfold object_in, objs_of. rewrite existsb_exists. split.
  - intros [[t [o|]] [A B]]; cbn in B; [|discriminate]. exists o. split; [|exact B]. apply in_flat_map. exists (t, Some o). split; [exact A|now left].
  - intros [o [A B]]. apply in_flat_map in A. destruct A as [[t [o'|]] [A C]]; [|destruct C]. destruct C as [->|[]]. exists (t, Some o). auto.
Qed.
Lemma object_in_eqo o ml : object_in (eqo o) ml = true <-> In o (objs_of ml).
Proof.
  rewrite object_in_iff. unfold eqo. split.
  - intros [o' [A B]]. apply String.eqb_eq in B. now subst.
  - intros H. exists o. split; [exact H|apply String.eqb_refl].
Qed.
Fixpoint after (o : string) (ml : list mtok) : list mtok :=
  match ml with
  | [] => []
  | (_, Some x) :: r => if String.eqb x o then r else after o r
  | (_, None) :: r => after o r
  end.
Lemma after_split o ml : In o (objs_of ml) -> exists A t, ml = A ++ (t, Some o) :: after o ml /\ ~ In o (objs_of A).
Proof.
  induction ml as [|[t [x|]] r IH]; intros H; [destruct H| |]; cbn in H |- *.
  - destruct (String.eqb_spec x o) as [->|Hx]; [exists [], t; split; [reflexivity|easy]|].
    destruct H as [->|H]; [congruence|]. destruct (IH H) as [A [u [E N]]]. exists ((t, Some x) :: A), u. split; [cbn; now rewrite <- E|]. cbn. intros [X|X]; [congruence|exact (N X)].
  - destruct (IH H) as [A [u [E N]]]. exists ((t, None) :: A), u. split; [cbn; now rewrite <- E|exact N].
Qed.
Definition call_marks (o : string) (ml : list mtok) : list mtok := match after o ml with [] => [] | u :: r => u :: takem 1 r end.
Lemma call_marks_prefix o ml : exists suf, after o ml = call_marks o ml ++ suf.
Proof.
  unfold call_marks. destruct (after o ml) as [|u r]; [now exists []|]. destruct (takem_prefix r 1%Z) as [suf E]. exists suf. cbn. now rewrite <- E.
Qed.
Definition dep (ml : list mtok) (o o' : string) : bool := object_in (eqo o') (call_marks o ml).
Definition rank (ml : list mtok) (o : string) : nat := List.length ml - List.length (after o ml).
Lemma dep_rank_lemma ml o o' : NoDup (objs_of ml) -> In o (objs_of ml) -> In o' (objs_of ml) -> dep ml o o' = true -> rank ml o < rank ml o'.
Proof.
  intros Hnd Ho Ho' Hd. unfold dep in Hd. apply object_in_eqo in Hd. destruct (call_marks_prefix o ml) as [suf Hs].
  assert (H1 : In o' (objs_of (after o ml))) by (rewrite Hs, objs_app; apply in_app_iff; now left).
  destruct (after_split o ml Ho) as [A [t [E N]]].
  destruct (after_split o' (after o ml) H1) as [B [u [E2 N2]]].
  assert (E3 : after o' ml = after o' (after o ml)).
  { assert (G : forall l1 l2, ~ In o' (objs_of l1) -> after o' (l1 ++ l2) = after o' l2).
    { induction l1 as [|[x [y|]] l1 IH]; intros l2 Hn; [reflexivity| |]; cbn in Hn |- *.
      - destruct (String.eqb_spec y o') as [->|]; [exfalso; auto|]. apply IH. auto.
      - apply IH. auto. }
    rewrite E at 1. change ((t, Some o) :: after o ml) with ([(t, Some o)] ++ after o ml). rewrite app_assoc. apply G.
    rewrite objs_app, in_app_iff. intros H. rewrite E, objs_app in Hnd.
    assert (In o' (objs_of A ++ [o])) as H' by (apply in_app_iff; exact H).
    change (objs_of ((t, Some o) :: after o ml)) with ([o] ++ objs_of (after o ml)) in Hnd. rewrite app_assoc in Hnd.
    apply (NoDup_remove_2 (objs_of A ++ [o] ++ objs_of B) (objs_of (after o' (after o ml))) o').
    - rewrite E2, objs_app in Hnd. cbn [objs_of flat_map snd app] in Hnd. rewrite <- !app_assoc in Hnd |- *. exact Hnd.
    - rewrite !in_app_iff in *. tauto. }
  unfold rank. rewrite E3. apply (f_equal (@List.length _)) in E2. rewrite app_length in E2. cbn in E2.
  apply (f_equal (@List.length _)) in E. rewrite app_length in E. cbn in E. lia.
Qed.

(** * Environments *)
Section Envs.
Context {val : Type}.
Lemma dget_dset (k key : string) (v : val) d : dget String.eqb k (dset String.eqb key v d) = if String.eqb k key then Some v else dget String.eqb k d.
Proof.
  induction d as [|[k' v'] d IH]; cbn.
  - rewrite String.eqb_sym. reflexivity.
  - destruct (String.eqb_spec k' key) as [->|Hn]; cbn.
    + rewrite (String.eqb_sym key k). destruct (String.eqb k key); reflexivity.
    + rewrite IH. destruct (String.eqb_spec k' k) as [->|]; [|reflexivity]. destruct (String.eqb_spec k key); [contradiction|reflexivity].
Qed.
Lemma mapM_lookup (e : @env val) names items :
  mapM (fun name => match vlookup (new_vld e) name with Some v => Ok (name, v) | None => Err KeyError end) names = Ok items ->
  map fst items = names /\ Forall (fun p => vlookup e (fst p) = Some (snd p)) items.
Proof.
  revert items. induction names as [|n names IH]; intros items H; cbn in H.
  - injection H as <-. split; [reflexivity|constructor].
  - destruct (vlookup e n) as [v|] eqn:E; [|discriminate]. cbn in H.
    destruct (mapM _ names) as [items'|] eqn:E2; [|discriminate]. injection H as <-. destruct (IH _ eq_refl) as [A B]. cbn. split; [now rewrite A|constructor; auto].
Qed.
Lemma dict_of_lookup (f : string -> option val) (items : list (string * val)) k : Forall (fun p => f (fst p) = Some (snd p)) items ->
  dget String.eqb k (dict_of String.eqb items) = if str_in k (map fst items) then f k else None.
Proof.
  unfold dict_of. intros H.
  assert (G : forall items d, Forall (fun p => f (fst p) = Some (snd p)) items ->
    dget String.eqb k (fold_left (fun d kv => dset String.eqb (fst kv) (snd kv) d) items d) = if str_in k (map fst items) then f k else dget String.eqb k d).
  { clear. induction items as [|[n v] items IH]; intros d H; [reflexivity|]. inversion H as [|? ? H1 H2]; subst. cbn [fold_left map fst snd].
    rewrite IH by exact H2. rewrite dget_dset. unfold str_in. cbn [existsb fst] in *. destruct (String.eqb_spec k n) as [->|]; [|reflexivity].
    cbn [orb]. destruct (existsb _ _); cbn in H1; congruence. }
  rewrite G by exact H. reflexivity.
Qed.
(** The subset of an environment holds exactly the names asked for, with their values. *)
Lemma env_subset_lookup (e : @env val) names e' : env_subset e names = Ok e' ->
  forall s, vlookup e' s = if str_in s names then vlookup e s else None.
Proof.
  unfold env_subset. intros H. destruct (mapM _ names) as [items|] eqn:E; [|discriminate]. cbn in H. injection H as <-.
  destruct (mapM_lookup _ _ _ E) as [A B]. intros s. cbn [vlookup of_dict]. unfold of_dict. rewrite (dict_of_lookup (vlookup e) items s B), A.
  destruct (str_in s names); [|reflexivity]. now destruct (vlookup e s).
Qed.
Lemma env_subset_ok (e : @env val) names : Forall (fun n => vlookup e n <> None) names -> exists e', env_subset e names = Ok e'.
Proof.
  intros H. unfold env_subset.
  assert (G : exists items, mapM (fun name => match vlookup (new_vld e) name with Some v => Ok (name, v) | None => Err KeyError end) names = Ok items).
  { induction H as [|n names H1 H2 IH]; [eexists; reflexivity|]. cbn [mapM]. change (vlookup (new_vld e) n) with (vlookup e n). destruct (vlookup e n) as [v|] eqn:E; [|congruence].
    cbn [bind]. destruct IH as [items ->]. eexists. reflexivity. }
  destruct G as [items ->]. eexists. reflexivity.
Qed.
End Envs.
