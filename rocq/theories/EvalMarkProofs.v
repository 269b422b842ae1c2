(** Which calls are rewritten. *)
From Coq Require Import Sorted.
From Verif Require Import Base TokensModel TokensSpec TokensProofs BuildModel EvalModel EvalSpec EvalTextProofs.
Open Scope string_scope.
Open Scope list_scope.

Section Mark.
Context {val : Type} (stateful : val -> bool) (ns : @namespace val).
Definition tr (s : string) : bool := match ns s with Some v => stateful v | None => false end.
Definition is_call (pd : bool) (t : ptok) (r : list ptok) : bool :=
  negb pd && is_name t && match r with u :: _ => text_is "(" u | [] => false end.

Fixpoint mark (k : nat) (pd : bool) (toks : list ptok) : list mtok :=
  match toks with
  | [] => []
  | t :: r => if is_call pd t r && tr (snd t) then (t, Some (obj_name k (snd t))) :: mark (S k) (text_is "." t) r
              else (t, None) :: mark k (text_is "." t) r
  end.
Fixpoint calls_from (i : nat) (pd : bool) (toks : list ptok) : list (nat * string) :=
  match toks with
  | [] => []
  | t :: r => if is_call pd t r && tr (snd t) then (i, snd t) :: calls_from (S i) (text_is "." t) r
              else calls_from (S i) (text_is "." t) r
  end.

Lemma mark_fst toks : forall k pd, map fst (mark k pd toks) = toks.
Proof. induction toks as [|t r IH]; intros k pd; [reflexivity|]. cbn [mark]. destruct (_ && _); cbn; now rewrite IH. Qed.
Lemma is_name_eq t : is_name t = true -> fst t = PNAME.
Proof. destruct t as [[] s]; cbn; congruence. Qed.
Lemma is_call_name pd t r : is_call pd t r = true -> fst t = PNAME.
Proof. unfold is_call. intros H. apply andb_true_iff in H. destruct H as [H _]. apply andb_true_iff in H. apply is_name_eq. tauto. Qed.
Lemma mark_good toks : forall k pd, Forall good_mark (mark k pd toks).
Proof.
  induction toks as [|t r IH]; intros k pd; [constructor|]. cbn [mark].
  destruct (is_call pd t r && tr (snd t)) eqn:E; constructor; auto; cbn; [|exact I].
  apply andb_true_iff in E. split; [eauto|]. eapply is_call_name. apply E.
Qed.

(** The transform objects are appended one after the other. *)
Definition new_objects (k : nat) (ms : list (nat * string)) : list string :=
  map (fun p => obj_name (fst p) (snd (snd p))) (combine (seq k (List.length ms)) ms).
Lemma dset_fresh (key : string) (v : val) d : ~ In key (map fst d) -> dset String.eqb key v d = d ++ [(key, v)].
Proof.
  induction d as [|[k' v'] d IH]; intros H; [reflexivity|]. cbn. destruct (String.eqb_spec k' key) as [->|]; [exfalso; apply H; now left|].
  f_equal. apply IH. intros ?. apply H. now right.
Qed.
Definition named_below (k : nat) (d : list (string * val)) : Prop := forall o, In o (map fst d) -> exists j s, o = obj_name j s /\ j < k.
Lemma replace_mark toks : forall k pd (d : list (string * val)) i, named_below k d ->
  exists vs, replace_tokens (new_name_maker stateful ns) (k, d) (annotate pd toks)
    = ((k + List.length (calls_from i pd toks), d ++ combine (new_objects k (calls_from i pd toks)) vs), map compound (mark k pd toks)) /\
    List.length vs = List.length (calls_from i pd toks) /\
    Forall2 (fun c v => ns (snd c) = Some v /\ stateful v = true) (calls_from i pd toks) vs.
Proof.
  induction toks as [|t r IH]; intros k pd d i Hd.
  { exists []. cbn. rewrite Nat.add_0_r, app_nil_r. auto. }
  cbn [annotate replace_tokens]. destruct t as [ty s]. cbn [snd].
  change (negb pd && is_name (ty, s) && (negb pd && is_name (ty, s) && match r with [] => false | u :: _ => text_is "(" u end)) with
    (negb pd && is_name (ty, s) && is_call pd (ty, s) r).
  assert (E1 : negb pd && is_name (ty, s) && is_call pd (ty, s) r = is_call pd (ty, s) r).
  { unfold is_call. destruct (negb pd && is_name (ty, s)); reflexivity. }
  rewrite E1. cbn [mark calls_from snd]. destruct (is_call pd (ty, s) r) eqn:Ec; cbn [andb].
  - unfold new_name_maker at 1, tr. destruct (ns s) as [v|] eqn:Ens; [destruct (stateful v) eqn:Est|]; cbn [fst snd].
    + rewrite dset_fresh.
      2:{ intros H. destruct (Hd _ H) as [j [s' [Ho Hj]]]. apply obj_name_inj in Ho. lia. }
      destruct (IH (S k) (text_is "." (ty, s)) (d ++ [(obj_name k s, v)]) (S i)) as [vs [E [L F]]].
      { intros o. rewrite map_app, in_app_iff. intros [H|[<-|[]]]; [|exists k, s; split; [reflexivity|lia]]. destruct (Hd _ H) as [j [s' [? ?]]]. exists j, s'. split; [assumption|lia]. }
      rewrite E. exists (v :: vs). cbn [List.length]. split; [|split; [now rewrite L|constructor; auto]].
      rewrite <- app_assoc, Nat.add_succ_r. reflexivity.
    + destruct (IH k (text_is "." (ty, s)) d (S i) Hd) as [vs [E [L F]]]. rewrite E. exists vs. auto.
    + destruct (IH k (text_is "." (ty, s)) d (S i) Hd) as [vs [E [L F]]]. rewrite E. exists vs. auto.
  - destruct (IH k (text_is "." (ty, s)) d (S i) Hd) as [vs [E [L F]]]. rewrite E. exists vs. auto.
Qed.

(** Positions. *)
Lemma calls_from_ge toks : forall i pd j s, In (j, s) (calls_from i pd toks) -> i <= j.
Proof.
  induction toks as [|t r IH]; intros i pd j s H; [easy|]. cbn in H. destruct (_ && _).
  - destruct H as [H|H]; [injection H; lia|]. apply IH in H. lia.
  - apply IH in H. lia.
Qed.
Lemma calls_from_sorted toks : forall i pd, StronglySorted lt (map fst (calls_from i pd toks)).
Proof.
  induction toks as [|t r IH]; intros i pd; [constructor|]. cbn. destruct (_ && _); cbn; [|apply IH].
  constructor; [apply IH|]. apply Forall_forall. intros j Hj. apply in_map_iff in Hj. destruct Hj as [[j' s] [<- Hj]]. apply calls_from_ge in Hj. cbn. lia.
Qed.
Definition called_from (pd : bool) (toks : list ptok) (i : nat) (s : string) : Prop :=
  nth_error toks i = Some (PNAME, s) /\
  (exists t, nth_error toks (S i) = Some t /\ snd t = "(") /\
  (i = 0 -> pd = false) /\
  (forall j t, i = S j -> nth_error toks j = Some t -> snd t <> ".").
Lemma is_call_iff pd t r : is_call pd t r = true <-> pd = false /\ fst t = PNAME /\ exists u, nth_error r 0 = Some u /\ snd u = "(".
Proof.
  unfold is_call. rewrite !andb_true_iff, negb_true_iff. split.
  - intros [[A B] C]. split; [exact A|]. split; [now apply is_name_eq|]. destruct r as [|u r]; [discriminate|]. exists u. split; [reflexivity|]. now apply String.eqb_eq.
  - intros [A [B [u [C D]]]]. destruct r as [|u' r]; [discriminate|]. injection C as ->. split; [split; [exact A|]|].
    + destruct t as [[] ?]; cbn in *; congruence.
    + now apply String.eqb_eq.
Qed.
Lemma calls_from_spec toks : forall i pd j s, In (i + j, s) (calls_from i pd toks) <-> called_from pd toks j s /\ tr s = true.
Proof.
  induction toks as [|t r IH]; intros i pd j s.
  { cbn. split; [easy|]. intros [[H _] _]. destruct j; discriminate. }
  assert (Htail : forall j', In (i + S j', s) (calls_from (S i) (text_is "." t) r) <-> called_from pd (t :: r) (S j') s /\ tr s = true).
  { intros j'. replace (i + S j') with (S i + j') by lia. rewrite IH. unfold called_from. cbn [nth_error].
    split; intros [[A [B [C D]]] E]; (split; [|exact E]); (split; [exact A|]); (split; [exact B|]); (split; [|]).
    - intros H. discriminate.
    - intros j0 t0 Hj Ht. injection Hj as <-. destruct j' as [|j']; cbn in Ht.
      + injection Ht as <-. specialize (C eq_refl). unfold text_is in C. now apply String.eqb_neq in C.
      + eapply D; [reflexivity|exact Ht].
    - intros ->. unfold text_is. apply String.eqb_neq. apply (D 0 t); reflexivity.
    - intros j0 t0 -> Ht. apply (D (S j0) t0); auto. }
  assert (Hhead : In (i, s) (calls_from (S i) (text_is "." t) r) -> False) by (intros H; apply calls_from_ge in H; lia).
  cbn [calls_from]. destruct (is_call pd t r && tr (snd t)) eqn:E.
  - apply andb_true_iff in E. destruct E as [E1 E2]. apply is_call_iff in E1. destruct E1 as [A [B [u [C D]]]].
    destruct j as [|j]; cbn [In].
    + rewrite Nat.add_0_r. split.
      * intros [H|H]; [|easy]. injection H as <-. split; [|exact E2]. split; [destruct t as [ty s0]; cbn in B |- *; now rewrite B|]. split; [exists u; auto|]. split; [auto|]. intros; discriminate.
      * intros [[H _] _]. left. cbn in H. injection H as ->. reflexivity.
    + split; [intros [H|H]; [injection H; lia|now apply Htail]|]. intros H. right. now apply Htail.
  - destruct j as [|j]; [|apply Htail]. rewrite Nat.add_0_r. split; [easy|]. intros [[A [B [C _]]] F]. cbn in A. injection A as ->.
    exfalso. apply andb_false_iff in E. destruct E as [E|E]; [|cbn in E; congruence].
    assert (is_call pd (PNAME, s) r = true); [|congruence]. apply is_call_iff. split; [auto|]. split; [reflexivity|]. destruct B as [u [B1 B2]]. exists u. auto.
Qed.
Lemma calls_transform toks : transform_calls toks (fun s => tr s = true) (calls_from 0 false toks).
Proof.
  split; [apply calls_from_sorted|]. intros i s. rewrite (calls_from_spec toks 0 false i s). unfold called_from, called_at.
  split; intros H; decompose [and] H; repeat split; auto.
Qed.

(** The rewritten tokens. *)
Lemma object_at_ge ms : forall k i, (forall j s, In (j, s) ms -> i < j) -> object_at k ms i = None.
Proof.
  induction ms as [|[j s] r IH]; intros k i H; [reflexivity|]. cbn. pose proof (H j s (or_introl eq_refl)).
  destruct (Nat.eqb_spec j i); [lia|]. apply IH. intros j' s' Hi. apply (H j' s'). now right.
Qed.
Lemma mark_object toks : forall k pd i, 
  map snd (mark k pd toks) = map (fun p => object_at k (calls_from i pd toks) (fst p)) (combine (seq i (List.length toks)) toks).
Proof.
  induction toks as [|t r IH]; intros k pd i; [reflexivity|]. cbn [mark calls_from List.length seq combine map fst].
  destruct (is_call pd t r && tr (snd t)); cbn [map snd object_at].
  - rewrite Nat.eqb_refl. f_equal. rewrite (IH (S k) _ (S i)). apply map_ext_in. intros [j u] Hj. cbn.
    destruct (Nat.eqb_spec i j); [|reflexivity]. apply in_combine_l, in_seq in Hj. lia.
  - f_equal; [|apply IH]. symmetry. apply object_at_ge. intros j s H. apply calls_from_ge in H. lia.
Qed.
Lemma flat_map_expand (ml : list mtok) : flat_map expand ml = flat_map (fun p => match fst p with Some o => method_of o "transform" | None => [snd p] end) (combine (map snd ml) (map fst ml)).
Proof. induction ml as [|[t [o|]] ml IH]; [reflexivity| |]; cbn; now rewrite IH. Qed.
Lemma flat_map_positions (ob : nat -> option string) toks : forall n,
  flat_map (fun p : option string * ptok => match fst p with Some o => method_of o "transform" | None => [snd p] end)
    (combine (map (fun p : nat * ptok => ob (fst p)) (combine (seq n (List.length toks)) toks)) toks) =
  flat_map (fun p : nat * ptok => match ob (fst p) with Some o => method_of o "transform" | None => [snd p] end) (combine (seq n (List.length toks)) toks).
Proof. induction toks as [|t r IH]; intros n; [reflexivity|]. cbn. now rewrite IH. Qed.
Lemma mark_rewritten toks : flat_map expand (mark 0 false toks) = rewritten toks (calls_from 0 false toks).
Proof.
  rewrite flat_map_expand, mark_fst, (mark_object toks 0 false 0). unfold rewritten.
  apply flat_map_positions.
Qed.
Lemma mark_objects toks : forall k pd i, flat_map (fun t : mtok => match snd t with Some o => [o] | None => [] end) (mark k pd toks) = new_objects k (calls_from i pd toks).
Proof.
  induction toks as [|t r IH]; intros k pd i; [reflexivity|]. cbn [mark calls_from]. destruct (_ && _); cbn; [|apply IH].
  unfold new_objects. cbn. f_equal. apply IH.
Qed.
Lemma new_objects_in k ms o : In o (new_objects k ms) -> exists j s, k <= j /\ o = obj_name j s.
Proof.
  unfold new_objects. intros H. apply in_map_iff in H. destruct H as [[j [i s]] [<- H]]. apply in_combine_l, in_seq in H. exists j, s. cbn. split; [lia|reflexivity].
Qed.
Lemma new_objects_NoDup ms : forall k, NoDup (new_objects k ms).
Proof.
  induction ms as [|[i s] ms IH]; intros k; [constructor|]. unfold new_objects. cbn. constructor; [|apply (IH (S k))].
  intros H. apply (new_objects_in (S k) ms) in H. destruct H as [j [s' [H1 H2]]]. apply obj_name_inj in H2. lia.
Qed.
End Mark.
