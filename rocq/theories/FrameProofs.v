From Verif Require Import Base BuildModel EvalModel EvalBinsProofs FrameModel FrameSpec.
From Coq Require Import NArith ZArith Lia.
Open Scope string_scope.
Open Scope list_scope.

Section P.
Context {val : Type}.
Variable all_flags : N.
Local Notation frame := (@frame val).
Local Notation capture := (capture (val := val) all_flags).

Lemma walk_skipn n (l : list frame) : n <= length l -> walk n l = Ok (skipn n l).
Proof. revert l. induction n as [|n IH]; intros l H; [reflexivity|]. destruct l as [|f l]; cbn in *; [lia|]. apply IH. lia. Qed.
Lemma walk_short n (l : list frame) : length l < n -> walk n l = Err (ValueError "call-stack is not that deep!").
Proof. revert l. induction n as [|n IH]; intros l H; [lia|]. destruct l as [|f l]; cbn in *; [reflexivity|]. apply IH. lia. Qed.
Lemma skipn_nth {A} n (l : list A) : match skipn n l with x :: _ => nth_error l n = Some x | [] => nth_error l n = None end.
Proof. revert l. induction n as [|n IH]; intros [|x l]; cbn; auto. apply IH. Qed.

Lemma new_env_ok (f : frame) : exists e, new_evalenv all_flags [f_locals f; f_globals f] (N.land (co_flags f) all_flags) = Ok e /\ environment_of all_flags f e.
Proof.
  unfold new_evalenv. assert (N.ldiff (N.land (co_flags f) all_flags) all_flags = 0%N) as ->.
  { apply N.bits_inj. intros i. rewrite N.ldiff_spec, N.land_spec, N.bits_0. now destruct (N.testbit (co_flags f) i), (N.testbit all_flags i). }
  cbn. eexists. split; [reflexivity|]. split; [reflexivity|]. intros i. cbn. apply N.land_spec.
Qed.

Lemma capture_int z r own (callers : list frame) :
  ((z + r < 0)%Z -> exists e, capture (AInt z) r (own :: callers) = Ok e /\ environment_of all_flags own e) /\
  (forall d, (z + r)%Z = Z.of_nat d -> (forall f, nth_error callers d = Some f -> exists e, capture (AInt z) r (own :: callers) = Ok e /\ environment_of all_flags f e) /\
    (d = length callers -> capture (AInt z) r (own :: callers) = Err AttributeError) /\
    (length callers < d -> capture (AInt z) r (own :: callers) = Err (ValueError "call-stack is not that deep!"))).
Proof.
  unfold FrameModel.capture. split.
  - intros H. replace (Z.to_nat (z + r + 1)) with 0 by lia. apply new_env_ok.
  - intros d H. replace (Z.to_nat (z + r + 1)) with (S d) by lia. cbn [walk]. split; [|split].
    + intros f Hf. assert (d < length callers) by (apply nth_error_Some; congruence). rewrite walk_skipn by lia. cbn.
      pose proof (skipn_nth d callers) as Hk. destruct (skipn d callers) as [|g l]; [congruence|]. replace g with f by congruence. apply new_env_ok.
    + intros ->. rewrite walk_skipn by lia. now rewrite skipn_all.
    + intros Hl. now rewrite walk_short by lia.
Qed.

Lemma namespace_of (f : frame) e s : environment_of all_flags f e -> env_namespace e s = seen_in f s.
Proof. intros [H _]. unfold env_namespace, env_of, seen_in. rewrite H. cbn. destruct (ns_get (f_locals f) s); [reflexivity|]. now destruct (ns_get (f_globals f) s). Qed.

Lemma Q_ok cap own name f (callers : list frame) : Q all_flags cap own name (f :: callers) = match seen_in f name with Some v => Ok v | None => Err NameError end.
Proof.
  unfold Q. destruct (capture_int 1 0 cap (own :: f :: callers)) as [_ H]. destruct (H 1 eq_refl) as [H1 _]. destruct (H1 f eq_refl) as [e [-> He]]. cbn [bind].
  now rewrite (namespace_of f e name He).
Qed.

(** * Equality *)
Lemma ids_eqb_iff a b : ids_eqb a b = true <-> a = b.
Proof.
  revert b. induction a as [|x a IH]; intros [|y b]; cbn; try (split; [discriminate|congruence]); [tauto|].
  rewrite Bool.andb_true_iff, Nat.eqb_eq, IH. split; [intros [-> ->]; reflexivity|intros H; now injection H].
Qed.
Lemma ids_forall2 (a b : list (@mapping val)) : map ns_id a = map ns_id b <-> Forall2 (fun x y => ns_id x = ns_id y) a b.
Proof.
  revert b. induction a as [|x a IH]; intros [|y b]; cbn; split; intros H; try discriminate; try constructor; try inversion H; subst; auto.
  - apply IH. assumption.
  - f_equal; [assumption|]. apply IH. assumption.
Qed.
Lemma ee_eqb_iff (a b : @evalenv val) : ee_eqb a b = true <-> same_objects a b.
Proof. unfold ee_eqb, same_objects, namespace_ids. now rewrite Bool.andb_true_iff, N.eqb_eq, ids_eqb_iff, ids_forall2. Qed.
Lemma same_coherent (a b : @evalenv val) : coherent (ee_namespaces a ++ ee_namespaces b) -> same_objects a b -> a = b.
Proof.
  destruct a as [la fa], b as [lb fb]. intros Hc [H1 H2]. cbn in *. subst fb. f_equal.
  assert (forall x y, In x la -> In y lb -> ns_id x = ns_id y -> x = y) as H by (intros x y Hx Hy; apply Hc; apply in_app_iff; auto). clear Hc.
  induction H2 as [|x y la lb Hxy H2 IH]; [reflexivity|]. f_equal; [apply H; auto; now left|]. apply IH. intros u v Hu Hv. apply H; now right.
Qed.
End P.
