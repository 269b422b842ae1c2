(** Proofs about the methods of [EvalFactor]. *)
From Coq Require Import ZArith Permutation.
From Verif Require Import Base DescModel MemorizeModel MemorizeSpec MemorizeProofs CategoricalModel PipeModel PipeSpec FitModel FitSpec FitProofs FitProps EntryModel.
Open Scope list_scope.
Open Scope nat_scope.

Definition ok_same {A} (r r' : result A) : Prop := forall a, r = Ok a <-> r' = Ok a.
Lemma foldM_same {A B} (f g : B -> A -> result B) l : (forall b a, In a l -> ok_same (f b a) (g b a)) -> forall b, ok_same (foldM f l b) (foldM g l b).
Proof.
  induction l as [|a l IH]; intros H b r; cbn [foldM]; [reflexivity|].
  pose proof (H b a (or_introl eq_refl)) as E. pose proof (IH (fun b a Ha => H b a (or_intror Ha))) as K.
  destruct (f b a) as [x|e] eqn:Ef.
  - rewrite (proj1 (E x) eq_refl). cbn [bind]. apply K.
  - cbn [bind]. split; [discriminate|]. destruct (g b a) as [y|] eqn:Eg; [|discriminate]. pose proof (proj2 (E y) eq_refl). discriminate.
Qed.
Lemma wrap_same {A} msg org (r : result A) : ok_same (wrap_exc msg org r) r.
Proof. intros a. destruct r; cbn; [reflexivity|split; discriminate]. Qed.
Lemma foldM_app' {A B} (f : B -> A -> result B) l m : forall b, foldM f (l ++ m) b = let* x := foldM f l b in foldM f m x.
Proof. induction l as [|a l IH]; intros b; cbn [foldM app bind]; [reflexivity|]. destruct (f b a); cbn [bind]; auto. Qed.
Lemma foldM_err {A B} (f : B -> A -> result B) l : forall b e, foldM f l b = Err e -> exists a b', In a l /\ f b' a = Err e.
Proof.
  induction l as [|a l IH]; intros b e; cbn [foldM]; [discriminate|]. destruct (f b a) as [b'|] eqn:E; cbn [bind].
  - intros H. destruct (IH b' e H) as [x [y [H1 H2]]]. exists x, y. split; [now right|exact H2].
  - intros [= ->]. exists a, b. split; [now left|exact E].
Qed.

Section EF.
Context {val data St V I C : Type}.
Variable code : factor -> @texpr val data St.
Variable bins : factor -> list (list string).
Variable origin_of : factor -> option origin.
Variable as_obj : val -> @fobj V I C.
Local Notation passes := (ef_passes code bins).
Local Notation chunk := (ef_chunk code bins origin_of).
Local Notation finish := (ef_finish code bins).
Local Notation eval := (ef_eval code origin_of as_obj).
Local Notation run := (run chunk finish).

Variable chunks : list data.
Variable dat : nat -> list data.
Hypothesis Hdat : forall n, dat n = chunks.

(** One pass of the loop of build.py is [run_pass]. *)
Lemma run_one f p bin : nth_error (bins f) p = Some bin -> forall st, ok_same (run st (map (EChunk f p) (dat p) ++ [EFinish f p])) (run_pass (code f) chunks st bin).
Proof.
  intros Hp st. unfold MemorizeSpec.run, run_pass. rewrite foldM_app', foldM_map, Hdat. cbn [foldM effect].
  assert (E : ok_same (foldM (fun s d => chunk f s p d) chunks st) (foldM (fun st d => foldM (memorize_object (code f) d) bin st) chunks st)).
  { apply foldM_same. intros b d _. unfold ef_chunk. rewrite Hp. apply foldM_same. intros b' o _. apply wrap_same. }
  intros a. destruct (foldM (fun s d => chunk f s p d) chunks st) as [x|e] eqn:E1.
  - rewrite (proj1 (E x) eq_refl). cbn [bind]. unfold ef_finish. rewrite Hp. destruct (foldM (finish_object (code f)) bin x); reflexivity.
  - cbn [bind]. split; [discriminate|]. destruct (foldM (fun st d => foldM (memorize_object (code f) d) bin st) chunks st) as [y|]; [|discriminate]. pose proof (proj2 (E y) eq_refl). discriminate.
Qed.
Lemma run_all f : forall rest done, bins f = done ++ rest -> forall st, ok_same (run st (flat_map (fun p => map (EChunk f p) (dat p) ++ [EFinish f p]) (seq (length done) (length rest)))) (foldM (run_pass (code f) chunks) rest st).
Proof.
  induction rest as [|bin rest IH]; intros done E st a; cbn [length seq flat_map foldM]; [reflexivity|]. unfold MemorizeSpec.run. rewrite foldM_app'.
  assert (Hp : nth_error (bins f) (length done) = Some bin) by (rewrite E, nth_error_app2, Nat.sub_diag by lia; reflexivity).
  pose proof (run_one f (length done) bin Hp st) as K. unfold MemorizeSpec.run in K.
  specialize (IH (done ++ [bin])). rewrite app_length, Nat.add_1_r in IH. cbn [length] in IH.
  destruct (foldM (effect chunk finish) (map (EChunk f (length done)) (dat (length done)) ++ [EFinish f (length done)]) st) as [x|e] eqn:E1.
  - rewrite (proj1 (K x) eq_refl). cbn [bind]. apply IH. now rewrite <- app_assoc.
  - cbn [bind]. split; [discriminate|]. destruct (run_pass (code f) chunks st bin) as [y|] eqn:E2; [|discriminate]. pose proof (proj2 (K y) eq_refl). discriminate.
Qed.
Lemma trained_fit f s : trained passes chunk finish dat f s <-> fit_factor (code f) (bins f) chunks = Ok s.
Proof.
  unfold trained, ef_passes, fit_factor. pose proof (run_all f (bins f) [] eq_refl (new_objects (code f)) s) as H. cbn [length] in H.
  split; [intros [s0 [k [[= <- <-] R]]]; rewrite Nat2Z.id in R; now apply H|]. intros R. eexists _, _. split; [reflexivity|]. rewrite Nat2Z.id. now apply H.
Qed.

(** * Errors *)
Lemma ef_eval_err f st d e : eval f st d = Err e -> exists msg, e = PatsyError msg (origin_of f).
Proof. unfold ef_eval. destruct (teval st (code f) d); cbn; [discriminate|]. intros [= <-]. eauto. Qed.
Lemma wrap_err {A} msg org (r : result A) e : wrap_exc msg org r = Err e -> e = PatsyError msg org.
Proof. destruct r; cbn; [discriminate|]. now intros [= <-]. Qed.

Definition has_objects (f : factor) (st : @store St) : Prop := forall o, In o (concat (bins f)) -> st o <> None /\ find_call (code f) o <> None.
Lemma put_objects f st o s : has_objects f st -> has_objects f (put st o s).
Proof. intros H k Hk. destruct (H k Hk) as [A B]. split; [|exact B]. unfold put. destruct (String.eqb k o); [discriminate|exact A]. Qed.
Lemma foldM_inv {A B} (P : B -> Prop) (f : B -> A -> result B) l : (forall b a b', In a l -> P b -> f b a = Ok b' -> P b') -> forall b b', P b -> foldM f l b = Ok b' -> P b'.
Proof.
  induction l as [|a l IH]; intros H b b' Hb; cbn [foldM]; [now intros [= <-]|]. destruct (f b a) as [x|] eqn:E; cbn [bind]; [|discriminate]. intros Hf.
  eapply IH; [| |exact Hf]; [intros; eapply H; [right|..]; eassumption|]. eapply H; [now left|exact Hb|exact E].
Qed.
Lemma foldM_err_inv {A B} (P : B -> Prop) (f : B -> A -> result B) l : (forall b a b', In a l -> P b -> f b a = Ok b' -> P b') -> forall b e, P b -> foldM f l b = Err e -> exists a b', In a l /\ P b' /\ f b' a = Err e.
Proof.
  induction l as [|a l IH]; intros H b e Hb; cbn [foldM]; [discriminate|]. destruct (f b a) as [x|] eqn:E; cbn [bind].
  - intros Hf. destruct (IH (fun b a b' Ha => H b a b' (or_intror Ha)) x e (H b a x (or_introl eq_refl) Hb E) Hf) as [a' [b' [A1 A2]]]. exists a', b'. split; [now right|exact A2].
  - intros [= ->]. exists a, b. split; [now left|]. now split.
Qed.
Definition event_of (f : factor) (ev : @event factor data) : Prop := exists p, p < length (bins f) /\ ((exists d, ev = EChunk f p d) \/ ev = EFinish f p).
(** An error is wrapped, or comes from the end of a transform's memorization. *)
Lemma effect_err f st ev e : event_of f ev -> has_objects f st -> effect chunk finish st ev = Err e ->
  (exists msg, e = PatsyError msg (origin_of f)) \/ exists o c args s, In (o, (c, args)) (calls (code f)) /\ c_finish c s = Err e.
Proof.
  intros [p [Hp Hev]] Ho. destruct (nth_error (bins f) p) as [bin|] eqn:Eb; [|apply nth_error_None in Eb; lia].
  destruct Hev as [[d ->] | ->]; cbn [effect]; [unfold ef_chunk|unfold ef_finish]; rewrite Eb; intros H.
  - apply foldM_err in H. destruct H as [o [b' [_ H]]]. apply wrap_err in H. left. eauto.
  - apply (foldM_err_inv (has_objects f)) in H; [|intros b o b' _ Hb E; unfold finish_object in E; destruct (b o), (find_call (code f) o) as [[c args]|]; try discriminate; destruct (c_finish c s); cbn in E; [injection E as <-; now apply put_objects|discriminate]|exact Ho].
    destruct H as [o [b' [Hin [Hb H]]]]. unfold finish_object in H. destruct (Hb o) as [A B]; [apply in_concat; exists bin; split; [eapply nth_error_In, Eb|exact Hin]|].
    destruct (b' o) as [s|]; [|contradiction]. destruct (find_call (code f) o) as [[c args]|] eqn:Ef; [|contradiction]. destruct (c_finish c s) as [s'|e'] eqn:Ec; cbn in H; [discriminate|]. injection H as ->.
    right. exists o, c, args, s. split; [now apply find_call_in|exact Ec].
Qed.
Lemma effect_objects f st ev st' : event_of f ev -> has_objects f st -> effect chunk finish st ev = Ok st' -> has_objects f st'.
Proof.
  intros [p [Hp Hev]] Ho. destruct (nth_error (bins f) p) as [bin|] eqn:Eb; [|apply nth_error_None in Eb; lia].
  destruct Hev as [[d ->] | ->]; cbn [effect]; [unfold ef_chunk|unfold ef_finish]; rewrite Eb; (apply (foldM_inv (has_objects f)); [|exact Ho]); intros b o b' _ Hb E.
  - unfold memorize_object in E. destruct (b o), (find_call (code f) o) as [[c args]|]; try discriminate. destruct (tevals b args d) as [vs|]; cbn in E; [|discriminate]. destruct (c_chunk c s vs); cbn in E; [injection E as <-; now apply put_objects|discriminate].
  - unfold finish_object in E. destruct (b o), (find_call (code f) o) as [[c args]|]; try discriminate. destruct (c_finish c s); cbn in E; [injection E as <-; now apply put_objects|discriminate].
Qed.
Lemma new_has_objects f : (forall o, In o (concat (bins f)) -> In o (map fst (calls (code f)))) -> has_objects f (new_objects (code f)).
Proof.
  intros H o Ho. assert (E : find_call (code f) o <> None).
  { specialize (H o Ho). unfold find_call. destruct (find _ (calls (code f))) as [q|] eqn:Ef; [discriminate|]. apply in_map_iff in H. destruct H as [[o' x] [Eo Hin]]. cbn in Eo. subst o'.
    pose proof (find_none _ _ Ef _ Hin) as X. cbn in X. now rewrite String.eqb_refl in X. }
  split; [|exact E]. unfold new_objects. destruct (find_call (code f) o) as [[c args]|]; [discriminate|contradiction].
Qed.
Lemma run_err f e : (forall o, In o (concat (bins f)) -> In o (map fst (calls (code f)))) -> forall s k, passes f = Ok (s, k) -> run s (calls_for dat (Z.to_nat k) f) = Err e ->
  (exists msg, e = PatsyError msg (origin_of f)) \/ exists o c args s, In (o, (c, args)) (calls (code f)) /\ c_finish c s = Err e.
Proof.
  intros H s k [= <- <-] R. rewrite Nat2Z.id in R. unfold MemorizeSpec.run in R.
  assert (Hev : forall ev, In ev (calls_for dat (length (bins f)) f) -> event_of f ev).
  { intros ev Hin. unfold calls_for in Hin. apply in_flat_map in Hin. destruct Hin as [p [Hp Hin]]. apply in_seq in Hp. exists p. split; [lia|]. apply in_app_or in Hin. destruct Hin as [Hin|[<-|[]]]; [|now right].
    apply in_map_iff in Hin. destruct Hin as [d [<- _]]. left. now exists d. }
  apply (foldM_err_inv (has_objects f)) in R; [|intros b ev b' Hin Hb E; eapply effect_objects; eauto|now apply new_has_objects].
  destruct R as [ev [b [Hin [Hb E]]]]. eapply effect_err; eauto.
Qed.
End EF.
