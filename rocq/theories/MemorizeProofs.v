From Coq Require Import Permutation.
From Verif Require Import Base BuildModel BuildProofs MemorizeModel MemorizeSpec.
Open Scope nat_scope.

Lemma foldM_flat {A B T} (f : T -> B -> result T) (g : A -> list B) l : forall s,
  foldM f (flat_map g l) s = foldM (fun s a => foldM f (g a) s) l s.
Proof.
  induction l as [|a l IH]; intros s; [reflexivity|]. cbn [flat_map foldM]. rewrite foldM_app.
  destruct (foldM f (g a) s); cbn; [apply IH|reflexivity].
Qed.
Lemma foldM_map {A B T} (f : T -> B -> result T) (g : A -> B) l : forall s, foldM f (map g l) s = foldM (fun s a => f s (g a)) l s.
Proof. induction l as [|a l IH]; intros s; [reflexivity|]. cbn. destruct (f s (g a)); cbn; auto. Qed.
Lemma foldM_ext_in {A T} (f g : T -> A -> result T) l : (forall s a, In a l -> f s a = g s a) -> forall s, foldM f l s = foldM g l s.
Proof.
  induction l as [|a l IH]; intros H s; [reflexivity|]. cbn. rewrite H by now left. destruct (g s a); cbn; [|reflexivity]. apply IH. intros. apply H. now right.
Qed.

Section Memorize.
Context {F S D : Type} (feqb : F -> F -> bool).
Hypothesis feqb_eq : forall a b, feqb a b = true <-> a = b.
Variable passes : F -> result (S * Z).
Variable chunk : F -> S -> nat -> D -> result S.
Variable finish : F -> S -> nat -> result S.
Variable data : nat -> list D.
Variable order : nat -> list F -> list F.
Hypothesis order_perm : forall p l, Permutation (order p l) l.
Notation event := (@event F D).
Notation fstates := (list (F * S)).
Notation concerns := (concerns feqb).
Notation run := (run chunk finish).
Notation calls_for := (calls_for data).

Lemma feqb_refl a : feqb a a = true. Proof. now apply feqb_eq. Qed.
Lemma feqb_neq a b : a <> b -> feqb a b = false.
Proof. intros H. destruct (feqb a b) eqn:E; [|reflexivity]. apply feqb_eq in E. contradiction. Qed.
Lemma dget_same {A} f (v : A) d : dget feqb f (dset feqb f v d) = Some v.
Proof.
  induction d as [|[k w] d IH]; cbn; [now rewrite feqb_refl|]. destruct (feqb k f) eqn:E; cbn; rewrite ?E; [reflexivity|exact IH].
Qed.
Lemma dget_other {A} f g (v : A) d : f <> g -> dget feqb g (dset feqb f v d) = dget feqb g d.
Proof.
  intros H. induction d as [|[k w] d IH]; cbn; [now rewrite feqb_neq|]. destruct (feqb k f) eqn:E; cbn.
  - apply feqb_eq in E. subst k. now rewrite feqb_neq.
  - destruct (feqb k g); [reflexivity|exact IH].
Qed.

(** * One call *)
Definition exec (st : fstates * list event) (e : event) : result (fstates * list event) :=
  match e with
  | EIter _ => Ok (fst st, snd st ++ [e])
  | EChunk f p d => one_chunk feqb chunk p d st f
  | EFinish f p => let* s := lookup (dget feqb f (fst st)) in let* s' := finish f s p in Ok (dset feqb f s' (fst st), snd st ++ [e])
  end.
Definition subject (e : event) : option F := match e with EIter _ => None | EChunk f _ _ => Some f | EFinish f _ => Some f end.

Lemma exec_inv st e st' : exec st e = Ok st' ->
  snd st' = snd st ++ [e] /\
  match subject e with
  | None => fst st' = fst st
  | Some f => exists s s', dget feqb f (fst st) = Some s /\ effect chunk finish s e = Ok s' /\ fst st' = dset feqb f s' (fst st)
  end.
Proof.
  destruct e as [n|f p d|f p]; cbn.
  - intros [= <-]. split; reflexivity.
  - unfold one_chunk. destruct (dget feqb f (fst st)) as [s|]; cbn; [|discriminate]. destruct (chunk f s p d) eqn:E; cbn; [|discriminate].
    intros [= <-]. split; [reflexivity|]. eexists _, _. split; [reflexivity|]. split; [exact E|reflexivity].
  - destruct (dget feqb f (fst st)) as [s|]; cbn; [|discriminate]. destruct (finish f s p) eqn:E; cbn; [|discriminate].
    intros [= <-]. split; [reflexivity|]. eexists _, _. split; [reflexivity|]. split; [exact E|reflexivity].
Qed.
Lemma concerns_subject f e : concerns f e = true <-> subject e = Some f.
Proof.
  destruct e; cbn; [split; discriminate| |]; rewrite feqb_eq; split; [intros ->|intros [= ->]|intros ->|intros [= ->]]; reflexivity.
Qed.

Lemma exec_all_ok es : forall st st', foldM exec es st = Ok st' ->
  snd st' = snd st ++ es /\
  forall f s, dget feqb f (fst st) = Some s -> exists s', dget feqb f (fst st') = Some s' /\ run s (filter (concerns f) es) = Ok s'.
Proof.
  induction es as [|e es IH]; intros st st' H.
  - cbn in H. injection H as <-. rewrite app_nil_r. split; [reflexivity|]. intros f s Hs. exists s. split; [exact Hs|reflexivity].
  - cbn in H. destruct (exec st e) as [st1|] eqn:E; [|discriminate]. cbn in H. destruct (exec_inv _ _ _ E) as [E1 E2].
    destruct (IH _ _ H) as [I1 I2]. split; [rewrite I1, E1, <- app_assoc; reflexivity|].
    intros f s Hs. cbn [filter]. destruct (concerns f e) eqn:Ec.
    + apply concerns_subject in Ec. rewrite Ec in E2. destruct E2 as [s0 [s1 [H0 [H1 H2]]]]. rewrite Hs in H0. injection H0 as <-.
      destruct (I2 f s1) as [s' [J1 J2]]; [rewrite H2; apply dget_same|]. exists s'. split; [exact J1|].
      unfold MemorizeSpec.run in *. cbn [foldM]. rewrite H1. exact J2.
    + apply I2. destruct (subject e) as [g|] eqn:Eg.
      * destruct E2 as [s0 [s1 [_ [_ ->]]]]. rewrite dget_other; [exact Hs|]. intros ->.
        assert (C : concerns f e = true) by now apply concerns_subject. congruence.
      * now rewrite E2.
Qed.

Lemma exec_all_complete es : forall st,
  (forall e f, In e es -> subject e = Some f -> dget feqb f (fst st) <> None) ->
  (forall f s, dget feqb f (fst st) = Some s -> exists s', run s (filter (concerns f) es) = Ok s') ->
  exists st', foldM exec es st = Ok st'.
Proof.
  induction es as [|e es IH]; intros st Hk Hr; [eexists; reflexivity|]. cbn [foldM].
  assert (E : exists st1, exec st e = Ok st1).
  { destruct e as [n|f p d|f p]; cbn; [eexists; reflexivity| |];
      (destruct (dget feqb f (fst st)) as [s|] eqn:Es; [|exfalso; eapply Hk; [left; reflexivity|reflexivity|exact Es]];
       destruct (Hr f s Es) as [s' H]; cbn [filter MemorizeSpec.concerns] in H; rewrite feqb_refl in H; unfold MemorizeSpec.run in H; cbn [foldM effect] in H).
    - unfold one_chunk; rewrite ?Es; cbn. destruct (chunk f s p d); [eexists; reflexivity|discriminate].
    - cbn. destruct (finish f s p); [eexists; reflexivity|discriminate]. }
  destruct E as [st1 E]. rewrite E. cbn. destruct (exec_inv _ _ _ E) as [_ E2]. apply IH.
  - intros e' f He' Hs. specialize (Hk e' f (or_intror He') Hs). destruct (subject e) as [g|] eqn:Eg; [|now rewrite E2].
    destruct E2 as [s0 [s1 [H0 [_ ->]]]]. assert (Hd : g = f \/ g <> f) by (destruct (feqb g f) eqn:Ef; [left; now apply feqb_eq|right; intros ->; rewrite feqb_refl in Ef; discriminate]).
    destruct Hd as [->|Hne]; [rewrite dget_same; discriminate|now rewrite dget_other].
  - intros f s Hs. destruct (concerns f e) eqn:Ec.
    + pose proof (proj1 (concerns_subject f e) Ec) as Es. rewrite Es in E2. destruct E2 as [s0 [s1 [H0 [H1 H2]]]].
      rewrite H2, dget_same in Hs. injection Hs as <-. destruct (Hr f s0 H0) as [s' H]. cbn [filter] in H. rewrite Ec in H.
      unfold MemorizeSpec.run in H. cbn [foldM] in H. rewrite H1 in H. exists s'. exact H.
    + destruct (Hr f s) as [s' H].
      * destruct (subject e) as [g|] eqn:Eg; [|now rewrite <- E2]. destruct E2 as [s0 [s1 [_ [_ E3]]]]. rewrite E3 in Hs. rewrite dget_other in Hs; [exact Hs|].
        intros ->. assert (C : concerns f e = true) by now apply concerns_subject. congruence.
      * exists s'. cbn [filter] in H. now rewrite Ec in H.
Qed.

Lemma exec_all_err es : forall st err, foldM exec es st = Err err ->
  (forall e f, In e es -> subject e = Some f -> dget feqb f (fst st) <> None) ->
  exists e f s, In e es /\ subject e = Some f /\ dget feqb f (fst st) = Some s /\ run s (filter (concerns f) es) = Err err.
Proof.
  induction es as [|e es IH]; intros st err H Hk; [discriminate|]. cbn [foldM] in H.
  destruct (exec st e) as [st1|e1] eqn:E; cbn in H.
  - destruct (exec_inv _ _ _ E) as [_ E2].
    assert (Hk1 : forall e' f, In e' es -> subject e' = Some f -> dget feqb f (fst st1) <> None).
    { intros e' f He' Hs. specialize (Hk e' f (or_intror He') Hs). destruct (subject e) as [g|] eqn:Eg; [|now rewrite E2].
      destruct E2 as [s0 [s1 [H0 [_ ->]]]]. assert (Hd : g = f \/ g <> f) by (destruct (feqb g f) eqn:Ef; [left; now apply feqb_eq|right; intros ->; rewrite feqb_refl in Ef; discriminate]).
      destruct Hd as [->|Hne]; [rewrite dget_same; discriminate|now rewrite dget_other]. }
    destruct (IH _ _ H Hk1) as [e' [f [s [A1 [A2 [A3 A4]]]]]]. exists e', f.
    destruct (concerns f e) eqn:Ec.
    + pose proof (proj1 (concerns_subject f e) Ec) as Es. rewrite Es in E2. destruct E2 as [s0 [s1 [H0 [H1 H2]]]].
      rewrite H2, dget_same in A3. injection A3 as <-. exists s0. split; [now right|]. split; [exact A2|]. split; [exact H0|].
      cbn [filter]. rewrite Ec. unfold MemorizeSpec.run. cbn [foldM]. now rewrite H1.
    + exists s. split; [now right|]. split; [exact A2|]. split.
      * destruct (subject e) as [g|] eqn:Eg; [|now rewrite <- E2]. destruct E2 as [s0 [s1 [_ [_ E3]]]]. rewrite E3 in A3. rewrite dget_other in A3; [exact A3|].
        intros ->. assert (C : concerns f e = true) by now apply concerns_subject. congruence.
      * cbn [filter]. now rewrite Ec.
  - injection H as ->. destruct e as [n|f p d|f p]; cbn in E; [discriminate| |].
    + exists (EChunk f p d), f. unfold one_chunk in E. destruct (dget feqb f (fst st)) as [s|] eqn:Es.
      2:{ exfalso. eapply Hk; [left; reflexivity|reflexivity|exact Es]. }
      cbn in E. exists s. split; [now left|]. split; [reflexivity|]. split; [reflexivity|]. cbn [filter MemorizeSpec.concerns]. rewrite feqb_refl.
      unfold MemorizeSpec.run. cbn [foldM effect]. destruct (chunk f s p d); [discriminate|]. now injection E as ->.
    + exists (EFinish f p), f. destruct (dget feqb f (fst st)) as [s|] eqn:Es.
      2:{ exfalso. eapply Hk; [left; reflexivity|reflexivity|exact Es]. }
      cbn in E. exists s. split; [now left|]. split; [reflexivity|]. split; [reflexivity|]. cbn [filter MemorizeSpec.concerns]. rewrite feqb_refl.
      unfold MemorizeSpec.run. cbn [foldM effect]. destruct (finish f s p); [discriminate|]. now injection E as ->.
Qed.

(** * The loops are the execution of a schedule *)
Lemma one_chunk_exec p d st f : one_chunk feqb chunk p d st f = exec st (EChunk f p d).
Proof. reflexivity. Qed.
Definition chunk_events (p : nat) (needed : list F) : list event :=
  EIter p :: flat_map (fun d => map (fun f => EChunk f p d) (order p needed)) (data p).
Lemma pass_chunks_exec p needed st : pass_chunks feqb chunk data order p needed st = foldM exec (chunk_events p needed) st.
Proof.
  unfold pass_chunks, chunk_events. cbn [foldM exec bind]. rewrite foldM_flat. apply foldM_ext_in. intros s d _. now rewrite foldM_map.
Qed.

Variable kf : F -> Z.
Definition finish_events (p : nat) (needed : list F) : list event := map (fun f => EFinish f p) (order p needed).
Lemma finish_exec pn p l : (forall f, In f l -> dget feqb f pn = Some (kf f)) -> forall st needed,
  foldM (one_finish feqb finish pn p) l (fst st, snd st, needed) =
  let* st' := foldM exec (map (fun f => EFinish f p) l) st in
  Ok (fst st', snd st', filter (fun g => negb (existsb (fun f => feqb g f && Z.eqb (Z.of_nat p) (kf f - 1)) l)) needed).
Proof.
  induction l as [|f l IH]; intros Hk st needed.
  - cbn. f_equal. f_equal. symmetry. clear. induction needed; cbn; [reflexivity|now f_equal].
  - cbn [foldM map exec one_finish]. destruct (lookup (dget feqb f (fst st))) as [s|]; cbn; [|reflexivity].
    destruct (finish f s p) as [s'|]; cbn; [|reflexivity]. rewrite (Hk f) by now left. cbn.
    rewrite (IH (fun g Hg => Hk g (or_intror Hg)) (dset feqb f s' (fst st), snd st ++ [EFinish f p])).
    destruct (foldM exec _ _) as [st'|]; cbn; [|reflexivity]. f_equal. f_equal.
    clear. destruct (Z.of_nat p =? kf f - 1)%Z; induction needed as [|g needed IHn]; cbn; try reflexivity.
    + rewrite andb_true_r. destruct (feqb g f); cbn; [exact IHn|]. now rewrite IHn.
    + rewrite andb_false_r. cbn. now rewrite IHn.
Qed.

(** The factors still memorizing in pass [p]. *)
Definition still (factors : list F) (p : nat) : list F := filter (fun f => Z.ltb (Z.of_nat p) (kf f)) factors.
Definition pass_events (factors : list F) (p : nat) : list event :=
  chunk_events p (still factors p) ++ finish_events p (still factors p).

Lemma still_next factors p : (filter (fun g => negb (existsb (fun f => feqb g f && Z.eqb (Z.of_nat p) (kf f - 1)) (order p (still factors p)))) (still factors p))
  = still factors (Datatypes.S p).
Proof.
  assert (G : forall sub, incl sub factors -> filter (fun g => negb (existsb (fun f => feqb g f && Z.eqb (Z.of_nat p) (kf f - 1)) (order p (still factors p)))) (still sub p) = still sub (Datatypes.S p)).
  { unfold still at 2 3. induction sub as [|g sub IH]; intros Hincl; [reflexivity|]. cbn [filter].
    assert (Hsub : incl sub factors) by (intros x Hx; apply Hincl; now right). specialize (IH Hsub).
    destruct (Z.of_nat p <? kf g)%Z eqn:E.
    - cbn [filter]. assert (Ex : existsb (fun f => feqb g f && Z.eqb (Z.of_nat p) (kf f - 1)) (order p (still factors p)) = Z.eqb (Z.of_nat p) (kf g - 1)).
      { destruct (Z.of_nat p =? kf g - 1)%Z eqn:E2.
        - apply existsb_exists. exists g. split; [|rewrite feqb_refl, E2; reflexivity].
          eapply Permutation_in; [apply Permutation_sym, order_perm|]. apply filter_In. split; [apply Hincl; now left|exact E].
        - destruct (existsb _ _) eqn:E3; [|reflexivity]. apply existsb_exists in E3. destruct E3 as [f [_ E3]]. apply andb_true_iff in E3. destruct E3 as [E3 E4].
          apply feqb_eq in E3. subst f. congruence. }
      rewrite Ex. replace (Z.of_nat (Datatypes.S p) <? kf g)%Z with (negb (Z.of_nat p =? kf g - 1)%Z).
      + destruct (Z.of_nat p =? kf g - 1)%Z; cbn; [exact IH|now rewrite IH].
      + apply Z.ltb_lt in E. destruct (Z.of_nat p =? kf g - 1)%Z eqn:E2; symmetry.
        * apply Z.eqb_eq in E2. apply Z.ltb_ge. lia.
        * apply Z.eqb_neq in E2. apply Z.ltb_lt. lia.
    - replace (Z.of_nat (Datatypes.S p) <? kf g)%Z with false; [exact IH|]. symmetry. apply Z.ltb_ge in E. apply Z.ltb_ge. lia. }
  apply G. intros x Hx; exact Hx.
Qed.

Lemma passes_loop_exec pn factors : (forall f, In f factors -> dget feqb f pn = Some (kf f)) -> forall n p fuel st,
  (forall q, p <= q < p + n -> still factors q <> []) -> still factors (p + n) = [] -> n <= fuel ->
  passes_loop feqb chunk finish data order fuel pn p (still factors p) st = foldM exec (flat_map (pass_events factors) (seq p n)) st.
Proof.
  intros Hpn. induction n as [|n IH]; intros p fuel st Hne Hend Hf.
  - rewrite Nat.add_0_r in Hend. cbn. rewrite Hend. destruct fuel; reflexivity.
  - destruct fuel as [|fuel]; [lia|]. cbn [passes_loop seq flat_map].
    destruct (still factors p) as [|f0 rest] eqn:E; [exfalso; apply (Hne p); [lia|exact E]|]. rewrite <- E.
    rewrite foldM_app. unfold pass_events at 1. rewrite foldM_app. rewrite pass_chunks_exec.
    destruct (foldM exec (chunk_events p (still factors p)) st) as [st1|]; cbn [bind]; [|reflexivity].
    rewrite finish_exec.
    + unfold finish_events. destruct (foldM exec (map _ (order p (still factors p))) st1) as [st2|]; cbn [bind]; [|reflexivity].
      rewrite still_next. rewrite <- (surjective_pairing st2). apply IH; [intros q Hq; apply Hne; lia| |lia]. now replace (Datatypes.S p + n) with (p + Datatypes.S n) by lia.
    + intros f Hf'. eapply Permutation_in in Hf'; [|apply order_perm]. apply filter_In in Hf'. now apply Hpn.
Qed.

(** * What the schedule does to each factor *)
Lemma filter_flat_map {A B} (P : B -> bool) (g : A -> list B) l : filter P (flat_map g l) = flat_map (fun a => filter P (g a)) l.
Proof. induction l as [|a l IH]; [reflexivity|]. cbn. now rewrite filter_app, IH. Qed.
Lemma filter_one l f : NoDup l -> filter (fun g => feqb g f) l = if existsb (fun g => feqb g f) l then [f] else [].
Proof.
  induction 1 as [|g l Hg Hl IH]; [reflexivity|]. cbn. destruct (feqb g f) eqn:E; cbn; [|exact IH].
  apply feqb_eq in E. subst g. f_equal. rewrite IH. destruct (existsb _ l) eqn:Ex; [|reflexivity]. apply existsb_exists in Ex. destruct Ex as [g [Hg' Eg]].
  apply feqb_eq in Eg. subst g. contradiction.
Qed.
Lemma filter_map {A B} (P : B -> bool) (g : A -> B) l : filter P (map g l) = map g (filter (fun a => P (g a)) l).
Proof. induction l as [|a l IH]; [reflexivity|]. cbn. destruct (P (g a)); cbn; now rewrite IH. Qed.

Lemma pass_events_filter factors p f : NoDup factors -> In f factors ->
  filter (concerns f) (pass_events factors p) =
  if Z.ltb (Z.of_nat p) (kf f) then map (EChunk f p) (data p) ++ [EFinish f p] else [].
Proof.
  intros Hnd Hf. set (l := order p (still factors p)).
  assert (Hl : filter (fun g => feqb g f) l = if Z.ltb (Z.of_nat p) (kf f) then [f] else []).
  { rewrite filter_one.
    2:{ eapply Permutation_NoDup; [apply Permutation_sym, order_perm|]. now apply NoDup_filter. }
    assert (E : existsb (fun g => feqb g f) l = Z.ltb (Z.of_nat p) (kf f)); [|now rewrite E].
    destruct (Z.ltb (Z.of_nat p) (kf f)) eqn:E.
    - apply existsb_exists. exists f. split; [|apply feqb_refl]. eapply Permutation_in; [apply Permutation_sym, order_perm|]. now apply filter_In.
    - destruct (existsb _ l) eqn:Ex; [|reflexivity]. apply existsb_exists in Ex. destruct Ex as [g [Hg Eg]]. apply feqb_eq in Eg. subst g.
      eapply Permutation_in in Hg; [|apply order_perm]. apply filter_In in Hg. destruct Hg. congruence. }
  unfold pass_events, chunk_events, finish_events. fold l. rewrite filter_app. cbn [filter MemorizeSpec.concerns].
  rewrite filter_flat_map, filter_map. cbn [MemorizeSpec.concerns]. rewrite Hl.
  rewrite (flat_map_ext (fun d => filter (concerns f) (map (fun f0 => EChunk f0 p d) l)) (fun d => map (fun f0 => EChunk f0 p d) (if Z.ltb (Z.of_nat p) (kf f) then [f] else []))).
  2:{ intros d. rewrite filter_map. cbn [MemorizeSpec.concerns]. now rewrite Hl. }
  destruct (Z.of_nat p <? kf f)%Z; cbn.
  - f_equal.
  - rewrite app_nil_r. generalize (data p). intros ds. induction ds as [|d ds IH]; [reflexivity|]. exact IH.
Qed.

Lemma schedule_filter factors f n : NoDup factors -> In f factors -> (kf f <= Z.of_nat n)%Z ->
  filter (concerns f) (flat_map (pass_events factors) (seq 0 n)) = calls_for (Z.to_nat (kf f)) f.
Proof.
  intros Hnd Hf Hn. rewrite filter_flat_map. rewrite (flat_map_ext _ _ (fun p => pass_events_filter factors p f Hnd Hf)).
  unfold MemorizeSpec.calls_for. assert (E : n = Z.to_nat (kf f) + (n - Z.to_nat (kf f))) by lia. rewrite E, seq_app, flat_map_app.
  assert (E1 : flat_map (fun a => if (Z.of_nat a <? kf f)%Z then map (EChunk f a) (data a) ++ [EFinish f a] else []) (seq (0 + Z.to_nat (kf f)) (n - Z.to_nat (kf f))) = []).
  { assert (G : forall l, (forall x, In x l -> (kf f <= Z.of_nat x)%Z) -> flat_map (fun a => if (Z.of_nat a <? kf f)%Z then map (EChunk f a) (data a) ++ [EFinish f a] else []) l = []).
    { induction l as [|x l IH]; intros Hx; [reflexivity|]. cbn. replace (Z.of_nat x <? kf f)%Z with false; [apply IH; intros; apply Hx; now right|].
      symmetry. apply Z.ltb_ge. apply Hx. now left. }
    apply G. intros x Hx. apply in_seq in Hx. lia. }
  rewrite E1, app_nil_r.
  assert (G : forall l, (forall x, In x l -> (Z.of_nat x < kf f)%Z) -> flat_map (fun a => if (Z.of_nat a <? kf f)%Z then map (EChunk f a) (data a) ++ [EFinish f a] else []) l
     = flat_map (fun p => map (EChunk f p) (data p) ++ [EFinish f p]) l).
  { induction l as [|x l IH]; intros Hx; [reflexivity|]. cbn. rewrite IH by (intros; apply Hx; now right). replace (Z.of_nat x <? kf f)%Z with true; [reflexivity|].
    symmetry. apply Z.ltb_lt. apply Hx. now left. }
  apply G. intros x Hx. apply in_seq in Hx. lia.
Qed.

(** The number of passes: the largest number asked for. *)
Definition npasses (factors : list F) : nat := list_max (map (fun f => Z.to_nat (kf f)) factors).
Lemma npasses_le factors f : In f factors -> (kf f <= Z.of_nat (npasses factors))%Z.
Proof.
  intros Hf. assert (H : Z.to_nat (kf f) <= npasses factors); [|lia]. unfold npasses.
  pose proof (proj1 (list_max_le (map (fun f => Z.to_nat (kf f)) factors) _) (le_n _)) as H. rewrite Forall_forall in H. apply H. exact (in_map (fun f => Z.to_nat (kf f)) factors f Hf).
Qed.
Lemma still_nonempty factors q : q < npasses factors -> still factors q <> [].
Proof.
  intros Hq E. assert (H : npasses factors <= q); [|lia]. unfold npasses. apply list_max_le. apply Forall_forall. intros x Hx. apply in_map_iff in Hx.
  destruct Hx as [f [<- Hf]]. assert (Hn : ~ In f (still factors q)) by (rewrite E; auto). unfold still in Hn. rewrite filter_In in Hn.
  destruct (Z.of_nat q <? kf f)%Z eqn:Ez; [exfalso; auto|]. apply Z.ltb_ge in Ez. lia.
Qed.
Lemma still_end factors : still factors (0 + npasses factors) = [].
Proof.
  destruct (still factors (0 + npasses factors)) as [|f l] eqn:E; [reflexivity|]. assert (Hf : In f (still factors (0 + npasses factors))) by (rewrite E; now left).
  apply filter_In in Hf. destruct Hf as [Hf Ez]. apply Z.ltb_lt in Ez. pose proof (npasses_le factors f Hf). cbn in Ez. lia.
Qed.

(** * Starting *)
Variable s0 : F -> S.
Lemma dset_fresh {A} f (v : A) d : ~ In f (map fst d) -> dset feqb f v d = d ++ [(f, v)].
Proof.
  induction d as [|[k w] d IH]; intros H; [reflexivity|]. cbn in H |- *. rewrite feqb_neq by (intros ->; apply H; now left). f_equal. apply IH. intros Hi. apply H. now right.
Qed.
Lemma start_ok factors : NoDup factors -> (forall f, In f factors -> passes f = Ok (s0 f, kf f)) -> forall a b,
  (forall f, In f factors -> ~ In f (map fst a) /\ ~ In f (map fst b)) ->
  foldM (start feqb passes) factors (a, b) = Ok (a ++ map (fun f => (f, s0 f)) factors, b ++ map (fun f => (f, kf f)) factors).
Proof.
  induction factors as [|f factors IH]; intros Hnd Hp a b Hab; [cbn; now rewrite !app_nil_r|].
  cbn [foldM start]. unfold start at 1. rewrite (Hp f) by now left. cbn [bind fst snd].
  destruct (Hab f (or_introl eq_refl)) as [Ha Hb]. rewrite !dset_fresh by assumption. inversion Hnd as [|x l Hx Hl]; subst.
  rewrite IH; [cbn; now rewrite <- !app_assoc|exact Hl|intros; apply Hp; now right|].
  intros g Hg. destruct (Hab g (or_intror Hg)) as [Ha' Hb']. rewrite !map_app, !in_app_iff. cbn. split; intros [H|[->|[]]]; contradiction.
Qed.
Lemma dget_map {A} (v : F -> A) l f : In f l -> dget feqb f (map (fun g => (g, v g)) l) = Some (v f).
Proof.
  induction l as [|g l IH]; [easy|]. cbn. intros Hf. destruct (feqb g f) eqn:E; [apply feqb_eq in E; now subst|]. apply IH. destruct Hf as [->|Hf]; [rewrite feqb_refl in E; discriminate|exact Hf].
Qed.
Lemma dget_map_none {A} (v : F -> A) l f : ~ In f l -> dget feqb f (map (fun g => (g, v g)) l) = None.
Proof.
  induction l as [|g l IH]; [reflexivity|]. cbn. intros Hf. rewrite feqb_neq by (intros ->; apply Hf; now left). apply IH. auto.
Qed.
Lemma needed_still factors : map fst (filter (fun q : F * Z => Z.ltb 0 (snd q)) (map (fun f => (f, kf f)) factors)) = still factors 0.
Proof.
  unfold still. induction factors as [|f l IH]; [reflexivity|]. cbn. destruct (0 <? kf f)%Z; cbn; now rewrite IH.
Qed.

Definition schedule (factors : list F) : list event := flat_map (pass_events factors) (seq 0 (npasses factors)).
Lemma memorize_exec fuel factors : NoDup factors -> (forall f, In f factors -> passes f = Ok (s0 f, kf f)) -> npasses factors <= fuel ->
  factors_memorize feqb passes chunk finish data order fuel factors =
  foldM exec (schedule factors) (map (fun f => (f, s0 f)) factors, []).
Proof.
  intros Hnd Hp Hfuel. unfold factors_memorize. rewrite start_ok by (auto; intros; cbn; auto). cbn [bind app]. rewrite needed_still.
  apply passes_loop_exec; [intros f Hf; now apply dget_map| |apply still_end|exact Hfuel].
  intros q Hq. apply still_nonempty. lia.
Qed.
Lemma schedule_subjects factors e f : In e (schedule factors) -> subject e = Some f -> In f factors.
Proof.
  unfold schedule. intros He Hs. apply in_flat_map in He. destruct He as [p [_ He]]. unfold pass_events, chunk_events, finish_events in He.
  assert (G : In f (order p (still factors p)) -> In f factors).
  { intros H. eapply Permutation_in in H; [|apply order_perm]. now apply filter_In in H. }
  apply in_app_iff in He. destruct He as [[He|He]|He].
  - subst e. discriminate.
  - apply in_flat_map in He. destruct He as [d [_ He]]. apply in_map_iff in He. destruct He as [g [<- Hg]]. injection Hs as ->. auto.
  - apply in_map_iff in He. destruct He as [g [<- Hg]]. injection Hs as ->. auto.
Qed.
Lemma schedule_iters factors : filter is_iter (schedule factors) = map (fun p => EIter p) (seq 0 (npasses factors)).
Proof.
  unfold schedule. rewrite filter_flat_map. generalize (seq 0 (npasses factors)). intros l. induction l as [|p l IH]; [reflexivity|]. cbn [flat_map map]. rewrite IH.
  unfold pass_events, chunk_events, finish_events. rewrite filter_app. cbn [filter is_iter]. rewrite filter_flat_map, filter_map. cbn [is_iter].
  assert (E : forall ls : list F, filter (fun _ => false) ls = []) by (intros ls; induction ls; auto). rewrite E. cbn [map app]. f_equal. rewrite app_nil_r.
  assert (E2 : forall ds, flat_map (fun a => filter is_iter (map (fun f => EChunk f p a) (order p (still factors p)))) ds = (@nil event)).
  { induction ds as [|d ds IHd]; [reflexivity|]. cbn. rewrite IHd, app_nil_r, filter_map. cbn [is_iter]. now rewrite E. }
  now rewrite E2.
Qed.
End Memorize.

(** * Main results *)
Section Main.
Context {F S D : Type} (feqb : F -> F -> bool).
Hypothesis feqb_eq : forall a b, feqb a b = true <-> a = b.
Variable passes : F -> result (S * Z).
Variable chunk : F -> S -> nat -> D -> result S.
Variable finish : F -> S -> nat -> result S.
Variable data : nat -> list D.
Variable order : nat -> list F -> list F.
Hypothesis order_perm : forall p l, Permutation (order p l) l.

Lemma start_inv factors : forall a b r, foldM (start feqb passes) factors (a, b) = Ok r -> forall f, In f factors -> exists x, passes f = Ok x.
Proof.
  induction factors as [|g l IH]; intros a b r H f Hf; [easy|]. cbn in H. unfold start at 1 in H. destruct (passes g) as [x|] eqn:E; cbn in H; [|discriminate].
  destruct Hf as [->|Hf]; [eauto|]. eapply IH; eassumption.
Qed.
Lemma start_err factors : forall a b e, foldM (start feqb passes) factors (a, b) = Err e -> exists f, In f factors /\ passes f = Err e.
Proof.
  induction factors as [|g l IH]; intros a b e H; [discriminate|]. cbn in H. unfold start at 1 in H. destruct (passes g) as [x|e'] eqn:E; cbn in H.
  - destruct (IH _ _ _ H) as [f [A B]]. exists f. split; [now right|exact B].
  - injection H as ->. exists g. split; [now left|exact E].
Qed.
(** Choosing the results of [passes]. *)
Definition s_of (dflt : S) (f : F) : S := match passes f with Ok x => fst x | Err _ => dflt end.
Definition k_of (f : F) : Z := match passes f with Ok x => snd x | Err _ => 0%Z end.

Lemma memorize_lemma fuel factors states log : NoDup factors ->
  (forall f s k, In f factors -> passes f = Ok (s, k) -> Z.to_nat k <= fuel) ->
  factors_memorize feqb passes chunk finish data order fuel factors = Ok (states, log) ->
  exists k : F -> Z,
    (forall f, In f factors -> exists s s', passes f = Ok (s, k f) /\
       filter (concerns feqb f) log = calls_for data (Z.to_nat (k f)) f /\
       run chunk finish s (calls_for data (Z.to_nat (k f)) f) = Ok s' /\ dget feqb f states = Some s') /\
    (let n := list_max (map (fun f => Z.to_nat (k f)) factors) in
     let needed p := filter (fun f => Z.ltb (Z.of_nat p) (k f)) factors in
     log = flat_map (fun p => (EIter p :: flat_map (fun d => map (fun f => EChunk f p d) (order p (needed p))) (data p))
                              ++ map (fun f => EFinish f p) (order p (needed p))) (seq 0 n) /\
     filter is_iter log = map (fun p => EIter p) (seq 0 n)).
Proof.
  intros Hnd Hfuel H. exists k_of.
  assert (Hp : forall f, In f factors -> exists x, passes f = Ok x).
  { unfold factors_memorize in H. destruct (foldM (start feqb passes) factors ([], [])) as [r|] eqn:E; [|discriminate]. eapply start_inv; eassumption. }
  assert (Hdf : factors = [] \/ exists dflt : S, True).
  { destruct factors as [|f l]; [now left|]. right. destruct (Hp f (or_introl eq_refl)) as [[s k] _]. now exists s. }
  destruct Hdf as [->|[dflt _]].
  { cbn in H. destruct fuel; injection H as <- <-; cbn; (split; [easy|split; reflexivity]). }
  assert (Hp' : forall f, In f factors -> passes f = Ok (s_of dflt f, k_of f)).
  { intros f Hf. destruct (Hp f Hf) as [[s k] E]. unfold s_of, k_of. now rewrite E. }
  assert (Hn : npasses k_of factors <= fuel).
  { unfold npasses. apply list_max_le, Forall_forall. intros x Hx. apply in_map_iff in Hx. destruct Hx as [f [<- Hf]]. eapply Hfuel; [exact Hf|now apply Hp']. }
  rewrite (memorize_exec feqb feqb_eq passes chunk finish data order order_perm k_of (s_of dflt) fuel factors Hnd Hp' Hn) in H.
  destruct (exec_all_ok feqb feqb_eq chunk finish _ _ _ H) as [H1 H2]. cbn [fst snd app] in H1, H2. split.
  - intros f Hf. exists (s_of dflt f). destruct (H2 f (s_of dflt f) (dget_map feqb feqb_eq (s_of dflt) factors f Hf)) as [s' [A B]].
    assert (E : filter (concerns feqb f) (schedule data order k_of factors) = calls_for data (Z.to_nat (k_of f)) f).
    { apply schedule_filter; auto. now apply npasses_le. }
    rewrite E in B. exists s'. split; [now apply Hp'|]. split; [now rewrite H1|]. split; assumption.
  - cbn zeta. split; [exact H1|]. rewrite H1. apply schedule_iters.
Qed.

Lemma memorize_succeeds fuel factors : NoDup factors ->
  (forall f s k, In f factors -> passes f = Ok (s, k) -> Z.to_nat k <= fuel) ->
  ((exists r, factors_memorize feqb passes chunk finish data order fuel factors = Ok r) <->
   forall f, In f factors -> exists s k s', passes f = Ok (s, k) /\ run chunk finish s (calls_for data (Z.to_nat k) f) = Ok s').
Proof.
  intros Hnd Hfuel. split.
  - intros [[states log] H] f Hf. destruct (memorize_lemma fuel factors states log Hnd Hfuel H) as [k [A _]]. destruct (A f Hf) as [s [s' [B1 [_ [B2 _]]]]].
    exists s, (k f), s'. auto.
  - intros H.
    assert (Hdf : factors = [] \/ exists dflt : S, True).
    { destruct factors as [|f l]; [now left|]. right. destruct (H f (or_introl eq_refl)) as [s _]. now exists s. }
    destruct Hdf as [->|[dflt _]]; [destruct fuel; eexists; reflexivity|].
    assert (Hp' : forall f, In f factors -> passes f = Ok (s_of dflt f, k_of f)).
    { intros f Hf. destruct (H f Hf) as [s [k [s' [E _]]]]. unfold s_of, k_of. now rewrite E. }
    assert (Hn : npasses k_of factors <= fuel).
    { unfold npasses. apply list_max_le, Forall_forall. intros x Hx. apply in_map_iff in Hx. destruct Hx as [f [<- Hf]]. eapply Hfuel; [exact Hf|now apply Hp']. }
    rewrite (memorize_exec feqb feqb_eq passes chunk finish data order order_perm k_of (s_of dflt) fuel factors Hnd Hp' Hn).
    apply exec_all_complete; [exact feqb_eq| |].
    + cbn [fst]. intros e f He Hs. rewrite (dget_map feqb feqb_eq); [discriminate|]. eapply schedule_subjects; eassumption.
    + cbn [fst]. intros f s Hs. assert (Hf : In f factors).
      { assert (Hd : In f factors \/ ~ In f factors).
        { clear - feqb_eq. induction factors as [|g l IH]; [right; easy|]. destruct (feqb g f) eqn:E; [left; left; now apply feqb_eq|]. destruct IH; [left; now right|].
          right. intros [->|]; [|contradiction]. rewrite (proj2 (feqb_eq f f) eq_refl) in E. discriminate. }
        destruct Hd as [Hd|Hd]; [exact Hd|]. rewrite (dget_map_none feqb feqb_eq) in Hs by exact Hd. discriminate. }
      rewrite (dget_map feqb feqb_eq) in Hs by exact Hf. injection Hs as <-.
      unfold schedule. rewrite (schedule_filter feqb feqb_eq data order order_perm k_of factors f _ Hnd Hf (npasses_le k_of factors f Hf)).
      destruct (H f Hf) as [s [k [s' [E R]]]]. rewrite (Hp' f Hf) in E. injection E as <- <-. eauto.
Qed.

Lemma memorize_fails fuel factors e : NoDup factors ->
  (forall f s k, In f factors -> passes f = Ok (s, k) -> Z.to_nat k <= fuel) ->
  factors_memorize feqb passes chunk finish data order fuel factors = Err e ->
  exists f, In f factors /\ (passes f = Err e \/ exists s k, passes f = Ok (s, k) /\ run chunk finish s (calls_for data (Z.to_nat k) f) = Err e).
Proof.
  intros Hnd Hfuel H. pose proof H as H0. unfold factors_memorize in H0. destruct (foldM (start feqb passes) factors ([], [])) as [r|e'] eqn:Est.
  2:{ cbn in H0. injection H0 as ->. destruct (start_err _ _ _ _ Est) as [f [A B]]. eauto. }
  clear H0. pose proof (start_inv _ _ _ _ Est) as Hp.
  assert (Hdf : factors = [] \/ exists dflt : S, True).
  { destruct factors as [|f l]; [now left|]. right. destruct (Hp f (or_introl eq_refl)) as [[s k] _]. now exists s. }
  destruct Hdf as [->|[dflt _]]; [destruct fuel; discriminate|].
  assert (Hp' : forall f, In f factors -> passes f = Ok (s_of dflt f, k_of f)).
  { intros f Hf. destruct (Hp f Hf) as [[s k] E]. unfold s_of, k_of. now rewrite E. }
  assert (Hn : npasses k_of factors <= fuel).
  { unfold npasses. apply list_max_le, Forall_forall. intros x Hx. apply in_map_iff in Hx. destruct Hx as [f [<- Hf]]. eapply Hfuel; [exact Hf|now apply Hp']. }
  rewrite (memorize_exec feqb feqb_eq passes chunk finish data order order_perm k_of (s_of dflt) fuel factors Hnd Hp' Hn) in H.
  destruct (exec_all_err feqb feqb_eq chunk finish _ _ _ H) as [ev [f [s [A [B [C E]]]]]].
  { cbn [fst]. intros ev f He Hs. rewrite (dget_map feqb feqb_eq); [discriminate|]. eapply schedule_subjects; eassumption. }
  assert (Hf : In f factors) by (eapply schedule_subjects; eassumption). cbn [fst] in C. rewrite (dget_map feqb feqb_eq) in C by exact Hf. injection C as <-.
  unfold schedule in E. rewrite (schedule_filter feqb feqb_eq data order order_perm k_of factors f _ Hnd Hf (npasses_le k_of factors f Hf)) in E.
  exists f. split; [exact Hf|]. right. exists (s_of dflt f), (k_of f). split; [now apply Hp'|exact E].
Qed.
End Main.
