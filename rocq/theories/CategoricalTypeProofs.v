(** Each factor's type is found independently of the others and of the order of visits. *)
From Coq Require Import Ascii QArith Permutation.
From Verif Require Import Base BuildModel BuildProofs CategoricalModel CategoricalSpec.
Open Scope nat_scope.
Open Scope string_scope.
Open Scope list_scope.

Section Types.
Context {C F D : Type} (feqb : F -> F -> bool).
Hypothesis feqb_eq : forall f g, feqb f g = true <-> f = g.
Variable eval : F -> D -> result (@value C).
Variable origin_of : F -> option origin.
Variable na : na_types.
Variable order : nat -> list F -> list F.
Hypothesis order_perm : forall n l, Permutation (order n l) l.
Local Notation type_of := (type_of eval origin_of na).
Local Notation look := (look eval origin_of na).
Local Notation step := (examine_step feqb eval origin_of na).

Lemma feqb_refl f : feqb f f = true.
Proof. now apply feqb_eq. Qed.
Lemma feqb_sym f g : feqb f g = feqb g f.
Proof. destruct (feqb f g) eqn:E1, (feqb g f) eqn:E2; try reflexivity; [apply feqb_eq in E1|apply feqb_eq in E2]; subst; rewrite feqb_refl in *; congruence. Qed.
Lemma feqb_trans f g h : feqb f g = true -> feqb g h = true -> feqb f h = true.
Proof. rewrite !feqb_eq. congruence. Qed.
Lemma feqb_neq f g : f <> g -> feqb f g = false.
Proof. intros H. destruct (feqb f g) eqn:E; [|reflexivity]. apply feqb_eq in E. contradiction. Qed.
Lemma dget_dset' {A} k (v : A) k' d : dget feqb k' (dset feqb k v d) = if feqb k k' then Some v else dget feqb k' d.
Proof. apply (dget_dset feqb feqb_sym feqb_trans). Qed.
Lemma in_remove f g l : In g (remove feqb f l) <-> In g l /\ g <> f.
Proof.
  unfold remove. rewrite filter_In, negb_true_iff. split.
  - intros [A B]. split; [exact A|]. intros ->. rewrite feqb_refl in B. discriminate.
  - intros [A B]. split; [exact A|]. now apply feqb_neq.
Qed.
Lemma remove_NoDup f l : NoDup l -> NoDup (remove feqb f l).
Proof. apply NoDup_filter. Qed.

(** What is known about [f] after the chunks [p]. *)
Inductive status (p : list D) (f : F) (st : examined) : Prop :=
  | StNew : In f (ex_needed st) -> p = [] -> dget feqb f (ex_num st) = None -> dget feqb f (ex_cat st) = None -> status p f st
  | StOpen sn : In f (ex_needed st) -> p <> [] -> dget feqb f (ex_num st) = None -> dget feqb f (ex_cat st) = Some sn ->
      (forall rest, type_of f (p ++ rest) = let* sn' := look f rest sn in Ok (Some (TCat sn'))) -> status p f st
  | StNum n : ~ In f (ex_needed st) -> dget feqb f (ex_num st) = Some n -> dget feqb f (ex_cat st) = None ->
      (forall rest, type_of f (p ++ rest) = Ok (Some (TNum n))) -> status p f st
  | StCat sn : ~ In f (ex_needed st) -> dget feqb f (ex_num st) = None -> dget feqb f (ex_cat st) = Some sn ->
      (forall rest, type_of f (p ++ rest) = Ok (Some (TCat sn))) -> status p f st.

Lemma status_later p d f st : status p f st -> ~ In f (ex_needed st) -> status (p ++ [d]) f st.
Proof.
  intros [H|sn H|n H H1 H2 H3|sn H H1 H2 H3] Hn; try contradiction; [eapply StNum|eapply StCat]; eauto; intros rest; rewrite <- app_assoc; apply H3.
Qed.
Lemma step_needed d st f st' : step d st f = Ok st' -> ex_needed st' = ex_needed st \/ ex_needed st' = remove feqb f (ex_needed st).
Proof.
  unfold examine_step. destruct (eval f d) as [v|]; [|discriminate]. cbn [bind]. destruct (_ || _).
  - destruct (sniff _ _ _ _) as [[sn fin]|]; [|discriminate]. cbn [bind]. intros H. injection H as <-. cbn. destruct fin; auto.
  - destruct (column_count _ v); [|discriminate]. cbn [bind]. intros H. injection H as <-. auto.
Qed.
Lemma step_other d st f st' g p : step d st f = Ok st' -> g <> f -> status p g st -> status p g st'.
Proof.
  intros H Hg.
  assert (N : In g (ex_needed st') <-> In g (ex_needed st)).
  { destruct (step_needed _ _ _ _ H) as [->| ->]; [tauto|]. rewrite in_remove. tauto. }
  assert (E : dget feqb g (ex_num st') = dget feqb g (ex_num st) /\ dget feqb g (ex_cat st') = dget feqb g (ex_cat st)).
  { unfold examine_step in H. destruct (eval f d) as [v|]; [|discriminate]. cbn [bind] in H. destruct (_ || _) in H.
    - destruct (sniff _ _ _ _) as [[sn fin]|]; [|discriminate]. cbn [bind] in H. injection H as <-. cbn. rewrite dget_dset', feqb_neq by auto. auto.
    - destruct (column_count _ v); [|discriminate]. cbn [bind] in H. injection H as <-. cbn. rewrite dget_dset', feqb_neq by auto. auto. }
  destruct E as [E1 E2]. intros [A B|sn A B|n A B|sn A B].
  - apply StNew; rewrite ?N, ?E1, ?E2; auto.
  - eapply StOpen; rewrite ?N, ?E1, ?E2; eauto.
  - eapply StNum; rewrite ?N, ?E1, ?E2; eauto.
  - eapply StCat; rewrite ?N, ?E1, ?E2; eauto.
Qed.
Lemma step_self d st f st' p : step d st f = Ok st' -> In f (ex_needed st) -> status p f st -> status (p ++ [d]) f st'.
Proof.
  intros H Hn [A -> B1 B2|sn A Hp B1 B2 B3|n A|sn A]; try contradiction; unfold examine_step in H.
  - destruct (eval f d) as [v|] eqn:Ev; [|discriminate]. cbn [bind] in H. rewrite B2 in H. cbn [orb] in H.
    destruct (guess_categorical v) eqn:Eg.
    + destruct (sniff na (origin_of f) new_sniffer v) as [[sn fin]|] eqn:Es; [|discriminate]. cbn [bind] in H. injection H as <-.
      destruct fin.
      * eapply StCat with sn; cbn; [rewrite in_remove; tauto|exact B1|rewrite dget_dset', feqb_refl; reflexivity|]. intros rest. rewrite Ev. cbn. now rewrite Eg, Es.
      * eapply StOpen with sn; cbn; [exact A|discriminate|exact B1|rewrite dget_dset', feqb_refl; reflexivity|]. intros rest. rewrite Ev. cbn. now rewrite Eg, Es.
    + destruct (column_count _ v) as [n|] eqn:Ec; [|discriminate]. cbn [bind] in H. injection H as <-.
      eapply StNum with n; cbn; [rewrite in_remove; tauto|rewrite dget_dset', feqb_refl; reflexivity|exact B2|]. intros rest. rewrite Ev. cbn. now rewrite Eg, Ec.
  - destruct (eval f d) as [v|] eqn:Ev; [|discriminate]. cbn [bind] in H. rewrite B2 in H. cbn [orb] in H.
    destruct (sniff na (origin_of f) sn v) as [[sn' fin]|] eqn:Es; [|discriminate]. cbn [bind] in H. injection H as <-.
    assert (E : forall rest, type_of f ((p ++ [d]) ++ rest) = if fin then Ok (Some (TCat sn')) else let* s := look f rest sn' in Ok (Some (TCat s))).
    { intros rest. rewrite <- app_assoc, B3. cbn. rewrite Ev. cbn. rewrite Es. cbn. now destruct fin. }
    destruct fin.
    + eapply StCat with sn'; cbn; [rewrite in_remove; tauto|exact B1|rewrite dget_dset', feqb_refl; reflexivity|exact E].
    + eapply StOpen with sn'; cbn; [exact A|destruct p; discriminate|exact B1|rewrite dget_dset', feqb_refl; reflexivity|exact E].
Qed.
Lemma step_ok d st f p rest : In f (ex_needed st) -> status p f st -> (exists t, type_of f (p ++ d :: rest) = Ok t) -> exists st', step d st f = Ok st'.
Proof.
  intros Hn [A -> B1 B2|sn A Hp B1 B2 B3|n A|sn A] [t Ht]; try contradiction; unfold examine_step.
  - cbn in Ht. destruct (eval f d) as [v|] eqn:Ev; [|discriminate]. cbn [bind] in *. rewrite B2. cbn [orb]. destruct (guess_categorical v).
    + destruct (sniff na (origin_of f) new_sniffer v) as [[sn fin]|]; [|discriminate]. cbn. eauto.
    + destruct (column_count _ v); [|discriminate]. cbn. eauto.
  - rewrite B3 in Ht. cbn in Ht. destruct (eval f d) as [v|]; [|discriminate]. cbn [bind] in *. rewrite B2. cbn [orb].
    destruct (sniff na (origin_of f) sn v) as [[sn' fin]|]; [|discriminate]. cbn. eauto.
Qed.

(** One round. *)
Lemma round_ok d p todo : forall st st' (factors : list F), NoDup todo -> (forall f, In f todo -> In f (ex_needed st)) ->
  (forall f, In f factors -> status (if in_dec (fun a b => match bool_dec (feqb a b) true with left e => left (proj1 (feqb_eq a b) e) | right n => right (fun E => n (proj2 (feqb_eq a b) E)) end) f todo then p else p ++ [d]) f st) ->
  (forall f, In f todo -> In f factors) ->
  foldM (step d) todo st = Ok st' -> (forall f, In f factors -> status (p ++ [d]) f st') /\ (forall f, In f (ex_needed st') -> In f (ex_needed st)) /\ (NoDup (ex_needed st) -> NoDup (ex_needed st')).
Proof.
  induction todo as [|f todo IH]; intros st st' factors Hd Hn Hs Hf H; cbn [foldM] in H.
  - injection H as <-. split; [|auto]. intros g Hg. specialize (Hs g Hg). cbn in Hs. exact Hs.
  - destruct (step d st f) as [st1|] eqn:E1; [|discriminate]. cbn [bind] in H. inversion Hd as [|? ? D1 D2]; subst.
    assert (N1 : forall g, g <> f -> In g (ex_needed st1) <-> In g (ex_needed st)).
    { intros g Hg. destruct (step_needed _ _ _ _ E1) as [->| ->]; [tauto|]. rewrite in_remove. tauto. }
    destruct (IH st1 st' factors D2) as [I1 [I2 I3]]; auto.
    + intros g Hg. apply N1; [intros ->; contradiction|]. apply Hn. now right.
    + intros g Hg. specialize (Hs g Hg). destruct (bool_dec (feqb g f) true) as [Ef|Ef].
      * apply feqb_eq in Ef. subst g. destruct (in_dec _ f (f :: todo)) as [_|X] in Hs; [|exfalso; apply X; now left].
        destruct (in_dec _ f todo) as [X|_]; [contradiction|]. apply (step_self d st f st1 p E1); [apply Hn; now left|exact Hs].
      * assert (Hgf : g <> f) by (intros ->; apply Ef, feqb_refl). destruct (in_dec _ g (f :: todo)) as [X|X] in Hs; (destruct (in_dec _ g todo) as [Y|Y]).
        -- now apply (step_other d st f st1 g p).
        -- destruct X as [<-|X]; contradiction.
        -- exfalso. apply X. now right.
        -- now apply (step_other d st f st1 g (p ++ [d])).
    + intros g Hg. apply Hf. now right.
    + split; [exact I1|]. split.
      * intros g Hg. apply I2 in Hg. destruct (step_needed _ _ _ _ E1) as [X|X]; rewrite X in Hg; [exact Hg|]. now apply in_remove in Hg.
      * intros Hnd. apply I3. destruct (step_needed _ _ _ _ E1) as [->| ->]; [exact Hnd|now apply remove_NoDup].
Qed.
Lemma round_total d p rest todo : forall st, NoDup todo -> (forall f, In f todo -> In f (ex_needed st)) ->
  (forall f, In f todo -> status p f st) -> (forall f, In f todo -> exists t, type_of f (p ++ d :: rest) = Ok t) -> exists st', foldM (step d) todo st = Ok st'.
Proof.
  induction todo as [|f todo IH]; intros st Hd Hn Hs Ht; cbn [foldM]; [eauto|].
  destruct (step_ok d st f p rest) as [st1 E1]; [apply Hn; now left|apply Hs; now left|apply Ht; now left|]. rewrite E1. cbn [bind]. inversion Hd as [|? ? D1 D2]; subst.
  apply IH; auto.
  - intros g Hg. assert (g <> f) by (intros ->; contradiction). destruct (step_needed _ _ _ _ E1) as [->| ->]; [apply Hn; now right|]. apply in_remove. split; [apply Hn; now right|auto].
  - intros g Hg. apply (step_other d st f st1 g p E1); [intros ->; contradiction|apply Hs; now right].
  - intros g Hg. apply Ht. now right.
Qed.

(** All rounds: the status at the end is that of the whole data. *)
Definition final (chunks : list D) (f : F) (st : examined) : Prop :=
  match type_of f chunks with
  | Ok (Some (TNum n)) => dget feqb f (ex_num st) = Some n /\ dget feqb f (ex_cat st) = None
  | Ok (Some (TCat sn)) => dget feqb f (ex_num st) = None /\ dget feqb f (ex_cat st) = Some sn
  | Ok None => dget feqb f (ex_num st) = None /\ dget feqb f (ex_cat st) = None
  | Err _ => False
  end.
Lemma status_final p f st : status p f st -> final p f st.
Proof.
  unfold final. intros [A -> B1 B2|sn A Hp B1 B2 B3|n A B1 B2 B3|sn A B1 B2 B3].
  - cbn. auto.
  - specialize (B3 []). rewrite app_nil_r in B3. rewrite B3. cbn. auto.
  - specialize (B3 []). rewrite app_nil_r in B3. rewrite B3. auto.
  - specialize (B3 []). rewrite app_nil_r in B3. rewrite B3. auto.
Qed.
Lemma status_final_closed p rest f st : status p f st -> ~ In f (ex_needed st) -> final (p ++ rest) f st.
Proof. unfold final. intros [A|sn A|n A B1 B2 B3|sn A B1 B2 B3] Hn; try contradiction; rewrite B3; auto. Qed.
Lemma chunks_status chunks : forall round p st st' factors, NoDup (ex_needed st) -> (forall f, In f (ex_needed st) -> In f factors) ->
  (forall f, In f factors -> status p f st) -> examine_chunks feqb eval origin_of na order round chunks st = Ok st' ->
  forall f, In f factors -> final (p ++ chunks) f st'.
Proof.
  induction chunks as [|d r IH]; intros round p st st' factors Hd Hn Hs H f Hf; cbn [examine_chunks] in H.
  - injection H as <-. rewrite app_nil_r. apply status_final. auto.
  - destruct (foldM _ _ st) as [st1|] eqn:E1; [|discriminate]. cbn [bind] in H. pose proof (order_perm round (ex_needed st)) as P.
    destruct (round_ok d p (order round (ex_needed st)) st st1 factors) as [I1 [I2 I3]]; auto.
    + eapply Permutation_NoDup; [apply Permutation_sym, P|exact Hd].
    + intros g Hg. eapply Permutation_in; eauto.
    + intros g Hg. destruct (in_dec _ g _) as [X|X]; [auto|]. apply status_later; [auto|]. intros Y. apply X. eapply Permutation_in; [apply Permutation_sym, P|exact Y].
    + intros g Hg. apply Hn. eapply Permutation_in; eauto.
    + assert (E : forall q, p ++ d :: q = (p ++ [d]) ++ q) by (intros q; now rewrite <- app_assoc). rewrite E. destruct (ex_needed st1) as [|g l] eqn:En.
      * injection H as <-. apply status_final_closed; [auto|]. now rewrite En.
      * apply (IH (S round) (p ++ [d]) st1 st' factors); auto; rewrite En; auto.
Qed.
Lemma chunks_total chunks : forall round p st factors, NoDup (ex_needed st) -> (forall f, In f (ex_needed st) -> In f factors) ->
  (forall f, In f factors -> status p f st) -> (forall f, In f factors -> exists t, type_of f (p ++ chunks) = Ok t) ->
  exists st', examine_chunks feqb eval origin_of na order round chunks st = Ok st'.
Proof.
  induction chunks as [|d r IH]; intros round p st factors Hd Hn Hs Ht; cbn [examine_chunks]; [eauto|].
  pose proof (order_perm round (ex_needed st)) as P.
  assert (Pn : NoDup (order round (ex_needed st))) by (eapply Permutation_NoDup; [apply Permutation_sym, P|exact Hd]).
  assert (Pi : forall g, In g (order round (ex_needed st)) -> In g (ex_needed st)) by (intros g Hg; eapply Permutation_in; eauto).
  destruct (round_total d p r (order round (ex_needed st)) st Pn Pi) as [st1 E1]; auto.
  rewrite E1. cbn [bind].
  destruct (round_ok d p (order round (ex_needed st)) st st1 factors) as [I1 [I2 I3]]; auto.
  { intros g Hg. destruct (in_dec _ g _) as [X|X]; [auto|]. apply status_later; [auto|]. intros Y. apply X. eapply Permutation_in; [apply Permutation_sym, P|exact Y]. }
  destruct (ex_needed st1) as [|g l] eqn:En; [eauto|]. apply (IH (S round) (p ++ [d]) st1 factors); auto; try (rewrite En; auto).
  intros h Hh. rewrite <- app_assoc. cbn. auto.
Qed.

(** Errors are those of the factor itself. *)
Lemma step_err d st f p rest e : In f (ex_needed st) -> status p f st -> step d st f = Err e -> type_of f (p ++ d :: rest) = Err e.
Proof.
  intros Hn [A -> B1 B2|sn A Hp B1 B2 B3|n A|sn A]; try contradiction; unfold examine_step.
  - cbn. destruct (eval f d) as [v|]; cbn [bind]; [|intros [= <-]; reflexivity]. rewrite B2. cbn [orb]. destruct (guess_categorical v).
    + destruct (sniff na (origin_of f) new_sniffer v) as [[sn fin]|]; cbn [bind]; [discriminate|]. intros [= <-]. reflexivity.
    + destruct (column_count _ v); cbn [bind]; [discriminate|]. intros [= <-]. reflexivity.
  - rewrite B3. cbn. destruct (eval f d) as [v|]; cbn [bind]; [|intros [= <-]; reflexivity]. rewrite B2. cbn [orb].
    destruct (sniff na (origin_of f) sn v) as [[sn' fin]|]; cbn [bind]; [discriminate|]. intros [= <-]. reflexivity.
Qed.
Lemma round_err d p rest e todo : forall st, NoDup todo -> (forall f, In f todo -> In f (ex_needed st)) ->
  (forall f, In f todo -> status p f st) -> foldM (step d) todo st = Err e -> exists f, In f todo /\ type_of f (p ++ d :: rest) = Err e.
Proof.
  induction todo as [|f todo IH]; intros st Hd Hn Hs; cbn [foldM]; [discriminate|].
  destruct (step d st f) as [st1|e1] eqn:E1; cbn [bind].
  - intros H. inversion Hd as [|? ? D1 D2]; subst. destruct (IH st1 D2) as [g [Hg Eg]]; [| |exact H|exists g; split; [now right|exact Eg]].
    + intros g Hg. assert (g <> f) by (intros ->; contradiction). destruct (step_needed _ _ _ _ E1) as [->| ->]; [apply Hn; now right|]. apply in_remove. split; [apply Hn; now right|auto].
    + intros g Hg. apply (step_other d st f st1 g p E1); [intros ->; contradiction|apply Hs; now right].
  - intros [= <-]. exists f. split; [now left|]. eapply step_err; [| |exact E1]; [apply Hn; now left|apply Hs; now left].
Qed.
Lemma chunks_err chunks e : forall round p st factors, NoDup (ex_needed st) -> (forall f, In f (ex_needed st) -> In f factors) ->
  (forall f, In f factors -> status p f st) -> examine_chunks feqb eval origin_of na order round chunks st = Err e ->
  exists f, In f factors /\ type_of f (p ++ chunks) = Err e.
Proof.
  induction chunks as [|d r IH]; intros round p st factors Hd Hn Hs; cbn [examine_chunks]; [discriminate|].
  pose proof (order_perm round (ex_needed st)) as P.
  assert (Pn : NoDup (order round (ex_needed st))) by (eapply Permutation_NoDup; [apply Permutation_sym, P|exact Hd]).
  assert (Pi : forall g, In g (order round (ex_needed st)) -> In g (ex_needed st)) by (intros g Hg; eapply Permutation_in; eauto).
  destruct (foldM (step d) (order round (ex_needed st)) st) as [st1|e1] eqn:E1; cbn [bind].
  - destruct (round_ok d p (order round (ex_needed st)) st st1 factors) as [I1 [I2 I3]]; auto.
    { intros g Hg. destruct (in_dec _ g _) as [X|X]; [auto|]. apply status_later; [auto|]. intros Y. apply X. eapply Permutation_in; [apply Permutation_sym, P|exact Y]. }
    destruct (ex_needed st1) as [|g l] eqn:En; [discriminate|]. intros H.
    destruct (IH (S round) (p ++ [d]) st1 factors) as [h [Hh Eh]]; auto; try (rewrite En; auto).
    exists h. split; [exact Hh|]. rewrite <- app_assoc in Eh. exact Eh.
  - intros [= <-]. destruct (round_err d p r e1 (order round (ex_needed st)) st Pn Pi) as [f [Hf Ef]]; [intros f Hf; auto|exact E1|]. exists f. split; [apply Hn, Pi, Hf|exact Ef].
Qed.

Lemma dget_map {A B} (g : A -> B) f (d : list (F * A)) : dget feqb f (map (fun p => (fst p, g (snd p))) d) = option_map g (dget feqb f d).
Proof. induction d as [|[k v] d IH]; cbn; [reflexivity|]. now destruct (feqb k f). Qed.
Lemma start_status factors f : In f factors -> status [] f (mkEx [] [] factors).
Proof. intros H. apply StNew; auto. Qed.
End Types.
