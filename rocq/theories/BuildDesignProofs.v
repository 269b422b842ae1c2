(** Proofs about [design_for]. *)
From Verif Require Import Base RankSpec DescModel FormulaModel BuildModel BuildSpec BuildProofs BuildSubtermProofs BuildInfoProofs BuildMatrixProofs BuildAllProofs BuildOrderProofs BuildSubsetProofs.

Section Design.
Context {V : Type}.
Notation subterm_info := (@subterm_info V).
Notation design_info := (@design_info V).
Variables (num_cols : list (factor * nat)) (code_cm : factor -> bool -> result (@ctr V)) (hash : list (bool * factor) -> Z).

Definition id_label (fis : finfos) (id : @column_id V) : string := label fis (snd (fst id)) (snd id).

Lemma term_labels fis t (ss : list subterm_info) names : mapM (subterm_column_names fis) ss = Ok names ->
  concat names = map (id_label fis) (columns_of_term fis (t, ss)).
Proof.
  unfold columns_of_term. cbn [fst snd]. revert names. induction ss as [|s ss IH]; intros names; cbn [mapM flat_map].
  - intros [= <-]. reflexivity.
  - destruct (subterm_column_names fis s) as [n1|] eqn:E1; cbn [bind]; [|discriminate].
    destruct (mapM (subterm_column_names fis) ss) as [n2|] eqn:E2; cbn [bind]; [|discriminate].
    intros [= <-]. cbn [concat]. rewrite map_app, (IH n2 eq_refl). f_equal. destruct (names_spec _ _ _ E1) as [-> _]. rewrite map_map. reflexivity.
Qed.
Lemma all_labels fis (cs : list (term * list subterm_info)) names : mapM (fun p => mapM (subterm_column_names fis) (snd p)) cs = Ok names ->
  concat (map (@concat string) names) = map (id_label fis) (columns_of fis cs).
Proof.
  unfold columns_of. revert names. induction cs as [|[t ss] cs IH]; intros names; cbn [mapM flat_map snd].
  - intros [= <-]. reflexivity.
  - destruct (mapM (subterm_column_names fis) ss) as [n1|] eqn:E1; cbn [bind]; [|discriminate].
    destruct (mapM (fun p => mapM (subterm_column_names fis) (snd p)) cs) as [n2|] eqn:E2; cbn [bind]; [|discriminate].
    intros [= <-]. cbn [map concat]. rewrite map_app, (IH n2 eq_refl). f_equal. now apply term_labels.
Qed.
Lemma columns_ext fis fis' (cs : list (term * list subterm_info)) :
  (forall t ss s f, In (t, ss) cs -> In s ss -> In f (si_factors s) -> dget String.eqb f fis = dget String.eqb f fis') ->
  columns_of fis cs = columns_of fis' cs /\ map (id_label fis) (columns_of fis cs) = map (id_label fis') (columns_of fis' cs).
Proof.
  intros H. assert (E : columns_of fis cs = columns_of fis' cs).
  { unfold columns_of. rewrite !flat_map_concat_map. f_equal. apply map_ext_in. intros [t ss] Hin. apply columns_of_term_ext. intros s f Hs Hf. now apply (H t ss s). }
  split; [exact E|]. rewrite <- E. apply map_ext_in. intros [[t s] c] Hin. unfold id_label. cbn [fst snd].
  unfold columns_of in Hin. apply in_flat_map in Hin. destruct Hin as [[t' ss] [Hp Hin]]. unfold columns_of_term in Hin. cbn [fst snd] in Hin.
  apply in_flat_map in Hin. destruct Hin as [s' [Hs Hin]]. apply in_map_iff in Hin. destruct Hin as [c' [[= -> -> ->] _]].
  apply label_ext. intros f Hf. now apply (H t ss s).
Qed.

Lemma design_for_lemma fis termlist (d : design_info) : design_for num_cols code_cm hash fis termlist = Ok d ->
  constructed d /\ make_subterm_infos num_cols code_cm hash termlist = Ok (codings_of d) /\
  column_names d = map (fun id => label (infos_of d) (snd (fst id)) (snd id)) (columns_of (infos_of d) (codings_of d)) /\
  forall f, In f (concat termlist) -> dget String.eqb f (infos_of d) = dget String.eqb f fis.
Proof.
  unfold design_for. destruct (make_subterm_infos num_cols code_cm hash termlist) as [cs|] eqn:Em; cbn [bind]; [|discriminate].
  unfold assert. destruct (_ && _) eqn:Ea; [|discriminate].
  change (foldM (fun a f => let* fi := lookup (dget String.eqb f fis) in Ok (dset String.eqb f fi a)) (concat termlist) [])
    with (foldM (add_info fis) (concat termlist) []).
  destruct (foldM (add_info fis) (concat termlist) []) as [this|] eqn:Et; cbn [bind]; [|discriminate].
  destruct (mapM (fun p => mapM (subterm_column_names fis) (snd p)) cs) as [names|] eqn:En; cbn [bind]; [|discriminate].
  intros Hmk. destruct (add_infos fis (concat termlist) [] this) as [[H1 H2] [_ H3]]; [split; [exact Logic.I|discriminate]|exact Et|].
  destruct (make_inv num_cols code_cm hash termlist cs Em) as [_ [_ [_ Hd]]].
  destruct (d_facts d _ this cs Hmk H1 Hd) as [Hn [Hnd [Hck [sl [E1 [E2 [E3 [E4 E5]]]]]]]].
  assert (Hi : infos_of d = this) by (unfold infos_of; now rewrite E3).
  assert (Hc : codings_of d = cs) by (unfold codings_of; now rewrite E4).
  rewrite Hi, Hc. split; [exists (concat (map (@concat string) names)), this, cs; auto|]. split; [reflexivity|]. split.
  - rewrite Hn, (all_labels _ _ _ En). apply (columns_ext fis this). intros t ss s f Hp Hs Hf. symmetry. apply H3.
    destruct (order_lemma num_cols code_cm hash termlist cs Em) as [Hperm _]. apply in_concat. exists t. split.
    + eapply Permutation.Permutation_in; [exact Hperm|]. apply (in_map fst) in Hp. exact Hp.
    + eapply (ck_incl _ _ Hck t ss s); eassumption.
  - intros f Hf. now apply H3.
Qed.
End Design.
