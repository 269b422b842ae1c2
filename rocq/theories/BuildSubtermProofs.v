(** Names and values of the columns of one subterm. *)
From Verif Require Import Base RankSpec DescModel FormulaModel BuildModel BuildSpec BuildProofs.

Lemma map_eq_forall2 {A B C} (f : A -> C) (g : B -> C) l m :
  map f l = map g m <-> Forall2 (fun x y => f x = g y) l m.
Proof.
  split.
  - revert m. induction l as [|x l IH]; intros [|y m]; cbn; try discriminate; [constructor|].
    intros [= E1 E2]. constructor; auto.
  - induction 1; cbn; congruence.
Qed.
Lemma mapM_some {A B} (f : A -> result B) (g : A -> option B) l ys :
  (forall x y, In x l -> (f x = Ok y <-> g x = Some y)) ->
  (mapM f l = Ok ys <-> map Some ys = map g l).
Proof.
  revert ys. induction l as [|x l IH]; intros ys H; cbn [mapM map].
  - split; [intros [= <-]; reflexivity|]. destruct ys; [reflexivity|discriminate].
  - destruct (f x) as [y|e] eqn:E; cbn [bind].
    + apply H in E; [|now left]. rewrite E.
      destruct (mapM f l) as [zs|e] eqn:E2; cbn [bind].
      * assert (E3 : map Some zs = map g l) by (apply IH; [intros; apply H; now right|reflexivity]).
        split; [intros [= <-]; cbn; congruence|]. destruct ys as [|y' ys]; [discriminate|]. cbn. intros [= <- E4].
        rewrite <- E3 in E4. f_equal. f_equal. apply map_eq_forall2 in E4. clear -E4. induction E4; congruence.
      * split; [discriminate|]. destruct ys as [|y' ys]; [discriminate|]. cbn. intros [= <- E4].
        apply IH in E4; [discriminate|]. intros. apply H. now right.
    + split; [discriminate|]. destruct ys as [|y' ys]; [discriminate|]. cbn. intros [= E4 _].
      symmetry in E4. apply H in E4; [congruence|now left].
Qed.

Lemma map_seq_nth {A B} (g : A -> option B) (l : list A) :
  map g l = map (fun k => match nth_error l k with Some x => g x | None => None end) (seq 0 (length l)).
Proof.
  induction l as [|x l IH]; [reflexivity|]. cbn [map length seq]. f_equal.
  rewrite <- seq_shift, map_map. exact IH.
Qed.

Section Subterm.
Context {V : Type} (vone : V) (vmul : V -> V -> V).
Notation subterm_info := (@subterm_info V).
Notation fvalue := (@fvalue V).

Lemma factor_columns_count fis (s : subterm_info) f n : factor_columns fis s f = Ok n -> count_of fis s f = n.
Proof.
  unfold factor_columns, count_of. destruct (dget String.eqb f (si_contrasts s)); [congruence|].
  destruct (dget String.eqb f fis) as [fi|]; cbn; [|discriminate]. destruct (fi_kind fi); congruence.
Qed.
Lemma combinations_spec fis (s : subterm_info) l : subterm_column_combinations fis s = Ok l -> l = combos (counts_of fis s).
Proof.
  unfold subterm_column_combinations. destruct (mapM _ _) as [cpf|] eqn:E; cbn; [|discriminate].
  intros [= <-]. rewrite column_combinations_combos. f_equal. unfold counts_of.
  apply mapM_ok_Forall2 in E. induction E as [|f n fs ns Ef]; cbn; [reflexivity|].
  now rewrite IHE, (factor_columns_count _ _ _ _ Ef).
Qed.

Lemma name_piece_spec fis (s : subterm_info) f i str : name_piece fis s (f, i) = Ok str -> str = piece fis s f i.
Proof.
  unfold name_piece, piece. destruct (dget String.eqb f fis) as [fi|]; cbn [lookup bind]; [|discriminate].
  destruct (fi_kind fi) as [n|n].
  - destruct (Nat.ltb_spec 1 n); destruct (Nat.leb_spec n 1); try lia; [congruence|].
    unfold assert. destruct (Nat.eqb i 0); congruence.
  - destruct (dget String.eqb f (si_contrasts s)) as [c|]; cbn [lookup bind]; [|discriminate].
    destruct (nth_error (ct_suffixes c) i) eqn:E; [|discriminate]. intros [= <-].
    now rewrite (nth_error_nth _ _ ""%string E).
Qed.
Lemma column_name_spec fis (s : subterm_info) c name : length c = length (si_factors s) ->
  column_name fis s c = Ok name -> name = label fis s c.
Proof.
  unfold column_name, label. intros HL. destruct (mapM _ _) as [ps|] eqn:E; cbn [bind]; [|discriminate].
  intros [= <-].
  assert (Hps : ps = map (fun p => piece fis s (fst p) (snd p)) (combine (si_factors s) c)).
  { apply mapM_ok_Forall2 in E. induction E as [|[f i] str l r E]; cbn; [reflexivity|].
    now rewrite <- IHE, <- (name_piece_spec _ _ _ _ _ E). }
  rewrite Hps. destruct (si_factors s) as [|f fs], c as [|i c]; try discriminate; reflexivity.
Qed.
Lemma combo_length fis (s : subterm_info) c : In c (combos (counts_of fis s)) -> length c = length (si_factors s).
Proof.
  intros H. apply combos_in_range in H. unfold counts_of in H.
  assert (G : length c = length (map (count_of fis s) (si_factors s))).
  { clear -H. induction H; cbn; congruence. }
  now rewrite map_length in G.
Qed.

Lemma names_spec fis (s : subterm_info) names : subterm_column_names fis s = Ok names ->
  names = map (label fis s) (combos (counts_of fis s)) /\ si_ncols s = product_of (counts_of fis s).
Proof.
  unfold subterm_column_names. destruct (subterm_column_combinations fis s) as [l|] eqn:E; cbn [bind]; [|discriminate].
  apply combinations_spec in E. subst l. destruct (mapM _ _) as [ns|] eqn:E; cbn [bind]; [|discriminate].
  unfold assert. destruct (Nat.eqb_spec (length ns) (si_ncols s)) as [E2|]; [|discriminate]. intros [= <-].
  pose proof (mapM_ok_length _ _ _ E) as HL. rewrite combos_length in HL. split; [|lia].
  apply mapM_ok_Forall2 in E.
  assert (G : forall c, In c (combos (counts_of fis s)) -> length c = length (si_factors s)) by apply combo_length.
  revert E G. generalize (combos (counts_of fis s)) as l. clear. intros l E G. induction E as [|c n l r E]; cbn; [reflexivity|].
  rewrite IHE by (intros; apply G; now right). f_equal. apply column_name_spec; [|exact E]. apply G. now left.
Qed.

(** What the checks of the DesignInfo constructor guarantee about a subterm. *)
Lemma factor_ok_columns fis (s : subterm_info) f : factor_ok fis s f -> factor_columns fis s f = Ok (count_of fis s f).
Proof.
  intros [fi [E1 E2]]. unfold factor_columns, count_of. rewrite E1. cbn [lookup bind]. destruct (fi_kind fi).
  - rewrite E2. reflexivity.
  - destruct E2 as [c [E2 _]]. rewrite E2. reflexivity.
Qed.
Lemma subterm_ok_combinations fis (s : subterm_info) : subterm_ok fis s ->
  subterm_column_combinations fis s = Ok (combos (counts_of fis s)).
Proof.
  intros [H _]. unfold subterm_column_combinations.
  assert (E : mapM (factor_columns fis s) (si_factors s) = Ok (counts_of fis s)).
  { apply mapM_ok_Forall2. unfold counts_of. induction (si_factors s) as [|f fs IH]; cbn; constructor.
    - apply factor_ok_columns. apply H. now left.
    - apply IH. intros. apply H. now right. }
  rewrite E. cbn [bind]. now rewrite column_combinations_combos.
Qed.

Lemma check_subterm_fold fis (s : subterm_info) fs : forall n cats n' cats',
  foldM (fun st f =>
      let '(exp_cols, cats) := st in
      let* fi := lookup (dget String.eqb f fis) in
      match fi_kind fi with
      | FNum n => Ok (exp_cols * n, cats)
      | FCat ncat =>
          let* c := lookup (dget String.eqb f (si_contrasts s)) in
          check (Nat.eqb (List.length (ct_rows c)) ncat) "Mismatched contrast matrix for factor"%string
            (Ok (exp_cols * ct_ncols c, f :: cats))
      end) fs (n, cats) = Ok (n', cats') ->
  exists cs, cats' = rev cs ++ cats /\
  (forall f, In f cs -> In f fs /\ exists fi k, dget String.eqb f fis = Some fi /\ fi_kind fi = FCat k) /\
  (forall f, In f fs -> exists fi, dget String.eqb f fis = Some fi /\
    match fi_kind fi with
    | FNum _ => True
    | FCat k => In f cs /\ exists c, dget String.eqb f (si_contrasts s) = Some c /\ length (ct_rows c) = k
    end) /\
  ((forall f, In f fs -> factor_ok fis s f) -> n' = n * product_of (map (count_of fis s) fs)).
Proof.
  induction fs as [|f fs IH]; intros n cats n' cats' H; cbn [foldM] in H.
  - injection H as <- <-. exists []. cbn. split; [reflexivity|]. split; [intros _ []|]. split; [intros _ []|]. intros _. lia.
  - destruct (dget String.eqb f fis) as [fi|] eqn:Ef; cbn [lookup bind] in H; [|discriminate].
    destruct (fi_kind fi) as [k|k] eqn:Ek.
    + apply IH in H. destruct H as [cs [H1 [H2 [H3 H4]]]]. exists cs. split; [exact H1|].
      split; [intros g Hg; apply H2 in Hg; destruct Hg; split; [now right|assumption]|]. split.
      * intros g [<-|Hg]; [|now apply H3]. exists fi. rewrite Ek. auto.
      * intros Hok. rewrite H4 by (intros; apply Hok; now right). cbn [map product_of].
        assert (E : count_of fis s f = k).
        { destruct (Hok f (or_introl eq_refl)) as [fi' [E1 E2]]. rewrite Ef in E1. injection E1 as <-.
          rewrite Ek in E2. unfold count_of. now rewrite E2, Ef, Ek. }
        rewrite E. lia.
    + destruct (dget String.eqb f (si_contrasts s)) as [c|] eqn:Ec; cbn [lookup bind] in H; [|discriminate].
      unfold check in H at 1. destruct (Nat.eqb_spec (length (ct_rows c)) k) as [El|]; cbn [bind] in H; [|discriminate].
      apply IH in H. destruct H as [cs [H1 [H2 [H3 H4]]]]. exists (f :: cs). split.
      { cbn [rev]. rewrite <- app_assoc. exact H1. }
      split; [intros g [<-|Hg]; [split; [now left|]; exists fi, k; auto|apply H2 in Hg; destruct Hg; split; [now right|assumption]]|].
      split.
      * intros g [<-|Hg].
        -- exists fi. rewrite Ek. split; [exact Ef|]. split; [now left|]. exists c. auto.
        -- destruct (H3 g Hg) as [fi' [E1 E2]]. exists fi'. split; [exact E1|]. destruct (fi_kind fi'); [exact Logic.I|].
           destruct E2. split; [now right|assumption].
      * intros Hok. rewrite H4 by (intros; apply Hok; now right). cbn [map product_of].
        assert (E : count_of fis s f = ct_ncols c) by (unfold count_of; now rewrite Ec).
        rewrite E. lia.
Qed.
Lemma check_subterm_ok fis (s : subterm_info) : check_subterm fis s = Ok tt -> subterm_ok fis s.
Proof.
  unfold check_subterm. destruct (foldM _ _ _) as [[n cats]|] eqn:E; cbn [bind]; [|discriminate]. cbn [fst snd].
  unfold check. destruct (set_eqb cats _) eqn:E1; [|discriminate]. destruct (Nat.eqb_spec n (si_ncols s)) as [E2|]; [|discriminate].
  intros _. apply check_subterm_fold in E. destruct E as [cs [H1 [H2 [H3 H4]]]]. rewrite app_nil_r in H1.
  assert (Hok : forall f, In f (si_factors s) -> factor_ok fis s f).
  { intros f Hf. destruct (H3 f Hf) as [fi [F1 F2]]. exists fi. split; [exact F1|]. destruct (fi_kind fi) as [n'|n'] eqn:Ek; [|exact (proj2 F2)].
    destruct (dget String.eqb f (si_contrasts s)) eqn:Ec; [|reflexivity]. exfalso.
    apply dget_in in Ec. destruct Ec as [k' [Hin E']]. apply String.eqb_eq in E'. subst k'.
    unfold set_eqb in E1. apply andb_true_iff in E1. destruct E1 as [_ E1]. apply subset_eqb_spec in E1.
    specialize (E1 f ltac:(now apply (in_map fst) in Hin)). rewrite H1 in E1. apply in_rev in E1.
    apply H2 in E1. destruct E1 as [_ [fi' [k [G1 G2]]]]. congruence. }
  split; [exact Hok|]. specialize (H4 Hok). unfold counts_of. lia.
Qed.

(** For a checked subterm naming cannot fail. *)
Lemma combine_in_range_nth {A} (g : A -> nat) fs c f i : in_range c (map g fs) -> In (f, i) (combine fs c) -> In f fs /\ i < g f.
Proof.
  revert c. induction fs as [|a fs IH]; intros c H Hin; cbn in *; [easy|].
  destruct c as [|j c]; [easy|]. inversion H; subst. destruct Hin as [[= -> ->]|Hin]; [auto|].
  destruct (IH c ltac:(assumption) Hin). auto.
Qed.
Lemma mapM_all_ok {A B} (f : A -> result B) l : (forall x, In x l -> exists y, f x = Ok y) -> exists ys, mapM f l = Ok ys.
Proof.
  induction l as [|x l IH]; intros H; cbn; [eauto|]. destruct (H x (or_introl eq_refl)) as [y E]. rewrite E. cbn.
  destruct IH as [ys E2]; [intros; apply H; now right|]. rewrite E2. cbn. eauto.
Qed.
Lemma subterm_ok_names fis (s : subterm_info) : subterm_ok fis s ->
  subterm_column_names fis s = Ok (map (label fis s) (combos (counts_of fis s))).
Proof.
  intros H. assert (G : exists names, subterm_column_names fis s = Ok names).
  { unfold subterm_column_names. rewrite (subterm_ok_combinations _ _ H). cbn [bind].
    destruct (mapM_all_ok (column_name fis s) (combos (counts_of fis s))) as [ns E].
    - intros c Hc. unfold column_name.
      destruct (mapM_all_ok (name_piece fis s) (combine (si_factors s) c)) as [ps E]; [|rewrite E; cbn; eauto].
      intros [f i] Hin. apply combos_in_range in Hc. destruct (combine_in_range_nth _ _ _ _ _ Hc Hin) as [Hf Hi].
      destruct (proj1 H f Hf) as [fi [E1 E2]]. unfold name_piece. rewrite E1. cbn [lookup bind].
      unfold count_of in Hi. destruct (fi_kind fi) as [n|n] eqn:Ek.
      + rewrite E2, E1, Ek in Hi. destruct (Nat.ltb_spec 1 n); [eauto|]. unfold assert.
        destruct (Nat.eqb_spec i 0); [eauto|lia].
      + destruct E2 as [ct [E2 _]]. rewrite E2 in *. cbn [lookup bind].
        destruct (nth_error (ct_suffixes ct) i) eqn:E3; [eauto|]. apply nth_error_None in E3. unfold ct_ncols in Hi. lia.
    - rewrite E. cbn [bind]. apply mapM_ok_length in E. rewrite combos_length in E. unfold assert.
      destruct H as [_ H]. rewrite H in E. rewrite E, Nat.eqb_refl. eauto. }
  destruct G as [names E]. rewrite E. f_equal. now apply names_spec in E.
Qed.

(** * Values *)
(** The value of a factor has the right kind and [n] rows. *)
Lemma index_some {A} (l : list A) i x : index l i = Ok x <-> nth_error l i = Some x.
Proof. unfold index. destruct (nth_error l i); split; congruence. Qed.

Lemma contribution_iff fis (s : subterm_info) values f i fi v n cs :
  factor_ok fis s f -> dget String.eqb f fis = Some fi -> dget String.eqb f values = Some v -> value_fits fi n v ->
  (contribution fis s values f i = Ok cs <->
   map Some cs = map (contrib fis s (fun g => dget String.eqb g values) f i) (seq 0 n)).
Proof.
  intros [fi' [E1 E2]] Ef Ev [Hn Hk]. rewrite Ef in E1. injection E1 as <-.
  unfold contribution, contrib. rewrite Ef, Ev. cbn [lookup bind].
  destruct (fi_kind fi) as [m|m] eqn:Ek.
  - destruct v as [nc rows|codes]; [|contradiction]. subst nc. cbn [vrows] in Hn. unfold assert. rewrite Nat.eqb_refl.
    rewrite (mapM_some _ (fun row => nth_error row i)) by (intros; apply index_some).
    rewrite (map_seq_nth (fun row => nth_error row i) rows), Hn. reflexivity.
  - destruct E2 as [c [Ec El]]. rewrite Ec. cbn [lookup bind].
    destruct v as [nc rows|codes]; [contradiction|]. cbn [vrows] in Hn.
    pose (g := fun z : Z => if Z.ltb z 0 then None else match nth_error (ct_rows c) (Z.to_nat z) with Some row => nth_error row i | None => None end).
    assert (Hmap : map g codes = map (fun k => match nth_error codes k with
        | Some z => if Z.ltb z 0 then None else match nth_error (ct_rows c) (Z.to_nat z) with Some row => nth_error row i | None => None end
        | None => None end) (seq 0 n)).
    { rewrite (map_seq_nth g codes), Hn. reflexivity. }
    rewrite <- Hmap. destruct (existsb (fun z => Z.ltb z 0) codes) eqn:Ex.
    + split; [discriminate|]. intros H. exfalso. apply existsb_exists in Ex. destruct Ex as [z [Hz Ez]].
      apply map_eq_forall2 in H. apply In_nth_error in Hz. destruct Hz as [k Hz].
      assert (G : forall l m, Forall2 (fun x y => Some x = g y) l m -> ~ In z m).
      { clear -Ez. induction 1 as [|x y l m E]; [easy|]. intros [->|Hin]; [|auto]. unfold g in E. rewrite Ez in E. discriminate. }
      apply G in H. apply H. eapply nth_error_In; eassumption.
    + rewrite (mapM_some _ g); [reflexivity|]. intros z y Hz. unfold g.
      destruct (Z.ltb z 0) eqn:Ez.
      { exfalso. assert (existsb (fun z => Z.ltb z 0) codes = true) by (apply existsb_exists; eauto). congruence. }
      unfold index at 1. destruct (nth_error (ct_rows c) (Z.to_nat z)); cbn [bind]; [apply index_some|split; discriminate].
Qed.

Definition times (acc x : option V) : option V :=
  match acc, x with Some a, Some b => Some (vmul a b) | _, _ => None end.
Lemma times_none xs : fold_left times xs None = None.
Proof. induction xs; cbn; auto. Qed.

Lemma map_some_inj {A} (l m : list A) : map Some l = map Some m -> l = m.
Proof. intros H. apply map_eq_forall2 in H. induction H; congruence. Qed.
Lemma map_some_length {A B} (l : list A) (g : B -> option A) m : map Some l = map g m -> length l = length m.
Proof. intros H. rewrite <- (map_length Some l), H, map_length. reflexivity. Qed.

Lemma mul_into_iff acc c r (a g : nat -> option V) n :
  map Some acc = map a (seq 0 n) -> map Some c = map g (seq 0 n) ->
  mul_into vmul acc c = Ok r <-> map Some r = map (fun k => times (a k) (g k)) (seq 0 n).
Proof.
  intros Ha Hg. unfold mul_into.
  rewrite (map_some_length _ _ _ Ha), (map_some_length _ _ _ Hg), Nat.eqb_refl.
  assert (E : map Some (map (fun p => vmul (fst p) (snd p)) (combine acc c)) = map (fun k => times (a k) (g k)) (seq 0 n)).
  { apply map_eq_forall2 in Ha. apply map_eq_forall2 in Hg. revert c Hg. induction Ha as [|x k acc l Ex Ha IH]; intros c Hg;
      inversion Hg as [|y k' c' l' Ey Hg']; subst; cbn; [reflexivity|]. rewrite IH by assumption.
    rewrite <- Ex, <- Ey. reflexivity. }
  rewrite <- E. split; [congruence|]. intros H. f_equal. symmetry. now apply map_some_inj.
Qed.

Lemma build_fold_iff fis (s : subterm_info) values n ps : 
  (forall f i, In (f, i) ps -> factor_ok fis s f /\ exists fi v, dget String.eqb f fis = Some fi /\
     dget String.eqb f values = Some v /\ value_fits fi n v) ->
  forall acc a, map Some acc = map a (seq 0 n) -> forall col,
  (foldM (fun acc p => let* c := contribution fis s values (fst p) (snd p) in mul_into vmul acc c) ps acc = Ok col <->
   map Some col = map (fun k => fold_left times (map (fun p => contrib fis s (fun g => dget String.eqb g values) (fst p) (snd p) k) ps) (a k)) (seq 0 n)).
Proof.
  induction ps as [|[f i] ps IH]; intros H acc a Ha col; cbn [foldM map fold_left].
  - split; [intros [= <-]; exact Ha|]. intros E. f_equal. apply map_some_inj. exact (eq_trans Ha (eq_sym E)).
  - destruct (H f i (or_introl eq_refl)) as [Hok [fi [v [E1 [E2 Hv]]]]]. cbn [fst snd].
    destruct (contribution fis s values f i) as [c|e] eqn:Ec.
    + cbn [bind]. pose proof Ec as Ec'. rewrite (contribution_iff _ _ _ _ _ _ _ _ _ Hok E1 E2 Hv) in Ec'.
      destruct (mul_into vmul acc c) as [acc'|e] eqn:Em.
      * cbn [bind]. rewrite (mul_into_iff _ _ _ _ _ _ Ha Ec') in Em. apply IH; [intros g j Hg; apply (H g j); now right|exact Em].
      * exfalso. unfold mul_into in Em. rewrite (map_some_length _ _ _ Ha), (map_some_length _ _ _ Ec'), Nat.eqb_refl in Em. discriminate.
    + cbn [bind]. split; [discriminate|]. intros E. exfalso.
      assert (G : exists cs, map Some cs = map (contrib fis s (fun g => dget String.eqb g values) f i) (seq 0 n)).
      { apply map_eq_forall2 in E. revert E. clear. revert col. generalize (seq 0 n) as ks. induction ks as [|k ks IHk]; intros col E.
        - exists []. reflexivity.
        - inversion E as [|x k' col' ks' Ex Er]; subst. destruct (IHk _ Er) as [cs Ecs].
          destruct (contrib fis s (fun g => dget String.eqb g values) f i k) as [y|] eqn:Ey.
          + exists (y :: cs). cbn. now rewrite Ey, Ecs.
          + unfold times in Ex at 2. destruct (a k); rewrite times_none in Ex; discriminate. }
      destruct G as [cs G]. rewrite <- (contribution_iff _ _ _ _ _ _ _ _ _ Hok E1 E2 Hv) in G. congruence.
Qed.

Lemma build_column_iff fis (s : subterm_info) values n t c col :
  (forall f, In f (si_factors s) -> factor_ok fis s f) -> values_fit fis values n (si_factors s) ->
  (build_column vone vmul fis s values n c = Ok col <->
   map Some col = map (entry vone vmul fis (fun g => dget String.eqb g values) (t, s, c)) (seq 0 n)).
Proof.
  intros Hok Hfit. unfold build_column, entry, product. apply (build_fold_iff fis s values n (combine (si_factors s) c)).
  - intros f i Hin. apply in_combine_l in Hin. split; [now apply Hok|]. exact (Hfit f Hin).
  - generalize 0 as o. induction n as [|n IHn]; intros o; cbn; [reflexivity|]. f_equal.
    assert (E : forall o, map Some (repeat vone n) = map (fun _ => Some vone) (seq o n)).
    { clear. induction n; cbn; congruence. }
    apply E.
Qed.

Lemma build_subterm_iff fis (s : subterm_info) values n t cols :
  subterm_ok fis s -> values_fit fis values n (si_factors s) ->
  (build_subterm vone vmul fis s values n = Ok cols <->
   Forall2 (fun c col => map Some col = map (entry vone vmul fis (fun g => dget String.eqb g values) (t, s, c)) (seq 0 n))
     (combos (counts_of fis s)) cols).
Proof.
  intros Hok Hfit. unfold build_subterm. rewrite (subterm_ok_combinations _ _ Hok). cbn [bind].
  assert (Hiff : forall cols, mapM (build_column vone vmul fis s values n) (combos (counts_of fis s)) = Ok cols <->
    Forall2 (fun c col => map Some col = map (entry vone vmul fis (fun g => dget String.eqb g values) (t, s, c)) (seq 0 n))
     (combos (counts_of fis s)) cols).
  { intros l. rewrite mapM_ok_Forall2. split; intros H; induction H; constructor; auto;
      (apply (build_column_iff fis s values n t); [exact (proj1 Hok)|exact Hfit|assumption]). }
  destruct (mapM _ _) as [l|e] eqn:E; cbn [bind].
  - pose proof (mapM_ok_length _ _ _ E) as HL. rewrite combos_length, (proj2 Hok) in HL. rewrite HL, Nat.leb_refl.
    rewrite Nat.sub_diag. cbn [repeat]. rewrite app_nil_r. rewrite <- Hiff. split; congruence.
  - rewrite <- Hiff. split; discriminate.
Qed.

Lemma subterm_columns_aligned fis (s : subterm_info) values n t names cols :
  subterm_ok fis s -> values_fit fis values n (si_factors s) ->
  subterm_column_names fis s = Ok names -> build_subterm vone vmul fis s values n = Ok cols ->
  length names = si_ncols s /\ length cols = si_ncols s /\ product_of (counts_of fis s) = si_ncols s /\
  forall c, in_range c (counts_of fis s) ->
    nth_error names (radix c (counts_of fis s)) = Some (label fis s c) /\
    exists col, nth_error cols (radix c (counts_of fis s)) = Some col /\
      map Some col = map (entry vone vmul fis (fun g => dget String.eqb g values) (t, s, c)) (seq 0 n).
Proof.
  intros Hok Hfit Hn Hc. apply names_spec in Hn. destruct Hn as [-> Hnc].
  rewrite (build_subterm_iff _ _ _ _ t _ Hok Hfit) in Hc.
  split; [rewrite map_length, combos_length; lia|].
  split; [rewrite Hnc, <- combos_length; symmetry; clear -Hc; induction Hc; cbn; congruence|].
  split; [lia|]. intros c Hr. pose proof (combos_radix _ _ Hr) as E. split; [rewrite nth_error_map, E; reflexivity|].
  revert E. generalize (radix c (counts_of fis s)) as k. clear -Hc. induction Hc as [|x y l r E Hc IH]; intros [|k] H; cbn in *; try discriminate.
  - injection H as ->. eauto.
  - auto.
Qed.
End Subterm.
