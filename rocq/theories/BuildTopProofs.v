(** Consequences: when building succeeds, row mismatches, missing values. *)
From Coq Require Import Sorted.
From Verif Require Import Base RankSpec DescModel FormulaModel BuildModel BuildSpec BuildProofs BuildSubtermProofs BuildInfoProofs BuildMatrixProofs BuildAllProofs.

Section Top.
Context {V : Type} (vone : V) (vmul : V -> V -> V) (visnan : V -> bool) {I : Type} (ilabel : nat -> I) (ieqb : I -> I -> bool) (origin_of : factor -> option origin).
Notation subterm_info := (@subterm_info V).
Notation fvalue := (@fvalue V).
Notation design_info := (@design_info V).
Notation evaluated := (@evaluated V I).

(** * _eval_factor *)
Lemma eval_factor_lemma nan_is_na fi r (e : evaluated) :
  (forall i, match r with RawNum _ _ _ rows idx => idx = Some i -> length i = length rows | RawCodes codes idx => idx = Some i -> length i = length codes end) ->
  eval_factor visnan origin_of nan_is_na fi r = Ok e ->
  fits fi e /\
  forall k, nth k (ev_isna e) false = true <->
    match ev_value e with
    | VNum _ rows => exists row x, nth_error rows k = Some row /\ In x row /\ nan_is_na = true /\ visnan x = true
    | VCat codes => nth_error codes k = Some (-1)%Z
    end.
Proof.
  intros Hidx. unfold eval_factor. destruct (fi_kind fi) as [n|n] eqn:Ek, r as [ndim nc isnum rows idx|codes idx]; try discriminate.
  - destruct (Nat.ltb 2 ndim); [discriminate|]. destruct (Nat.eqb_spec nc n) as [->|]; [|discriminate].
    destruct isnum; [|destruct idx; discriminate]. intros [= <-]. split.
    + unfold fits. cbn. rewrite Ek. split; [now rewrite map_length|]. split; [exact Hidx|reflexivity].
    + intros k. cbn [ev_isna ev_value].
      * split.
        -- intros H. destruct (nth_error rows k) as [row|] eqn:E.
           ++ erewrite nth_error_nth in H by (rewrite nth_error_map, E; reflexivity).
              apply andb_true_iff in H. destruct H as [H1 H2]. apply existsb_exists in H2. destruct H2 as [x [H2 H3]]. exists row, x. auto.
           ++ rewrite nth_overflow in H; [discriminate|]. rewrite map_length. now apply nth_error_None.
        -- intros [row [x [H1 [H2 [H3 H4]]]]]. erewrite nth_error_nth by (rewrite nth_error_map, H1; reflexivity).
           rewrite H3. cbn. apply existsb_exists. eauto.
  - intros [= <-]. split.
    + unfold fits. cbn. rewrite Ek. split; [now rewrite map_length|]. split; [exact Hidx|exact Logic.I].
    + intros k. cbn [ev_isna ev_value]. destruct (nth_error codes k) as [z|] eqn:E.
      * erewrite nth_error_nth by (rewrite nth_error_map, E; reflexivity). cbn. rewrite Z.eqb_eq. split; congruence.
      * rewrite nth_overflow; [split; discriminate|]. rewrite map_length. now apply nth_error_None.
Qed.

(** * handle_NA: which error *)
Lemma handle_NA_raise_err (values : list (@arr V I)) masks origins : length values = length masks -> length masks = length origins ->
  forall i m org, nth_error masks i = Some m -> In true m -> (forall j m', j < i -> nth_error masks j = Some m' -> ~ In true m') -> nth_error origins i = Some org ->
  handle_NA NARaise values masks origins = Err (PatsyError "factor contains missing values" org).
Proof.
  intros HL HO i m org Hi Hm Hb Ho. unfold handle_NA, assert. rewrite HL, HO, !Nat.eqb_refl. cbn [andb].
  assert (F : find (fun p => existsb (fun b => b) (fst p)) (combine masks origins) = Some (m, org)).
  { clear HL HO. revert i origins Hi Hb Ho. induction masks as [|m0 masks IH]; intros i origins Hi Hb Ho; [destruct i; discriminate|].
    destruct origins as [|o0 origins]; [destruct i; discriminate|]. cbn [combine find fst]. destruct i as [|i].
    - injection Hi as ->. injection Ho as ->. assert (E : existsb (fun b => b) m = true) by (apply existsb_exists; eauto). now rewrite E.
    - destruct (existsb (fun b => b) m0) eqn:E.
      + exfalso. apply existsb_exists in E. destruct E as [b [E1 ->]]. exact (Hb 0 m0 ltac:(lia) eq_refl E1).
      + apply (IH i); [exact Hi| |exact Ho]. intros j m' Hj. apply (Hb (S j)). lia. }
  destruct masks as [|m1 masks]; [destruct i; discriminate|]. destruct values as [|v1 values]; [discriminate HL|]. now rewrite F.
Qed.

Hypothesis ieqb_eq : forall a b, ieqb a b = true <-> a = b.
Variable ev : finfo -> result evaluated.
Variable df : option (list I).
Variable dis : list design_info.
Hypothesis Hcon : Forall constructed dis.
Hypothesis Hid : identities (all_infos dis).
Hypothesis Hfits : forall fi, In fi (all_infos dis) -> exists e, ev fi = Ok e /\ fits fi e.

(** * Row mismatches *)
Lemma eval_fold_err l : (forall fi, In fi l -> exists e, ev fi = Ok e) -> forall st err, foldM (eval_one ieqb origin_of ev) l st = Err err ->
  exists fi msg, In fi l /\ err = PatsyError msg (origin_of (fi_factor fi)).
Proof.
  induction l as [|fi l IH]; intros H st err E; cbn [foldM] in E; [discriminate|].
  destruct (eval_one ieqb origin_of ev st fi) as [st'|e1] eqn:E1; cbn [bind] in E; [destruct (IH (fun g Hg => H g (or_intror Hg)) _ _ E) as [g [msg [Hg G]]]; exists g, msg; split; [now right|exact G]|].
  injection E as <-. exists fi. destruct st as [[d rows] idx]. unfold eval_one in E1. destruct (dmem fi_eqb fi d); [discriminate|].
  destruct (H fi (or_introl eq_refl)) as [e Ee]. rewrite Ee in E1. cbn [bind] in E1.
  unfold check_match in E1. destruct rows as [r|].
  - destruct (Nat.eqb r _); cbn [bind] in E1; [|injection E1 as <-; eexists; split; [now left|reflexivity]].
    destruct (ev_index e) as [i|]; [|discriminate]. destruct idx as [j|]; [|discriminate].
    destruct (list_eqb ieqb j i); cbn [bind] in E1; [discriminate|injection E1 as <-; eexists; split; [now left|reflexivity]].
  - cbn [bind] in E1. destruct (ev_index e) as [i|]; [|discriminate]. destruct idx as [j|]; [|discriminate].
    destruct (list_eqb ieqb j i); cbn [bind] in E1; [discriminate|injection E1 as <-; eexists; split; [now left|reflexivity]].
Qed.

Lemma mismatch_lemma act want_df : ~ (exists n, rows_are df (evals ev (all_infos dis)) n) ->
  exists fi msg, In fi (all_infos dis) /\ build_design_matrices vone vmul ilabel ieqb origin_of ev df act want_df dis = Err (PatsyError msg (origin_of (fi_factor fi))).
Proof.
  intros H. unfold build_design_matrices. rewrite (builders_ok dis Hcon). cbn [bind].
  rewrite (foldM_flat (eval_one ieqb origin_of ev) (fun b : @builder V => map snd (fst (fst b)))). rewrite builder_infos.
  destruct (foldM (eval_one ieqb origin_of ev) (all_infos dis) ([], option_map (@length I) df, df)) as [[[d rows] idx]|err] eqn:Ef; cbn [bind].
  - exfalso. destruct (eval_fold_sound ieqb origin_of ieqb_eq ev df (all_infos dis) (all_infos dis) Hid (incl_refl _) _ _ (einv_init ev df _) Ef) as [Hinv [_ Hcov]].
    cbn [fst snd] in Hcov. apply H. destruct rows as [n|].
    + exists n. apply (rows_are_here ev df dis Hfits d (Some n) idx Hinv Hcov). reflexivity.
    + destruct (proj1 (rows_none ev df dis Hfits d None idx Hinv Hcov) eq_refl) as [E1 E2]. exists 0. rewrite E1. split; [congruence|easy].
  - destruct (eval_fold_err (all_infos dis)) with (2 := Ef) as [fi [msg [Hfi ->]]]; [|exists fi, msg; auto].
    intros fi Hfi. destruct (Hfits fi Hfi) as [e [Ee _]]. eauto.
Qed.

(** * When building succeeds *)
Lemma product_some xs : (forall x, In x xs -> x <> None) -> product vone vmul xs <> None.
Proof.
  unfold product. assert (G : forall xs (a : V), (forall x, In x xs -> x <> None) ->
    fold_left (fun acc x => match acc, x with Some a, Some b => Some (vmul a b) | _, _ => None end) xs (Some a) <> None).
  { clear. induction xs as [|x xs IH]; intros a H; cbn; [discriminate|]. destruct x as [b|]; [|exfalso; now apply (H None (or_introl eq_refl))].
    apply IH. intros; apply H; now right. }
  apply G.
Qed.

Lemma entry_defined d k n : In d dis -> proper_design d ->
  (forall fi e, In fi (all_infos dis) -> ev fi = Ok e -> proper_value fi e) ->
  rows_are df (evals ev (all_infos dis)) n -> k < n -> missing_in (evals ev (all_infos dis)) k = false ->
  forall id, In id (columns_of (infos_of d) (codings_of d)) -> entry vone vmul (infos_of d) (values_in (infos_of d) ev) id k <> None.
Proof.
  intros Hd Hpd Hpv Hn Hk Hmiss [[t s] c] Hin. rewrite Forall_forall in Hcon.
  destruct (constructed_facts d (Hcon d Hd)) as [fis [cs [H1 [H2 [H3 [H4 _]]]]]].
  assert (Hi : infos_of d = fis) by (unfold infos_of; now rewrite H1).
  assert (Hc : codings_of d = cs) by (unfold codings_of; now rewrite H2).
  unfold proper_design in Hpd. rewrite Hi, Hc in *.
  unfold columns_of in Hin. apply in_flat_map in Hin. destruct Hin as [[t' ss] [Hcs Hin]].
  unfold columns_of_term in Hin. cbn [fst snd] in Hin. apply in_flat_map in Hin. destruct Hin as [s' [Hs Hin]].
  apply in_map_iff in Hin. destruct Hin as [c' [[= -> -> ->] Hin]]. apply combos_in_range in Hin.
  cbn [entry]. apply product_some. intros x Hx. apply in_map_iff in Hx. destruct Hx as [[f i] [<- Hfi]]. cbn [fst snd].
  destruct (combine_in_range_nth _ _ _ _ _ Hin Hfi) as [Hf Hlt].
  destruct (ck_subterm _ _ H3 _ _ _ Hcs Hs) as [Hok _]. destruct (Hok f Hf) as [fi [Ef Hkind]].
  unfold contrib, values_in. rewrite Ef.
  assert (Hall : In fi (all_infos dis)).
  { unfold all_infos. apply in_flat_map. exists d. split; [exact Hd|]. rewrite Hi. apply dget_in in Ef. destruct Ef as [k' [Ef _]]. apply (in_map snd) in Ef. exact Ef. }
  destruct (Hfits fi Hall) as [e [Ee Hfit]]. rewrite Ee. pose proof (Hpv fi e Hall Ee) as Hp.
  assert (He : In e (evals ev (all_infos dis))).
  { apply evals_in; [intros fi' Hfi'; destruct (Hfits fi' Hfi') as [y [Hy _]]; eauto|eauto]. }
  pose proof (proj2 Hn e He) as Hrows. destruct Hfit as [Hml [_ Hkv]]. unfold proper_value in Hp. unfold count_of in Hlt.
  destruct (fi_kind fi) as [m|m] eqn:Ek, (ev_value e) as [nc rows|codes] eqn:Ev; try contradiction; cbn [vrows] in *.
  - subst nc. rewrite Hkind, Ef, Ek in Hlt. destruct (nth_error rows k) as [row|] eqn:E; [|apply nth_error_None in E; lia].
    intros Hno. apply nth_error_None in Hno. rewrite (Hp row (nth_error_In _ _ E)) in Hno. lia.
  - destruct Hkind as [ct [Ec El]]. rewrite Ec in *. destruct (nth_error codes k) as [z|] eqn:E; [|apply nth_error_None in E; lia].
    assert (Hz : (0 <= z < Z.of_nat m)%Z).
    { destruct (Hp k z E) as [[Hm _]|[_ Hz]]; [|exact Hz]. exfalso.
      assert (Hc' : missing_in (evals ev (all_infos dis)) k = true) by (apply existsb_exists; exists e; auto). congruence. }
    destruct (Z.ltb_spec z 0); [lia|]. destruct (nth_error (ct_rows ct) (Z.to_nat z)) as [row|] eqn:Er.
    + intros Hno. apply nth_error_None in Hno. rewrite (Hpd t ss s f ct row Hcs Hs) in Hno.
      * unfold ct_ncols in *. lia.
      * apply dget_in in Ec. destruct Ec as [k' [Ec E']]. apply String.eqb_eq in E'. now subst.
      * eapply nth_error_In; eassumption.
    + apply nth_error_None in Er. lia.
Qed.

Lemma all_some_list {A B} (g : A -> option B) l : (forall x, In x l -> g x <> None) -> exists ys, map Some ys = map g l.
Proof.
  induction l as [|x l IH]; intros H; [exists []; reflexivity|]. destruct IH as [ys E]; [intros; apply H; now right|].
  destruct (g x) as [y|] eqn:Ex; [|exfalso; apply (H x); [now left|exact Ex]]. exists (y :: ys). cbn. now rewrite Ex, E.
Qed.
Lemma forall2_exists {A B} (P : A -> B -> Prop) l : (forall x, In x l -> exists y, P x y) -> exists ys, Forall2 P l ys.
Proof.
  induction l as [|x l IH]; intros H; [exists []; constructor|]. destruct IH as [ys E]; [intros; apply H; now right|].
  destruct (H x (or_introl eq_refl)) as [y Ey]. exists (y :: ys). now constructor.
Qed.

Lemma kept_lt act (es : list evaluated) n k : In k (kept act es n) -> k < n.
Proof. destruct act; cbn; intros H; [apply filter_In in H; destruct H as [H _]|]; apply in_seq in H; lia. Qed.

Lemma succeeds_iff act want_df : Forall proper_design dis ->
  (forall fi e, In fi (all_infos dis) -> ev fi = Ok e -> proper_value fi e) ->
  let es := evals ev (all_infos dis) in
  ((exists res, build_design_matrices vone vmul ilabel ieqb origin_of ev df act want_df dis = Ok res) <->
   exists n full, rows_are df es n /\ labels_are ilabel df es n full /\
     (act = NARaise -> forall k, k < n -> missing_in es k = false) /\ (es = [] -> df = None -> dis = [])).
Proof.
  intros Hpd Hpv es. split.
  - intros [[ms labels] H]. apply (build_iff vone vmul ieqb origin_of ieqb_eq ev df ilabel dis Hcon Hid Hfits) in H.
    destruct H as [n [full [H1 [H2 [H3 [H4 _]]]]]]. exists n, full. auto.
  - intros [n [full [H1 [H2 [H3 H4]]]]].
    assert (Hm : exists ms, Forall2 (matrix_is vone vmul ev (kept act es n)) dis ms).
    { apply forall2_exists. intros d Hd. rewrite Forall_forall in Hpd.
      destruct (forall2_exists (fun id col => map Some col = map (entry vone vmul (infos_of d) (values_in (infos_of d) ev) id) (kept act es n))
        (columns_of (infos_of d) (codings_of d))) as [cols Hcols].
      - intros id Hin. apply all_some_list. intros k Hk. pose proof (kept_lt _ _ _ _ Hk) as Hkn.
        apply (entry_defined d k n Hd (Hpd d Hd) Hpv H1 Hkn); [|exact Hin].
        destruct act; [|now apply H3]. cbn in Hk. apply filter_In in Hk. destruct Hk as [_ Hk]. apply negb_true_iff in Hk. exact Hk.
      - exists (mkMat (length (kept act es n)) cols). split; [reflexivity|exact Hcols]. }
    destruct Hm as [ms Hms].
    assert (Hdec : {es = [] /\ df = None} + {~ (es = [] /\ df = None)}).
    { destruct es; [destruct df|]; [right|left|right]; try (intros [? ?]; discriminate). auto. }
    exists (ms, if want_df then (if Hdec then None else Some (pick full (kept act es n))) else None).
    apply (build_iff vone vmul ieqb origin_of ieqb_eq ev df ilabel dis Hcon Hid Hfits).
    exists n, full. repeat (split; [assumption|]). destruct want_df; [|reflexivity]. destruct Hdec as [Hd|Hd]; [left; tauto|right; auto].
Qed.

(** * The rows kept *)
Lemma seq_sorted n : forall a, StronglySorted lt (seq a n).
Proof.
  induction n as [|n IH]; intros a; cbn; constructor; [apply IH|]. apply Forall_forall. intros x Hx. apply in_seq in Hx. lia.
Qed.
Lemma filter_sorted (P : nat -> bool) l : StronglySorted lt l -> StronglySorted lt (filter P l).
Proof.
  induction 1 as [|x l Hs IH Hx]; cbn; [constructor|]. destruct (P x); [|exact IH]. constructor; [exact IH|].
  rewrite Forall_forall in *. intros y Hy. apply filter_In in Hy. now apply Hx.
Qed.
Lemma missing_in_iff k : missing_in (evals ev (all_infos dis)) k = false <->
  forall fi e, In fi (all_infos dis) -> ev fi = Ok e -> nth k (ev_isna e) false = false.
Proof.
  assert (Hin : forall e, In e (evals ev (all_infos dis)) <-> exists fi, In fi (all_infos dis) /\ ev fi = Ok e).
  { apply evals_in. intros fi Hfi. destruct (Hfits fi Hfi) as [e [He _]]. eauto. }
  unfold missing_in. split.
  - intros H fi e Hfi He. destruct (nth k (ev_isna e) false) eqn:E; [|reflexivity]. rewrite <- H. symmetry. apply existsb_exists. exists e. split; [apply Hin; eauto|exact E].
  - intros H. destruct (existsb _ _) eqn:E; [|reflexivity]. apply existsb_exists in E. destruct E as [e [He E]]. apply Hin in He. destruct He as [fi [H1 H2]].
    rewrite (H fi e H1 H2) in E. discriminate.
Qed.
Lemma rows_kept_lemma act want_df ms labels :
  build_design_matrices vone vmul ilabel ieqb origin_of ev df act want_df dis = Ok (ms, labels) ->
  exists n ks, rows_are df (evals ev (all_infos dis)) n /\ StronglySorted lt ks /\
    (forall k, In k ks <-> k < n /\ forall fi e, In fi (all_infos dis) -> ev fi = Ok e -> nth k (ev_isna e) false = false) /\
    (act = NARaise -> ks = seq 0 n) /\
    Forall (fun m => m_rows m = length ks /\ Forall (fun col => length col = length ks) (m_cols m)) ms /\
    forall full l, labels = Some l -> labels_are ilabel df (evals ev (all_infos dis)) n full -> l = pick full ks.
Proof.
  intros H. apply (build_iff vone vmul ieqb origin_of ieqb_eq ev df ilabel dis Hcon Hid Hfits) in H.
  destruct H as [n [full [H1 [H2 [H3 [H4 [H5 H6]]]]]]]. exists n, (kept act (evals ev (all_infos dis)) n).
  split; [exact H1|]. split; [destruct act; cbn; [apply filter_sorted|]; apply seq_sorted|]. split; [|split; [|split]].
  - intros k. rewrite <- missing_in_iff. destruct act; cbn [kept].
    + rewrite filter_In, in_seq, negb_true_iff. intuition lia.
    + rewrite in_seq. split; [intros Hk; split; [lia|]; apply H3; [reflexivity|lia]|lia].
  - intros ->. reflexivity.
  - revert H5. generalize (kept act (evals ev (all_infos dis)) n) as ks. intros ks H5. clear - H5. induction H5 as [|d m ds ms [Hr Hc] H5 IH]; constructor; [|exact IH]. split; [exact Hr|].
    clear - Hc. induction Hc as [|id col ids cols E Hc IH]; constructor; [|exact IH]. now apply map_some_length in E.
  - intros full' l -> [L1 [L2 L3]]. destruct want_df; [|discriminate]. destruct H6 as [[_ [_ H6]]|[Hne H6]]; [discriminate|]. injection H6 as ->.
    f_equal. destruct H2 as [M1 [M2 M3]]. destruct df as [i|] eqn:Edf; [rewrite <- (M1 i eq_refl); now apply L1|].
    assert (Hcase : (forall e, In e (evals ev (all_infos dis)) -> ev_index e = None) \/ exists e i, In e (evals ev (all_infos dis)) /\ ev_index e = Some i).
    { generalize (evals ev (all_infos dis)). intros es. induction es as [|e es IH]; [left; easy|]. destruct (ev_index e) as [i|] eqn:E.
      - right. exists e, i. split; [now left|exact E].
      - destruct IH as [IH|[e' [i [A B]]]]; [left; intros x [<-|Hx]; auto|right; exists e', i; split; [now right|exact B]]. }
    destruct Hcase as [Hno|[e [i [He Ei]]]].
    + rewrite (M3 eq_refl Hno). symmetry. now apply L3.
    + rewrite <- (M2 e i He Ei). now apply (L2 e i).
Qed.
End Top.
