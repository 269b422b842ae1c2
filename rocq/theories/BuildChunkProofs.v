(** Building from chunks. *)
From Verif Require Import Base RankSpec DescModel FormulaModel BuildModel BuildSpec BuildProofs BuildSubtermProofs BuildInfoProofs BuildMatrixProofs BuildAllProofs BuildSubsetProofs.

Section Chunks.
Context {V : Type} (vone : V) (vmul : V -> V -> V) {I : Type} (ilabel : nat -> I) (ieqb : I -> I -> bool) (origin_of : factor -> option origin).
Notation design_info := (@design_info V).
Notation evaluated := (@evaluated V I).
Hypothesis ieqb_eq : forall a b, ieqb a b = true <-> a = b.
Context {D : Type}.
Variables (gnum : finfo -> D -> list V) (gcat : finfo -> D -> Z) (gna : finfo -> D -> bool) (carries : finfo -> bool) (lab : D -> I).
Notation rev_ := (row_ev gnum gcat gna carries lab).
Variables (is_df want_df : bool) (act : on_na) (dis : list design_info).
Hypothesis Hcon : Forall constructed dis.
Hypothesis Hid : identities (all_infos dis).
Definition df_of (rows : list D) : option (list I) := if is_df then Some (map lab rows) else None.
Notation build rows := (build_design_matrices vone vmul ilabel ieqb origin_of (rev_ rows) (df_of rows) act want_df dis).
Notation es rows := (evals (rev_ rows) (all_infos dis)).

Definition e_of (rows : list D) (fi : finfo) : evaluated :=
  mkEv (match fi_kind fi with FNum n => VNum n (map (gnum fi) rows) | FCat _ => VCat (map (gcat fi) rows) end)
       (map (gna fi) rows) (if carries fi then Some (map lab rows) else None).
Lemma es_map rows l : evals (rev_ rows) l = map (e_of rows) l.
Proof. unfold evals. induction l as [|fi l IH]; cbn [flat_map map]; [reflexivity|]. now rewrite IH. Qed.
Lemma e_rows rows fi : vrows (ev_value (e_of rows fi)) = length rows.
Proof. unfold e_of. cbn [ev_value]. destruct (fi_kind fi); cbn; apply map_length. Qed.
Lemma row_fits rows fi : exists e, rev_ rows fi = Ok e /\ fits fi e.
Proof.
  exists (e_of rows fi). split; [reflexivity|]. split; [|split].
  - rewrite e_rows. cbn. apply map_length.
  - intros i. rewrite e_rows. cbn. destruct (carries fi); [|discriminate]. intros [= <-]. apply map_length.
  - unfold e_of. cbn. destruct (fi_kind fi); [reflexivity|exact Logic.I].
Qed.

Definition degenerate : Prop := all_infos dis = [] /\ is_df = false.
Definition full_of (rows : list D) : list I := if is_df || existsb carries (all_infos dis) then map lab rows else map ilabel (seq 0 (length rows)).

Lemma build_degenerate rows ms labels : degenerate -> (build rows = Ok (ms, labels) <-> dis = [] /\ ms = [] /\ labels = None).
Proof.
  intros [H1 H2]. rewrite (build_iff vone vmul ieqb origin_of ieqb_eq (rev_ rows) (df_of rows) ilabel dis Hcon Hid (fun fi _ => row_fits rows fi)).
  unfold built, df_of. rewrite es_map, H1, H2. cbn [map]. split.
  - intros [n [full [_ [_ [_ [Hd [Hm Hl]]]]]]]. specialize (Hd eq_refl eq_refl). subst dis. inversion Hm; subst. split; [reflexivity|]. split; [reflexivity|].
    destruct want_df; [|exact Hl]. destruct Hl as [[_ [_ Hl]]|[Hl _]]; [exact Hl|]. destruct Hl. auto.
  - intros [Hd [-> ->]]. exists 0, []. split; [split; [discriminate|easy]|]. split; [split; [discriminate|]; split; [easy|reflexivity]|].
    split; [intros; lia|]. split; [auto|]. split; [rewrite Hd; constructor|]. destruct want_df; [left; auto|reflexivity].
Qed.
Lemma build_rows rows ms labels : ~ degenerate -> (build rows = Ok (ms, labels) <->
  (act = NARaise -> forall k, k < length rows -> missing_in (es rows) k = false) /\
  Forall2 (matrix_is vone vmul (rev_ rows) (kept act (es rows) (length rows))) dis ms /\
  labels = if want_df then Some (pick (full_of rows) (kept act (es rows) (length rows))) else None).
Proof.
  intros Hn. rewrite (build_iff vone vmul ieqb origin_of ieqb_eq (rev_ rows) (df_of rows) ilabel dis Hcon Hid (fun fi _ => row_fits rows fi)).
  assert (Hne : ~ (es rows = [] /\ df_of rows = None)).
  { intros [H1 H2]. apply Hn. rewrite es_map in H1. apply map_eq_nil in H1. split; [exact H1|]. unfold df_of in H2. destruct is_df; [discriminate|reflexivity]. }
  assert (Hin : forall e, In e (es rows) <-> exists fi, In fi (all_infos dis) /\ e = e_of rows fi).
  { intros e. rewrite es_map, in_map_iff. split; intros [fi [H1 H2]]; exists fi; auto. }
  assert (Hrows : rows_are (df_of rows) (es rows) (length rows)).
  { split; [unfold df_of; intros i; destruct is_df; [|discriminate]; intros [= <-]; apply map_length|].
    intros e He. apply Hin in He. destruct He as [fi [_ ->]]. apply e_rows. }
  assert (Hrows1 : forall n, rows_are (df_of rows) (es rows) n -> n = length rows).
  { intros n [H1 H2]. destruct (df_of rows) as [i|] eqn:E.
    - unfold df_of in E. destruct is_df; [|discriminate]. injection E as <-. specialize (H1 _ eq_refl). rewrite map_length in H1. auto.
    - destruct (nil_or (es rows)) as [E0|[e He]]; [destruct Hne; auto|]. rewrite <- (H2 e He). apply Hin in He. destruct He as [fi [_ ->]]. apply e_rows. }
  assert (Hlab : labels_are ilabel (df_of rows) (es rows) (length rows) (full_of rows)).
  { unfold full_of, df_of. split; [|split].
    - intros i. destruct is_df; [|discriminate]. intros [= <-]. reflexivity.
    - intros e i He Ei. apply Hin in He. destruct He as [fi [Hfi ->]]. cbn in Ei. destruct (carries fi) eqn:Ec; [|discriminate]. injection Ei as <-.
      assert (E : existsb carries (all_infos dis) = true) by (apply existsb_exists; eauto). now rewrite E, orb_true_r.
    - intros Hdf Hno. destruct is_df; [discriminate|]. cbn [orb]. destruct (existsb carries (all_infos dis)) eqn:E; [|reflexivity]. exfalso.
      apply existsb_exists in E. destruct E as [fi [Hfi Ec]]. assert (He : In (e_of rows fi) (es rows)) by (apply Hin; eauto).
      specialize (Hno _ He). cbn in Hno. rewrite Ec in Hno. discriminate. }
  assert (Hlab1 : forall full, labels_are ilabel (df_of rows) (es rows) (length rows) full -> full = full_of rows).
  { intros full [H1 [H2 H3]]. unfold full_of. destruct is_df eqn:Edf.
    - cbn [orb]. symmetry. apply H1. unfold df_of. now rewrite Edf.
    - cbn [orb]. destruct (existsb carries (all_infos dis)) eqn:E.
      + apply existsb_exists in E. destruct E as [fi [Hfi Ec]]. symmetry. apply (H2 (e_of rows fi)); [apply Hin; eauto|]. cbn. now rewrite Ec.
      + apply H3; [unfold df_of; now rewrite Edf|]. intros e He. apply Hin in He. destruct He as [fi [Hfi ->]]. cbn.
        destruct (carries fi) eqn:Ec; [|reflexivity]. exfalso. assert (E' : existsb carries (all_infos dis) = true) by (apply existsb_exists; eauto). congruence. }
  unfold built. split.
  - intros [n [full [H1 [H2 [H3 [H4 [H5 H6]]]]]]]. pose proof (Hrows1 n H1) as En. subst n. pose proof (Hlab1 full H2) as Ef. subst full.
    split; [exact H3|]. split; [exact H5|]. destruct want_df; [|exact H6]. destruct H6 as [[A [B _]]|[_ H6]]; [destruct Hne; auto|exact H6].
  - intros [H1 [H2 H3]]. exists (length rows), (full_of rows). split; [exact Hrows|]. split; [exact Hlab|]. split; [exact H1|].
    split; [intros A B; destruct Hne; auto|]. split; [exact H2|]. rewrite H3. destruct want_df; [right; auto|reflexivity].
Qed.

(** * Two chunks *)
Section Two.
Variables a b : list D.
Lemma nth_map_app {B} (g : D -> B) k : nth_error (map g (a ++ b)) k = if Nat.ltb k (length a) then nth_error (map g a) k else nth_error (map g b) (k - length a).
Proof.
  rewrite map_app. destruct (Nat.ltb_spec k (length a)).
  - apply nth_error_app1. now rewrite map_length.
  - rewrite nth_error_app2 by (now rewrite map_length). now rewrite map_length.
Qed.
Lemma na_app fi k : nth k (map (gna fi) (a ++ b)) false = if Nat.ltb k (length a) then nth k (map (gna fi) a) false else nth (k - length a) (map (gna fi) b) false.
Proof.
  rewrite map_app. destruct (Nat.ltb_spec k (length a)).
  - apply app_nth1. now rewrite map_length.
  - rewrite app_nth2 by (now rewrite map_length). now rewrite map_length.
Qed.
Lemma existsb_map {A B} (f : A -> B) p l : existsb p (map f l) = existsb (fun x => p (f x)) l.
Proof. induction l as [|x l IH]; cbn; [reflexivity|]. now rewrite IH. Qed.
Lemma existsb_ext' {A} (p q : A -> bool) l : (forall x, p x = q x) -> existsb p l = existsb q l.
Proof. intros H. induction l as [|x l IH]; cbn; [reflexivity|]. now rewrite H, IH. Qed.
Lemma missing_app k : missing_in (es (a ++ b)) k = if Nat.ltb k (length a) then missing_in (es a) k else missing_in (es b) (k - length a).
Proof.
  rewrite !es_map. unfold missing_in. rewrite !existsb_map.
  destruct (Nat.ltb k (length a)) eqn:E; apply existsb_ext'; intros fi; cbn [e_of ev_isna]; rewrite na_app, E; reflexivity.
Qed.
Lemma filter_map' {A B} (f : A -> B) p l : filter p (map f l) = map f (filter (fun x => p (f x)) l).
Proof. induction l as [|x l IH]; cbn; [reflexivity|]. destruct (p (f x)); cbn; now rewrite IH. Qed.
Lemma seq_shift' n m : seq n m = map (fun k => n + k) (seq 0 m).
Proof.
  induction n as [|n IH]; [symmetry; apply map_id|]. rewrite <- seq_shift, IH, map_map. reflexivity.
Qed.
Lemma kept_app : kept act (es (a ++ b)) (length (a ++ b)) =
  kept act (es a) (length a) ++ map (fun k => length a + k) (kept act (es b) (length b)).
Proof.
  rewrite app_length. unfold kept. destruct act.
  - rewrite seq_app, filter_app. f_equal.
    + apply filter_ext_in. intros k Hk. apply in_seq in Hk. rewrite missing_app. destruct (Nat.ltb_spec k (length a)); [reflexivity|lia].
    + cbn [Nat.add]. rewrite (seq_shift' (length a) (length b)), filter_map'. f_equal. apply filter_ext. intros k. rewrite missing_app.
      destruct (Nat.ltb_spec (length a + k) (length a)); [lia|]. now replace (length a + k - length a) with k by lia.
  - rewrite seq_app. f_equal. cbn [Nat.add]. apply seq_shift'.
Qed.
Lemma contrib_app fis s f i k : contrib fis s (values_in fis (rev_ (a ++ b))) f i k =
  if Nat.ltb k (length a) then contrib fis s (values_in fis (rev_ a)) f i k else contrib fis s (values_in fis (rev_ b)) f i (k - length a).
Proof.
  unfold contrib, values_in. destruct (dget String.eqb f fis) as [fi|]; [|now destruct (Nat.ltb k (length a))]. cbn [row_ev ev_value].
  destruct (fi_kind fi); rewrite nth_map_app; destruct (Nat.ltb k (length a)); reflexivity.
Qed.
Lemma entry_app fis id k : entry vone vmul fis (values_in fis (rev_ (a ++ b))) id k =
  if Nat.ltb k (length a) then entry vone vmul fis (values_in fis (rev_ a)) id k else entry vone vmul fis (values_in fis (rev_ b)) id (k - length a).
Proof.
  destruct id as [[t s] c]. cbn [entry]. destruct (Nat.ltb k (length a)) eqn:E; f_equal; apply map_ext; intros [f i]; cbn [fst snd]; rewrite contrib_app, E; reflexivity.
Qed.
Lemma col_app fis id ka kb : (forall k, In k ka -> k < length a) ->
  map (entry vone vmul fis (values_in fis (rev_ (a ++ b))) id) (ka ++ map (fun k => length a + k) kb) =
  map (entry vone vmul fis (values_in fis (rev_ a)) id) ka ++ map (entry vone vmul fis (values_in fis (rev_ b)) id) kb.
Proof.
  intros Ha. rewrite map_app, map_map. f_equal; apply map_ext_in; intros k Hk; rewrite entry_app.
  - specialize (Ha k Hk). destruct (Nat.ltb_spec k (length a)); [reflexivity|lia].
  - destruct (Nat.ltb_spec (length a + k) (length a)); [lia|]. now replace (length a + k - length a) with k by lia.
Qed.
Lemma map_some_app {A} (l : list A) p q : map Some l = p ++ q -> exists l1 l2, l = l1 ++ l2 /\ map Some l1 = p /\ map Some l2 = q.
Proof.
  revert l. induction p as [|x p IH]; intros l H; cbn [app] in H; [exists [], l; auto|].
  destruct l as [|y l]; [discriminate|]. injection H as <- H. destruct (IH l H) as [l1 [l2 [-> [H1 H2]]]].
  exists (y :: l1), l2. split; [reflexivity|]. split; [cbn; now rewrite H1|exact H2].
Qed.
Lemma cols_app fis ids ka kb cols : (forall k, In k ka -> k < length a) ->
  (Forall2 (fun id col => map Some col = map (entry vone vmul fis (values_in fis (rev_ (a ++ b))) id) (ka ++ map (fun k => length a + k) kb)) ids cols <->
   exists c1 c2, Forall2 (fun id col => map Some col = map (entry vone vmul fis (values_in fis (rev_ a)) id) ka) ids c1 /\
     Forall2 (fun id col => map Some col = map (entry vone vmul fis (values_in fis (rev_ b)) id) kb) ids c2 /\
     cols = map (fun p => fst p ++ snd p) (combine c1 c2)).
Proof.
  intros Ha. split.
  - induction 1 as [|id col ids cols Hc Hf IH]; [exists [], []; repeat constructor|].
    rewrite col_app in Hc by exact Ha. apply map_some_app in Hc. destruct Hc as [l1 [l2 [-> [H1 H2]]]].
    destruct IH as [c1 [c2 [I1 [I2 ->]]]]. exists (l1 :: c1), (l2 :: c2). repeat split; constructor; assumption.
  - intros [c1 [c2 [H1 [H2 ->]]]]. revert c2 H2. induction H1 as [|id l1 ids c1 Hc H1 IH]; intros c2 H2; inversion H2 as [|id' l2 ids' c2' Hc' H2']; subst; cbn [combine map]; constructor.
    + rewrite col_app by exact Ha. cbn [fst snd]. rewrite map_app, Hc, Hc'. reflexivity.
    + now apply IH.
Qed.
Lemma matrix_app d m ka kb : (forall k, In k ka -> k < length a) ->
  (matrix_is vone vmul (rev_ (a ++ b)) (ka ++ map (fun k => length a + k) kb) d m <->
   exists m1 m2, matrix_is vone vmul (rev_ a) ka d m1 /\ matrix_is vone vmul (rev_ b) kb d m2 /\ m = vstack m1 m2).
Proof.
  intros Ha. unfold matrix_is. rewrite (cols_app _ _ ka kb _ Ha). rewrite app_length, map_length. split.
  - intros [Hr [c1 [c2 [H1 [H2 H3]]]]]. exists (mkMat (length ka) c1), (mkMat (length kb) c2). cbn [m_rows m_cols]. repeat (split; [auto|]).
    unfold vstack. cbn [m_rows m_cols]. destruct m. cbn in *. congruence.
  - intros [m1 [m2 [[R1 H1] [[R2 H2] ->]]]]. unfold vstack. cbn [m_rows m_cols]. split; [congruence|]. exists (m_cols m1), (m_cols m2). auto.
Qed.
Lemma matrices_app ms ka kb : (forall k, In k ka -> k < length a) ->
  forall ds, (Forall2 (matrix_is vone vmul (rev_ (a ++ b)) (ka ++ map (fun k => length a + k) kb)) ds ms <->
   exists ms1 ms2, Forall2 (matrix_is vone vmul (rev_ a) ka) ds ms1 /\ Forall2 (matrix_is vone vmul (rev_ b) kb) ds ms2 /\ ms = vstacks ms1 ms2).
Proof.
  intros Ha ds. split.
  - induction 1 as [|d m ds ms Hm Hf IH]; [exists [], []; repeat constructor|].
    apply (matrix_app d m ka kb Ha) in Hm. destruct Hm as [m1 [m2 [H1 [H2 ->]]]]. destruct IH as [ms1 [ms2 [I1 [I2 ->]]]].
    exists (m1 :: ms1), (m2 :: ms2). repeat split; constructor; assumption.
  - intros [ms1 [ms2 [H1 [H2 ->]]]]. revert ms2 H2. induction H1 as [|d m1 ds ms1 Hm H1 IH]; intros ms2 H2; inversion H2 as [|d' m2 ds' ms2' Hm' H2']; subst; unfold vstacks; cbn [combine map]; constructor.
    + apply (matrix_app d _ ka kb Ha). cbn [fst snd]. eauto.
    + now apply IH.
Qed.

Lemma pick_map_lab {B} (g : D -> B) ka kb : (forall k, In k ka -> k < length a) ->
  pick (map g (a ++ b)) (ka ++ map (fun k => length a + k) kb) = pick (map g a) ka ++ pick (map g b) kb.
Proof.
  intros Ha. rewrite pick_cat. unfold pick. f_equal.
  - rewrite !flat_map_concat_map. f_equal. apply map_ext_in. intros k Hk. specialize (Ha k Hk). rewrite nth_map_app.
    destruct (Nat.ltb_spec k (length a)); [reflexivity|lia].
  - rewrite !flat_map_concat_map, map_map. f_equal. apply map_ext. intros k. rewrite nth_map_app.
    destruct (Nat.ltb_spec (length a + k) (length a)); [lia|]. now replace (length a + k - length a) with k by lia.
Qed.

Lemma kept_bound rows k : In k (kept act (es rows) (length rows)) -> k < length rows.
Proof. unfold kept. destruct act; intros H; [apply filter_In in H; destruct H as [H _]|]; apply in_seq in H; lia. Qed.

Lemma two_chunks ms : (exists L, build (a ++ b) = Ok (ms, L)) <->
  exists ms1 L1 ms2 L2, build a = Ok (ms1, L1) /\ build b = Ok (ms2, L2) /\ ms = vstacks ms1 ms2.
Proof.
  assert (Hdec : degenerate \/ ~ degenerate).
  { unfold degenerate. destruct (nil_or (all_infos dis)) as [E|[x Hx]]; [|right; intros [E _]; rewrite E in Hx; exact Hx].
    destruct is_df; [right; intros [_ F]; discriminate|left; auto]. }
  destruct Hdec as [Hd|Hd].
  - setoid_rewrite (build_degenerate (a ++ b) ms _ Hd). split.
    + intros [L [H1 [-> ->]]]. exists [], None, [], None. rewrite !(build_degenerate _ _ _ Hd). auto.
    + intros [ms1 [L1 [ms2 [L2 [H1 [H2 ->]]]]]]. apply (build_degenerate _ _ _ Hd) in H1, H2. destruct H1 as [H1 [-> ->]], H2 as [_ [-> ->]]. exists None. auto.
  - split.
    + intros [L H]. apply (build_rows _ _ _ Hd) in H. destruct H as [H1 [H2 _]]. rewrite kept_app in H2.
      apply (matrices_app ms _ _ (kept_bound a)) in H2. destruct H2 as [ms1 [ms2 [M1 [M2 ->]]]].
      eexists ms1, _, ms2, _. rewrite (build_rows a _ _ Hd), (build_rows b _ _ Hd). split; [split; [|split; [exact M1|reflexivity]]|split; [split; [|split; [exact M2|reflexivity]]|reflexivity]].
      * intros Hr k Hk. specialize (H1 Hr k). rewrite app_length, missing_app in H1. destruct (Nat.ltb_spec k (length a)); [apply H1; lia|lia].
      * intros Hr k Hk. specialize (H1 Hr (length a + k)). rewrite app_length, missing_app in H1. destruct (Nat.ltb_spec (length a + k) (length a)); [lia|].
        replace (length a + k - length a) with k in H1 by lia. apply H1. lia.
    + intros [ms1 [L1 [ms2 [L2 [H1 [H2 ->]]]]]]. apply (build_rows _ _ _ Hd) in H1, H2. destruct H1 as [R1 [M1 _]], H2 as [R2 [M2 _]].
      eexists. apply (build_rows _ _ _ Hd). split; [|split; [|reflexivity]].
      * intros Hr k Hk. rewrite missing_app. rewrite app_length in Hk. destruct (Nat.ltb_spec k (length a)); [now apply R1|apply R2; [exact Hr|lia]].
      * rewrite kept_app. apply (matrices_app _ _ _ (kept_bound a)). eauto.
Qed.
Lemma two_chunks_labels ms L ms1 L1 ms2 L2 : is_df = true -> want_df = true -> build (a ++ b) = Ok (ms, L) -> build a = Ok (ms1, L1) -> build b = Ok (ms2, L2) ->
  exists l1 l2, L1 = Some l1 /\ L2 = Some l2 /\ L = Some (l1 ++ l2).
Proof.
  intros Hdf Hw H H1 H2. assert (Hd : ~ degenerate) by (intros [_ E]; congruence).
  apply (build_rows _ _ _ Hd) in H, H1, H2. destruct H as [_ [_ ->]], H1 as [_ [_ ->]], H2 as [_ [_ ->]]. rewrite Hw.
  eexists _, _. split; [reflexivity|]. split; [reflexivity|]. f_equal. unfold full_of. rewrite Hdf. cbn [orb]. rewrite kept_app. apply pick_map_lab, kept_bound.
Qed.
End Two.

Lemma chunks_lemma chunks ms : chunks <> [] ->
  ((exists L, build (concat chunks) = Ok (ms, L)) <->
   exists mss, Forall2 (fun rows m => exists L, build rows = Ok (m, L)) chunks mss /\ stacked mss ms).
Proof.
  revert ms. induction chunks as [|c [|c' r] IH]; intros ms Hne; [easy| |].
  - cbn [concat]. rewrite app_nil_r. split.
    + intros H. exists [ms]. split; [constructor; [exact H|constructor]|constructor].
    + intros [mss [Hf Hs]]. inversion Hf as [|x m xs mss' Hm Hf']; subst. inversion Hf'; subst. inversion Hs as [x Hx|x y z Hst]; subst; [exact Hm|inversion Hst].
  - cbn [concat]. cbn [concat] in IH. change (concat (c' :: r)) with (c' ++ concat r) in *. rewrite (two_chunks c (c' ++ concat r) ms). split.
    + intros [ms1 [L1 [ms2 [L2 [H1 [H2 ->]]]]]]. destruct (proj1 (IH ms2 ltac:(discriminate)) (ex_intro _ L2 H2)) as [mss [Hf Hs]].
      exists (ms1 :: mss). split; [constructor; [eauto|exact Hf]|]. now constructor.
    + intros [mss [Hf Hs]]. inversion Hf as [|x m1 xs mss' [L1 Hm] Hf' E1 E2]; subst. inversion Hs as [x Hx|x y z Hst]; subst.
      * inversion Hf'.
      * destruct (proj2 (IH z ltac:(discriminate)) (ex_intro _ mss' (conj Hf' Hst))) as [L2 H2]. eauto 10.
Qed.
Lemma chunks_labels_lemma chunks ms L ls : is_df = true -> want_df = true -> chunks <> [] -> build (concat chunks) = Ok (ms, L) ->
  Forall2 (fun rows l => exists m, build rows = Ok (m, Some l)) chunks ls -> L = Some (concat ls).
Proof.
  intros Hdf Hw. revert ms L ls. induction chunks as [|c [|c' r] IH]; intros ms L ls Hne H Hf; [easy| |].
  - inversion Hf as [|x l xs ls' [m Hm] Hf']. subst x xs ls. inversion Hf'. subst ls'. cbn [concat] in *. rewrite app_nil_r in *. rewrite H in Hm. now injection Hm as _ ->.
  - inversion Hf as [|x l xs ls' [m Hm] Hf']. subst x xs ls. cbn [concat] in H. change (concat (c' :: r)) with (c' ++ concat r) in *.
    destruct (proj1 (two_chunks c (c' ++ concat r) ms) (ex_intro _ L H)) as [ms1 [L1 [ms2 [L2 [H1 [H2 _]]]]]].
    destruct (two_chunks_labels c (c' ++ concat r) ms L ms1 L1 ms2 L2 Hdf Hw H H1 H2) as [l1 [l2 [-> [-> ->]]]].
    rewrite Hm in H1. injection H1 as _ ->. cbn [concat] in *. pose proof (IH ms2 (Some l2) ls' ltac:(discriminate) H2 Hf') as E. injection E as ->. reflexivity.
Qed.
End Chunks.
