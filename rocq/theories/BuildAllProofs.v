(** build_design_matrices: evaluation, missing values, all matrices. *)
From Verif Require Import Base RankSpec DescModel FormulaModel BuildModel BuildSpec BuildProofs BuildSubtermProofs BuildInfoProofs BuildMatrixProofs.

(** * Picking rows *)
Lemma pick_some {A} (l : list A) ks : (forall k, In k ks -> k < length l) -> map Some (pick l ks) = map (nth_error l) ks.
Proof.
  induction ks as [|k ks IH]; intros H; cbn; [reflexivity|].
  destruct (nth_error l k) as [x|] eqn:E.
  - cbn. f_equal. apply IH. intros; apply H; now right.
  - exfalso. apply nth_error_None in E. specialize (H k (or_introl eq_refl)). lia.
Qed.
Lemma pick_length {A} (l : list A) ks : (forall k, In k ks -> k < length l) -> length (pick l ks) = length ks.
Proof. intros H. rewrite <- (map_length Some), pick_some, map_length; auto. Qed.
Lemma pick_nth {A} (l : list A) ks r : (forall k, In k ks -> k < length l) ->
  nth_error (pick l ks) r = match nth_error ks r with Some k => nth_error l k | None => None end.
Proof.
  intros H. pose proof (pick_some l ks H) as E. apply (f_equal (fun z => nth_error z r)) in E.
  rewrite !nth_error_map in E. destruct (nth_error (pick l ks) r), (nth_error ks r); cbn in E; congruence.
Qed.
Lemma pick_all {A} (l : list A) : pick l (seq 0 (length l)) = l.
Proof.
  apply map_some_inj. rewrite pick_some by (intros k Hk; apply in_seq in Hk; lia).
  induction l as [|x l IH]; [reflexivity|]. cbn [length seq map nth_error]. f_equal. rewrite <- seq_shift, map_map. exact IH.
Qed.
Lemma mask_keep_pick {A} (g : nat -> bool) (l : list A) : forall o,
  mask_keep (map g (seq o (length l))) l = flat_map (fun k => match nth_error l (k - o) with Some x => [x] | None => [] end) (filter g (seq o (length l))).
Proof.
  induction l as [|x l IH]; intros o; [reflexivity|]. cbn [length seq map mask_keep filter].
  assert (G : flat_map (fun k => match nth_error (x :: l) (k - o) with Some y => [y] | None => [] end) (filter g (seq (S o) (length l))) =
    flat_map (fun k => match nth_error l (k - S o) with Some y => [y] | None => [] end) (filter g (seq (S o) (length l)))).
  { rewrite !flat_map_concat_map. f_equal. apply map_ext_in. intros k Hk. apply filter_In in Hk. destruct Hk as [Hk _].
    apply in_seq in Hk. replace (k - o) with (S (k - S o)) by lia. reflexivity. }
  destruct (g o).
  - cbn [flat_map]. rewrite Nat.sub_diag. cbn [nth_error app]. rewrite IH, G. reflexivity.
  - rewrite IH, G. reflexivity.
Qed.
Lemma mask_keep_pick0 {A} (g : nat -> bool) (l : list A) :
  mask_keep (map g (seq 0 (length l))) l = pick l (filter g (seq 0 (length l))).
Proof.
  rewrite mask_keep_pick. unfold pick. rewrite !flat_map_concat_map. f_equal. apply map_ext. intros k. now rewrite Nat.sub_0_r.
Qed.

Lemma f2_impl {A B} (P Q : A -> B -> Prop) l m : (forall a b, P a b -> Q a b) -> Forall2 P l m -> Forall2 Q l m.
Proof. intros H. induction 1; constructor; auto. Qed.

Lemma bind_assoc {A B C} (a : result A) (f : A -> result B) (g : B -> result C) :
  bind a (fun x => bind (f x) g) = bind (bind a f) g.
Proof. destruct a; reflexivity. Qed.

Section All.
Context {V : Type} (vone : V) (vmul : V -> V -> V) {I : Type}.
Notation subterm_info := (@subterm_info V).
Notation fvalue := (@fvalue V).
Notation design_info := (@design_info V).
Notation evaluated := (@evaluated V I).
Notation arr := (@arr V I).

Local Notation vpick := (@vpick V).
Local Notation apick := (@apick V I).
Lemma vpick_rows ks (v : fvalue) : (forall k, In k ks -> k < vrows v) -> vrows (vpick ks v) = length ks.
Proof. destruct v; cbn; apply pick_length. Qed.
Lemma apick_rows ks (a : arr) : (forall k, In k ks -> k < arows a) -> arows (apick ks a) = length ks.
Proof. destruct a; [apply vpick_rows|cbn; apply pick_length]. Qed.

(** * NA handling *)
Lemma or_fold n masks : (forall m, In m masks -> length m = n) -> forall a,
  foldM or_into masks (map a (seq 0 n)) = Ok (map (fun k => a k || existsb (fun m => nth k m false) masks) (seq 0 n)).
Proof.
  induction masks as [|m masks IH]; intros H a; cbn [foldM existsb].
  - f_equal. apply map_ext. intros k. now rewrite orb_false_r.
  - unfold or_into at 1. rewrite map_length, seq_length, (H m) by now left. rewrite Nat.eqb_refl. cbn [bind].
    assert (E : map (fun p => fst p || snd p) (combine (map a (seq 0 n)) m) = map (fun k => a k || nth k m false) (seq 0 n)).
    { assert (Hm : length m = n) by (apply H; now left). clear -Hm.
      assert (G : forall o, map (fun p => fst p || snd p) (combine (map a (seq o n)) m) = map (fun k => a k || nth (k - o) m false) (seq o n)).
      { revert m Hm. induction n as [|n IHn]; intros [|b m] Hm o; cbn in *; try discriminate; [reflexivity|].
        rewrite Nat.sub_diag. f_equal. rewrite IHn by lia. apply map_ext_in. intros k Hk. apply in_seq in Hk.
        replace (k - o) with (S (k - S o)) by lia. reflexivity. }
      rewrite G. apply map_ext. intros k. now rewrite Nat.sub_0_r. }
    rewrite E, IH by (intros; apply H; now right). f_equal. apply map_ext. intros k. now rewrite orb_assoc.
Qed.

Lemma kept_by_lt act masks n k : In k (kept_by act masks n) -> k < n.
Proof.
  destruct act; cbn; intros H; [apply filter_In in H; destruct H as [H _]|]; apply in_seq in H; lia.
Qed.

Lemma repeat_map_seq {A} (x : A) n : repeat x n = map (fun _ => x) (seq 0 n).
Proof. generalize 0. induction n; intros o; cbn; congruence. Qed.

Lemma find_masks (masks : list (list bool)) : forall (origins : list (option origin)), length masks = length origins ->
  match find (fun p => existsb (fun b => b) (fst p)) (combine masks origins) with Some _ => existsb (existsb (fun b => b)) masks = true | None => existsb (existsb (fun b => b)) masks = false end.
Proof.
  induction masks as [|m masks IH]; intros [|o origins] H; try discriminate; [reflexivity|]. cbn [combine find existsb fst]. destruct (existsb (fun b => b) m); [reflexivity|]. cbn [orb]. apply IH. now injection H.
Qed.
Lemma handle_NA_iff act (values : list arr) masks origins n nv :
  length values = length masks -> length masks = length origins -> (forall a, In a values -> arows a = n) -> (forall m, In m masks -> length m = n) ->
  (handle_NA act values masks origins = Ok nv <->
   (act = NARaise -> forall k, k < n -> existsb (fun m => nth k m false) masks = false) /\
   nv = map (apick (kept_by act masks n)) values).
Proof.
  intros HL HO Hv Hm. pose proof (find_masks masks origins HO) as HF. unfold handle_NA, assert. rewrite HL, HO, !Nat.eqb_refl. cbn [andb].
  destruct values as [|a values].
  { destruct masks; [|discriminate]. split; [intros [= <-]; split; [intros; reflexivity|reflexivity]|intros [_ ->]; reflexivity]. }
  destruct masks as [|m0 masks]; [discriminate|].
  destruct act; cbn [kept_by].
  - rewrite (Hm m0) by now left. rewrite repeat_map_seq, (or_fold n) by exact Hm. cbn [bind orb].
    set (g := fun k => existsb (fun m => nth k m false) (m0 :: masks)). rewrite map_map.
    assert (G : forall l, (forall a, In a l -> arows a = n) ->
      mapM (amask (map (fun k => negb (false || g k)) (seq 0 n))) l = Ok (map (apick (filter (fun k => negb (g k)) (seq 0 n))) l)).
    { clear. induction l as [|a l IH]; intros H; [reflexivity|]. cbn [mapM map].
      rewrite IH by (intros; apply H; now right).
      assert (Ha : arows a = n) by (apply H; now left).
      unfold amask at 1. rewrite map_length, seq_length, Ha, Nat.eqb_refl. cbn [bind]. f_equal. f_equal.
      rewrite <- Ha. destruct a as [[nc rows|codes]|i]; cbn [arows vrows apick vpick]; rewrite (mask_keep_pick0 (fun k => negb (false || g k))); reflexivity. }
    rewrite G by exact Hv. split; [intros [= <-]; split; [discriminate|reflexivity]|intros [_ ->]; reflexivity].
  - destruct (find _ _) as [[mm org]|]; rename HF into E.
    + split; [discriminate|]. intros [H _]. exfalso. apply existsb_exists in E. destruct E as [m [Hin E]].
      apply existsb_exists in E. destruct E as [b [Hb ->]]. apply In_nth with (d := false) in Hb. destruct Hb as [k [Hk E]].
      specialize (H eq_refl k). rewrite (Hm m Hin) in Hk. specialize (H Hk).
      assert (existsb (fun m => nth k m false) (m0 :: masks) = true) by (apply existsb_exists; eauto). congruence.
    + split.
      * intros [= <-]. split.
        -- intros _ k Hk. destruct (existsb (fun m => nth k m false) (m0 :: masks)) eqn:E2; [|reflexivity].
           apply existsb_exists in E2. destruct E2 as [m [Hin E2]]. rewrite <- E. symmetry.
           apply existsb_exists. exists m. split; [exact Hin|]. apply existsb_exists. exists true. split; [|reflexivity].
           rewrite <- E2. apply nth_In. now rewrite (Hm m Hin).
        -- assert (G : forall l : list arr, (forall a, In a l -> arows a = n) -> l = map (apick (seq 0 n)) l).
           { clear. induction l as [|a l IH]; intros H; [reflexivity|]. cbn [map].
             rewrite <- IH by (intros; apply H; now right). f_equal.
             assert (Ha : arows a = n) by (apply H; now left). rewrite <- Ha.
             destruct a as [[nc rows|codes]|i]; cbn [arows vrows apick vpick]; now rewrite pick_all. }
           apply (G (a :: values)). exact Hv.
      * intros [_ ->]. f_equal.
        assert (G : forall l : list arr, (forall a, In a l -> arows a = n) -> l = map (apick (seq 0 n)) l).
        { clear. induction l as [|a l IH]; intros H; [reflexivity|]. cbn [map].
          rewrite <- IH by (intros; apply H; now right). f_equal.
          assert (Ha : arows a = n) by (apply H; now left). rewrite <- Ha.
          destruct a as [[nc rows|codes]|i]; cbn [arows vrows apick vpick]; now rewrite pick_all. }
        apply (G (a :: values)). exact Hv.
Qed.

(** * Entries after picking rows *)
Lemma contrib_pick fis (s : subterm_info) (val : factor -> option fvalue) ks f i r k n :
  (forall v, val f = Some v -> vrows v = n) -> (forall k, In k ks -> k < n) -> nth_error ks r = Some k ->
  contrib fis s (fun g => option_map (vpick ks) (val g)) f i r = contrib fis s val f i k.
Proof.
  intros Hv Hk Hr. unfold contrib. destruct (dget String.eqb f fis) as [fi|]; [|reflexivity].
  destruct (val f) as [v|]; cbn [option_map]; [|reflexivity]. specialize (Hv v eq_refl).
  destruct (fi_kind fi), v as [nc rows|codes]; cbn [vpick vrows] in *; try reflexivity.
  - rewrite pick_nth, Hr by (intros; rewrite Hv; auto). reflexivity.
  - rewrite pick_nth, Hr by (intros; rewrite Hv; auto). reflexivity.
Qed.
Lemma entry_pick fis (val : factor -> option fvalue) ks id r k n :
  (forall f v, val f = Some v -> vrows v = n) -> (forall k, In k ks -> k < n) -> nth_error ks r = Some k ->
  entry vone vmul fis (fun g => option_map (vpick ks) (val g)) id r = entry vone vmul fis val id k.
Proof.
  intros Hv Hk Hr. destruct id as [[t s] c]. cbn [entry]. f_equal. apply map_ext. intros [f i]. cbn [fst snd].
  apply (contrib_pick fis s val ks f i r k n); [apply Hv|exact Hk|exact Hr].
Qed.
Lemma entries_pick fis (val : factor -> option fvalue) ks id n :
  (forall f v, val f = Some v -> vrows v = n) -> (forall k, In k ks -> k < n) ->
  map (entry vone vmul fis (fun g => option_map (vpick ks) (val g)) id) (seq 0 (length ks)) = map (entry vone vmul fis val id) ks.
Proof.
  intros Hv Hk.
  assert (G : forall l, map (entry vone vmul fis val id) l =
     map (fun r => match nth_error l r with Some k => entry vone vmul fis val id k | None => None end) (seq 0 (length l))).
  { intros l. apply (map_seq_nth (entry vone vmul fis val id) l). }
  rewrite G. apply map_ext_in. intros r Hr. apply in_seq in Hr.
  destruct (nth_error ks r) as [k|] eqn:E; [|apply nth_error_None in E; lia].
  eapply entry_pick; eauto.
Qed.

(** * Evaluating the factors *)
Variable ieqb : I -> I -> bool.
Variable origin_of : factor -> option origin.
Hypothesis ieqb_eq : forall a b, ieqb a b = true <-> a = b.
Variable ev : finfo -> result evaluated.
Variable df : option (list I).

Notation eval_one := (eval_one ieqb origin_of ev).

Record einv (l0 : list finfo) (st : @eval_state V I) : Prop := {
  ei_nodup : NoDup (map fst (fst (fst st)));
  ei_incl : incl (map fst (fst (fst st))) l0;
  ei_ev : forall fi e, In (fi, e) (fst (fst st)) -> ev fi = Ok e;
  ei_rows : forall fi e, In (fi, e) (fst (fst st)) -> snd (fst st) = Some (vrows (ev_value e));
  ei_idx : forall fi e i, In (fi, e) (fst (fst st)) -> ev_index e = Some i -> snd st = Some i;
  ei_df : forall i, df = Some i -> snd (fst st) = Some (length i) /\ snd st = Some i;
  ei_none : snd (fst st) = None -> df = None /\ fst (fst st) = [];
  ei_some : forall n, snd (fst st) = Some n -> df <> None \/ fst (fst st) <> [];
  ei_idx_from : forall i, snd st = Some i -> df = Some i \/ exists fi e, In (fi, e) (fst (fst st)) /\ ev_index e = Some i }.

Lemma einv_init l0 : einv l0 ([], option_map (@length I) df, df).
Proof.
  constructor; cbn [fst snd map]; try easy; try (constructor; fail).
  - intros i ->. auto.
  - destruct df; [discriminate|auto].
  - intros n. destruct df; [left; discriminate|discriminate].
  - auto.
Qed.

Lemma dmem_ids (d : list (finfo * evaluated)) fi l0 : identities l0 -> incl (map fst d) l0 -> In fi l0 ->
  (dmem fi_eqb fi d = true <-> In fi (map fst d)).
Proof.
  intros Hid Hincl Hfi. rewrite dmem_in. split.
  - intros [p [Hp E]]. apply Nat.eqb_eq in E. rewrite <- (Hid (fst p) fi); [now apply in_map|apply Hincl; now apply in_map|exact Hfi|exact E].
  - intros H. apply in_map_iff in H. destruct H as [p [E Hp]]. exists p. split; [exact Hp|]. rewrite E. unfold fi_eqb. apply Nat.eqb_refl.
Qed.

Lemma eval_one_sound l0 st fi st' : identities l0 -> In fi l0 -> einv l0 st -> eval_one st fi = Ok st' ->
  einv l0 st' /\ incl (map fst (fst (fst st))) (map fst (fst (fst st'))) /\ In fi (map fst (fst (fst st'))).
Proof.
  intros Hid Hfi Hinv H. destruct st as [[d rows] idx]. unfold BuildModel.eval_one in H.
  pose proof (ei_incl _ _ Hinv) as Hincl. cbn [fst snd] in Hincl.
  pose proof (dmem_ids d fi l0 Hid Hincl Hfi) as Hmem.
  destruct (dmem fi_eqb fi d) eqn:Ed.
  { injection H as <-. split; [exact Hinv|]. split; [apply incl_refl|]. now apply Hmem. }
  assert (Hnew : ~ In fi (map fst d)) by (intros Hc; apply Hmem in Hc; discriminate).
  destruct (ev fi) as [e|] eqn:Ee; cbn [bind] in H; [|discriminate].
  destruct (check_match Nat.eqb _ _ rows _) as [rows'|] eqn:Er; cbn [bind] in H; [|discriminate].
  assert (Hr : rows' = Some (vrows (ev_value e)) /\ (rows = None \/ rows = Some (vrows (ev_value e)))).
  { unfold check_match in Er. destruct rows as [r|]; [|injection Er as <-; auto].
    destruct (Nat.eqb_spec r (vrows (ev_value e))) as [->|]; [injection Er as <-; auto|discriminate]. }
  destruct Hr as [-> Hr].
  destruct (match ev_index e with Some i => check_match _ _ _ idx i | None => Ok idx end) as [idx'|] eqn:Ei; cbn [bind] in H; [|discriminate].
  assert (Hi : match ev_index e with
               | Some i => idx' = Some i /\ (idx = None \/ idx = Some i)
               | None => idx' = idx end).
  { destruct (ev_index e) as [i|]; [|congruence]. unfold check_match in Ei. destruct idx as [j|]; [|injection Ei as <-; auto].
    destruct (list_eqb ieqb j i) eqn:E; [|discriminate]. apply (list_eqb_eq ieqb ieqb_eq) in E. subst j. injection Ei as <-. auto. }
  injection H as <-. cbn [fst snd].
  assert (Hkeep : forall i, idx = Some i -> idx' = Some i).
  { intros i Ex. destruct (ev_index e); [destruct Hi as [-> [Hi|Hi]]; congruence|congruence]. }
  split; [|split; [rewrite map_app; apply incl_appl, incl_refl|rewrite map_app; apply in_or_app; right; now left]].
  destruct Hinv as [I1 I2 I3 I4 I5 I6 I7 I8 I9]. cbn [fst snd] in *.
  constructor; cbn [fst snd].
  - rewrite map_app. cbn. apply (NoDup_incl_NoDup) with (l := map fst d ++ [fi]).
    + apply NoDup_rev in I1. rewrite <- (rev_involutive (map fst d ++ [fi])). apply NoDup_rev. rewrite rev_app_distr. cbn.
      constructor; [now rewrite <- in_rev|exact I1].
    + lia.
    + apply incl_refl.
  - rewrite map_app. apply incl_app; [exact I2|]. intros x [<-|[]]. exact Hfi.
  - intros fi' e' H. apply in_app_or in H. destruct H as [H|[[= <- <-]|[]]]; [eauto|exact Ee].
  - intros fi' e' H. apply in_app_or in H. destruct H as [H|[[= <- <-]|[]]]; [|reflexivity].
    specialize (I4 _ _ H). destruct Hr as [Hr|Hr]; congruence.
  - intros fi' e' i H Hidx. apply in_app_or in H. destruct H as [H|[[= <- <-]|[]]]; [apply Hkeep; eauto|].
    rewrite Hidx in Hi. exact (proj1 Hi).
  - intros i Hdf. destruct (I6 i Hdf) as [H1 H2]. split; [destruct Hr; congruence|now apply Hkeep].
  - discriminate.
  - intros n _. right. destruct d; discriminate.
  - intros i Hidx. destruct (ev_index e) as [j|] eqn:Ej.
    + destruct Hi as [-> _]. injection Hidx as <-. right. exists fi, e. split; [apply in_or_app; right; now left|exact Ej].
    + subst idx'. destruct (I9 i Hidx) as [H|[fi' [e' [H1 H2]]]]; [now left|]. right. exists fi', e'. split; [apply in_or_app; now left|exact H2].
Qed.

Lemma eval_fold_sound l0 l : identities l0 -> incl l l0 -> forall st st', einv l0 st -> foldM eval_one l st = Ok st' ->
  einv l0 st' /\ incl (map fst (fst (fst st))) (map fst (fst (fst st'))) /\ incl l (map fst (fst (fst st'))).
Proof.
  intros Hid. induction l as [|fi l IH]; intros Hl st st' Hinv H; cbn [foldM] in H.
  - injection H as <-. split; [exact Hinv|]. split; [apply incl_refl|easy].
  - destruct (eval_one st fi) as [st1|] eqn:E; cbn [bind] in H; [|discriminate].
    destruct (eval_one_sound l0 st fi st1 Hid) as [H1 [H2 H3]]; [apply Hl; now left|exact Hinv|exact E|].
    destruct (IH ltac:(intros x Hx; apply Hl; now right) st1 st' H1 H) as [H4 [H5 H6]].
    split; [exact H4|]. split; [eapply incl_tran; eassumption|]. intros x [<-|Hx]; [now apply H5|now apply H6].
Qed.

Lemma eval_fold_complete l n full : 
  (forall fi, In fi l -> exists e, ev fi = Ok e /\ vrows (ev_value e) = n /\ forall i, ev_index e = Some i -> i = full) ->
  forall st, (snd (fst st) = None \/ snd (fst st) = Some n) -> (snd st = None \/ snd st = Some full) ->
  exists st', foldM eval_one l st = Ok st'.
Proof.
  induction l as [|fi l IH]; intros H st Hr Hi; cbn [foldM]; [eauto|].
  destruct st as [[d rows] idx]. cbn [fst snd] in *. unfold BuildModel.eval_one at 1.
  destruct (dmem fi_eqb fi d); cbn [bind].
  { apply IH; [intros; apply H; now right|auto|auto]. }
  destruct (H fi (or_introl eq_refl)) as [e [Ee [Hn Hfull]]]. rewrite Ee. cbn [bind].
  assert (Er : check_match Nat.eqb "Number of rows mismatch" (origin_of (fi_factor fi)) rows (vrows (ev_value e)) = Ok (Some n)).
  { unfold check_match. destruct Hr as [->| ->]; rewrite Hn; [reflexivity|]. now rewrite Nat.eqb_refl. }
  rewrite Er. cbn [bind].
  assert (Ei : exists idx', match ev_index e with Some i => check_match (list_eqb ieqb) "Index mismatch" (origin_of (fi_factor fi)) idx i | None => Ok idx end = Ok idx'
    /\ (idx' = None \/ idx' = Some full)).
  { destruct (ev_index e) as [i|]; [|eauto]. rewrite (Hfull i eq_refl). unfold check_match.
    destruct Hi as [->| ->]; [eauto|]. rewrite (proj2 (list_eqb_eq ieqb ieqb_eq full full) eq_refl). eauto. }
  destruct Ei as [idx' [Ei Hi']]. rewrite Ei. cbn [bind]. apply IH; [intros; apply H; now right| |]; cbn; auto.
Qed.

(** * The whole *)
Variable ilabel : nat -> I.

Lemma split_last_app {A} (l : list A) x : split_last (l ++ [x]) = Some (l, x).
Proof. induction l as [|y l IH]; cbn; [reflexivity|]. now rewrite IH. Qed.
Lemma values_of_map (l : list fvalue) : values_of (map (fun v => @AVal V I v) l) = Ok l.
Proof. induction l as [|v l IH]; cbn; [reflexivity|]. now rewrite IH. Qed.

Lemma constructed_facts (d : design_info) : constructed d ->
  exists fis cs, di_infos d = Some fis /\ di_codings d = Some cs /\ checked fis cs /\ distinct_keys String.eqb fis /\
    length (di_columns d) = length (columns_of fis cs) /\ length (column_names d) = length (columns_of fis cs).
Proof.
  intros [names [fis [cs [H [H1 H2]]]]]. 
  assert (Hd : @dicts V (Some fis) (Some cs)) by (split; assumption).
  pose proof (mk_inv _ _ _ _ Hd H) as (Hnd & Hcol & Hinf & Hcod & _ & _ & _ & Hchk & sl & Hsl & _ & _).
  exists fis, cs. split; [exact Hinf|]. split; [exact Hcod|]. apply check_codings_checked in Hchk. split; [exact Hchk|]. split; [exact H1|].
  pose proof (columns_of_length fis cs (ck_subterm _ _ Hchk) _ _ _ Hsl) as HL. cbn in HL.
  unfold column_names. rewrite map_length, Hcol, combine_length, seq_length. split; lia.
Qed.

Lemma foldM_flat {A B S} (f : S -> A -> result S) (g : B -> list A) bs : forall st,
  foldM (fun st b => foldM f (g b) st) bs st = foldM f (flat_map g bs) st.
Proof.
  induction bs as [|b bs IH]; intros st; cbn [foldM flat_map]; [reflexivity|]. rewrite foldM_app.
  destruct (foldM f (g b) st); cbn [bind]; [apply IH|reflexivity].
Qed.

Lemma mapM_map_ok {A B} (f : A -> result B) (g : A -> B) (l : list A) :
  (forall x, In x l -> f x = Ok (g x)) -> mapM f l = Ok (map g l).
Proof.
  induction l as [|x l IH]; intros H; cbn; [reflexivity|]. rewrite H by now left. cbn. rewrite IH by (intros; apply H; now right). reflexivity.
Qed.

Lemma evals_in l : (forall fi, In fi l -> exists e, ev fi = Ok e) -> forall e, In e (evals ev l) <-> exists fi, In fi l /\ ev fi = Ok e.
Proof.
  intros H e. unfold evals. rewrite in_flat_map. split.
  - intros [fi [H1 H2]]. exists fi. split; [exact H1|]. destruct (ev fi); [destruct H2 as [->|[]]; reflexivity|easy].
  - intros [fi [H1 H2]]. exists fi. split; [exact H1|]. rewrite H2. now left.
Qed.

Definition builder_for (d : design_info) : @builder V := (infos_of d, codings_of d, length (columns_of (infos_of d) (codings_of d))).

Lemma nil_or {A} (l : list A) : l = [] \/ exists x, In x l.
Proof. destruct l as [|x l]; [now left|right; exists x; now left]. Qed.

Lemma identities_incl a b : incl a b -> identities b -> identities a.
Proof. intros H Hid x y Hx Hy. apply Hid; auto. Qed.

Lemma existsb_same {A B} (f : A -> bool) (g : B -> bool) l m :
  (forall x, In x l -> exists y, In y m /\ g y = f x) -> (forall y, In y m -> exists x, In x l /\ f x = g y) ->
  existsb f l = existsb g m.
Proof.
  intros H1 H2. destruct (existsb f l) eqn:E1, (existsb g m) eqn:E2; try reflexivity.
  - apply existsb_exists in E1. destruct E1 as [x [Hx Ex]]. destruct (H1 x Hx) as [y [Hy Ey]].
    assert (existsb g m = true) by (apply existsb_exists; exists y; split; [exact Hy|congruence]). congruence.
  - apply existsb_exists in E2. destruct E2 as [y [Hy Ey]]. destruct (H2 y Hy) as [x [Hx Ex]].
    assert (existsb f l = true) by (apply existsb_exists; exists x; split; [exact Hx|congruence]). congruence.
Qed.

Variable dis : list design_info.
Hypothesis Hcon : Forall constructed dis.
Hypothesis Hid : identities (all_infos dis).
Hypothesis Hfits : forall fi, In fi (all_infos dis) -> exists e, ev fi = Ok e /\ fits fi e.

Let es := evals ev (all_infos dis).

Lemma builders_ok : mapM builder_of dis = Ok (map builder_for dis).
Proof.
  apply mapM_map_ok. intros d Hd. rewrite Forall_forall in Hcon.
  destruct (constructed_facts d (Hcon d Hd)) as [fis [cs [H1 [H2 [_ [_ [H3 _]]]]]]]. unfold builder_of, builder_for, infos_of, codings_of.
  rewrite H1, H2, H3. reflexivity.
Qed.
Lemma builder_infos : flat_map (fun b : @builder V => map snd (fst (fst b))) (map builder_for dis) = all_infos dis.
Proof. unfold all_infos. rewrite !flat_map_concat_map, map_map. reflexivity. Qed.

(** After the evaluation phase. *)
Section After.
Variable d : list (finfo * evaluated).
Variable rows : option nat.
Variable idx : option (list I).
Hypothesis Hinv : einv (all_infos dis) (d, rows, idx).
Hypothesis Hcov : incl (all_infos dis) (map fst d).

Lemma d_es e : In e es <-> exists fi, In (fi, e) d.
Proof.
  unfold es. rewrite evals_in by (intros fi Hfi; destruct (Hfits fi Hfi) as [x [Hx _]]; eauto). split.
  - intros [fi [H1 H2]]. apply Hcov in H1. apply in_map_iff in H1. destruct H1 as [[fi' e'] [E H1]]. cbn in E. subst fi'.
    pose proof (ei_ev _ _ Hinv fi e' H1). exists fi. congruence.
  - intros [fi H]. exists fi. split; [apply (ei_incl _ _ Hinv); apply (in_map fst) in H; exact H|exact (ei_ev _ _ Hinv fi e H)].
Qed.
Lemma d_fits fi e : In (fi, e) d -> fits fi e.
Proof.
  intros H. destruct (Hfits fi) as [e' [E F]]; [apply (ei_incl _ _ Hinv); apply (in_map fst) in H; exact H|].
  pose proof (ei_ev _ _ Hinv fi e H). congruence.
Qed.
Lemma es_nil : es = [] <-> d = [].
Proof.
  split; intros H.
  - destruct (nil_or d) as [E|[[fi e] E]]; [exact E|]. exfalso. assert (Hin : In e es) by (apply d_es; exists fi; exact E).
    rewrite H in Hin. exact Hin.
  - destruct (nil_or es) as [E|[e Hin]]; [exact E|]. exfalso. apply d_es in Hin. destruct Hin as [fi Hin].
    rewrite H in Hin. exact Hin.
Qed.
Lemma rows_none : rows = None <-> es = [] /\ df = None.
Proof.
  split.
  - intros H. destruct (ei_none _ _ Hinv H) as [H1 H2]. split; [now apply es_nil|exact H1].
  - intros [H1 H2]. case_eq rows; [|reflexivity]. intros r E. destruct (ei_some _ _ Hinv r E) as [H|H]; [congruence|].
    cbn in H. apply es_nil in H1. congruence.
Qed.
Lemma rows_are_here n : rows = Some n -> rows_are df es n.
Proof.
  intros E. split.
  - intros i Hi. destruct (ei_df _ _ Hinv i Hi) as [H _]. cbn in H. congruence.
  - intros e He. apply d_es in He. destruct He as [fi He]. pose proof (ei_rows _ _ Hinv fi e He) as H. cbn in H. congruence.
Qed.
Definition full_here : list I := match idx, rows with Some i, _ => i | None, Some n => map ilabel (seq 0 n) | None, None => [] end.
Lemma labels_here n : rows = Some n -> labels_are ilabel df es n full_here.
Proof.
  intros E. unfold full_here. split; [|split].
  - intros i Hi. destruct (ei_df _ _ Hinv i Hi) as [_ H]. cbn in H. now rewrite H.
  - intros e i He Hi. apply d_es in He. destruct He as [fi He]. pose proof (ei_idx _ _ Hinv fi e i He Hi) as H. cbn in H. now rewrite H.
  - intros Hdf Hno. rewrite E. case_eq idx; [|reflexivity]. intros i Ei. exfalso.
    destruct (ei_idx_from _ _ Hinv i Ei) as [H|[fi [e [H1 H2]]]]; [congruence|]. cbn in H1.
    rewrite (Hno e) in H2; [discriminate|]. apply d_es. eauto.
Qed.
Lemma full_length n : rows = Some n -> length full_here = n.
Proof.
  intros E. unfold full_here. rewrite E. case_eq idx; [|intros _; now rewrite map_length, seq_length]. intros i Ei.
  destruct (ei_idx_from _ _ Hinv i Ei) as [H|[fi [e [H1 H2]]]].
  - destruct (ei_df _ _ Hinv i H) as [H' _]. cbn in H'. congruence.
  - cbn in H1. destruct (d_fits fi e H1) as [_ [Hf _]]. rewrite (Hf i H2). pose proof (ei_rows _ _ Hinv fi e H1) as H. cbn in H. congruence.
Qed.
Lemma missing_here k : existsb (fun m => nth k m false) (map (fun p : finfo * evaluated => ev_isna (snd p)) d) = missing_in es k.
Proof.
  unfold missing_in. apply existsb_same.
  - intros m Hm. apply in_map_iff in Hm. destruct Hm as [[fi e] [<- Hm]]. exists e. split; [apply d_es; eauto|reflexivity].
  - intros e He. apply d_es in He. destruct He as [fi He]. exists (ev_isna e). split; [|reflexivity].
    apply in_map_iff. exists (fi, e). auto.
Qed.

(** The values handed to one matrix after keeping the rows [ks]. *)
Lemma one_design ks n (di : design_info) b m : In di dis -> rows_are df es n -> (forall k, In k ks -> k < n) ->
  (build_design_matrix vone vmul (infos_of di) (codings_of di) (length (columns_of (infos_of di) (codings_of di)))
     (combine (map fst d) (map (fun p : finfo * evaluated => vpick ks (ev_value (snd p))) d)) = Ok (b, m) <->
   b = (match infos_of di with [] => true | _ => false end) /\
   matrix_is vone vmul ev (match infos_of di with [] => [0] | _ => ks end) di m).
Proof.
  intros Hdi Hn Hks. rewrite Forall_forall in Hcon.
  destruct (constructed_facts di (Hcon di Hdi)) as [fis [cs [H1 [H2 [H3 [H4 _]]]]]].
  assert (Hi : infos_of di = fis) by (unfold infos_of; now rewrite H1).
  assert (Hc : codings_of di = cs) by (unfold codings_of; now rewrite H2).
  unfold matrix_is. rewrite Hi, Hc.
  set (ftv := combine (map fst d) (map (fun p : finfo * evaluated => vpick ks (ev_value (snd p))) d)).
  assert (Hftv : ftv = map (fun p => (fst p, vpick ks (ev_value (snd p)))) d).
  { unfold ftv. clear. generalize d. intros l. induction l as [|p l IH]; cbn; [reflexivity|]. now rewrite IH. }
  assert (Hfst : map fst ftv = map fst d) by (rewrite Hftv, map_map; reflexivity).
  assert (Hsub : incl (map snd fis) (all_infos dis)).
  { intros fi Hf. unfold all_infos. apply in_flat_map. exists di. rewrite Hi. auto. }
  assert (Hval : forall fi e, In (fi, e) d -> vrows (ev_value e) = n).
  { intros fi e H. apply (proj2 Hn). apply d_es. eauto. }
  assert (P1 : NoDup (map fst ftv)) by (rewrite Hfst; exact (ei_nodup _ _ Hinv)).
  assert (P2 : identities (map fst ftv ++ map snd fis)).
  { apply (identities_incl _ (all_infos dis)); [|exact Hid]. apply incl_app; [rewrite Hfst; exact (ei_incl _ _ Hinv)|exact Hsub]. }
  assert (P3 : forall p, In p ftv -> vrows (snd p) = length ks).
  { intros p Hp. rewrite Hftv in Hp. apply in_map_iff in Hp. destruct Hp as [[fi e] [<- Hp]]. cbn.
    apply vpick_rows. rewrite (Hval _ _ Hp). exact Hks. }
  assert (P4 : forall fi, In fi (map snd fis) -> exists v, In (fi, v) ftv /\ value_fits fi (length ks) v).
  { intros fi Hf. apply Hsub in Hf. apply Hcov in Hf. apply in_map_iff in Hf. destruct Hf as [[fi' e] [E Hf]]. cbn in E. subst fi'.
    exists (vpick ks (ev_value e)). split; [rewrite Hftv; apply in_map_iff; exists (fi, e); auto|].
    split; [apply vpick_rows; rewrite (Hval _ _ Hf); exact Hks|].
    destruct (d_fits fi e Hf) as [_ [_ Hk]]. destruct (fi_kind fi), (ev_value e); cbn; auto. }
  rewrite (one_matrix_iff vone vmul fis cs ftv (length ks) H3 H4 P1 P2 P3 P4 b m).
  assert (Hv : forall f, val_in fis ftv f = option_map (vpick ks) (values_in fis ev f)).
  { intros f. unfold val_in, values_in. destruct (dget String.eqb f fis) as [fi|] eqn:Ef; [|reflexivity].
    assert (Hf : In fi (map snd fis)).
    { apply dget_in in Ef. destruct Ef as [k [Ef _]]. apply (in_map snd) in Ef. exact Ef. }
    apply Hsub in Hf. apply Hcov in Hf. apply in_map_iff in Hf. destruct Hf as [[fi' e] [E Hf]]. cbn in E. subst fi'.
    pose proof (ei_ev _ _ Hinv fi e Hf) as Ee. rewrite Ee. cbn.
    apply (dget_ftv fis ftv P1 P2). rewrite Hftv. apply in_map_iff. exists (fi, e). auto. }
  assert (Hentries : forall id, map (entry vone vmul fis (val_in fis ftv) id) (seq 0 (rows_here fis (length ks))) =
     map (entry vone vmul fis (values_in fis ev) id) (match fis with [] => [0] | _ => ks end)).
  { intros id. destruct fis as [|p0 fis0] eqn:Efis.
    - unfold rows_here. reflexivity.
    - rewrite <- Efis in *. unfold rows_here. replace (match fis with [] => 1 | _ => length ks end) with (length ks) by (now rewrite Efis).
      rewrite <- (entries_pick fis (values_in fis ev) ks id n).
      + apply map_ext. intros r. apply entry_ext. intros f _. apply Hv.
      + intros f v Hf. unfold values_in in Hf. destruct (dget String.eqb f fis) as [fi|] eqn:Ef; [|discriminate].
        destruct (ev fi) as [e|] eqn:Ee; [|discriminate]. injection Hf as <-. apply (proj2 Hn). unfold es.
        apply evals_in; [intros fi' Hfi'; destruct (Hfits fi' Hfi') as [x [Hx _]]; eauto|]. exists fi. split; [|exact Ee].
        apply Hsub. apply dget_in in Ef. destruct Ef as [k [Ef _]]. apply (in_map snd) in Ef. exact Ef.
      + exact Hks. }
  assert (Hr : rows_here fis (length ks) = length (match fis with [] => [0] | _ => ks end)) by (unfold rows_here; destruct fis; reflexivity).
  rewrite <- Hr. split.
  - intros [-> [G1 G2]]. split; [reflexivity|]. split; [exact G1|]. eapply f2_impl; [|exact G2]. cbn. intros id col E. now rewrite E, Hentries.
  - intros [-> [G1 G2]]. split; [reflexivity|]. split; [exact G1|]. eapply f2_impl; [|exact G2]. cbn. intros id col E. now rewrite E, Hentries.
Qed.
End After.

(** Broadcasting of designs without factors. *)
Lemma no_factor_entry fis (s : subterm_info) : fis = [] -> subterm_ok fis s -> si_factors s = [].
Proof.
  intros -> [H _]. destruct (si_factors s) as [|f r]; [reflexivity|]. destruct (H f (or_introl eq_refl)) as [fi [E _]]. discriminate.
Qed.
Lemma broadcast_iff di ks m : In di dis -> infos_of di = [] ->
  (matrix_is vone vmul ev ks di m <-> exists m1, matrix_is vone vmul ev [0] di m1 /\ m = repeat_rows (length ks) m1).
Proof.
  intros Hdi Hnil. rewrite Forall_forall in Hcon. destruct (constructed_facts di (Hcon di Hdi)) as [fis [cs [H1 [H2 [H3 _]]]]].
  assert (Hi : infos_of di = fis) by (unfold infos_of; now rewrite H1).
  assert (Hc : codings_of di = cs) by (unfold codings_of; now rewrite H2).
  assert (Hone : forall id k, In id (columns_of fis cs) -> entry vone vmul fis (values_in fis ev) id k = Some vone).
  { intros [[t s] c] k Hin. unfold columns_of in Hin. apply in_flat_map in Hin. destruct Hin as [[t' ss] [Hin Hc']].
    unfold columns_of_term in Hc'. cbn [fst snd] in Hc'. apply in_flat_map in Hc'. destruct Hc' as [s' [Hs Hc']].
    apply in_map_iff in Hc'. destruct Hc' as [c' [[= <- <- <-] _]]. cbn [entry].
    rewrite (no_factor_entry fis s'); [reflexivity|congruence|]. eapply (ck_subterm _ _ H3); eassumption. }
  unfold matrix_is. rewrite Hi, Hc. clear Hdi. revert Hone. generalize (columns_of fis cs) as ids. intros ids Hone. split.
  - intros [G1 G2]. exists (mkMat 1 (map (fun _ => [vone]) ids)). cbn [m_rows m_cols length]. split.
    + split; [reflexivity|]. clear G2. induction ids as [|id ids IH]; cbn; constructor; [now rewrite Hone by now left|].
      apply IH. intros; apply Hone; now right.
    + destruct m as [mr mc]. cbn [m_rows m_cols] in *. subst mr. unfold repeat_rows. cbn [m_cols]. f_equal. rewrite map_map.
      induction G2 as [|id col l r E]; cbn [map]; [reflexivity|]. rewrite <- IHG2 by (intros; apply Hone; now right). f_equal.
      apply map_some_inj. rewrite E. assert (Hid1 : forall k, entry vone vmul fis (values_in fis ev) id k = Some vone) by (intros; apply Hone; now left).
      clear -Hid1. induction ks as [|k ks IHk]; cbn; [reflexivity|]. now rewrite Hid1, IHk.
  - intros [m1 [[G1 G2] ->]]. unfold repeat_rows. cbn [m_rows m_cols]. split; [reflexivity|].
    induction G2 as [|id col l r E]; cbn [map]; constructor; [|apply IHG2; intros; apply Hone; now right].
    cbn [map] in E. rewrite Hone in E by now left. assert (Hcol : col = [vone]).
    { apply map_some_inj. exact E. }
    subst col. assert (Hid1 : forall k, entry vone vmul fis (values_in fis ev) id k = Some vone) by (intros; apply Hone; now left).
    clear -Hid1. induction ks as [|k ks IHk]; cbn; [reflexivity|]. now rewrite Hid1, IHk.
Qed.

Lemma evaluated_iff (ms : list (@dmat V)) d rows idx ks n :
  einv (all_infos dis) (d, rows, idx) -> incl (all_infos dis) (map fst d) -> rows_are df es n -> (forall k, In k ks -> k < n) ->
  forall num_rows, (num_rows = None <-> rows = None) -> (forall r, num_rows = Some r -> r = length ks) ->
  ((let* results := mapM (fun b : @builder V => build_design_matrix vone vmul (fst (fst b)) (snd (fst b)) (snd b)
       (combine (map fst d) (map (fun p : finfo * evaluated => vpick ks (ev_value (snd p))) d))) (map builder_for dis) in
    mapM (fun r : bool * @dmat V =>
      if fst r then
        assert (Nat.eqb (m_rows (snd r)) 1)
        (match num_rows with
         | Some n => Ok (repeat_rows n (snd r))
         | None => Err (PatsyError "I can't tell how many rows the design matrix should have!" None)
         end)
      else Ok (snd r)) results) = Ok ms <->
   (es = [] -> df = None -> dis = []) /\ Forall2 (matrix_is vone vmul ev ks) dis ms).
Proof.
  intros Hinv Hcov Hn Hks num_rows Hnr Hnrl.
  assert (Hempty : es = [] -> forall di, In di dis -> infos_of di = []).
  { intros He di Hdi. destruct (nil_or (infos_of di)) as [E|[[f fi] Hf]]; [exact E|]. exfalso.
    assert (Hin : In fi (all_infos dis)).
    { unfold all_infos. apply in_flat_map. exists di. split; [exact Hdi|]. apply (in_map snd) in Hf. exact Hf. }
    destruct (Hfits fi Hin) as [e [Ee _]]. assert (Hes : In e es).
    { unfold es. apply evals_in; [intros fi' Hfi'; destruct (Hfits fi' Hfi') as [x [Hx _]]; eauto|]. eauto. }
    rewrite He in Hes. exact Hes. }
  assert (Hrn := rows_none d rows idx Hinv Hcov).
  set (step := fun r : bool * @dmat V =>
      if fst r then
        assert (Nat.eqb (m_rows (snd r)) 1)
        (match num_rows with
         | Some n => Ok (repeat_rows n (snd r))
         | None => Err (PatsyError "I can't tell how many rows the design matrix should have!" None)
         end)
      else Ok (snd r)).
  set (one := fun b : @builder V => build_design_matrix vone vmul (fst (fst b)) (snd (fst b)) (snd b)
       (combine (map fst d) (map (fun p : finfo * evaluated => vpick ks (ev_value (snd p))) d))).
  (* per design *)
  assert (Hper : forall di, In di dis -> forall m,
    ((exists r, one (builder_for di) = Ok r /\ step r = Ok m) <-> (infos_of di = [] -> num_rows <> None) /\ matrix_is vone vmul ev ks di m)).
  { intros di Hdi m. unfold one, builder_for. cbn [fst snd].
    assert (Hone := fun b m => one_design d rows idx Hinv Hcov ks n di b m Hdi Hn Hks).
    destruct (nil_or (infos_of di)) as [E|[p Hp]].
    - assert (Eb : (match infos_of di with [] => true | _ => false end) = true) by now rewrite E.
      assert (Ek : (match infos_of di with [] => [0] | _ => ks end) = [0]) by now rewrite E.
      rewrite (broadcast_iff di ks m Hdi E). split.
      + intros [[b m0] [G1 G2]]. apply Hone in G1. rewrite Eb, Ek in G1. destruct G1 as [-> G1]. unfold step in G2. cbn [fst snd] in G2.
        unfold assert in G2. destruct (Nat.eqb (m_rows m0) 1); [|discriminate].
        destruct num_rows as [r|] eqn:Er; [|discriminate]. injection G2 as <-. split; [discriminate|].
        exists m0. split; [exact G1|]. now rewrite (Hnrl r eq_refl).
      + intros [G1 [m1 [G2 ->]]]. exists (true, m1). split; [apply Hone; rewrite Eb, Ek; auto|]. unfold step. cbn [fst snd].
        assert (Hm1 : m_rows m1 = 1) by exact (proj1 G2). rewrite Hm1. unfold assert. cbn [Nat.eqb].
        destruct num_rows as [r|] eqn:Er; [|exfalso; now apply G1]. now rewrite (Hnrl r eq_refl).
    - assert (Eb : (match infos_of di with [] => true | _ => false end) = false) by (destruct (infos_of di); [easy|reflexivity]).
      assert (Ek : (match infos_of di with [] => [0] | _ => ks end) = ks) by (destruct (infos_of di); [easy|reflexivity]).
      split.
      + intros [[b m0] [G1 G2]]. apply Hone in G1. rewrite Eb, Ek in G1. destruct G1 as [-> G1]. cbn in G2. injection G2 as <-.
        split; [intros E; rewrite E in Hp; easy|exact G1].
      + intros [_ G]. exists (false, m). split; [|reflexivity]. apply Hone. rewrite Eb, Ek. auto. }
  (* lists *)
  assert (Hlist : forall l, incl l dis -> forall ms, (let* results := mapM one (map builder_for l) in mapM step results) = Ok ms <->
     Forall2 (fun di m => (infos_of di = [] -> num_rows <> None) /\ matrix_is vone vmul ev ks di m) l ms).
  { induction l as [|di l IH]; intros Hl ms'; cbn [map mapM bind].
    - split; [intros [= <-]; constructor|intros H; inversion H; reflexivity].
    - assert (Hl' : incl l dis) by (intros x Hx; apply Hl; now right). assert (Hdi : In di dis) by (apply Hl; now left).
      specialize (IH Hl'). split.
      + destruct (one (builder_for di)) as [r|] eqn:E1; cbn [bind]; [|discriminate].
        destruct (mapM one (map builder_for l)) as [rs|] eqn:E2; cbn [bind]; [|discriminate]. cbn [mapM].
        destruct (step r) as [m|] eqn:E3; cbn [bind]; [|discriminate].
        destruct (mapM step rs) as [ms''|] eqn:E4; cbn [bind]; [|discriminate]. intros [= <-]. constructor.
        * apply Hper; [exact Hdi|]. eauto.
        * apply IH. cbn [bind]. exact E4.
      + intros H. inversion H as [|? m ? ms'' H1 H2]; subst. apply Hper in H1; [|exact Hdi]. destruct H1 as [r [E1 E3]].
        apply IH in H2. rewrite E1. cbn [bind]. destruct (mapM one (map builder_for l)) as [rs|]; cbn [bind] in H2 |- *; [|discriminate].
        cbn [mapM]. rewrite E3. cbn [bind]. now rewrite H2. }
  rewrite (Hlist dis (incl_refl _) ms). split.
  - intros H. split.
    + intros He Hdf. destruct (nil_or dis) as [E|[di Hdi]]; [exact E|]. exfalso.
      assert (G : exists m, (infos_of di = [] -> num_rows <> None) /\ matrix_is vone vmul ev ks di m).
      { clear -H Hdi. induction H as [|x y l r E]; [easy|]. destruct Hdi as [->|Hdi]; eauto. }
      destruct G as [m [G _]]. apply (G (Hempty He di Hdi)). apply Hnr. apply Hrn. auto.
    + eapply f2_impl; [|exact H]. cbn. tauto.
  - intros [H1 H2]. assert (G : forall di, In di dis -> infos_of di = [] -> num_rows <> None).
    { intros di Hdi _ Hc. apply Hnr in Hc. apply Hrn in Hc. destruct Hc as [Hc1 Hc2]. rewrite (H1 Hc1 Hc2) in Hdi. exact Hdi. }
    clear -H2 G. induction H2 as [|x y l r E]; constructor; [split; [apply G; now left|exact E]|]. apply IHForall2. intros di Hdi. apply G. now right.
Qed.

Lemma build_iff act want_df ms labels :
  build_design_matrices vone vmul ilabel ieqb origin_of ev df act want_df dis = Ok (ms, labels) <->
  built vone vmul ilabel ev df act want_df dis ms labels.
Proof.
  unfold build_design_matrices. rewrite builders_ok. cbn [bind].
  rewrite (foldM_flat eval_one (fun b : @builder V => map snd (fst (fst b)))). rewrite builder_infos.
  unfold built. fold es.
  destruct (foldM eval_one (all_infos dis) ([], option_map (@length I) df, df)) as [[[d rows] idx]|err] eqn:Ef; cbn [bind].
  2:{ split; [discriminate|]. intros [n [full [H1 [H2 _]]]]. exfalso.
      destruct (eval_fold_complete (all_infos dis) n full) with (st := ([] : list (finfo * evaluated), option_map (@length I) df, df)) as [st' E].
      - intros fi Hfi. destruct (Hfits fi Hfi) as [e [Ee _]]. exists e. split; [exact Ee|].
        assert (He : In e es) by (unfold es; apply evals_in; [intros fi' Hfi'; destruct (Hfits fi' Hfi') as [x [Hx _]]; eauto|eauto]).
        split; [apply (proj2 H1); exact He|]. intros i Hi. eapply (proj1 (proj2 H2)); eassumption.
      - cbn. destruct df as [i|] eqn:Ed; [|now left]. right. cbn. f_equal. apply (proj1 H1). reflexivity.
      - cbn. destruct df as [i|] eqn:Ed; [|now left]. right. f_equal. apply (proj1 H2). reflexivity.
      - congruence. }
  destruct (eval_fold_sound (all_infos dis) (all_infos dis) Hid (incl_refl _) _ _ (einv_init _) Ef) as [Hinv [_ Hcov]]. cbn [fst snd] in Hcov.
  assert (Hes := d_es d rows idx Hinv Hcov). assert (Hrn := rows_none d rows idx Hinv Hcov).
  assert (Hnilmap : d = [] <-> es = []) by (symmetry; apply (es_nil d rows idx Hinv Hcov)).
  (* the facts about [n] *)
  assert (Hmiss := missing_here d rows idx Hinv Hcov).
  assert (Hfacts : forall n, rows_are df es n -> forall a, In a (map (fun p : finfo * evaluated => @AVal V I (ev_value (snd p))) d) -> arows a = n).
  { intros n Hn a Ha. apply in_map_iff in Ha. destruct Ha as [[fi e] [<- Ha]]. cbn. apply (proj2 Hn). apply Hes. eauto. }
  assert (Hmlen : forall n, rows_are df es n -> forall m, In m (map (fun p : finfo * evaluated => ev_isna (snd p)) d) -> length m = n).
  { intros n Hn m Hm. apply in_map_iff in Hm. destruct Hm as [[fi e] [<- Hm]]. cbn.
    rewrite (proj1 (d_fits d rows idx Hinv fi e Hm)). apply (proj2 Hn). apply Hes. eauto. }
  assert (Hkept : forall n, kept_by act (map (fun p : finfo * evaluated => ev_isna (snd p)) d) n = kept act es n).
  { intros n. destruct act; cbn; [|reflexivity]. apply filter_ext. intros k. now rewrite Hmiss. }
  assert (Hvals : forall ks, map (apick ks) (map (fun p : finfo * evaluated => @AVal V I (ev_value (snd p))) d) =
     map (fun v => @AVal V I v) (map (fun p : finfo * evaluated => vpick ks (ev_value (snd p))) d)).
  { intros ks. rewrite !map_map. reflexivity. }
  fold (full_here rows idx).
  destruct rows as [n|].
  - (* some row count *)
    pose proof (rows_are_here d (Some n) idx Hinv Hcov n eq_refl) as Hn.
    pose proof (labels_here d (Some n) idx Hinv Hcov n eq_refl) as Hlab.
    pose proof (full_length d (Some n) idx Hinv n eq_refl) as Hflen.
    set (full := full_here (Some n) idx) in *.
    assert (Hknown : ~ (es = [] /\ df = None)) by (intros Hc; apply Hrn in Hc; discriminate).
    assert (Huniq : forall n', rows_are df es n' -> n' = n).
    { intros n' Hn'. destruct df as [i|] eqn:Ed; [rewrite <- (proj1 Hn' i eq_refl); symmetry; rewrite <- (proj1 Hn i eq_refl); reflexivity|].
      destruct (nil_or es) as [E|[e He]]; [exfalso; auto|]. rewrite <- (proj2 Hn' e He). apply (proj2 Hn e He). }
    assert (Hluniq : forall full', labels_are ilabel df es n full' -> full' = full).
    { intros full' [L1 [L2 L3]]. destruct Hlab as [K1 [K2 K3]]. destruct df as [i|] eqn:Ed; [now rewrite <- (L1 i eq_refl), <- (K1 i eq_refl)|].
      destruct (nil_or (filter (fun e : evaluated => match ev_index e with Some _ => true | None => false end) es)) as [E|[e He]].
      - assert (Hno : forall e, In e es -> ev_index e = None).
        { intros e He. destruct (ev_index e) as [i|] eqn:Ei; [|reflexivity]. exfalso.
          assert (Hin : In e (filter (fun e : evaluated => match ev_index e with Some _ => true | None => false end) es)) by (apply filter_In; rewrite Ei; auto).
          rewrite E in Hin. exact Hin. }
        now rewrite (L3 eq_refl Hno), (K3 eq_refl Hno).
      - apply filter_In in He. destruct He as [He Hi]. destruct (ev_index e) as [i|] eqn:Ei; [|discriminate].
        now rewrite <- (L2 e i He Ei), <- (K2 e i He Ei). }
    set (ks := kept act es n).
    assert (Hks : forall k, In k ks -> k < n) by (unfold ks; rewrite <- Hkept; intros k; apply kept_by_lt).
    set (na_ok := act = NARaise -> forall k, k < n -> missing_in es k = false).
    set (R := fun ms' : list (@dmat V) => (es = [] -> df = None -> dis = []) /\ Forall2 (matrix_is vone vmul ev ks) dis ms').
    (* right-hand side, simplified *)
    assert (Hrhs : (exists n0 full0, rows_are df es n0 /\ labels_are ilabel df es n0 full0 /\
         (act = NARaise -> forall k, k < n0 -> missing_in es k = false) /\ (es = [] -> df = None -> dis = []) /\
         Forall2 (matrix_is vone vmul ev (kept act es n0)) dis ms /\
         (if want_df then (es = [] /\ df = None /\ labels = None) \/ (~ (es = [] /\ df = None) /\ labels = Some (pick full0 (kept act es n0))) else labels = None)) <->
       na_ok /\ R ms /\ labels = (if want_df then Some (pick full ks) else None)).
    { split.
      - intros [n0 [full0 [G1 [G2 [G3 [G4 [G5 G6]]]]]]]. assert (n0 = n) by (apply Huniq; exact G1). subst n0.
        assert (full0 = full) by (apply Hluniq; exact G2). subst full0. split; [exact G3|]. split; [split; assumption|].
        destruct want_df; [|exact G6]. destruct G6 as [[G6 [G7 _]]|[_ G6]]; [exfalso; auto|exact G6].
      - intros [G1 [[G2 G3] G4]]. exists n, full. split; [exact Hn|]. split; [exact Hlab|]. split; [exact G1|]. split; [exact G2|]. split; [exact G3|].
        destruct want_df; [right; split; [exact Hknown|exact G4]|exact G4]. }
    rewrite Hrhs. clear Hrhs.
    destruct want_df.
    + (* data frame: the index is one more array *)
      set (values := map (fun p : finfo * evaluated => @AVal V I (ev_value (snd p))) d ++ [AIdx full]).
      set (masks := map (fun p : finfo * evaluated => ev_isna (snd p)) d ++ [repeat false (length full)]).
      set (origins := map (fun p : finfo * evaluated => origin_of (fi_factor (fst p))) d ++ [None]).
      assert (HL : length values = length masks) by (unfold values, masks; rewrite !app_length, !map_length; reflexivity).
      assert (HO : length masks = length origins) by (unfold masks, origins; rewrite !app_length, !map_length; reflexivity).
      assert (Hv : forall a, In a values -> arows a = n).
      { intros a Ha. apply in_app_or in Ha. destruct Ha as [Ha|[<-|[]]]; [now apply Hfacts|exact Hflen]. }
      assert (Hm : forall m, In m masks -> length m = n).
      { intros m Hm'. apply in_app_or in Hm'. destruct Hm' as [Hm'|[<-|[]]]; [now apply Hmlen|now rewrite repeat_length]. }
      assert (Hmk : forall k, existsb (fun m => nth k m false) masks = missing_in es k).
      { intros k. unfold masks. rewrite existsb_app, Hmiss. cbn. rewrite nth_repeat. now rewrite !orb_false_r. }
      assert (Hkb : kept_by act masks n = ks).
      { unfold ks, kept_by, kept. destruct act; [|reflexivity]. apply filter_ext. intros k. now rewrite Hmk. }
      assert (Hiff := fun nv => handle_NA_iff act values masks origins n nv HL HO Hv Hm). rewrite Hkb in Hiff.
      destruct (handle_NA act values masks origins) as [nv|] eqn:Eh; cbn [bind].
      * destruct (proj1 (Hiff nv) eq_refl) as [Hna Env].
        assert (Hna' : na_ok) by (intros Ea k Hk; rewrite <- Hmk; auto).
        assert (Env' : nv = map (fun v => @AVal V I v) (map (fun p : finfo * evaluated => vpick ks (ev_value (snd p))) d) ++ [AIdx (pick full ks)]).
        { rewrite Env. unfold values. rewrite map_app, Hvals. reflexivity. }
        rewrite Env', split_last_app. cbn [bind]. rewrite values_of_map. cbn [bind].
        set (nr := match map _ _ ++ _ with a :: _ => Some (arows a) | [] => _ end).
        assert (Hnr : nr = Some (length ks)).
        { unfold nr. destruct d as [|p d'] eqn:Ed; cbn [map app arows].
          - f_equal. apply pick_length. rewrite Hflen. exact Hks.
          - f_equal. apply vpick_rows. rewrite (proj2 Hn (snd p)); [exact Hks|]. apply Hes. exists (fst p). left. now destruct p. }
        rewrite Hnr.
        assert (HE := fun ms' => evaluated_iff ms' d (Some n) idx ks n Hinv Hcov Hn Hks (Some (length ks)) ltac:(split; discriminate) ltac:(congruence)).
        match goal with |- (?L = Ok (ms, labels) <-> _) =>
          assert (HX : exists X : result (list (@dmat V)), (forall ms', X = Ok ms' <-> R ms') /\ L = bind X (fun ms' => Ok (ms', Some (pick full ks)))) end.
        { eexists. split; [exact HE|]. apply bind_assoc. }
        destruct HX as [X [HX ->]]. destruct X as [ms'|]; cbn [bind].
        -- split.
           ++ intros [= <- <-]. split; [exact Hna'|]. split; [apply HX; reflexivity|reflexivity].
           ++ intros [_ [G ->]]. apply HX in G. congruence.
        -- split; [discriminate|]. intros [_ [G _]]. apply HX in G. discriminate.
      * split; [discriminate|]. intros [G _]. exfalso. assert (Hc : Err e = Ok (map (apick ks) values)); [|discriminate].
        apply Hiff. split; [|reflexivity]. intros Ea k Hk. rewrite Hmk. now apply G.
    + set (values := map (fun p : finfo * evaluated => @AVal V I (ev_value (snd p))) d).
      set (masks := map (fun p : finfo * evaluated => ev_isna (snd p)) d).
      set (origins := map (fun p : finfo * evaluated => origin_of (fi_factor (fst p))) d).
      assert (HL : length values = length masks) by (unfold values, masks; rewrite !map_length; reflexivity).
      assert (HO : length masks = length origins) by (unfold masks, origins; rewrite !map_length; reflexivity).
      assert (Hiff := fun nv => handle_NA_iff act values masks origins n nv HL HO (Hfacts n Hn) (Hmlen n Hn)).
      assert (Hkb : kept_by act masks n = ks) by apply Hkept. rewrite Hkb in Hiff.
      destruct (handle_NA act values masks origins) as [nv|] eqn:Eh; cbn [bind].
      * destruct (proj1 (Hiff nv) eq_refl) as [Hna Env].
        assert (Hna' : na_ok) by (intros Ea k Hk; rewrite <- Hmiss; auto).
        assert (Env' : nv = map (fun v => @AVal V I v) (map (fun p : finfo * evaluated => vpick ks (ev_value (snd p))) d)).
        { rewrite Env. unfold values. now rewrite Hvals. }
        rewrite Env'. rewrite values_of_map. cbn [bind].
        set (nr := match map _ _ with a :: _ => Some (arows a) | [] => _ end).
        assert (Hnr : nr = Some (length ks)).
        { unfold nr. destruct d as [|p d'] eqn:Ed; cbn [map app arows].
          - f_equal. assert (He : es = []) by (apply Hnilmap; reflexivity).
            assert (Hk : ks = seq 0 n); [|now rewrite Hk, seq_length]. unfold ks, kept, missing_in. rewrite He.
            destruct act; [|reflexivity]. cbn [existsb negb]. generalize (seq 0 n). intros l. induction l as [|x l IHl]; cbn; congruence.
          - f_equal. apply vpick_rows. rewrite (proj2 Hn (snd p)); [exact Hks|]. apply Hes. exists (fst p). left. now destruct p. }
        rewrite Hnr.
        assert (HE := fun ms' => evaluated_iff ms' d (Some n) idx ks n Hinv Hcov Hn Hks (Some (length ks)) ltac:(split; discriminate) ltac:(congruence)).
        match goal with |- (?L = Ok (ms, labels) <-> _) =>
          assert (HX : exists X : result (list (@dmat V)), (forall ms', X = Ok ms' <-> R ms') /\ L = bind X (fun ms' => Ok (ms', None))) end.
        { eexists. split; [exact HE|]. apply bind_assoc. }
        destruct HX as [X [HX ->]]. destruct X as [ms'|]; cbn [bind].
        -- split.
           ++ intros [= <- <-]. split; [exact Hna'|]. split; [apply HX; reflexivity|reflexivity].
           ++ intros [_ [G ->]]. apply HX in G. congruence.
        -- split; [discriminate|]. intros [_ [G _]]. apply HX in G. discriminate.
      * split; [discriminate|]. intros [G _]. exfalso. assert (Hc : Err e = Ok (map (apick ks) values)); [|discriminate].
        apply Hiff. split; [|reflexivity]. intros Ea k Hk. unfold masks. rewrite Hmiss. now apply G.
  - (* no row count: no factors, no data frame *)
    destruct (proj1 Hrn eq_refl) as [Hes0 Hdf0]. assert (Hd0 : d = []) by (apply Hnilmap; exact Hes0). subst d. cbn [map app].
    assert (Hidx : idx = None).
    { case_eq idx; [|reflexivity]. intros i Ei. destruct (ei_idx_from _ _ Hinv i Ei) as [H|[fi [e [H _]]]]; [congruence|easy]. }
    cbn [handle_NA assert length Nat.eqb andb bind values_of combine].
    assert (Hn0 : rows_are df es 0).
    { split; [intros i Hi; congruence|]. rewrite Hes0. easy. }
    assert (HE := fun ms' => evaluated_iff ms' [] None idx [] 0 Hinv Hcov Hn0 ltac:(easy) None ltac:(tauto) ltac:(discriminate)).
    match goal with |- (?L = Ok (ms, labels) <-> _) =>
      assert (HX : exists X : result (list (@dmat V)),
        (forall ms', X = Ok ms' <-> (es = [] -> df = None -> dis = []) /\ Forall2 (matrix_is vone vmul ev []) dis ms') /\
        L = bind X (fun ms' => Ok (ms', if want_df then idx else None))) end.
    { eexists. split; [exact HE|]. apply bind_assoc. }
    destruct HX as [X [HX ->]]. destruct X as [ms'|]; cbn [bind].
    + split.
      * intros [= <- <-]. destruct (proj1 (HX ms') eq_refl) as [G1 G2]. exists 0, []. split; [exact Hn0|].
        split; [split; [congruence|split; [rewrite Hes0; easy|reflexivity]]|]. split; [intros _ k Hk; lia|]. split; [exact G1|].
        assert (Hdis : dis = []) by auto. rewrite Hdis in G2. inversion G2; subst ms'. rewrite Hdis. split; [constructor|].
        rewrite Hidx. destruct want_df; [left; auto|reflexivity].
      * intros [n0 [full0 [_ [_ [_ [G4 [G5 G6]]]]]]]. assert (Hdis : dis = []) by auto. rewrite Hdis in G5. inversion G5; subst ms.
        assert (Hms' : Ok ms' = Ok []) by (apply HX; split; [exact G4|rewrite Hdis; constructor]). injection Hms' as ->.
        rewrite Hidx. destruct want_df; [|now rewrite G6]. destruct G6 as [[_ [_ ->]]|[G6 _]]; [reflexivity|exfalso; auto].
    + split; [discriminate|]. intros [n0 [full0 [_ [_ [_ [G4 _]]]]]]. assert (Hdis : dis = []) by auto.
      assert (Hms' : Err e = Ok (@nil (@dmat V))) by (apply HX; split; [exact G4|rewrite Hdis; constructor]). discriminate.
Qed.
End All.
