(** Proofs about [subset] and [design_for]. *)
From Verif Require Import Base RankSpec DescModel FormulaModel BuildModel BuildSpec BuildProofs BuildSubtermProofs BuildInfoProofs BuildMatrixProofs BuildAllProofs.

Section Subset.
Context {V : Type} (vone : V) (vmul : V -> V -> V) {I : Type}.
Notation subterm_info := (@subterm_info V).
Notation fvalue := (@fvalue V).
Notation design_info := (@design_info V).
Notation evaluated := (@evaluated V I).

(** * Collecting factor infos *)
Definition add_info (fis : finfos) (a : finfos) (f : factor) : result finfos :=
  let* fi := lookup (dget String.eqb f fis) in Ok (dset String.eqb f fi a).
Definition agrees (fis a : finfos) : Prop :=
  distinct_keys String.eqb a /\ forall f fi, dget String.eqb f a = Some fi -> dget String.eqb f fis = Some fi.
Lemma add_infos fis l : forall a b, agrees fis a -> foldM (add_info fis) l a = Ok b ->
  agrees fis b /\ (forall f fi, dget String.eqb f a = Some fi -> dget String.eqb f b = Some fi) /\
  (forall f, In f l -> dget String.eqb f b = dget String.eqb f fis /\ dget String.eqb f fis <> None).
Proof.
  induction l as [|f l IH]; intros a b Ha E; cbn [foldM] in E; [injection E as <-; split; [exact Ha|split; easy]|].
  unfold add_info at 1 in E. destruct (dget String.eqb f fis) as [fi|] eqn:Ef; cbn [lookup bind] in E; [|discriminate].
  assert (G : forall k, dget String.eqb k (dset String.eqb f fi a) = if String.eqb f k then Some fi else dget String.eqb k a).
  { intros k. apply dget_dset; [apply seqb_sym|apply seqb_trans]. }
  apply IH in E.
  - destruct E as [H1 [H2 H3]]. split; [exact H1|]. split.
    + intros k x Hk. apply H2. rewrite G. destruct (String.eqb_spec f k) as [->|]; [|exact Hk].
      destruct Ha as [_ Ha]. rewrite <- Ef. now apply Ha.
    + intros k [<-|Hk]; [|now apply H3]. rewrite Ef. split; [|discriminate]. apply H2. now rewrite G, String.eqb_refl.
  - destruct Ha as [Ha1 Ha2]. split; [now apply dset_distinct|].
    intros k x. rewrite G. destruct (String.eqb_spec f k) as [->|]; [intros [= <-]; exact Ef|apply Ha2].
Qed.

Lemma dset_same {K A} (eqb : K -> K -> bool) k (v : A) d : dget eqb k d = Some v -> dset eqb k v d = d.
Proof.
  induction d as [|[a x] d IH]; cbn; [discriminate|]. destruct (eqb a k); [intros [= ->]; reflexivity|]. intros H. now rewrite IH.
Qed.
Lemma distinct_unique {A} (d : list (term * A)) t1 v1 t2 v2 : distinct_keys term_eqb d -> In (t1, v1) d -> In (t2, v2) d -> term_eqb t1 t2 = true ->
  (t1, v1) = (t2, v2).
Proof.
  induction d as [|[k v] r IH]; intros Hd H1 H2 E; [easy|]. cbn [distinct_keys] in Hd. destruct Hd as [Hd Hr].
  destruct H1 as [[= -> ->]|H1], H2 as [[= -> ->]|H2].
  - reflexivity.
  - specialize (Hd _ H2). cbn in Hd. congruence.
  - specialize (Hd _ H1). cbn in Hd. rewrite teqb_sym in Hd. congruence.
  - auto.
Qed.

(** * What depends on the infos of the factors only *)
Section Ext.
Variables (fis fis' : finfos) (s : subterm_info).
Hypothesis H : forall f, In f (si_factors s) -> dget String.eqb f fis = dget String.eqb f fis'.
Lemma counts_ext : counts_of fis s = counts_of fis' s.
Proof. unfold counts_of. apply map_ext_in. intros f Hf. unfold count_of. now rewrite (H f Hf). Qed.
Lemma label_ext c : label fis s c = label fis' s c.
Proof.
  unfold label. destruct (si_factors s) as [|f0 fs] eqn:E; [reflexivity|]. f_equal. apply map_ext_in. intros [f i] Hf.
  apply in_combine_l in Hf. cbn [fst snd]. unfold piece. now rewrite (H f Hf).
Qed.
Lemma entry_infos (ev : finfo -> result evaluated) t c k :
  entry vone vmul fis (values_in fis ev) (t, s, c) k = entry vone vmul fis' (values_in fis' ev) (t, s, c) k.
Proof.
  cbn [entry]. f_equal. apply map_ext_in. intros [f i] Hf. apply in_combine_l in Hf. cbn [fst snd]. unfold contrib, values_in. now rewrite (H f Hf).
Qed.
End Ext.
Lemma entry_term fis val t t' s c k : entry vone vmul fis val (t, s, c) k = entry vone vmul fis val (t', s, c) k.
Proof. reflexivity. Qed.

(** The columns without their term. *)
Definition sc (id : @column_id V) : subterm_info * list nat := (snd (fst id), snd id).
Lemma sc_columns_of_term fis t t' (ss : list subterm_info) : map sc (columns_of_term fis (t, ss)) = map sc (columns_of_term fis (t', ss)).
Proof.
  unfold columns_of_term. cbn [fst snd]. rewrite !flat_map_concat_map, !concat_map, !map_map. f_equal. apply map_ext. intros s.
  rewrite !map_map. reflexivity.
Qed.
Lemma columns_of_term_ext fis fis' t (ss : list subterm_info) : (forall s f, In s ss -> In f (si_factors s) -> dget String.eqb f fis = dget String.eqb f fis') ->
  columns_of_term fis (t, ss) = columns_of_term fis' (t, ss).
Proof.
  intros H. unfold columns_of_term. cbn [fst snd]. induction ss as [|s ss IH]; cbn [flat_map]; [reflexivity|].
  rewrite (counts_ext fis fis' s) by (intros f Hf; now apply (H s); [left|]). f_equal. apply IH. intros s' f Hs. apply H. now right.
Qed.

Lemma nodup_app_l {A} (a b : list A) : NoDup (a ++ b) -> NoDup a.
Proof.
  induction a as [|x a IH]; cbn; intros H; [constructor|]. inversion H as [|y l H1 H2]; subst. constructor; [|auto].
  intros Hx. apply H1. apply in_app_iff. now left.
Qed.
(** * Slices *)
Lemma pick_app_skip {A} (l m : list A) a n : pick (l ++ m) (seq (length l + a) n) = pick m (seq a n).
Proof.
  unfold pick. revert a. induction n as [|n IH]; intros a; cbn [seq flat_map]; [reflexivity|].
  rewrite nth_error_app2 by lia. replace (length l + a - length l) with a by lia. f_equal.
  replace (S (length l + a)) with (length l + S a) by lia. apply IH.
Qed.
Lemma pick_app_l {A} (l m : list A) : pick (l ++ m) (seq 0 (length l)) = l.
Proof.
  transitivity (pick l (seq 0 (length l))); [|apply pick_all]. unfold pick. rewrite !flat_map_concat_map. f_equal. apply map_ext_in.
  intros k Hk. apply in_seq in Hk. now rewrite nth_error_app1 by lia.
Qed.
Lemma take_slice_pick {A} (p : pslice) (l : list A) : snd p <= length l -> take_slice p l = pick l (positions_in p).
Proof.
  intros H. unfold take_slice, positions_in. destruct p as [a b]. cbn [fst snd] in *.
  destruct (Nat.le_gt_cases a b) as [Hab|Hab]; [|now replace (b - a) with 0 by lia].
  assert (Ha : length (firstn a l) = a) by (rewrite firstn_length; lia).
  assert (Hb : length (firstn (b - a) (skipn a l)) = b - a) by (rewrite firstn_length, skipn_length; lia).
  transitivity (pick (firstn a l ++ skipn a l) (seq (length (firstn a l) + 0) (b - a))).
  - rewrite pick_app_skip.
    transitivity (pick (firstn (b - a) (skipn a l) ++ skipn (b - a) (skipn a l)) (seq 0 (length (firstn (b - a) (skipn a l))))).
    + now rewrite pick_app_l.
    + now rewrite firstn_skipn, Hb.
  - now rewrite firstn_skipn, Ha, Nat.add_0_r.
Qed.

(** The slice of a term picks its part out of anything partitioned the same way. *)
Lemma slice_part {A} (g : term * list subterm_info -> list A) cs : (forall p, In p cs -> length (g p) = term_columns (snd p)) ->
  forall pre sl b, slices_from (length pre) cs = (sl, b) -> distinct_keys term_eqb cs ->
  forall t0 t ss s, In (t, ss) cs -> term_eqb t t0 = true -> dget term_eqb t0 sl = Some s ->
  pick (pre ++ flat_map g cs) (positions_in s) = g (t, ss) /\ snd s <= length (pre ++ flat_map g cs) /\ fst s <= snd s.
Proof.
  induction cs as [|[t1 ss1] cs IH]; intros Hg pre sl b E Hd t0 t ss s Hin Et Eg; [easy|]. cbn [slices_from] in E.
  destruct (slices_from (length pre + term_columns ss1) cs) as [rest fin] eqn:E2. injection E as <- <-.
  cbn [distinct_keys] in Hd. destruct Hd as [Hd1 Hd2]. pose proof (Hg (t1, ss1) (or_introl eq_refl)) as Hl. cbn [snd] in Hl.
  cbn [flat_map dget fst] in *. destruct Hin as [[= -> ->]|Hin].
  - rewrite Et in Eg. injection Eg as <-. unfold positions_in. cbn [fst snd].
    replace (length pre + term_columns ss - length pre) with (length (g (t, ss))) by lia.
    split; [|rewrite !app_length; lia].
    replace (length pre) with (length pre + 0) at 1 by lia. rewrite pick_app_skip. apply pick_app_l.
  - assert (Ef : term_eqb t1 t0 = false).
    { destruct (term_eqb t1 t0) eqn:E; [|reflexivity]. specialize (Hd1 _ Hin). cbn [fst] in Hd1.
      rewrite teqb_sym in Et. rewrite (teqb_trans _ _ _ E Et) in Hd1. discriminate. }
    rewrite Ef in Eg. rewrite app_assoc. eapply IH; [| |exact Hd2|exact Hin|exact Et|exact Eg].
    + intros p Hp. apply Hg. now right.
    + rewrite app_length, Hl. exact E2.
Qed.

Lemma checked_len fis (cs : list (term * list subterm_info)) : checked fis cs -> forall p, In p cs -> length (columns_of_term fis p) = term_columns (snd p).
Proof.
  intros H [t ss] Hp. apply term_columns_len. intros s Hs. exact (ck_subterm _ _ H t ss s Hp Hs).
Qed.

(** * subset *)
Section Sub.
Variables (d d' : design_info) (ws : list which).
Variables (names : list string) (fis : finfos) (cs : list (term * list subterm_info)).
Hypothesis Hmk : mk_design_info names (Some fis) (Some cs) = Ok d.
Hypothesis Hfis : distinct_keys String.eqb fis.
Hypothesis Hcs : distinct_keys term_eqb cs.

Definition sub_step (slices : list (term * pslice)) (st : list string * finfos * list (term * list subterm_info)) (w : which)
  : result (list string * finfos * list (term * list subterm_info)) :=
  let '(nm, nfis, ncod) := st in
  let* t := which_term cs w in
  let* s := lookup (dget term_eqb t slices) in
  let* nfis' := foldM (add_info fis) t nfis in
  let* ss := lookup (dget term_eqb t cs) in
  Ok (nm ++ take_slice s (column_names d), nfis', dset term_eqb t ss ncod).

Definition good (sel : list (term * list subterm_info)) (st : list string * finfos * list (term * list subterm_info)) : Prop :=
  let '(nm, nfis, ncod) := st in
  nm = pick names (flat_map (fun p => term_at d (fst p)) sel) /\
  agrees fis nfis /\ distinct_keys term_eqb ncod /\
  (forall p, In p sel -> In p cs /\ forall f, In f (fst p) -> dget String.eqb f nfis = dget String.eqb f fis /\ dget String.eqb f fis <> None) /\
  (forall t ss, In (t, ss) ncod -> exists t', In (t', ss) sel /\ term_eqb t' t = true) /\
  (forall p, In p sel -> exists t, In (t, snd p) ncod /\ term_eqb (fst p) t = true) /\
  (NoDup nm -> flat_map (fun p => map sc (columns_of_term fis p)) ncod = flat_map (fun p => map sc (columns_of_term fis p)) sel).

Lemma pick_cat {A} (l : list A) a b : pick l (a ++ b) = pick l a ++ pick l b.
Proof. unfold pick. apply flat_map_app. Qed.
Lemma pick_incl {A} (l : list A) a b : incl a b -> incl (pick l a) (pick l b).
Proof. intros H x Hx. unfold pick in *. apply in_flat_map in Hx. destruct Hx as [k [Hk Hx]]. apply in_flat_map. exists k. auto. Qed.

Lemma d_facts : column_names d = names /\ NoDup names /\ checked fis cs /\ exists sl, di_term_slices d = Some sl /\ slices_from 0 cs = (sl, length names) /\ di_infos d = Some fis /\ di_codings d = Some cs /\ NoDup (map (fun p => term_name (fst p)) cs).
Proof.
  destruct (mk_inv names (Some fis) (Some cs) d (conj Hfis Hcs) Hmk) as [H1 [H2 [H3 [H4 [H5 [H6 [H7 [H8 [sl [H9 [H10 H11]]]]]]]]]]].
  split; [unfold column_names; rewrite H2, combine_fst; [reflexivity|now rewrite seq_length]|]. split; [exact H1|]. split; [now apply check_codings_checked|].
  exists sl. repeat (split; [assumption|]). rewrite H11, map_map in H6. cbn [fst] in H6.
  destruct (slices_from_spec cs 0 sl _ H9) as [E _]. rewrite <- (map_map fst term_name) in H6. rewrite E, map_map in H6. exact H6.
Qed.

Lemma term_at_slice sl t0 t ss s : di_term_slices d = Some sl -> slices_from 0 cs = (sl, length names) -> In (t, ss) cs -> term_eqb t t0 = true ->
  dget term_eqb t0 sl = Some s -> positions_in s = term_at d t.
Proof.
  intros E1 E2 Hin Et Es. unfold term_at, di_slice. rewrite E1.
  assert (Es' : dget term_eqb t sl = Some s).
  { clear - Et Es. induction sl as [|[k v] sl IH]; cbn [dget] in *; [discriminate|].
    assert (E : term_eqb k t = term_eqb k t0).
    { rewrite !(teqb_sym k). destruct (term_eqb t k) eqn:A, (term_eqb t0 k) eqn:B; try reflexivity.
      - rewrite teqb_sym in Et. rewrite (teqb_trans _ _ _ Et A) in B. discriminate.
      - rewrite (teqb_trans _ _ _ Et B) in A. discriminate. }
    rewrite E. destruct (term_eqb k t0); auto. }
  rewrite Es'. unfold zslice, positions_in. rewrite Nat2Z.id. f_equal. lia.
Qed.

Lemma which_term_spec w t : which_term cs w = Ok t -> forall sl s ss0, slices_from 0 cs = (sl, length names) -> dget term_eqb t sl = Some s -> dget term_eqb t cs = Some ss0 ->
  exists t', In (t', ss0) cs /\ term_eqb t' t = true /\ selects w t' .
Proof.
  intros Hw sl s ss0 Hsl Hs Hss. apply dget_in in Hss. destruct Hss as [t' [Hin Et]]. exists t'. split; [exact Hin|]. split; [exact Et|].
  destruct w as [nm|tw]; cbn [which_term selects] in *; [|injection Hw as <-; exact Et].
  destruct d_facts as [_ [_ [_ [_ [_ [_ [_ [_ Hnd]]]]]]]].
  rewrite dict_of_distinct in Hw by (apply distinct_NoDup; rewrite map_map; exact Hnd).
  destruct (dget String.eqb nm (map (fun p : term * list subterm_info => (term_name (fst p), fst p)) cs)) as [t1|] eqn:E; [|discriminate].
  injection Hw as ->. apply dget_in in E. destruct E as [k [E1 E2]]. apply String.eqb_eq in E2. subst k. apply in_map_iff in E1.
  destruct E1 as [[t2 ss2] [[= E1 ->] Hin2]]. cbn [fst] in *.
  pose proof (distinct_unique cs t' ss0 t ss2 Hcs Hin Hin2 Et) as Heq. injection Heq as -> ->. exact E1.
Qed.

Lemma step_good sel st w st' sl : di_term_slices d = Some sl -> slices_from 0 cs = (sl, length names) -> good sel st -> sub_step sl st w = Ok st' ->
  exists p, selects w (fst p) /\ good (sel ++ [p]) st'.
Proof.
  intros Hsl Hfrom Hg Hs. destruct st as [[nm nfis] ncod]. unfold sub_step in Hs.
  destruct (which_term cs w) as [t|] eqn:Ew; cbn [bind] in Hs; [|discriminate].
  destruct (dget term_eqb t sl) as [s|] eqn:Es; cbn [lookup bind] in Hs; [|discriminate].
  destruct (foldM (add_info fis) t nfis) as [nfis'|] eqn:Ef; cbn [bind] in Hs; [|discriminate].
  destruct (dget term_eqb t cs) as [ss|] eqn:Ec; cbn [lookup bind] in Hs; [|discriminate]. injection Hs as <-.
  destruct (which_term_spec w t Ew sl s ss Hfrom Es Ec) as [t' [Hin [Et Hsel]]].
  destruct Hg as [G1 [G2 [G3 [G4 [G5 [G6 G7]]]]]]. destruct d_facts as [Hn [Hnd [Hck _]]].
  exists (t', ss). split; [exact Hsel|].
  destruct (add_infos fis t nfis nfis' G2 Ef) as [F1 [F2 F3]].
  destruct (slice_part (columns_of_term fis) cs (checked_len fis cs Hck)
    [] sl (length names) Hfrom Hcs t t' ss s Hin Et Es) as [Hpart [Hle Hle2]]. cbn [app] in Hpart, Hle.
  assert (Hlen : length (flat_map (columns_of_term fis) cs) = length names).
  { pose proof (columns_of_length fis cs (fun a b s0 => ck_subterm _ _ Hck a b s0) 0 sl _ Hfrom) as E. unfold columns_of in E. lia. }
  assert (Epos : positions_in s = term_at d t') by (eapply term_at_slice; eassumption).
  assert (Enm : take_slice s (column_names d) = pick names (term_at d t')).
  { rewrite Hn, take_slice_pick by lia. now rewrite Epos. }
  assert (Hsome : forall p, In p sel -> In p cs /\ forall f, In f (fst p) -> dget String.eqb f nfis' = dget String.eqb f fis /\ dget String.eqb f fis <> None).
  { intros p Hp. destruct (G4 p Hp) as [H1 H2]. split; [exact H1|]. intros f Hf. destruct (H2 f Hf) as [H3 H4]. split; [|exact H4].
    destruct (dget String.eqb f fis) as [fi|] eqn:E; [|congruence]. apply F2. congruence. }
  assert (Hbase : nm ++ take_slice s (column_names d) = pick names (flat_map (fun p : term * list subterm_info => term_at d (fst p)) (sel ++ [(t', ss)]))).
  { rewrite flat_map_app. cbn [flat_map fst]. rewrite app_nil_r, pick_cat, <- G1. f_equal. exact Enm. }
  assert (Hsel' : forall p, In p (sel ++ [(t', ss)]) -> In p cs /\ forall f, In f (fst p) -> dget String.eqb f nfis' = dget String.eqb f fis /\ dget String.eqb f fis <> None).
  { intros p Hp. apply in_app_iff in Hp. destruct Hp as [Hp|[<-|[]]]; [now apply Hsome|]. split; [exact Hin|]. cbn [fst].
    intros f Hf. apply F3. apply term_eqb_spec in Et. now apply (proj1 Et). }
  destruct (dget term_eqb t ncod) as [v|] eqn:En.
  - (* already selected *)
    apply dget_in in En as Hk. destruct Hk as [k [Hk Ek]]. destruct (G5 k v Hk) as [t1 [H1 H2]].
    assert (E1 : (t1, v) = (t', ss)).
    { apply (distinct_unique cs t1 v t' ss Hcs); [now apply G4|exact Hin|]. eapply teqb_trans; [exact H2|]. eapply teqb_trans; [exact Ek|]. now rewrite teqb_sym. }
    injection E1 as -> ->. rewrite (dset_same _ _ _ _ En).
    unfold good. split; [exact Hbase|]. split; [exact F1|]. split; [exact G3|]. split; [exact Hsel'|]. split; [|split].
    + intros k' v' Hk'. destruct (G5 k' v' Hk') as [t2 [A B]]. exists t2. split; [apply in_app_iff; now left|exact B].
    + intros p Hp. apply in_app_iff in Hp. destruct Hp as [Hp|[<-|[]]]; [now apply G6|]. exists k. split; [exact Hk|exact H2].
    + intros Hnd'. rewrite Enm in Hnd'. rewrite flat_map_app. cbn [flat_map]. rewrite app_nil_r.
      assert (Hempty : columns_of_term fis (t', ss) = []).
      { assert (E0 : term_at d t' = []).
        { apply length_zero_iff_nil. rewrite <- (pick_length names (term_at d t')).
          - destruct (pick names (term_at d t')) as [|x r] eqn:Ex; [reflexivity|exfalso].
            assert (Hx : In x nm).
            { rewrite G1. apply (pick_incl names (term_at d t')); [|rewrite Ex; now left]. intros i Hi. apply in_flat_map. exists (t', ss). split; [exact H1|exact Hi]. }
            apply NoDup_remove_2 in Hnd'. apply Hnd'. apply in_app_iff. now left.
          - intros i Hi. rewrite <- Epos in Hi. unfold positions_in in Hi. apply in_seq in Hi. lia. }
        rewrite <- Hpart, Epos, E0. reflexivity. }
      rewrite Hempty. cbn [map]. rewrite app_nil_r. apply G7. now apply nodup_app_l in Hnd'.
  - rewrite (dset_new term_eqb t ss ncod En).
    unfold good. split; [exact Hbase|]. split; [exact F1|]. split; [rewrite <- (dset_new term_eqb t ss ncod En); now apply dset_distinct|].
    split; [exact Hsel'|]. split; [|split].
    + intros k v Hk. apply in_app_iff in Hk. destruct Hk as [Hk|[[= <- <-]|[]]].
      * destruct (G5 k v Hk) as [t1 [H1 H2]]. exists t1. split; [apply in_app_iff; now left|exact H2].
      * exists t'. split; [apply in_app_iff; right; now left|exact Et].
    + intros p Hp. apply in_app_iff in Hp. destruct Hp as [Hp|[<-|[]]].
      * destruct (G6 p Hp) as [t1 [H1 H2]]. exists t1. split; [apply in_app_iff; now left|exact H2].
      * exists t. split; [apply in_app_iff; right; now left|exact Et].
    + intros Hnd'. rewrite !flat_map_app. cbn [flat_map]. rewrite !app_nil_r. rewrite (sc_columns_of_term fis t t' ss). f_equal.
      apply G7. now apply nodup_app_l in Hnd'.
Qed.

Lemma fold_good sl ws0 : di_term_slices d = Some sl -> slices_from 0 cs = (sl, length names) -> forall sel st st', good sel st -> foldM (sub_step sl) ws0 st = Ok st' ->
  exists sel', Forall2 (fun w p => selects w (fst p)) ws0 sel' /\ good (sel ++ sel') st'.
Proof.
  intros H1 H2. induction ws0 as [|w ws0 IH]; intros sel st st' Hg E; cbn [foldM] in E.
  - injection E as <-. exists []. rewrite app_nil_r. split; [constructor|exact Hg].
  - destruct (sub_step sl st w) as [st1|] eqn:E1; cbn [bind] in E; [|discriminate].
    destruct (step_good sel st w st1 sl H1 H2 Hg E1) as [p [Hp Hg1]].
    destruct (IH _ _ _ Hg1 E) as [sel' [Hs' Hg']]. exists (p :: sel'). split; [now constructor|]. now rewrite <- app_assoc in Hg'.
Qed.

Lemma subset_inv : subset d ws = Ok d' -> exists sel nfis ncod,
  mk_design_info (pick names (flat_map (fun p => term_at d (fst p)) sel)) (Some nfis) (Some ncod) = Ok d' /\
  distinct_keys String.eqb nfis /\ distinct_keys term_eqb ncod /\
  Forall2 (fun w p => selects w (fst p)) ws sel /\ incl sel cs /\
  (forall f fi, dget String.eqb f nfis = Some fi -> dget String.eqb f fis = Some fi) /\
  (forall p f, In p sel -> In f (fst p) -> dget String.eqb f nfis = dget String.eqb f fis) /\
  (forall t ss, In (t, ss) ncod -> exists t', In (t', ss) sel /\ term_eqb t' t = true) /\
  flat_map (fun p => map sc (columns_of_term fis p)) ncod = flat_map (fun p => map sc (columns_of_term fis p)) sel.
Proof.
  intros H. destruct d_facts as [Hn [Hnd [Hck [sl [E1 [E2 [E3 [E4 E5]]]]]]]]. unfold subset in H. rewrite E1, E3, E4 in H.
  change (bind (foldM (sub_step sl) ws ([], [], [])) (fun p => let '(nm, nfis, ncod) := p in mk_design_info nm (Some nfis) (Some ncod)) = Ok d') in H.
  destruct (foldM (sub_step sl) ws ([], [], [])) as [[[nm nfis] ncod]|] eqn:E; cbn [bind] in H; [|discriminate].
  destruct (fold_good sl ws E1 E2 [] ([], [], []) _ ltac:(unfold good; repeat split; easy) E) as [sel [Hs Hg]]. cbn [app] in Hg.
  destruct Hg as [G1 [[G2 G2'] [G3 [G4 [G5 [G6 G7]]]]]]. subst nm. exists sel, nfis, ncod.
  split; [exact H|]. split; [exact G2|]. split; [exact G3|]. split; [exact Hs|].
  split; [intros p Hp; now apply G4|]. split; [exact G2'|]. split; [intros p f Hp Hf; exact (proj1 (proj2 (G4 p Hp) f Hf))|]. split; [exact G5|].
  apply G7. exact (proj1 (mk_inv _ (Some nfis) (Some ncod) _ (conj G2 G3) H)).
Qed.
End Sub.

Lemma forall2_pick {A B} (Q : A -> B -> Prop) la lb ks : Forall2 Q la lb -> Forall2 Q (pick la ks) (pick lb ks).
Proof.
  intros H. unfold pick. induction ks as [|k ks IH]; cbn [flat_map]; [constructor|]. apply Forall2_app; [|exact IH]. clear IH.
  revert k. induction H as [|a b la lb Hab H IH]; intros [|k]; cbn [nth_error]; [constructor|constructor|repeat constructor; exact Hab|apply IH].
Qed.
Lemma forall2_map_l {A A' B} (g : A -> A') (Q : A' -> B -> Prop) la lb : Forall2 Q (map g la) lb <-> Forall2 (fun a b => Q (g a) b) la lb.
Proof.
  split.
  - revert lb. induction la as [|a la IH]; intros lb H; cbn in H; inversion H; subst; constructor; auto.
  - induction 1; cbn; constructor; auto.
Qed.

(** C37 *)
Lemma subset_lemma (d d' : design_info) ws : constructed d -> subset d ws = Ok d' -> exists sel pos,
  Forall2 (fun w t => selects w t /\ In t (map fst (codings_of d))) ws sel /\ pos = flat_map (term_at d) sel /\
  constructed d' /\ column_names d' = pick (column_names d) pos /\
  (forall fi, In fi (map snd (infos_of d')) -> In fi (map snd (infos_of d))) /\
  forall (ev : finfo -> result evaluated) ks m, matrix_is vone vmul ev ks d m -> matrix_is vone vmul ev ks d' (mkMat (m_rows m) (pick (m_cols m) pos)).
Proof.
  intros [names [fis [cs [Hmk [Hfis Hcs]]]]] Hsub.
  destruct (d_facts d names fis cs Hmk Hfis Hcs) as [Hn [Hnd [Hck [sl [E1 [E2 [E3 [E4 E5]]]]]]]].
  destruct (subset_inv d d' ws names fis cs Hmk Hfis Hcs Hsub) as [sel [nfis [ncod [Hmk' [D1 [D2 [Hs [Hincl [Hag [Hf [Hcod Hcols]]]]]]]]]]].
  exists (map fst sel), (flat_map (fun p => term_at d (fst p)) sel).
  assert (Hi : infos_of d = fis) by (unfold infos_of; now rewrite E3).
  assert (Hc : codings_of d = cs) by (unfold codings_of; now rewrite E4).
  assert (Epos : flat_map (fun p => term_at d (fst p)) sel = flat_map (term_at d) (map fst sel)).
  { rewrite !flat_map_concat_map, map_map. reflexivity. }
  destruct (d_facts d' _ nfis ncod Hmk' D1 D2) as [Hn' [Hnd' [Hck' [sl' [E1' [E2' [E3' [E4' _]]]]]]]].
  assert (Hi' : infos_of d' = nfis) by (unfold infos_of; now rewrite E3').
  assert (Hc' : codings_of d' = ncod) by (unfold codings_of; now rewrite E4').
  split; [|split; [exact Epos|split; [|split; [|split]]]].
  - rewrite Hc. clear - Hs Hincl. induction Hs as [|w p ws sel Hw Hs IH]; cbn [map]; constructor.
    + split; [exact Hw|]. apply in_map, Hincl. now left.
    + apply IH. intros x Hx. apply Hincl. now right.
  - exists (pick names (flat_map (fun p => term_at d (fst p)) sel)), nfis, ncod. auto.
  - now rewrite Hn', Hn.
  - rewrite Hi, Hi'. intros fi Hfi. apply in_map_iff in Hfi. destruct Hfi as [[f fi'] [<- Hfi]]. cbn [snd].
    apply (dget_distinct String.eqb String.eqb_refl _ _ _ D1) in Hfi. apply Hag in Hfi. apply dget_in in Hfi.
    destruct Hfi as [f' [Hfi _]]. apply (in_map snd) in Hfi. exact Hfi.
  - intros ev ks m [Hrows Hm]. split; [exact Hrows|]. cbn [m_cols]. rewrite Hi, Hc in Hm. rewrite Hi', Hc'.
    set (Q' := fun (q : subterm_info * list nat) (col : list V) =>
      map Some col = map (entry vone vmul nfis (values_in nfis ev) ([], fst q, snd q)) ks).
    apply (f2_impl (fun id col => Q' (sc id) col)).
    { intros [[t s] c] col H. exact H. }
    apply (proj1 (forall2_map_l sc Q' _ _)).
    assert (Hdget : forall p s f, In p sel -> In s (snd p) -> In f (si_factors s) -> dget String.eqb f fis = dget String.eqb f nfis).
    { intros [t ss] s f Hp Hs' Hfs. symmetry. apply (Hf (t, ss) f Hp). cbn [fst]. eapply (ck_incl _ _ Hck t ss s); [now apply Hincl|exact Hs'|exact Hfs]. }
    assert (Ecols : map sc (columns_of nfis ncod) = flat_map (fun p => map sc (columns_of_term fis p)) sel).
    { rewrite <- Hcols. unfold columns_of. rewrite !flat_map_concat_map, concat_map, map_map. f_equal. apply map_ext_in. intros [t ss] Hin.
      rewrite (columns_of_term_ext nfis fis t ss); [reflexivity|]. intros s f Hs' Hfs. destruct (Hcod t ss Hin) as [t' [Ht' _]]. symmetry. now apply (Hdget (t', ss) s f). }
    rewrite Ecols.
    assert (Hpick : forall p, In p sel -> pick (columns_of fis cs) (term_at d (fst p)) = columns_of_term fis p).
    { intros [t ss] Hp. apply Hincl in Hp. cbn [fst].
      assert (Hs' : exists s, dget term_eqb t sl = Some s).
      { destruct (slices_from_spec cs 0 sl _ E2) as [Ek _]. assert (Hin : In t (map fst sl)) by (rewrite Ek; now apply (in_map fst) in Hp).
        destruct (dget term_eqb t sl) as [s|] eqn:E; [eauto|]. exfalso. apply in_map_iff in Hin. destruct Hin as [q [<- Hq]].
        apply (proj1 (dget_none _ _ _) E) in Hq. rewrite teqb_refl in Hq. discriminate. }
      destruct Hs' as [s Es].
      rewrite <- (term_at_slice d names cs sl t t ss s E1 E2 Hp (teqb_refl t) Es).
      apply (slice_part (columns_of_term fis) cs (checked_len fis cs Hck)
        [] sl _ E2 Hcs t t ss s Hp (teqb_refl t) Es). }
    pose proof (forall2_pick _ _ _ (flat_map (fun p => term_at d (fst p)) sel) Hm) as Hmp.
    assert (Epick : pick (columns_of fis cs) (flat_map (fun p => term_at d (fst p)) sel) = flat_map (columns_of_term fis) sel).
    { clear - Hpick. induction sel as [|p sel IH]; cbn [flat_map]; [reflexivity|]. rewrite pick_cat, Hpick by (now left). f_equal.
      apply IH. intros q Hq. apply Hpick. now right. }
    rewrite Epick in Hmp.
    assert (Esc : flat_map (fun p => map sc (columns_of_term fis p)) sel = map sc (flat_map (columns_of_term fis) sel)).
    { rewrite !flat_map_concat_map, concat_map, map_map. reflexivity. }
    rewrite Esc. apply (proj2 (forall2_map_l sc Q' _ _)).
    assert (Hin : forall id, In id (flat_map (columns_of_term fis) sel) -> forall f, In f (si_factors (snd (fst id))) -> dget String.eqb f fis = dget String.eqb f nfis).
    { intros [[t s] c] Hid f Hfs. cbn [fst snd] in Hfs. apply in_flat_map in Hid. destruct Hid as [p [Hp Hid]]. unfold columns_of_term in Hid.
      apply in_flat_map in Hid. destruct Hid as [s' [Hs' Hid]]. apply in_map_iff in Hid. destruct Hid as [c' [[= <- -> <-] _]]. now apply (Hdget p s f). }
    revert Hin. unfold Q'. clear - Hmp. induction Hmp as [|id col ids cols Hid Hmp IH]; intros Hin; constructor.
    + rewrite Hid. apply map_ext. intros k. destruct id as [[t s] c]. unfold sc. cbn [fst snd].
      rewrite (entry_infos fis nfis s (Hin (t, s, c) (or_introl eq_refl)) ev t c k). reflexivity.
    + apply IH. intros id' Hid'. apply Hin. now right.
Qed.

Lemma matrix_unique (ev : finfo -> result evaluated) ks (d : design_info) m m' : matrix_is vone vmul ev ks d m -> matrix_is vone vmul ev ks d m' -> m = m'.
Proof.
  intros [H1 H2] [H3 H4]. destruct m as [r c], m' as [r' c']. cbn [m_rows m_cols] in *. f_equal; [congruence|].
  clear H1 H3 r r'. revert c' H4. induction H2 as [|id col ids cols Hc H2 IH]; intros c' H4; inversion H4 as [|id' col' ids' cols' Hc' H4']; subst; [reflexivity|].
  f_equal; [|now apply IH]. rewrite <- Hc in Hc'. symmetry. now apply map_some_inj in Hc'.
Qed.
End Subset.

Lemma subset_together_lemma {V : Type} (vone : V) vmul {I : Type} (ieqb : I -> I -> bool) (origin_of : factor -> option origin) :
  (forall a b, ieqb a b = true <-> a = b) -> forall ev df ilabel (d d' : @design_info V) ws,
  constructed d -> identities (all_infos [d]) -> (forall fi, In fi (all_infos [d]) -> exists e, ev fi = Ok e /\ fits fi e) ->
  subset d ws = Ok d' -> forall act want_df m m' labels,
  build_design_matrices vone vmul ilabel ieqb origin_of ev df act want_df [d; d'] = Ok ([m; m'], labels) ->
  exists sel, Forall2 (fun w t => selects w t /\ In t (map fst (codings_of d))) ws sel /\
    m' = mkMat (m_rows m) (pick (m_cols m) (flat_map (term_at d) sel)) /\
    column_names d' = pick (column_names d) (flat_map (term_at d) sel).
Proof.
  intros Hieq ev df ilabel d d' ws Hd Hid Hfits Hsub act want_df m m' labels H.
  destruct (subset_lemma vone vmul (I := I) d d' ws Hd Hsub) as [sel [pos [H1 [-> [H2 [H3 [H4 H5]]]]]]]. exists sel. split; [exact H1|]. split; [|exact H3].
  assert (Hincl : incl (all_infos [d; d']) (all_infos [d])).
  { intros fi. unfold all_infos. cbn [flat_map]. rewrite !app_nil_r. rewrite in_app_iff. intros [Hf|Hf]; auto. }
  apply (build_iff vone vmul ieqb origin_of Hieq ev df ilabel [d; d']) in H.
  - destruct H as [n [full [_ [_ [_ [_ [Hm _]]]]]]]. inversion Hm as [|x y l l' M1 M2]; subst. inversion M2 as [|x y l l' M3 M4]; subst.
    eapply matrix_unique; [exact M3|]. now apply H5.
  - repeat constructor; assumption.
  - eapply identities_incl; eassumption.
  - intros fi Hf. apply Hfits. now apply Hincl.
Qed.
