(** Proofs about building a subset of a design on its own. *)
From Coq Require Import Sorting.Sorted.
From Verif Require Import Base RankSpec DescModel FormulaModel BuildModel BuildSpec BuildProofs BuildSubtermProofs BuildInfoProofs BuildMatrixProofs BuildAllProofs BuildSubsetProofs BuildTopProofs ArrangeProofs SubsetAloneSpec.

Section Needs.
Context {V : Type}.
Notation subterm_info := (@subterm_info V).
Notation design_info := (@design_info V).

Lemma add_infos_only (fis : finfos) l : forall a b, foldM (add_info fis) l a = Ok b ->
  forall f fi, dget String.eqb f b = Some fi -> In f l \/ dget String.eqb f a = Some fi.
Proof.
  induction l as [|g l IH]; intros a b E f fi Hf; cbn [foldM] in E; [injection E as <-; now right|].
  unfold add_info at 1 in E. destruct (dget String.eqb g fis) as [gi|] eqn:Eg; cbn [lookup bind] in E; [|discriminate].
  destruct (IH _ _ E f fi Hf) as [H|H]; [left; now right|].
  rewrite dget_dset in H; [|apply seqb_sym|apply seqb_trans]. destruct (String.eqb_spec g f) as [->|]; [left; now left|now right].
Qed.

Section Sub.
Variables (d d' : design_info) (names : list string) (fis : finfos) (cs : list (term * list subterm_info)).
Hypothesis Hmk : mk_design_info names (Some fis) (Some cs) = Ok d.
Hypothesis Hfis : distinct_keys String.eqb fis.
Hypothesis Hcs : distinct_keys term_eqb cs.

Lemma fold_needs sl : slices_from 0 cs = (sl, length names) -> forall ws st nm nfis ncod,
  foldM (sub_step d fis cs sl) ws st = Ok (nm, nfis, ncod) -> forall f fi, dget String.eqb f nfis = Some fi ->
  dget String.eqb f (snd (fst st)) = Some fi \/ exists w t ss, In w ws /\ selects w t /\ In (t, ss) cs /\ In f t.
Proof.
  intros Hsl. induction ws as [|w ws IH]; intros st nm nfis ncod E f fi Hf; cbn [foldM] in E; [injection E as ->; now left|].
  destruct (sub_step d fis cs sl st w) as [st1|] eqn:E1; cbn [bind] in E; [|discriminate].
  destruct (IH _ _ _ _ E f fi Hf) as [H|[w' [t [ss [H1 H2]]]]]; [|right; exists w', t, ss; split; [now right|exact H2]].
  destruct st as [[nm0 nfis0] ncod0]. unfold sub_step in E1.
  destruct (which_term cs w) as [t|] eqn:Ew; cbn [bind] in E1; [|discriminate].
  destruct (dget term_eqb t sl) as [s|] eqn:Es; cbn [lookup bind] in E1; [|discriminate].
  destruct (foldM (add_info fis) t nfis0) as [nfis1|] eqn:Ef; cbn [bind] in E1; [|discriminate].
  destruct (dget term_eqb t cs) as [ss|] eqn:Ec; cbn [lookup bind] in E1; [|discriminate]. injection E1 as <-. cbn [fst snd] in *.
  destruct (add_infos_only fis t nfis0 nfis1 Ef f fi H) as [H1|H1]; [|now left]. right.
  destruct (which_term_spec d names fis cs Hmk Hfis Hcs w t Ew sl s ss Hsl Es Ec) as [t' [Hin [Et Hsel]]].
  exists w, t', ss. split; [now left|]. split; [exact Hsel|]. split; [exact Hin|]. apply term_eqb_spec in Et. now apply (proj2 Et).
Qed.
End Sub.

Lemma subset_needs_lemma (d d' : design_info) ws : constructed d -> subset d ws = Ok d' ->
  forall f fi, In (f, fi) (infos_of d') -> In (f, fi) (infos_of d) /\
  exists w t, In w ws /\ selects w t /\ In t (map fst (codings_of d)) /\ In f t.
Proof.
  intros [names [fis [cs [Hmk [Hfis Hcs]]]]] Hsub f fi Hf.
  destruct (d_facts d names fis cs Hmk Hfis Hcs) as [Hn [Hnd [Hck [sl [E1 [E2 [E3 [E4 E5]]]]]]]].
  unfold infos_of, codings_of. rewrite E3, E4.
  unfold subset in Hsub. rewrite E1, E3, E4 in Hsub.
  change (bind (foldM (sub_step d fis cs sl) ws ([], [], [])) (fun p => let '(nm, nfis, ncod) := p in mk_design_info nm (Some nfis) (Some ncod)) = Ok d') in Hsub.
  destruct (foldM (sub_step d fis cs sl) ws ([], [], [])) as [[[nm nfis] ncod]|] eqn:E; cbn [bind] in Hsub; [|discriminate].
  destruct (fold_good d names fis cs Hmk Hfis Hcs sl ws E1 E2 [] ([], [], []) _ ltac:(unfold good; repeat split; easy) E) as [sel [Hs Hg]]. cbn [app] in Hg.
  destruct Hg as [G1 [[G2 G2'] [G3 _]]].
  destruct (d_facts d' nm nfis ncod Hsub G2 G3) as [_ [_ [_ [sl' [_ [_ [E3' _]]]]]]].
  unfold infos_of in Hf. rewrite E3' in Hf. apply (dget_distinct String.eqb String.eqb_refl _ _ _ G2) in Hf.
  split.
  - apply G2' in Hf. apply dget_in in Hf. destruct Hf as [f' [Hf He]]. apply String.eqb_eq in He. now subst f'.
  - destruct (fold_needs d names fis cs Hmk Hfis Hcs sl E2 ws _ _ _ _ E f fi Hf) as [H|[w [t [ss [H1 [H2 [H3 H4]]]]]]]; [discriminate|].
    exists w, t. split; [exact H1|]. split; [exact H2|]. split; [|exact H4]. apply (in_map fst) in H3. exact H3.
Qed.

Lemma subset_proper (d d' : design_info) ws : constructed d -> subset d ws = Ok d' -> proper_design d -> proper_design d'.
Proof.
  intros [names [fis [cs [Hmk [Hfis Hcs]]]]] Hsub Hp t ss s f c row Ht.
  destruct (d_facts d names fis cs Hmk Hfis Hcs) as [_ [_ [_ [sl [_ [_ [_ [E4 _]]]]]]]].
  destruct (subset_inv d d' ws names fis cs Hmk Hfis Hcs Hsub) as [sel [nfis [ncod [Hmk' [D1 [D2 [_ [Hincl [_ [_ [Hcod _]]]]]]]]]]].
  destruct (d_facts d' _ nfis ncod Hmk' D1 D2) as [_ [_ [_ [sl' [_ [_ [_ [E4' _]]]]]]]].
  unfold codings_of in Ht. rewrite E4' in Ht. destruct (Hcod t ss Ht) as [t' [Ht' _]]. apply Hincl in Ht'.
  apply (Hp t' ss). unfold codings_of. now rewrite E4.
Qed.
End Needs.

(** * Picking out of what was filtered more coarsely *)
Fixpoint where_in (p q : nat -> bool) (l : list nat) (i : nat) : list nat :=
  match l with
  | [] => []
  | x :: l' => if q x then (if p x then i :: where_in p q l' (S i) else where_in p q l' (S i)) else where_in p q l' i
  end.
Lemma where_in_ge p q l : forall i j, In j (where_in p q l i) -> i <= j < i + length (filter q l).
Proof.
  induction l as [|x l IH]; intros i j Hj; cbn [where_in filter] in *; [easy|]. destruct (q x); [|now apply IH].
  cbn [length]. destruct (p x); [destruct Hj as [<-|Hj]; [lia|]|]; apply IH in Hj; lia.
Qed.
Lemma where_in_sorted p q l : forall i, StronglySorted lt (where_in p q l i).
Proof.
  induction l as [|x l IH]; intros i; cbn [where_in]; [constructor|]. destruct (q x); [|apply IH]. destruct (p x); [|apply IH].
  constructor; [apply IH|]. apply Forall_forall. intros j Hj. apply where_in_ge in Hj. lia.
Qed.
Lemma where_in_pick p q l : (forall x, p x = true -> q x = true) -> forall pre,
  pick (pre ++ filter q l) (where_in p q l (length pre)) = filter p l.
Proof.
  intros Hpq. induction l as [|x l IH]; intros pre; cbn [where_in filter]; [reflexivity|].
  destruct (q x) eqn:Eq.
  - assert (E : pick (pre ++ x :: filter q l) (where_in p q l (S (length pre))) = filter p l).
    { specialize (IH (pre ++ [x])). rewrite app_length in IH. cbn [length] in IH. rewrite Nat.add_1_r, <- app_assoc in IH. exact IH. }
    destruct (p x); [|exact E]. unfold pick in *. cbn [flat_map]. rewrite nth_error_app2, Nat.sub_diag by lia. cbn [nth_error app]. now f_equal.
  - destruct (p x) eqn:Ep; [apply Hpq in Ep; congruence|]. apply IH.
Qed.

Lemma pick_pick {A} (l : list A) ks : (forall k, In k ks -> k < length l) -> forall ps, pick (pick l ks) ps = pick l (pick ks ps).
Proof.
  intros H ps. assert (N : forall i, nth_error (pick l ks) i = match nth_error ks i with Some k => nth_error l k | None => None end).
  { clear ps. induction ks as [|k ks IH]; intros i; [now destruct i|]. rewrite pick_cons.
    destruct (nth_error l k) as [x|] eqn:E; [|apply nth_error_None in E; specialize (H k (or_introl eq_refl)); lia].
    destruct i as [|i]; cbn [app nth_error]; [now rewrite E|]. apply IH. intros j Hj. apply H. now right. }
  induction ps as [|i ps IH]; [reflexivity|]. rewrite !pick_cons, N, IH. destruct (nth_error ks i) as [k|]; [|reflexivity].
  cbn [app]. rewrite pick_cons. reflexivity.
Qed.

Definition keeps {V I} (act : on_na) (es : list (@evaluated V I)) (k : nat) : bool :=
  match act with NARaise => true | NADrop => negb (missing_in es k) end.
Lemma kept_keeps {V I} act (es : list (@evaluated V I)) n : kept act es n = filter (keeps act es) (seq 0 n).
Proof. destruct act; [reflexivity|]. cbn [kept keeps]. generalize (seq 0 n) as l. induction l as [|x l IH]; cbn [filter]; [reflexivity|]. now rewrite <- IH. Qed.

Section Alone.
Context {V : Type} (vone : V) (vmul : V -> V -> V) {I : Type} (ieqb : I -> I -> bool) (origin_of : factor -> option origin).
Hypothesis ieqb_eq : forall a b, ieqb a b = true <-> a = b.
Notation evaluated := (@evaluated V I).
Notation design_info := (@design_info V).

Lemma matrix_ev (ev ev' : finfo -> result evaluated) ks (d : design_info) m :
  (forall fi, In fi (all_infos [d]) -> ev' fi = ev fi) -> matrix_is vone vmul ev ks d m -> matrix_is vone vmul ev' ks d m.
Proof.
  intros Hev [H1 H2]. split; [exact H1|]. eapply f2_impl; [|exact H2]. intros id col E. cbv beta in *. rewrite E. apply map_ext. intros k.
  apply entry_ext. intros f _. unfold values_in. destruct (dget String.eqb f (infos_of d)) as [fi|] eqn:Ef; [|reflexivity].
  rewrite Hev; [reflexivity|]. unfold all_infos. cbn [flat_map]. rewrite app_nil_r. apply dget_in in Ef. destruct Ef as [g [Hg _]].
  apply (in_map snd) in Hg. exact Hg.
Qed.
Lemma matrix_rows_at (ev : finfo -> result evaluated) ks (d : design_info) m ps : (forall i, In i ps -> i < length ks) ->
  matrix_is vone vmul ev ks d m -> matrix_is vone vmul ev (pick ks ps) d (rows_at m ps).
Proof.
  intros Hps [H1 H2]. split; cbn [rows_at m_rows m_cols]; [symmetry; now apply pick_length|].
  induction H2 as [|id col ids cols E H2 IH]; cbn [map]; constructor; [|exact IH].
  rewrite <- !pick_map. now rewrite E.
Qed.

Variables (ev ev' : finfo -> result evaluated) (df : option (list I)) (ilabel : nat -> I) (d d' : design_info) (ws : list which).
Hypothesis Hd : constructed d.
Hypothesis Hid : identities (all_infos [d]).
Hypothesis Hfits : forall fi, In fi (all_infos [d]) -> exists e, ev fi = Ok e /\ fits fi e.
Hypothesis Hpd : proper_design d.
Hypothesis Hpv : forall fi e, In fi (all_infos [d]) -> ev fi = Ok e -> proper_value fi e.
Hypothesis Hsub : subset d ws = Ok d'.
Hypothesis Hev : forall fi, In fi (all_infos [d']) -> ev' fi = ev fi.
Hypothesis Hrows : infos_of d' <> [] \/ df <> None.

Lemma infos_incl : incl (all_infos [d']) (all_infos [d]).
Proof.
  destruct (subset_lemma vone vmul (I := I) d d' ws Hd Hsub) as [sel [pos [_ [_ [_ [_ [H _]]]]]]].
  intros fi. unfold all_infos. cbn [flat_map]. rewrite !app_nil_r. apply H.
Qed.
Lemma evals_incl : incl (evals ev' (all_infos [d'])) (evals ev (all_infos [d])).
Proof.
  intros e He. unfold evals in *. apply in_flat_map in He. destruct He as [fi [H1 H2]]. apply in_flat_map. exists fi. split; [now apply infos_incl|].
  now rewrite <- Hev.
Qed.
Lemma rows_known n1 n2 : rows_are df (evals ev' (all_infos [d'])) n1 -> rows_are df (evals ev' (all_infos [d'])) n2 -> n1 = n2.
Proof.
  intros [A1 A2] [B1 B2]. destruct df as [i|]; [rewrite <- (A1 i eq_refl); now apply B1|].
  destruct Hrows as [H|H]; [|congruence]. destruct (infos_of d') as [|[f fi] r] eqn:E; [congruence|].
  assert (Hfi : In fi (all_infos [d'])) by (unfold all_infos; cbn [flat_map]; rewrite E; now left).
  destruct (Hfits fi (infos_incl fi Hfi)) as [e [He _]].
  assert (Hin : In e (evals ev' (all_infos [d']))) by (unfold evals; apply in_flat_map; exists fi; split; [exact Hfi|]; rewrite Hev, He by exact Hfi; now left).
  rewrite <- (A2 e Hin). now apply B2.
Qed.

Lemma subset_alone_lemma act want_df m labels :
  build_design_matrices vone vmul ilabel ieqb origin_of ev df act want_df [d] = Ok ([m], labels) ->
  exists sel m' labels' ps, Forall2 (fun w t => selects w t /\ In t (map fst (codings_of d))) ws sel /\
    build_design_matrices vone vmul ilabel ieqb origin_of ev' df act want_df [d'] = Ok ([m'], labels') /\
    some_rows (m_rows m') ps /\ rows_at m' ps = mkMat (m_rows m) (pick (m_cols m) (flat_map (term_at d) sel)) /\
    ((exists fi e, In fi (all_infos [d']) /\ ev fi = Ok e /\ ev_index e <> None) \/ df <> None ->
       labels = option_map (fun l => pick l ps) labels') /\
    (act = NARaise \/ (forall k, missing_in (evals ev (all_infos [d])) k = missing_in (evals ev (all_infos [d'])) k) ->
       m' = mkMat (m_rows m) (pick (m_cols m) (flat_map (term_at d) sel))).
Proof.
  intros H. destruct (subset_lemma vone vmul (I := I) d d' ws Hd Hsub) as [sel [pos [H1 [-> [H2 [H3 [H4 H5]]]]]]].
  apply (build_iff vone vmul ieqb origin_of ieqb_eq ev df ilabel [d] ltac:(repeat constructor; exact Hd) Hid Hfits) in H.
  destruct H as [n [full [R1 [R2 [R3 [R4 [R5 R6]]]]]]]. inversion R5 as [|x y l l' M1 M2]; subst. clear R5 M2.
  set (es := evals ev (all_infos [d])) in *. set (es' := evals ev' (all_infos [d'])).
  assert (Hinc : incl es' es) by exact evals_incl.
  assert (Hfits' : forall fi, In fi (all_infos [d']) -> exists e, ev' fi = Ok e /\ fits fi e).
  { intros fi Hfi. rewrite Hev by exact Hfi. apply Hfits. now apply infos_incl. }
  assert (Hcon' : Forall constructed [d']) by (repeat constructor; exact H2).
  assert (Hid' : identities (all_infos [d'])) by (eapply identities_incl; [exact infos_incl|exact Hid]).
  assert (Rn : rows_are df es' n) by (destruct R1 as [A B]; split; [exact A|intros e He; apply B; now apply Hinc]).
  assert (Hne : ~ (es' = [] /\ df = None)).
  { intros [Ha Hb]. destruct Hrows as [G|G]; [|congruence]. destruct (infos_of d') as [|[f fi] r] eqn:E; [congruence|].
    assert (Hfi : In fi (all_infos [d'])) by (unfold all_infos; cbn [flat_map]; rewrite E; now left).
    destruct (Hfits' fi Hfi) as [e [He _]].
    assert (Hin : In e es') by (unfold es', evals; apply in_flat_map; exists fi; split; [exact Hfi|]; rewrite He; now left).
    rewrite Ha in Hin. exact Hin. }
  assert (Hmiss : forall k, missing_in es' k = true -> missing_in es k = true).
  { intros k Hk. unfold missing_in in *. apply existsb_exists in Hk. destruct Hk as [e [He Hk]]. apply existsb_exists. exists e. split; [now apply Hinc|exact Hk]. }
  assert (Hsucc : exists res, build_design_matrices vone vmul ilabel ieqb origin_of ev' df act want_df [d'] = Ok res).
  { apply (succeeds_iff vone vmul (fun _ => false) ilabel ieqb origin_of ieqb_eq ev' df [d'] Hcon' Hid' Hfits' act want_df).
    - repeat constructor. exact (subset_proper d d' ws Hd Hsub Hpd).
    - intros fi e Hfi He. apply Hpv; [now apply infos_incl|]. now rewrite <- Hev.
    - fold es'. assert (Hlab : exists full', labels_are ilabel df es' n full').
      { destruct R2 as [L1 [L2 L3]]. destruct df as [i|] eqn:Edf.
        - exists full. split; [exact L1|]. split; [intros e i' He; apply L2; now apply Hinc|discriminate].
        - destruct (existsb (fun e => match ev_index e with Some _ => true | None => false end) es') eqn:Eb.
          + exists full. split; [exact L1|]. split; [intros e i' He; apply L2; now apply Hinc|].
            intros _ Hno. apply existsb_exists in Eb. destruct Eb as [e [He Eb]]. now rewrite (Hno e He) in Eb.
          + assert (Hno : forall e, In e es' -> ev_index e = None).
            { intros e He. destruct (ev_index e) as [i|] eqn:Ei; [|reflexivity].
              exfalso. assert (X : existsb (fun e => match ev_index e with Some _ => true | None => false end) es' = true) by (apply existsb_exists; exists e; rewrite Ei; auto). congruence. }
            exists (map ilabel (seq 0 n)). split; [discriminate|]. split; [|reflexivity]. intros e i He Hi. rewrite (Hno e He) in Hi. discriminate. }
      destruct Hlab as [full' Hlab]. exists n, full'. split; [exact Rn|]. split; [exact Hlab|]. split; [|intros A B; exfalso; auto].
      intros Ha k Hk. specialize (R3 Ha k Hk). destruct (missing_in es' k) eqn:E; [|reflexivity]. apply Hmiss in E. congruence. }
  destruct Hsucc as [[ms' labels'] Hb].
  pose proof (proj1 (build_iff vone vmul ieqb origin_of ieqb_eq ev' df ilabel [d'] Hcon' Hid' Hfits' act want_df ms' labels') Hb) as Hb'.
  destruct Hb' as [n' [full' [S1 [S2 [S3 [S4 [S5 S6]]]]]]]. fold es' in S1, S2, S3, S4, S5, S6.
  assert (n' = n) by (eapply rows_known; eassumption). subst n'.
  inversion S5 as [|x y l l' N1 N2]; subst. inversion N2; subst. clear S5 N2. rename y into m'.
  set (ps := where_in (keeps act es) (keeps act es') (seq 0 n) 0).
  assert (Hk : forall k, keeps act es k = true -> keeps act es' k = true).
  { intros k. unfold keeps. destruct act; [|reflexivity]. rewrite !negb_true_iff. intros A. destruct (missing_in es' k) eqn:E; [|reflexivity]. apply Hmiss in E. congruence. }
  assert (Hpick : pick (kept act es' n) ps = kept act es n).
  { rewrite !kept_keeps. exact (where_in_pick (keeps act es) (keeps act es') (seq 0 n) Hk []). }
  assert (Hrange : forall i, In i ps -> i < length (kept act es' n)).
  { intros i Hi. apply where_in_ge in Hi. rewrite kept_keeps. lia. }
  pose proof (matrix_ev ev ev' _ d' _ Hev (H5 ev (kept act es n) m M1)) as Hm.
  exists sel, m', labels', ps. split; [exact H1|]. split; [exact Hb|]. split; [|split; [|split]].
  - split; [apply where_in_sorted|]. apply Forall_forall. intros i Hi. rewrite (proj1 N1). now apply Hrange.
  - eapply matrix_unique; [|exact Hm]. rewrite <- Hpick. apply matrix_rows_at; [exact Hrange|exact N1].
  - intros Hlabd. assert (full' = full).
    { destruct Hlabd as [[fi [e [Hfi [He Hi]]]]|Hdf].
      - assert (Hin : In e es') by (unfold es', evals; apply in_flat_map; exists fi; split; [exact Hfi|]; rewrite Hev, He by exact Hfi; now left).
        destruct (ev_index e) as [i|] eqn:Ei; [|congruence]. rewrite <- (proj1 (proj2 S2) e i Hin Ei). apply (proj1 (proj2 R2) e i); [now apply Hinc|exact Ei].
      - destruct df as [i|]; [|congruence]. rewrite <- (proj1 S2 i eq_refl). now apply (proj1 R2). }
    subst full'.
    assert (Hlen : length full = n).
    { destruct R2 as [L1 [L2 _]]. destruct Hlabd as [[fi [e [Hfi [He Hi]]]]|Hdf].
      - destruct (ev_index e) as [i|] eqn:Ei; [|congruence]. pose proof (infos_incl fi Hfi) as Hfi'. destruct (Hfits fi Hfi') as [e' [He' F]].
        assert (e' = e) by congruence. subst e'.
        assert (Hin : In e es) by (unfold es, evals; apply in_flat_map; exists fi; split; [exact Hfi'|]; rewrite He; now left).
        rewrite <- (L2 e i Hin Ei). rewrite (proj1 (proj2 F) i Ei). now apply (proj2 R1).
      - destruct df as [i|]; [|congruence]. rewrite <- (L1 i eq_refl). now apply (proj1 R1). }
    destruct want_df; [|subst; reflexivity].
    destruct S6 as [[A [B _]]|[_ ->]]; [exfalso; auto|].
    destruct R6 as [[A [B _]]|[_ ->]].
    { exfalso. apply Hne. split; [|exact B]. destruct es' as [|x r]; [reflexivity|]. exfalso. specialize (Hinc x (or_introl eq_refl)). rewrite A in Hinc. exact Hinc. }
    cbn [option_map]. f_equal. rewrite pick_pick; [now rewrite Hpick|]. intros k Hkk. rewrite Hlen. apply kept_lt in Hkk. exact Hkk.
  - intros Hsame. assert (Ek : kept act es' n = kept act es n).
    { destruct Hsame as [->|Hsame]; [reflexivity|]. rewrite !kept_keeps. apply filter_ext. intros k. unfold keeps. destruct act; [|reflexivity].
      rewrite Hsame. f_equal. unfold es'. f_equal. unfold evals. rewrite !flat_map_concat_map. f_equal. apply map_ext_in. intros fi Hfi. now rewrite Hev. }
    eapply matrix_unique; [|exact Hm]. now rewrite <- Ek.
Qed.
End Alone.
