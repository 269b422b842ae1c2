(** What can go wrong while building, and where errors point. *)
From Verif Require Import Base RankSpec DescModel FormulaModel BuildModel BuildSpec BuildProofs BuildSubtermProofs BuildInfoProofs BuildMatrixProofs BuildAllProofs BuildTopProofs.

Section Errors.
Context {V : Type} (vone : V) (vmul : V -> V -> V) {I : Type} (ilabel : nat -> I) (ieqb : I -> I -> bool) (origin_of : factor -> option origin).
Notation design_info := (@design_info V).
Notation evaluated := (@evaluated V I).
Hypothesis ieqb_eq : forall a b, ieqb a b = true <-> a = b.
Variable ev : finfo -> result evaluated.
Variable df : option (list I).
Notation eval_one := (eval_one ieqb origin_of ev).

(** * Evaluating the factors *)
Lemma eval_one_err st fi err : eval_one st fi = Err err -> ev fi = Err err \/
  exists e, ev fi = Ok e /\
   (exists n, snd (fst st) = Some n /\ n <> vrows (ev_value e) /\ err = PatsyError "Number of rows mismatch" (origin_of (fi_factor fi)) \/
    exists i j, snd st = Some j /\ ev_index e = Some i /\ j <> i /\ err = PatsyError "Index mismatch" (origin_of (fi_factor fi))).
Proof.
  destruct st as [[d rows] idx]. unfold BuildModel.eval_one. destruct (dmem fi_eqb fi d); [discriminate|].
  destruct (ev fi) as [e|e1]; cbn [bind]; [|intros [= ->]; now left]. intros H. right. exists e. split; [reflexivity|]. cbn [fst snd].
  destruct (check_match Nat.eqb _ _ rows _) as [rows'|e1] eqn:Er; cbn [bind] in H.
  - destruct (ev_index e) as [i|]; [|discriminate]. destruct (check_match _ _ _ idx i) as [idx'|e1] eqn:Ei; cbn [bind] in H; [discriminate|]. injection H as ->.
    unfold check_match in Ei. destruct idx as [j|]; [|discriminate]. destruct (list_eqb ieqb j i) eqn:E; [discriminate|]. injection Ei as <-.
    exists 0. right. exists i, j. split; [reflexivity|]. split; [reflexivity|]. split; [|reflexivity]. intros ->. rewrite (proj2 (list_eqb_eq ieqb ieqb_eq i i) eq_refl) in E. discriminate.
  - injection H as ->. unfold check_match in Er. destruct rows as [r|]; [|discriminate]. destruct (Nat.eqb_spec r (vrows (ev_value e))) as [|Hn]; [discriminate|]. injection Er as <-.
    exists r. left. auto.
Qed.
Lemma fold_err l : forall st err, foldM eval_one l st = Err err ->
  exists pre fi post st', l = pre ++ fi :: post /\ foldM eval_one pre st = Ok st' /\ eval_one st' fi = Err err.
Proof.
  induction l as [|fi l IH]; intros st err E; cbn [foldM] in E; [discriminate|].
  destruct (eval_one st fi) as [st1|e1] eqn:E1; cbn [bind] in E.
  - destruct (IH _ _ E) as [pre [g [post [st' [-> [H1 H2]]]]]]. exists (fi :: pre), g, post, st'. split; [reflexivity|]. split; [|exact H2]. cbn [foldM]. now rewrite E1.
  - injection E as ->. exists [], fi, l, st. split; [reflexivity|]. split; [reflexivity|exact E1].
Qed.
(** The dict of values holds the factors in the order in which they were first met. *)
Lemma fold_order l : forall d0 r0 i0 d1 r1 i1, foldM eval_one l (d0, r0, i0) = Ok (d1, r1, i1) ->
  exists d', d1 = d0 ++ d' /\
  forall a fi e b, d' = a ++ (fi, e) :: b -> ev fi = Ok e /\ exists pre post, l = pre ++ fi :: post /\ forall g, In g pre -> dmem fi_eqb g (d0 ++ a) = true.
Proof.
  induction l as [|fi l IH]; intros d0 r0 i0 d1 r1 i1 E; cbn [foldM] in E.
  - injection E as <- <- <-. exists []. split; [symmetry; apply app_nil_r|]. intros [|? ?] ? ? ?; discriminate.
  - destruct (eval_one (d0, r0, i0) fi) as [[[d2 r2] i2]|] eqn:E1; cbn [bind] in E; [|discriminate].
    destruct (IH _ _ _ _ _ _ E) as [d' [-> H]]. unfold BuildModel.eval_one in E1. destruct (dmem fi_eqb fi d0) eqn:Em.
    + injection E1 as <- <- <-. exists d'. split; [reflexivity|]. intros a g e b Hd. destruct (H a g e b Hd) as [H1 [pre [post [-> H2]]]]. split; [exact H1|].
      exists (fi :: pre), post. split; [reflexivity|]. intros h [<-|Hh]; [|now apply H2]. rewrite dmem_in in *. destruct Em as [p [Hp Ep]]. exists p. split; [apply in_or_app; now left|exact Ep].
    + destruct (ev fi) as [e0|] eqn:Ee; cbn [bind] in E1; [|discriminate]. destruct (check_match _ _ _ r0 _) as [r'|]; cbn [bind] in E1; [|discriminate].
      destruct (match ev_index e0 with Some i => check_match _ _ _ i0 i | None => Ok i0 end) as [i'|]; cbn [bind] in E1; [|discriminate]. injection E1 as <- <- <-.
      exists ((fi, e0) :: d'). split; [now rewrite <- app_assoc|]. intros a g e b Hd. destruct a as [|q a]; cbn [app] in Hd.
      * injection Hd as <- <- <-. split; [exact Ee|]. exists [], l. split; [reflexivity|]. intros h [].
      * injection Hd as <- ->. destruct (H a g e b eq_refl) as [H1 [pre [post [-> H2]]]]. split; [exact H1|]. exists (fi :: pre), post. split; [reflexivity|].
        intros h Hh. destruct Hh as [<-|Hh].
        -- rewrite dmem_in. exists (fi, e0). split; [apply in_or_app; right; now left|]. unfold fi_eqb. apply Nat.eqb_refl.
        -- specialize (H2 h Hh). rewrite <- app_assoc in H2. exact H2.
Qed.

(** * The whole *)
Variable dis : list design_info.
Hypothesis Hcon : Forall constructed dis.
Hypothesis Hid : identities (all_infos dis).
Hypothesis Hfits : forall fi e, In fi (all_infos dis) -> ev fi = Ok e -> fits fi e /\ proper_value fi e.
Hypothesis Hproper : Forall proper_design dis.
Notation infos := (all_infos dis).

Lemma find_combine (masks : list (list bool)) : forall (origins : list (option origin)) m org,
  find (fun p => existsb (fun b => b) (fst p)) (combine masks origins) = Some (m, org) ->
  exists i, nth_error masks i = Some m /\ nth_error origins i = Some org /\ In true m /\ forall j m', j < i -> nth_error masks j = Some m' -> ~ In true m'.
Proof.
  induction masks as [|m0 masks IH]; intros [|o0 origins] m org; cbn [combine find fst]; try discriminate.
  destruct (existsb (fun b => b) m0) eqn:E.
  - intros [= <- <-]. exists 0. apply existsb_exists in E. destruct E as [b [E1 ->]]. repeat split; try assumption. intros j m' Hj. lia.
  - intros H. destruct (IH _ _ _ H) as [i [H1 [H2 [H3 H4]]]]. exists (S i). split; [exact H1|]. split; [exact H2|]. split; [exact H3|].
    intros [|j] m' Hj Hm; [|apply (H4 j m'); [lia|exact Hm]]. injection Hm as <-. intros Hin. assert (X : existsb (fun b => b) m0 = true) by (apply existsb_exists; eauto). congruence.
Qed.

Definition has_missing (fi : finfo) : Prop := exists e, ev fi = Ok e /\ In true (ev_isna e).

Lemma true_nth (l : list bool) : In true l <-> exists k, k < length l /\ nth k l false = true.
Proof.
  split.
  - intros H. apply (In_nth _ _ false) in H. destruct H as [k [H1 H2]]. eauto.
  - intros [k [H1 H2]]. rewrite <- H2. now apply nth_In.
Qed.

(** Everything was evaluated. *)
Section Evaluated.
Variables (d : list (finfo * evaluated)) (rows : option nat) (idx : option (list I)).
Hypothesis Ef : foldM eval_one infos ([], option_map (@length I) df, df) = Ok (d, rows, idx).
Lemma ev_inv : einv ev df infos (d, rows, idx) /\ incl infos (map fst d).
Proof. destruct (eval_fold_sound ieqb origin_of ieqb_eq ev df infos infos Hid (incl_refl _) _ _ (einv_init ev df _) Ef) as [H [_ H']]. split; assumption. Qed.
Lemma ev_all : forall fi, In fi infos -> exists e, ev fi = Ok e /\ fits fi e.
Proof.
  intros fi Hfi. destruct ev_inv as [Hinv Hcov]. pose proof Hfi as H. apply Hcov in H. apply in_map_iff in H. destruct H as [[g e] [<- H]].
  pose proof (ei_ev _ _ _ _ Hinv _ _ H) as He. exists e. split; [exact He|]. now apply (Hfits g e).
Qed.
Lemma masks_first i m : nth_error (map (fun p : finfo * evaluated => ev_isna (snd p)) d) i = Some m -> In true m ->
  (forall j m', j < i -> nth_error (map (fun p : finfo * evaluated => ev_isna (snd p)) d) j = Some m' -> ~ In true m') ->
  exists pre fi post, infos = pre ++ fi :: post /\ has_missing fi /\ (forall g, In g pre -> ~ has_missing g) /\
    nth_error (map (fun p : finfo * evaluated => origin_of (fi_factor (fst p))) d) i = Some (origin_of (fi_factor fi)).
Proof.
  intros Hi Hm Hb. destruct (fold_order _ _ _ _ _ _ _ Ef) as [d' [Ed Ho]]. cbn [app] in Ed. subst d'.
  rewrite nth_error_map in Hi. destruct (nth_error d i) as [[fi e]|] eqn:E; [|discriminate]. injection Hi as <-.
  destruct (nth_error_split _ _ E) as [a [b [Ed <-]]]. destruct (Ho a fi e b Ed) as [He [pre [post [El Hpre]]]]. exists pre, fi, post. split; [exact El|]. split; [exists e; auto|]. split.
  - intros g Hg [e' [Hg' Ht]]. specialize (Hpre g Hg). cbn [app] in Hpre. destruct ev_inv as [Hinv _].
    assert (Hincl : incl (map fst a) infos).
    { intros x Hx. apply (ei_incl _ _ _ _ Hinv). cbn [fst]. rewrite Ed, map_app. apply in_or_app. now left. }
    apply (dmem_ids a g infos Hid Hincl) in Hpre; [|rewrite El; apply in_or_app; now left]. apply in_map_iff in Hpre. destruct Hpre as [[g' e1] [X Hin]]. cbn [fst] in X. subst g'.
    assert (He1 : ev g = Ok e1) by (apply (ei_ev _ _ _ _ Hinv); cbn [fst]; rewrite Ed; apply in_or_app; now left). rewrite Hg' in He1. injection He1 as <-.
    destruct (In_nth_error _ _ Hin) as [j Hj]. pose proof (nth_error_Some a j) as L. rewrite Hj in L. apply (Hb j (ev_isna e')); [apply L; discriminate| |exact Ht].
    rewrite nth_error_map, Ed, nth_error_app1 by (apply L; discriminate). now rewrite Hj.
  - rewrite nth_error_map, E. reflexivity.
Qed.
Lemma ev_es : forall e, In e (evals ev infos) <-> exists fi, In fi infos /\ ev fi = Ok e.
Proof. apply evals_in. intros fi Hfi. destruct (ev_all fi Hfi) as [e [He _]]. eauto. Qed.
Lemma no_missing n : rows_are df (evals ev infos) n -> (forall m, In m (map (fun p : finfo * evaluated => ev_isna (snd p)) d) -> ~ In true m) ->
  forall k, k < n -> missing_in (evals ev infos) k = false.
Proof.
  intros Hn H k Hk. apply (missing_in_iff ev dis ev_all). intros fi e Hfi He. destruct ev_inv as [Hinv Hcov].
  apply Hcov in Hfi. apply in_map_iff in Hfi. destruct Hfi as [[g e'] [<- Hin]]. pose proof (ei_ev _ _ _ _ Hinv _ _ Hin) as He'. cbn [fst] in *. rewrite He in He'. injection He' as <-.
  destruct (nth k (ev_isna e) false) eqn:E; [|reflexivity]. exfalso. apply (H (ev_isna e)); [apply in_map_iff; exists (g, e); auto|].
  destruct (le_lt_dec (length (ev_isna e)) k); [rewrite nth_overflow in E by assumption; discriminate|]. apply true_nth. eauto.
Qed.
Lemma labels_exist n : rows = Some n -> exists full, labels_are ilabel df (evals ev infos) n full.
Proof.
  intros _. destruct ev_inv as [Hinv Hcov]. assert (Hin : forall e, In e (evals ev infos) -> exists fi, In (fi, e) d).
  { intros e He. apply ev_es in He. destruct He as [fi [Hfi He]]. apply Hcov in Hfi. apply in_map_iff in Hfi. destruct Hfi as [[g e'] [<- Hin]].
    pose proof (ei_ev _ _ _ _ Hinv _ _ Hin) as He'. cbn [fst] in *. rewrite He in He'. injection He' as <-. eauto. }
  assert (Hc : (exists i, idx = Some i) \/ idx = None) by (clear; destruct idx; eauto). destruct Hc as [[i Ei]|Ei].
  - exists i. split; [|split].
    + intros j Hj. destruct (ei_df _ _ _ _ Hinv j Hj) as [_ X]. cbn [snd] in X. congruence.
    + intros e j He Hj. destruct (Hin e He) as [fi Hfi]. pose proof (ei_idx _ _ _ _ Hinv _ _ _ Hfi Hj) as X. cbn [snd] in X. congruence.
    + intros Hd Hno. exfalso. destruct (ei_idx_from _ _ _ _ Hinv i Ei) as [X|[fi [e [Hfi X]]]]; [congruence|]. cbn [fst] in Hfi.
      assert (He : In e (evals ev infos)) by (apply ev_es; exists fi; split; [apply (ei_incl _ _ _ _ Hinv); cbn [fst]; now apply (in_map fst) in Hfi|exact (ei_ev _ _ _ _ Hinv _ _ Hfi)]).
      rewrite (Hno e He) in X. discriminate.
  - exists (map ilabel (seq 0 n)). split; [|split; [|reflexivity]].
    + intros j Hj. destruct (ei_df _ _ _ _ Hinv j Hj) as [_ X]. cbn [snd] in X. congruence.
    + intros e j He Hj. destruct (Hin e He) as [fi Hfi]. pose proof (ei_idx _ _ _ _ Hinv _ _ _ Hfi Hj) as X. cbn [snd] in X. congruence.
Qed.
End Evaluated.

Lemma build_errors act want_df err : build_design_matrices vone vmul ilabel ieqb origin_of ev df act want_df dis = Err err ->
  (exists pre fi post, infos = pre ++ fi :: post /\ (forall g, In g pre -> exists e, ev g = Ok e) /\
    (ev fi = Err err \/
     exists e, ev fi = Ok e /\
      ((~ rows_are df (evals ev pre) (vrows (ev_value e)) /\ err = PatsyError "Number of rows mismatch" (origin_of (fi_factor fi))) \/
       (exists i j, ev_index e = Some i /\ j <> i /\ (df = Some j \/ exists e', In e' (evals ev pre) /\ ev_index e' = Some j) /\
          err = PatsyError "Index mismatch" (origin_of (fi_factor fi)))))) \/
  (act = NARaise /\ exists pre fi post, infos = pre ++ fi :: post /\ has_missing fi /\ (forall g, In g pre -> ~ has_missing g) /\
    err = PatsyError "factor contains missing values" (origin_of (fi_factor fi))) \/
  (infos = [] /\ df = None /\ dis <> [] /\ err = PatsyError "I can't tell how many rows the design matrix should have!" None).
Proof.
  intros H. pose proof H as H0. revert H. unfold build_design_matrices. rewrite (builders_ok dis Hcon). cbn [bind].
  rewrite (foldM_flat eval_one (fun b : @builder V => map snd (fst (fst b)))). rewrite builder_infos.
  destruct (foldM eval_one infos ([], option_map (@length I) df, df)) as [[[d rows] idx]|err'] eqn:Ef; cbn [bind].
  2: { intros [= ->]. left. destruct (fold_err _ _ _ Ef) as [pre [fi [post [[[d1 r1] i1] [E1 [E2 E3]]]]]]. exists pre, fi, post. split; [exact E1|].
    assert (Hidp : identities pre) by (intros a b Ha Hb; apply Hid; rewrite E1; apply in_or_app; now left).
    destruct (eval_fold_sound ieqb origin_of ieqb_eq ev df pre pre Hidp (incl_refl _) _ _ (einv_init ev df _) E2) as [Hinv [_ Hcov]]. cbn [fst] in Hcov.
    assert (Hev : forall g, In g pre -> exists e, ev g = Ok e).
    { intros g Hg. apply Hcov in Hg. apply in_map_iff in Hg. destruct Hg as [[g' e] [<- Hg]]. exists e. exact (ei_ev _ _ _ _ Hinv _ _ Hg). }
    assert (Hin : forall g e, In (g, e) d1 -> In e (evals ev pre)).
    { intros g e Hg. apply evals_in; [exact Hev|]. exists g. split; [apply (ei_incl _ _ _ _ Hinv); cbn [fst]; now apply (in_map fst) in Hg|exact (ei_ev _ _ _ _ Hinv _ _ Hg)]. }
    split; [exact Hev|].
    destruct (eval_one_err _ _ _ E3) as [X|[e [Ee [n [[Hn [Hne ->]]|[i [j [Hj [Hi [Hne ->]]]]]]]]]]; cbn [fst snd] in *; [now left|right; exists e; split; [exact Ee|left; split; [|reflexivity]]|right; exists e; split; [exact Ee|right]].
    - intros [R1 R2]. apply Hne. destruct (ei_some _ _ _ _ Hinv n Hn) as [Hd|Hd].
      + destruct df as [i|] eqn:Edf; [|congruence]. destruct (ei_df _ _ _ _ Hinv i eq_refl) as [X _]. cbn [fst snd] in X. rewrite Hn in X. injection X as ->. now apply R1.
      + cbn [fst] in Hd. destruct d1 as [|[g e'] dd]; [congruence|]. pose proof (ei_rows _ _ _ _ Hinv g e' (or_introl eq_refl)) as X. cbn [fst snd] in X. rewrite Hn in X. injection X as ->.
        apply R2. apply (Hin g). now left.
    - exists i, j. split; [exact Hi|]. split; [exact Hne|]. split; [|reflexivity]. destruct (ei_idx_from _ _ _ _ Hinv j Hj) as [X|[g [e' [Hg X]]]]; [now left|right]. exists e'. split; [now apply (Hin g)|exact X]. }
  destruct (ev_inv d rows idx Ef) as [Hinv Hcov]. pose proof (ev_all d rows idx Ef) as Hall.
  set (masks := map (fun p : finfo * evaluated => ev_isna (snd p)) d).
  set (origins := map (fun p : finfo * evaluated => origin_of (fi_factor (fst p))) d).
  assert (Hfirst : (forall m, In m masks -> ~ In true m) \/ exists i m, nth_error masks i = Some m /\ In true m /\ forall j m', j < i -> nth_error masks j = Some m' -> ~ In true m').
  { clearbody masks. clear. induction masks as [|m masks IH]; [left; easy|]. destruct (in_dec Bool.bool_dec true m) as [Hm|Hm].
    - right. exists 0, m. split; [reflexivity|]. split; [exact Hm|]. intros j m' Hj. lia.
    - destruct IH as [IH|[i [m1 [H1 [H2 H3]]]]]; [left; intros x [<-|Hx]; auto|right]. exists (S i), m1. split; [exact H1|]. split; [exact H2|].
      intros [|j] m' Hj Hm'; [injection Hm' as <-; exact Hm|apply (H3 j); [lia|exact Hm']]. }
  assert (Hlen : length masks = length origins) by (unfold masks, origins; now rewrite !map_length).
  assert (Hrows : forall n, rows = Some n -> rows_are df (evals ev infos) n) by (apply (rows_are_here ev df dis Hall d rows idx Hinv Hcov)).
  (* not an error *)
  assert (Hfine : forall n, rows = Some n -> (act = NARaise -> forall m, In m masks -> ~ In true m) -> False).
  { intros n Er Hna. destruct (labels_exist d rows idx Ef n Er) as [full Hfull].
    assert (X : exists res, build_design_matrices vone vmul ilabel ieqb origin_of ev df act want_df dis = Ok res); [|destruct X; congruence].
    apply (succeeds_iff vone vmul (fun _ => false) ilabel ieqb origin_of ieqb_eq ev df dis Hcon Hid Hall act want_df Hproper); [intros fi e Hfi He; now apply (Hfits fi e)|].
    exists n, full. split; [now apply Hrows|]. split; [exact Hfull|]. split.
    - intros Ea. apply (no_missing d rows idx Ef n (Hrows n Er)). apply (Hna Ea).
    - intros He Hd. pose proof (proj2 (rows_none ev df dis Hall d rows idx Hinv Hcov) (conj He Hd)). congruence. }
  destruct rows as [n|] eqn:Erows.
  - (* the number of rows is known, so something is missing *)
    destruct Hfirst as [Hno|[i [m [Hi [Hm Hb]]]]]; [exfalso; exact (Hfine n eq_refl (fun _ => Hno))|].
    destruct act; [exfalso; apply (Hfine n eq_refl); discriminate|]. intros H. right. left. split; [reflexivity|].
    destruct (masks_first d (Some n) idx Ef i m Hi Hm Hb) as [pre [fi [post [G1 [G2 [G3 G4]]]]]]. exists pre, fi, post. split; [exact G1|]. split; [exact G2|]. split; [exact G3|]. clear H0.
    assert (Hil : i < length masks) by (apply nth_error_Some; congruence).
    destruct want_df.
    + match type of H with context [handle_NA NARaise ?vs ?ms ?os] => assert (X : handle_NA NARaise vs ms os = Err (PatsyError "factor contains missing values" (origin_of (fi_factor fi)))) end.
      { apply (handle_NA_raise_err _ _ _) with (i := i) (m := m).
        - unfold masks, origins. rewrite !app_length, !map_length. reflexivity.
        - unfold masks, origins. rewrite !app_length, !map_length. reflexivity.
        - rewrite nth_error_app1 by exact Hil. exact Hi.
        - exact Hm.
        - intros j m' Hj. rewrite nth_error_app1 by (fold masks; lia). now apply Hb.
        - rewrite nth_error_app1; [exact G4|]. fold origins. lia. }
      rewrite X in H. cbn [bind] in H. congruence.
    + match type of H with context [handle_NA NARaise ?vs ?ms ?os] => assert (X : handle_NA NARaise vs ms os = Err (PatsyError "factor contains missing values" (origin_of (fi_factor fi)))) end.
      { apply (handle_NA_raise_err _ _ _) with (i := i) (m := m).
        - unfold masks. now rewrite !map_length.
        - exact Hlen.
        - exact Hi.
        - exact Hm.
        - exact Hb.
        - exact G4. }
      rewrite X in H. cbn [bind] in H. congruence.
  - (* nothing to tell the number of rows from *)
    destruct (proj1 (rows_none ev df dis Hall d None idx Hinv Hcov) eq_refl) as [Hes Hdf]. intros H. right. right.
    assert (Hd : d = []) by exact (proj2 (ei_none _ _ _ _ Hinv eq_refl)). 
    assert (Hinf : infos = []) by (apply incl_l_nil; rewrite Hd in Hcov; exact Hcov).
    split; [exact Hinf|]. split; [exact Hdf|]. subst d. cbn [map app handle_NA assert length Nat.eqb andb bind values_of combine] in H.
    destruct dis as [|di dis'] eqn:Edis; [discriminate|]. split; [discriminate|]. rewrite <- Edis in *.
    assert (Hn1 : rows_are df (evals ev infos) 1) by (rewrite Hes; split; [congruence|easy]).
    assert (Hper : forall x, In x dis -> exists m, m_rows m = 1 /\ build_design_matrix vone vmul (infos_of x) (codings_of x) (length (columns_of (infos_of x) (codings_of x))) [] = Ok (true, m)).
    { intros x Hx. assert (Ei : infos_of x = []).
      { destruct (infos_of x) as [|p r] eqn:E; [reflexivity|]. exfalso. assert (Hp : In (snd p) infos) by (apply in_flat_map; exists x; split; [exact Hx|rewrite E; now left]). rewrite Hinf in Hp. exact Hp. }
      assert (Hm : exists m, matrix_is vone vmul ev [0] x m).
      { destruct (forall2_exists (fun id col => map Some col = map (entry vone vmul (infos_of x) (values_in (infos_of x) ev) id) [0]) (columns_of (infos_of x) (codings_of x))) as [cols Hcols].
        - intros id Hidin. apply all_some_list. intros k [<-|[]].
          apply (entry_defined vone vmul ev df dis Hcon Hall x 0 1 Hx); [rewrite Forall_forall in Hproper; now apply Hproper|intros fi e Hfi He; now apply (Hfits fi e)|exact Hn1|lia|rewrite Hes; reflexivity|exact Hidin].
        - exists (mkMat 1 cols). split; [reflexivity|exact Hcols]. }
      destruct Hm as [m Hm]. exists m. split; [exact (proj1 Hm)|].
      assert (Hks : forall k, In k [0] -> k < 1) by (intros k [<-|[]]; lia).
      apply (one_design vone vmul ev df dis Hcon Hid Hall [] None idx Hinv Hcov [0] 1 x true m Hx Hn1 Hks). rewrite Ei. split; [reflexivity|exact Hm]. }
    assert (Hmap : forall l, incl l dis -> exists rs, mapM (fun b : @builder V => build_design_matrix vone vmul (fst (fst b)) (snd (fst b)) (snd b) []) (map builder_for l) = Ok rs /\
      length rs = length l /\ Forall (fun r : bool * @dmat V => fst r = true /\ m_rows (snd r) = 1) rs).
    { induction l as [|x l IH]; intros Hl; cbn [map mapM]; [exists []; split; [reflexivity|split; [reflexivity|constructor]]|].
      destruct (Hper x (Hl x (or_introl eq_refl))) as [m [Hm1 Hm2]]. change (fst (fst (builder_for x))) with (infos_of x). change (snd (fst (builder_for x))) with (codings_of x). change (snd (builder_for x)) with (length (columns_of (infos_of x) (codings_of x))). rewrite Hm2. cbn [bind].
      destruct (IH (fun y Hy => Hl y (or_intror Hy))) as [rs [R1 [R2 R3]]]. rewrite R1. cbn [bind]. exists ((true, m) :: rs). split; [reflexivity|]. split; [cbn; now rewrite R2|]. constructor; [auto|exact R3]. }
    destruct (Hmap dis (incl_refl _)) as [rs [R1 [R2 R3]]]. change (handle_NA act [] masks origins) with (@Ok (list (@arr V I)) []) in H. cbn [bind values_of] in H. setoid_rewrite R1 in H. cbn [bind] in H.
    destruct rs as [|r rs]; [rewrite Edis in R2; discriminate|]. cbn [mapM] in H. inversion R3 as [|? ? [X1 X2] ?]; subst. rewrite X1, X2 in H. cbn in H. congruence.
Qed.
End Errors.
