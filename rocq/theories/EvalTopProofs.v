(** The theorems about [memorize_passes_needed]. *)
From Coq Require Import Ascii Sorted Permutation.
From Verif Require Import Base TokensModel TokensSpec TokensProofs BuildModel EvalModel EvalSpec EvalTextProofs EvalMarkProofs EvalCaptureProofs EvalBinsProofs EvalProofs MemorizeModel MemorizeSpec.
Open Scope string_scope.
Open Scope list_scope.

(** * Small facts *)
Lemma transform_calls_unique toks is_tr ms1 ms2 : transform_calls toks is_tr ms1 -> transform_calls toks is_tr ms2 -> ms1 = ms2.
Proof.
  intros [S1 M1] [S2 M2].
  assert (H : forall x, In x ms1 <-> In x ms2) by (intros [i s]; rewrite M1, M2; reflexivity).
  clear M1 M2. revert ms2 S2 H. induction ms1 as [|[i s] ms1 IH]; intros ms2 S2 H.
  - destruct ms2 as [|x ms2]; [reflexivity|]. exfalso. apply (H x). now left.
  - destruct ms2 as [|[j t] ms2]; [exfalso; apply (H (i, s)); now left|].
    inversion S1 as [|? ? S1' F1]; subst. inversion S2 as [|? ? S2' F2]; subst. rewrite Forall_forall in F1, F2. cbn in F1, F2.
    assert (L1 : forall k u, In (k, u) ms1 -> i < k) by (intros k u Hk; apply F1; change k with (fst (k, u)); now apply in_map).
    assert (L2 : forall k u, In (k, u) ms2 -> j < k) by (intros k u Hk; apply F2; change k with (fst (k, u)); now apply in_map).
    assert (E : (i, s) = (j, t)).
    { destruct (proj1 (H (i, s)) (or_introl eq_refl)) as [E|E]; [now symmetry|]. destruct (proj2 (H (j, t)) (or_introl eq_refl)) as [E2|E2]; [exact E2|].
      apply L2 in E. apply L1 in E2. lia. }
    injection E as -> ->. f_equal. apply IH; [exact S1'|exact S2'|]. intros [k u]. split; intros Hk.
    + destruct (proj1 (H (k, u)) (or_intror Hk)) as [E|E]; [|exact E]. injection E as <- <-. apply L1 in Hk. lia.
    + destruct (proj2 (H (k, u)) (or_intror Hk)) as [E|E]; [|exact E]. injection E as <- <-. apply L2 in Hk. lia.
Qed.
Lemma bref_true_iff p l : forall pd, bref p pd l = true <-> exists i s, nth_error l i = Some (PNAME, s) /\ p s = true /\ (i = 0 -> pd = false) /\ forall j t, i = S j -> nth_error l j = Some t -> snd t <> ".".
Proof.
  induction l as [|t r IH]; intros pd.
  { cbn. split; [discriminate|]. intros [i [s [H _]]]. destruct i; discriminate. }
  cbn [bref]. rewrite orb_true_iff, IH. split.
  - intros [H|[i [s [A [B [C D]]]]]].
    + apply andb_true_iff in H. destruct H as [H Hp]. apply andb_true_iff in H. destruct H as [Hd Hn]. apply negb_true_iff in Hd. apply is_name_eq in Hn. destruct t as [ty s]. cbn in Hn, Hp. subst ty.
      exists 0, s. split; [reflexivity|]. split; [exact Hp|]. split; [auto|]. intros; discriminate.
    + exists (S i), s. split; [exact A|]. split; [exact B|]. split; [discriminate|]. intros j u Hj Hu. injection Hj as <-. destruct i as [|i]; cbn in Hu.
      * injection Hu as <-. specialize (C eq_refl). unfold text_is in C. now apply String.eqb_neq.
      * eapply D; [reflexivity|exact Hu].
  - intros [[|i] [s [A [B [C D]]]]].
    + left. cbn in A. injection A as ->. rewrite (C eq_refl). cbn. exact B.
    + right. exists i, s. split; [exact A|]. split; [exact B|]. split.
      * intros ->. unfold text_is. apply String.eqb_neq. apply (D 0 t); reflexivity.
      * intros j u -> Hu. apply (D (S j) u); auto.
Qed.
Lemma bare_ref_referenced names toks : bare_ref_in names (annotate false toks) = true <-> exists s, In s names /\ referenced toks s.
Proof.
  rewrite bare_ref_bref, bref_true_iff. unfold referenced. split.
  - intros [i [s [A [B [_ D]]]]]. exists s. split; [now apply str_in_iff|]. exists i. auto.
  - intros [s [A [i [B C]]]]. exists i, s. split; [exact B|]. split; [now apply str_in_iff|]. auto.
Qed.
Lemma Forall2_impl_l {A B} (P Q : A -> B -> Prop) l1 l2 : (forall x y, P x y -> Q x y) -> Forall2 P l1 l2 -> Forall2 Q l1 l2.
Proof. induction 2; constructor; auto. Qed.
Lemma new_objects_objects ms : new_objects 0 ms = objects ms.
Proof. reflexivity. Qed.

Section Top.
Context {val : Type}.
Variable lex : string -> result (list ptok).
Variable ast_names : string -> result (list string).
Variable stateful : val -> bool.
Variable builtins : @namespace val.
Local Notation mpn := (memorize_passes_needed lex ast_names stateful builtins).

Local Notation is_transform := (is_transform stateful builtins).

Definition visible (e : @env val) (mentioned : list string) : list string :=
  filter (fun n => match vlookup (new_vld (with_outer_namespace e builtins)) n with Some _ => true | None => false end) mentioned.
Lemma visible_env e mentioned : exists e', env_subset (with_outer_namespace e builtins) (visible e mentioned) = Ok e'.
Proof.
  apply env_subset_ok. apply Forall_forall. intros n Hn. apply filter_In in Hn. destruct Hn as [_ H].
  change (vlookup (new_vld (with_outer_namespace e builtins)) n) with (vlookup (with_outer_namespace e builtins) n) in H. now destruct (vlookup _ n).
Qed.
Lemma visible_lookup e mentioned e' s : env_subset (with_outer_namespace e builtins) (visible e mentioned) = Ok e' ->
  vlookup (new_vld e') s = if str_in s mentioned then vlookup (e ++ [builtins]) s else None.
Proof.
  intros H. change (vlookup (new_vld e') s) with (vlookup e' s). rewrite (env_subset_lookup _ _ _ H s). unfold visible, with_outer_namespace.
  destruct (str_in s mentioned) eqn:E.
  - destruct (str_in s (filter _ mentioned)) eqn:E2; [reflexivity|]. destruct (vlookup (e ++ [builtins]) s) as [v|] eqn:E3; [|reflexivity]. exfalso.
    assert (C : str_in s (filter (fun n => match vlookup (new_vld (e ++ [builtins])) n with Some _ => true | None => false end) mentioned) = true); [|congruence].
    apply str_in_iff, filter_In. split; [now apply str_in_iff|]. change (vlookup (new_vld (e ++ [builtins])) s) with (vlookup (e ++ [builtins]) s). now rewrite E3.
  - destruct (str_in s (filter _ mentioned)) eqn:E2; [|reflexivity]. apply str_in_iff, filter_In in E2. destruct E2 as [E2 _]. apply str_in_iff in E2. congruence.
Qed.
Lemma tr_is_transform e mentioned e' s : env_subset (with_outer_namespace e builtins) (visible e mentioned) = Ok e' ->
  (tr stateful (vlookup (new_vld e')) s = true <-> is_transform e mentioned s).
Proof.
  intros H. unfold tr, is_transform. rewrite (visible_lookup _ _ _ _ H). destruct (str_in s mentioned) eqn:E.
  - apply str_in_iff in E. split.
    + destruct (vlookup _ s) as [v|]; [|discriminate]. intros Hs. split; [exact E|]. eauto.
    + intros [_ [v [A B]]]. now rewrite A.
  - split; [discriminate|]. intros [A _]. apply str_in_iff in A. congruence.
Qed.
Lemma calls_are_transform_calls e mentioned e' toks : env_subset (with_outer_namespace e builtins) (visible e mentioned) = Ok e' ->
  transform_calls toks (is_transform e mentioned) (calls_from stateful (vlookup (new_vld e')) 0 false toks).
Proof.
  intros H. destruct (calls_transform stateful (vlookup (new_vld e')) toks) as [A B]. split; [exact A|]. intros i s. rewrite B, (tr_is_transform _ _ _ _ H). reflexivity.
Qed.

(** ** The first half: the code to evaluate and the transform objects. *)
Lemma replace_lemma (ns : @namespace val) code toks ms eval_code transforms k : lex code = Ok toks ->
  calls_from stateful ns 0 false toks = ms ->
  replace_bare_funcalls lex (new_name_maker stateful ns) (0, []) code = Ok ((k, transforms), eval_code) ->
  pretty_untokenize (rewritten toks ms) = Ok eval_code /\ map fst transforms = objects ms /\
  Forall2 (fun c p => ns (snd c) = Some (snd p) /\ stateful (snd p) = true) ms transforms.
Proof.
  intros Hl Hms H. unfold replace_bare_funcalls, annotated_tokens in H. rewrite Hl in H. cbn [bind] in H.
  destruct (replace_mark stateful ns toks 0 false [] 0) as [vs [E [L F]]]; [intros o []|].
  rewrite E in H. rewrite Hms in *. cbn [app] in H. destruct (pretty_untokenize (map compound (mark stateful ns 0 false toks))) as [text|] eqn:Et; [|discriminate].
  cbn in H. injection H as <- <- <-. split; [|split].
  - rewrite <- Hms, <- mark_rewritten, pretty_pu_text, <- compound_expand by apply mark_good. exact Et.
  - clear -L. unfold objects, new_objects. rewrite <- (map_map (fun p : nat * (nat * string) => obj_name (fst p) (snd (snd p))) (fun x => x)), map_id.
    assert (G : forall (a : list string) (b : list val), List.length a = List.length b -> map fst (combine a b) = a).
    { induction a as [|x a IH]; intros [|y b] Hl; cbn in *; try congruence. f_equal. apply IH. congruence. }
    apply G. rewrite map_length, combine_length, seq_length, Nat.min_id. now symmetry.
  - clear -F. revert vs F. unfold new_objects. generalize 0. induction ms as [|c ms IH]; intros n vs F; inversion F as [|? v ? vs' H1 H2]; subst; [constructor|].
    cbn [List.length seq combine map]. constructor; [exact H1|]. now apply (IH (S n)).
Qed.

Lemma eval_code_lemma code e st : mpn code e = Ok st ->
  exists mentioned toks ms, ast_names code = Ok mentioned /\ lex code = Ok toks /\
    transform_calls toks (is_transform e mentioned) ms /\
    pretty_untokenize (rewritten toks ms) = Ok (fs_eval_code st) /\
    map fst (fs_transforms st) = objects ms /\ NoDup (objects ms) /\
    Forall2 (fun c p => vlookup (e ++ [builtins]) (snd c) = Some (snd p)) ms (fs_transforms st) /\
    (forall o, In o (objects ms) -> ~ referenced toks o) /\
    (forall s, vlookup (fs_env st) s = if str_in s mentioned then vlookup (e ++ [builtins]) s else None).
Proof.
  unfold memorize_passes_needed. intros H. destruct (ast_names code) as [mentioned|] eqn:Ea; [|discriminate]. cbn [bind] in H.
  fold (visible e mentioned) in H. destruct (visible_env e mentioned) as [e' He]. rewrite He in H. cbn [bind] in H.
  destruct (replace_bare_funcalls _ _ _ code) as [[[k transforms] eval_code]|] eqn:Er; [|discriminate]. cbn [bind] in H.
  destruct (has_bare_variable_reference lex (map fst transforms) code) as [clash|] eqn:Ec; [|discriminate]. cbn [bind] in H.
  destruct clash; [discriminate|]. destruct (mapM _ transforms) as [codes|] eqn:Em; [|discriminate]. cbn [bind] in H.
  destruct (pass_bins _ _ _ _) as [bins|] eqn:Eb; [|discriminate]. injection H as <-. cbn.
  unfold has_bare_variable_reference, annotated_tokens in Ec. destruct (lex code) as [toks|] eqn:El; [|discriminate]. cbn in Ec. injection Ec as Ec.
  exists mentioned, toks, (calls_from stateful (vlookup (new_vld e')) 0 false toks).
  destruct (replace_lemma _ _ _ _ _ _ _ El eq_refl Er) as [A [B C]].
  split; [reflexivity|]. split; [reflexivity|]. split; [now apply calls_are_transform_calls|]. split; [exact A|]. split; [exact B|].
  split; [rewrite <- new_objects_objects; apply new_objects_NoDup|]. split; [|split].
  - eapply Forall2_impl_l. 2:exact C. intros c p [H1 _]. rewrite (visible_lookup _ _ _ _ He) in H1. now destruct (str_in (snd c) mentioned).
  - intros o Ho Hr. assert (X : bare_ref_in (map fst transforms) (annotate false toks) = true); [|congruence]. apply bare_ref_referenced. exists o. split; [now rewrite B|exact Hr].
  - intros s. apply (visible_lookup _ _ _ s He).
Qed.

(** ** The second half: memorization code and passes. *)
Section Second.
Variable ns : @namespace val.
Variable toks : list ptok.
Hypothesis Hpunct : punctuation_is_operators toks.
Let ml := mark stateful ns 0 false toks.
Let ms := calls_from stateful ns 0 false toks.
Hypothesis Hnoref : forall o, In o (objects ms) -> ~ referenced toks o.

Lemma objs_objects : objs_of ml = objects ms.
Proof. unfold objs_of, ml, ms. rewrite <- new_objects_objects. apply mark_objects. Qed.
Lemma objs_nodup : NoDup (objs_of ml).
Proof. rewrite objs_objects, <- new_objects_objects. apply new_objects_NoDup. Qed.
Lemma mark_next l : forall k pd A t o B, mark stateful ns k pd l = A ++ (t, Some o) :: B -> exists u m B', B = (u, m) :: B' /\ snd u = "(".
Proof.
  induction l as [|x l IH]; intros k pd A t o B H; [destruct A; discriminate|]. cbn [mark] in H. destruct (is_call pd x l && tr stateful ns (snd x)) eqn:E.
  - destruct A as [|a A]; cbn in H; [|injection H as _ H; eapply IH; exact H]. injection H as -> _ H.
    apply andb_true_iff in E. destruct E as [E _]. apply is_call_iff in E. destruct E as [_ [_ [u [C D]]]]. destruct l as [|u' l]; [discriminate|]. injection C as ->.
    cbn [mark] in H. destruct (_ && _) in H; subst B; eexists; eexists; eexists; split; try reflexivity; exact D.
  - destruct A as [|a A]; cbn in H; [discriminate|]. injection H as _ H. eapply IH; exact H.
Qed.
Lemma toks_fst : map fst ml = toks. Proof. apply mark_fst. Qed.
Lemma ml_mok : mok false ml. Proof. now apply mark_mok. Qed.
Lemma noref_bref (names : list string) : incl names (objects ms) -> bref (fun s => str_in s names) false toks = false.
Proof.
  intros Hi. destruct (bref _ false toks) eqn:E; [|reflexivity]. rewrite <- bare_ref_bref in E. apply bare_ref_referenced in E. destruct E as [s [A B]]. exfalso. exact (Hnoref s (Hi s A) B).
Qed.

(** The marks around an object. *)
Lemma around o : In o (objects ms) -> exists A t B', ml = A ++ (t, Some o) :: ((POTHER, "("), None) :: B' /\ after o ml = ((POTHER, "("), None) :: B' /\
  ~ In o (objs_of A) /\ ~ In o (objs_of B') /\ (exists i s, o = obj_name i s) /\
  last_dot false (map fst A) = false /\ text_is "." t = false /\ mok false A /\ mok false (((POTHER, "("), None) :: B').
Proof.
  intros Ho. rewrite <- objs_objects in Ho. destruct (after_split o ml Ho) as [A [t [E N]]].
  destruct (mark_next toks 0 false A t o (after o ml) E) as [u [m [B' [EB Hu]]]]. rewrite EB in E.
  assert (Hin : In u toks). { rewrite <- toks_fst, E, map_app. apply in_app_iff. right. right. left. reflexivity. }
  destruct u as [uty us]. cbn in Hu. subst us. assert (Hty : uty = POTHER) by (apply (Hpunct uty "("); [exact Hin|left; reflexivity]). subst uty.
  pose proof ml_mok as M. rewrite E in M. apply mok_app in M. destruct M as [M1 M2]. cbn [mok] in M2. destruct M2 as [M2 [M3 M4]].
  destruct M2 as [P1 [P2 [P3 [P4 P5]]]]; [discriminate|].
  assert (m = None) by (destruct m as [m|]; [|reflexivity]; destruct M3 as [_ [M3 _]]; [discriminate|discriminate M3]). subst m.
  exists A, t, B'. split; [exact E|]. split; [exact EB|]. split; [exact N|]. split; [|split; [|split; [exact P1|split; [|split; [exact M1|]]]]].
  - pose proof objs_nodup as ND. rewrite E, objs_app in ND. cbn [objs_of flat_map snd app] in ND. apply NoDup_remove_2 in ND. intros H. apply ND. apply in_app_iff. right. exact H.
  - pose proof (mark_good stateful ns toks 0 false) as G. fold ml in G. rewrite E in G. apply Forall_app in G. destruct G as [_ G]. inversion G as [|? ? G1 _]; subst. apply G1.
  - now apply String.eqb_neq.
  - cbn [mok]. split; [congruence|exact M4].
Qed.
Lemma take_call_props l : forall d, (0 < d)%Z ->
  (forall a t b, take_call d l = a ++ t :: b -> (0 < d + depth a)%Z) /\ (forall suf, l = take_call d l ++ suf -> (d + depth (take_call d l) = 0)%Z \/ suf = []).
Proof.
  induction l as [|t l IH]; intros d Hd; cbn [take_call].
  { split; [intros [|? ?] ? ? E; discriminate|]. intros [|? ?] E; [now right|discriminate]. }
  pose proof (dz_ge t). destruct (Z.eqb_spec (d + dz t) 0) as [E0|E0].
  - split.
    + intros [|a0 a] x b E; [cbn; lia|]. cbn in E. injection E as _ E. destruct a; discriminate.
    + intros suf _. left. rewrite depth_cons. cbn [depth]. lia.
  - destruct (IH (d + dz t)%Z) as [I1 I2]; [lia|]. split.
    + intros [|a0 a] x b E; [cbn; lia|]. cbn in E. injection E as <- E. specialize (I1 _ _ _ E). rewrite depth_cons. lia.
    + intros suf E. cbn in E. injection E as E. destruct (I2 _ E) as [I|I]; [left|now right]. rewrite depth_cons. lia.
Qed.
(** Positions of objects. *)
Lemma object_at_in l : forall k i o, object_at k l i = Some o -> exists s, In (i, s) l.
Proof.
  induction l as [|[j s] r IH]; intros k i o H; [discriminate|]. cbn in H. destruct (Nat.eqb_spec j i) as [->|]; [exists s; now left|].
  destruct (IH _ _ _ H) as [s' Hs]. exists s'. now right.
Qed.
Lemma object_at_nth i o : object_at 0 ms i = Some o <-> exists t, nth_error ml i = Some (t, Some o).
Proof.
  assert (G : forall i, i < List.length toks -> nth_error (map snd ml) i = Some (object_at 0 ms i)).
  { intros n Hn. unfold ml, ms. rewrite (mark_object stateful ns toks 0 false 0). rewrite nth_error_map.
    assert (E : nth_error (combine (seq 0 (List.length toks)) toks) n = option_map (fun t => (n, t)) (nth_error toks n)).
    { clear -Hn. assert (X : forall l m n, nth_error (combine (seq m (List.length l)) l) n = option_map (fun t : ptok => (m + n, t)) (nth_error l n)).
      { induction l as [|t l IH]; intros m [|n']; try reflexivity; cbn; [now rewrite Nat.add_0_r|]. rewrite IH. now rewrite Nat.add_succ_r. }
      apply (X toks 0). }
    rewrite E. destruct (nth_error toks n) eqn:E2; [reflexivity|]. apply nth_error_None in E2. lia. }
  assert (Lml : List.length ml = List.length toks) by (rewrite <- toks_fst; now rewrite map_length).
  split.
  - intros H. assert (Hi : i < List.length toks).
    { destruct (object_at_in _ _ _ _ H) as [s Hs]. destruct (calls_transform stateful ns toks) as [_ C]. apply C in Hs. destruct Hs as [[Hs _] _]. apply nth_error_Some. congruence. }
    specialize (G i Hi). rewrite H, nth_error_map in G. destruct (nth_error ml i) as [[t x]|]; [|discriminate]. cbn in G. injection G as ->. eauto.
  - intros [t H]. assert (Hi : i < List.length toks) by (rewrite <- Lml; apply nth_error_Some; congruence).
    specialize (G i Hi). rewrite nth_error_map, H in G. cbn in G. congruence.
Qed.
Lemma objs_nth (l : list mtok) i t o : nth_error l i = Some (t, Some o) -> In o (objs_of l).
Proof. intros H. apply nth_error_In in H. apply in_flat_map. exists (t, Some o). split; [exact H|now left]. Qed.
Lemma nth_objs (l : list mtok) o : In o (objs_of l) -> exists i t, nth_error l i = Some (t, Some o).
Proof.
  intros H. apply in_flat_map in H. destruct H as [[t [x|]] [H1 H2]]; [|destruct H2]. destruct H2 as [->|[]]. apply In_nth_error in H1. destruct H1 as [i H1]. eauto.
Qed.
Lemma position_unique A t o B i t' : ~ In o (objs_of A) -> ~ In o (objs_of B) -> nth_error (A ++ (t, Some o) :: B) i = Some (t', Some o) -> i = List.length A.
Proof.
  intros NA NB H. destruct (lt_eq_lt_dec i (List.length A)) as [[L|L]|L]; [|exact L|]; exfalso.
  - rewrite nth_error_app1 in H by exact L. apply NA. eapply objs_nth; exact H.
  - rewrite nth_error_app2 in H by lia. destruct (i - List.length A) as [|n] eqn:E; [lia|]. cbn in H. apply NB. eapply objs_nth; exact H.
Qed.
Lemma within_dep i j o o' : object_at 0 ms i = Some o -> object_at 0 ms j = Some o' -> (within toks i j <-> dep ml o o' = true).
Proof.
  intros Hi Hj. apply object_at_nth in Hi, Hj. destruct Hi as [ti Hi], Hj as [tj Hj].
  assert (Ho : In o (objects ms)) by (rewrite <- objs_objects; eapply objs_nth; exact Hi).
  assert (Ho' : In o' (objects ms)) by (rewrite <- objs_objects; eapply objs_nth; exact Hj).
  destruct (around o Ho) as [A [t [B' [E [EA [N1 [N2 _]]]]]]].
  assert (Li : i = List.length A).
  { rewrite E in Hi. exact (position_unique A t o (((POTHER, "("), None) :: B') i ti N1 N2 Hi). }
  unfold dep. rewrite object_in_eqo. unfold call_marks. rewrite EA.
  change (objs_of (((POTHER, "("), None) :: takem 1 B')) with (objs_of (takem 1 B')).
  assert (Et : toks = map fst A ++ t :: (POTHER, "(") :: map fst B') by (rewrite <- toks_fst, E, map_app; reflexivity).
  destruct (takem_prefix B' 1%Z) as [sf Hsf].
  split.
  - intros [before [f [between [g [aft [W1 [W2 [W3 [W4 W5]]]]]]]]].
    assert (Eb : before = map fst A /\ f :: between ++ g :: aft = t :: (POTHER, "(") :: map fst B').
    { rewrite Et in W1. assert (List.length before = List.length (map fst A)) by (rewrite map_length; lia). clear -W1 H. revert before W1 H. generalize (map fst A). intros l.
      induction l as [|x l IH]; intros [|y b] W H; cbn in *; try discriminate; [split; [reflexivity|now symmetry]|]. injection W as -> W. injection H as H. destruct (IH b W H) as [-> ?]. auto. }
    destruct Eb as [-> Eb]. injection Eb as -> Eb. destruct between as [|u b']; [congruence|]. cbn in Eb. injection Eb as -> Eb.
    assert (Hn : List.length b' < List.length (takem 1 B')).
    { apply takem_len; [lia|]. split.
      - pose proof (map_length fst B') as X. rewrite <- Eb, app_length in X. cbn in X. lia.
      - intros b1 x b2 Ef. rewrite <- Eb, firstn_app, firstn_all, Nat.sub_diag in Ef. cbn in Ef. rewrite app_nil_r in Ef.
        specialize (W5 ((POTHER, "(") :: b1) x b2). rewrite Ef in W5. specialize (W5 eq_refl). cbn [app] in W5. rewrite depth_cons in W5. exact W5. }
    apply (objs_nth _ (List.length b') tj).
    rewrite <- Hj, E, <- W3. rewrite app_length, map_length. cbn [List.length].
    rewrite nth_error_app2 by lia. replace (List.length A + S (S (List.length b')) - List.length A) with (S (S (List.length b'))) by lia. cbn [nth_error].
    rewrite Hsf at 2. now rewrite nth_error_app1 by exact Hn.
  - intros H. apply nth_objs in H. destruct H as [n [t' Hn]].
    assert (Ln : n < List.length (takem 1 B')) by (apply nth_error_Some; congruence).
    assert (Hn' : nth_error B' n = Some (t', Some o')) by (rewrite Hsf, nth_error_app1 by exact Ln; exact Hn).
    assert (Lj : j = List.length A + 2 + n).
    { destruct (around o' Ho') as [A2 [t2 [B2 [E2 [_ [NA2 [NB2 _]]]]]]].
      assert (X1 : j = List.length A2) by (rewrite E2 in Hj; exact (position_unique A2 t2 o' (((POTHER, "("), None) :: B2) j tj NA2 NB2 Hj)).
      assert (X2 : nth_error ml (List.length A + 2 + n) = Some (t', Some o')).
      { rewrite E, nth_error_app2 by lia. replace (List.length A + 2 + n - List.length A) with (S (S n)) by lia. exact Hn'. }
      rewrite E2 in X2. pose proof (position_unique A2 t2 o' (((POTHER, "("), None) :: B2) _ t' NA2 NB2 X2). lia. }
    apply takem_len in Ln; [|lia]. destruct Ln as [L1 L2].
    exists (map fst A), t, ((POTHER, "(") :: firstn n (map fst B')), t', (skipn (S n) (map fst B')).
    assert (Esk : map fst B' = firstn n (map fst B') ++ t' :: skipn (S n) (map fst B')).
    { assert (X : nth_error (map fst B') n = Some t') by (rewrite nth_error_map, Hn'; reflexivity). clear -X. revert n X. generalize (map fst B'). intros l.
      induction l as [|x l IH]; intros [|n] X; try discriminate; cbn in *; [congruence|]. f_equal. now apply IH. }
    split; [|split; [|split; [|split]]].
    + rewrite Et. cbn [app]. rewrite <- Esk. reflexivity.
    + rewrite map_length. lia.
    + rewrite app_length, map_length. cbn. rewrite firstn_length, map_length. lia.
    + discriminate.
    + intros b1 x b2 Eb. destruct b1 as [|y b1]; cbn in Eb; injection Eb as Ey Eb; [subst x|subst y].
      * reflexivity.
      * specialize (L2 _ _ _ Eb). cbn [app]. rewrite depth_cons. exact L2.
Qed.
Hypothesis Hread : reads_back lex (rewritten toks ms).
Hypothesis Hread2 : forall pre o seg suf, rewritten toks ms = pre ++ method_of o "transform" ++ seg ++ suf -> argument_list seg suf ->
  reads_back lex (method_of o "memorize_chunk" ++ seg).
Variable eval_code : string.
Hypothesis Hcode : pretty_untokenize (rewritten toks ms) = Ok eval_code.
Hypothesis Hlay : layout_ok toks.

Lemma rewritten_layout : layout_ok (rewritten toks ms).
Proof. rewrite pretty_pu_text in Hcode. eapply pu_text_layout. exact Hcode. Qed.
Lemma object_code o : In o (objects ms) -> exists seg suf pre text, rewritten toks ms = pre ++ method_of o "transform" ++ seg ++ suf /\ argument_list seg suf /\
  memorize_code_for lex eval_code o = Ok text /\ pretty_untokenize (method_of o "memorize_chunk" ++ seg) = Ok text /\
  forall names, incl names (objects ms) -> ~ In o names -> has_bare_variable_reference lex names text = Ok (existsb (dep ml o) names).
Proof.
  intros Ho. destruct (around o Ho) as [A [t [B' [E [EA [N1 [N2 [[i [s Eo]] [P1 [P2 [M1 M2]]]]]]]]]]].
  pose proof rewritten_layout as HRl.
  assert (Hgood : Forall good_mark ml) by apply mark_good.
  assert (HB' : Forall good_mark B'). { rewrite E in Hgood. apply Forall_app in Hgood. destruct Hgood as [_ G]. inversion G as [|? ? _ G1]; subst. now inversion G1. }
  assert (ER : rewritten toks ms = flat_map expand A ++ method_of o "transform" ++ (POTHER, "(") :: flat_map expand B').
  { unfold ms. rewrite <- mark_rewritten. fold ml. rewrite E, flat_map_app. reflexivity. }
  assert (MB : mok false B') by (destruct M2 as [_ M2]; exact M2).
  assert (EC : call_of ((POTHER, "(") :: flat_map expand B') = flat_map expand (call_marks o ml)).
  { cbn [call_of]. rewrite (take_expand B' false 1%Z) by (auto; discriminate). unfold call_marks. rewrite EA. reflexivity. }
  assert (Hbref : forall names, incl names (objects ms) -> bref (fun x => str_in x names) false (map fst A) = false /\ bref (fun x => str_in x names) false (map fst B') = false).
  { intros names Hi. pose proof (noref_bref names Hi) as H. rewrite <- toks_fst, E, map_app, bref_app in H. apply orb_false_iff in H. destruct H as [H1 H2]. split; [exact H1|].
    cbn [map fst bref] in H2. apply orb_false_iff in H2. destruct H2 as [_ H2]. apply orb_false_iff in H2. destruct H2 as [_ H2]. exact H2. }
  assert (Heqo : forall l pd, bref (fun x => str_in x [o]) pd l = bref (eqo o) pd l).
  { induction l as [|x l IH]; intros pd; [reflexivity|]. cbn [bref]. rewrite IH. unfold str_in, eqo. cbn. now rewrite orb_false_r. }
  destruct (Hbref [o]) as [Q1 Q2]; [intros x [<-|[]]; exact Ho|]. rewrite Heqo in Q1, Q2.
  assert (HlayB : layout_ok ((POTHER, "(") :: flat_map expand B')).
  { intros ty x Hi. apply (HRl ty x). rewrite ER. rewrite !in_app_iff. right. right. exact Hi. }
  subst o. destruct (memorize_code_lemma lex eval_code i s (flat_map expand A) (POTHER, "(") (flat_map expand B')) as [text [T1 T2]].
  { rewrite <- ER. apply Hread. exact Hcode. }
  { exact HlayB. } { reflexivity. } { rewrite last_dot_expand by exact M1. exact P1. }
  { rewrite bref_expand by assumption. destruct (object_in _ A) eqn:X; [|reflexivity]. apply object_in_eqo in X. contradiction. }
  { cbn [bref]. change (text_is "." (POTHER, "(")) with false. change (is_name (POTHER, "(")) with false. rewrite andb_false_r. cbn [andb orb].
    rewrite bref_expand by assumption. destruct (object_in _ B') eqn:X; [|reflexivity]. apply object_in_eqo in X. contradiction. }
  rewrite EC in T2. destruct (call_marks_prefix (obj_name i s) ml) as [sufm Hsuf]. rewrite EA in Hsuf.
  assert (Esplit : (POTHER, "(") :: flat_map expand B' = flat_map expand (call_marks (obj_name i s) ml) ++ flat_map expand sufm).
  { rewrite <- flat_map_app, <- Hsuf. reflexivity. }
  exists (flat_map expand (call_marks (obj_name i s) ml)), (flat_map expand sufm), (flat_map expand A), text.
  assert (Harg : argument_list (flat_map expand (call_marks (obj_name i s) ml)) (flat_map expand sufm)).
  { rewrite <- EC. cbn [call_of]. destruct (take_call_props (flat_map expand B') 1%Z) as [K1 K2]; [lia|]. split; [|split].
    - eexists. eexists. split; reflexivity.
    - intros a x b Ea Hne. destruct a as [|a0 a]; [congruence|]. cbn in Ea. injection Ea as <- Ea. specialize (K1 _ _ _ Ea). rewrite depth_cons. change (dz (POTHER, "(")) with 1%Z. lia.
    - rewrite depth_cons. change (dz (POTHER, "(")) with 1%Z. apply K2. rewrite <- EC in Esplit. cbn [call_of app] in Esplit. injection Esplit as Esplit. exact Esplit. }
  split; [rewrite ER, Esplit; reflexivity|]. split; [exact Harg|]. split; [exact T1|]. split; [exact T2|].
  intros names Hi Hn. unfold has_bare_variable_reference, annotated_tokens.
  assert (Hrb : reads_back lex (method_of (obj_name i s) "memorize_chunk" ++ flat_map expand (call_marks (obj_name i s) ml))).
  { apply (Hread2 (flat_map expand A) (obj_name i s) _ (flat_map expand sufm)); [rewrite ER, Esplit; reflexivity|exact Harg]. }
  rewrite (Hrb _ T2).
  cbn [bind]. f_equal. rewrite bare_ref_bref. unfold method_of. cbn [app bref]. cbn [snd].
  assert (Es : str_in (obj_name i s) names = false) by (destruct (str_in (obj_name i s) names) eqn:X; [apply str_in_iff in X; contradiction|reflexivity]).
  rewrite Es. rewrite andb_false_r. change (text_is "." (POTHER, ".")) with true. change (is_name (POTHER, ".")) with false. rewrite andb_false_r. cbn [negb andb orb].
  change (text_is "." (PNAME, "memorize_chunk")) with false.
  rewrite bref_expand.
  - unfold object_in, dep. clear. generalize (call_marks (obj_name i s) ml). intros l. induction l as [|[t [o|]] l IH].
    + cbn. induction names; [reflexivity|]. cbn. assumption.
    + cbn [existsb snd]. rewrite IH. clear. unfold object_in. cbn [existsb snd]. unfold str_in.
      induction names as [|n names IH]; [reflexivity|]. cbn [existsb]. rewrite <- IH. unfold eqo. destruct (String.eqb o n), (existsb (String.eqb o) names), (existsb _ l), (existsb _ names); reflexivity.
    + cbn [existsb snd]. rewrite IH. reflexivity.
  - assert (G : mok false (((POTHER, "("), None) :: B')) by exact M2. rewrite Hsuf in G. now apply mok_app in G.
  - destruct (Hbref names Hi) as [_ Q]. assert (Q' : bref (fun x => str_in x names) false (map fst (((POTHER, "("), None) :: B')) = false).
    { cbn [map fst bref]. change (is_name (POTHER, "(")) with false. rewrite andb_false_r. exact Q. }
    rewrite Hsuf, map_app, bref_app in Q'. apply orb_false_iff in Q'. apply Q'.
Qed.
End Second.

Lemma layout_rewritten toks ms : layout_ok toks -> layout_ok (rewritten toks ms).
Proof.
  intros H ty s Hi. unfold rewritten in Hi. apply in_flat_map in Hi. destruct Hi as [[i t] [H1 H2]]. cbn in H2. destruct (object_at 0 ms i).
  - cbn in H2. destruct H2 as [X|[X|[X|[]]]]; injection X as <- <-; repeat split; discriminate.
  - destruct H2 as [->|[]]. apply in_combine_r in H1. exact (H _ _ H1).
Qed.
Lemma passes_lemma code e mentioned toks ms :
  ast_names code = Ok mentioned -> lex code = Ok toks ->
  transform_calls toks (is_transform e mentioned) ms ->
  punctuation_is_operators toks -> layout_ok toks ->
  (forall o, In o (objects ms) -> ~ referenced toks o) ->
  reads_back lex (rewritten toks ms) ->
  (forall pre o seg suf, rewritten toks ms = pre ++ method_of o "transform" ++ seg ++ suf -> argument_list seg suf ->
    reads_back lex (method_of o "memorize_chunk" ++ seg)) ->
  exists st, mpn code e = Ok st /\
    Permutation (concat (fs_pass_bins st)) (objects ms) /\ Forall (fun b => b <> []) (fs_pass_bins st) /\
    (forall o o' p q, in_pass (fs_pass_bins st) o p -> in_pass (fs_pass_bins st) o' q -> inside toks ms o o' -> q < p) /\
    (forall o p, in_pass (fs_pass_bins st) o (S p) -> exists o', in_pass (fs_pass_bins st) o' p /\ inside toks ms o o') /\
    (forall o, In o (objects ms) -> exists pre seg suf text,
       rewritten toks ms = pre ++ method_of o "transform" ++ seg ++ suf /\ argument_list seg suf /\
       dget String.eqb o (fs_memorize_code st) = Some text /\ pretty_untokenize (method_of o "memorize_chunk" ++ seg) = Ok text).
Proof.
  intros Ha Hl Hms Hpunct Hlay Hnoref Hread Hread2.
  unfold memorize_passes_needed. rewrite Ha. cbn [bind]. fold (visible e mentioned). destruct (visible_env e mentioned) as [e' He]. rewrite He. cbn [bind].
  set (ns := vlookup (new_vld e')). assert (Ems : calls_from stateful ns 0 false toks = ms).
  { eapply transform_calls_unique; [|exact Hms]. unfold ns. now apply calls_are_transform_calls. }
  destruct (replace_bare_funcalls lex (new_name_maker stateful ns) (0, []) code) as [[[k transforms] eval_code]|err] eqn:Er.
  2:{ exfalso. unfold replace_bare_funcalls, annotated_tokens in Er. rewrite Hl in Er. cbn [bind] in Er.
      destruct (replace_mark stateful ns toks 0 false [] 0) as [vs [E [L F]]]; [intros o []|]. rewrite E in Er.
      rewrite pretty_pu_text, compound_expand, mark_rewritten in Er by apply mark_good. destruct (pu_text_total _ (layout_rewritten toks (calls_from stateful ns 0 false toks) Hlay) pu_init) as [y Hy].
      rewrite Hy in Er. discriminate. }
  destruct (replace_lemma ns code toks ms eval_code transforms k Hl Ems Er) as [R1 [R2 R3]].
  cbn [bind]. unfold has_bare_variable_reference at 1, annotated_tokens. rewrite Hl. cbn [bind].
  assert (Hclash : bare_ref_in (map fst transforms) (annotate false toks) = false).
  { destruct (bare_ref_in _ _) eqn:E; [|reflexivity]. apply bare_ref_referenced in E. destruct E as [s [A B]]. rewrite R2 in A. exfalso. exact (Hnoref s A B). }
  rewrite Hclash. subst ms.
  pose proof (object_code ns toks Hpunct Hnoref Hread Hread2 eval_code R1) as OC.
  set (ms := calls_from stateful ns 0 false toks) in *. set (ml := mark stateful ns 0 false toks) in *.
  set (f := fun o => match memorize_code_for lex eval_code o with Ok c => Some c | Err _ => None end).
  assert (HM : exists codes, mapM (fun p : string * val => let* c := memorize_code_for lex eval_code (fst p) in Ok (fst p, c)) transforms = Ok codes /\
             map fst codes = objects ms /\ Forall (fun p => f (fst p) = Some (snd p)) codes).
  { rewrite <- R2. assert (G : forall l : list (string * val), incl (map fst l) (objects ms) -> exists codes, mapM (fun p : string * val => let* c := memorize_code_for lex eval_code (fst p) in Ok (fst p, c)) l = Ok codes /\
             map fst codes = map fst l /\ Forall (fun p => f (fst p) = Some (snd p)) codes).
    { induction l as [|[o v] l IH]; intros Hi; [exists []; repeat split; constructor|]. destruct (OC o) as [seg [suf [pre [text [_ [_ [T _]]]]]]]; [apply Hi; now left|].
      destruct IH as [codes [C1 [C2 C3]]]; [intros x Hx; apply Hi; now right|]. exists ((o, text) :: codes). cbn [mapM fst]. rewrite T. cbn [bind]. rewrite C1. cbn. split; [reflexivity|].
      split; [now rewrite C2|]. constructor; [|exact C3]. unfold f. cbn. now rewrite T. }
    apply G. rewrite R2. apply incl_refl. }
  destruct HM as [codes [C1 [C2 C3]]]. rewrite C1. cbn [bind].
  assert (Hget : forall o, In o (objects ms) -> dget String.eqb o (dict_of String.eqb codes) = f o).
  { intros o Ho. rewrite (dict_of_lookup f codes o C3), C2. apply str_in_iff in Ho. now rewrite Ho. }
  destruct (bins_lemma lex (dict_of String.eqb codes) (objects ms) (dep ml) (rank ml)) with (fuel := List.length transforms) (l := objects ms) as [bins [B1 [B2 [B3 [_ [B5 B6]]]]]].
  { intros o o' H1 H2. assert (EO := objs_objects ns toks). fold ml ms in EO. rewrite <- EO in H1, H2. intros H. apply dep_rank_lemma; auto. apply (objs_nodup ns toks). }
  { intros o Ho. destruct (OC o Ho) as [seg [suf [pre [text [_ [_ [T [_ U]]]]]]]]. exists text. split; [rewrite (Hget o Ho); unfold f; now rewrite T|exact U]. }
  { apply incl_refl. }
  { rewrite <- R2, map_length. lia. }
  rewrite R2, B1. cbn [bind]. eexists. split; [reflexivity|]. cbn [fs_pass_bins fs_memorize_code]. split; [exact B2|]. split; [exact B3|].
  assert (Hinside : forall o o', In o (objects ms) -> (inside toks ms o o' <-> In o' (objects ms) /\ dep ml o o' = true)).
  { intros o o' Ho. assert (EO := objs_objects ns toks). fold ml ms in EO. split.
    - intros [i [j [H1 [H2 H3]]]]. split.
      + rewrite <- EO. apply (object_at_nth ns toks) in H2. destruct H2 as [t H2]. eapply objs_nth; exact H2.
      + apply (within_dep ns toks Hpunct i j o o' H1 H2). exact H3.
    - intros [H1 H2]. rewrite <- EO in Ho, H1. apply nth_objs in Ho, H1. destruct Ho as [i [ti Hi]], H1 as [j [tj Hj]].
      assert (Oi : object_at 0 ms i = Some o) by (apply (object_at_nth ns toks); eauto). assert (Oj : object_at 0 ms j = Some o') by (apply (object_at_nth ns toks); eauto).
      exists i, j. split; [exact Oi|]. split; [exact Oj|]. apply (within_dep ns toks Hpunct i j o o' Oi Oj). exact H2. }
  assert (Hin : forall o p, in_pass bins o p -> In o (objects ms)).
  { intros o p [b [H1 H2]]. eapply Permutation_in; [exact B2|]. apply in_concat. exists b. split; [eapply nth_error_In; exact H1|exact H2]. }
  split; [|split].
  - intros o o' p q H1 H2 H3. apply (B5 o o' p q H1 H2). apply (Hinside o o' (Hin _ _ H1)). exact H3.
  - intros o p H1. destruct (B6 o p H1) as [o' [H2 H3]]. exists o'. split; [exact H2|]. apply (Hinside o o' (Hin _ _ H1)). split; [exact (Hin _ _ H2)|exact H3].
  - intros o Ho. destruct (OC o Ho) as [seg [suf [pre [text [O1 [O2 [O3 [O4 _]]]]]]]]. exists pre, seg, suf, text. split; [exact O1|]. split; [exact O2|]. split; [|exact O4].
    rewrite (Hget o Ho). unfold f. now rewrite O3.
Qed.
End Top.
