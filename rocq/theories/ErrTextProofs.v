From Coq Require Import Ascii.
From Verif Require Import Base OriginModel OriginSpec InfixModel InfixSpec InfixProofs UtilModel NumModel DescModel DescProofs TokensModel TokensSpec ParseFormulaModel
  ConstraintModel ConstraintSpec ConstraintLexProofs ConstraintProofs ConstraintTopProofs MiscModel BuildModel PyLexModel PyLexSpec TextModel TextSpec TextErrProofs ErrPlaceProofs ErrTextModel ErrTextSpec.
Open Scope string_scope.
Open Scope list_scope.

Lemma app_assoc_str a b c : ((a ++ b) ++ c = a ++ b ++ c)%string.
Proof. induction a as [|x a IH]; cbn; [reflexivity|now rewrite IH]. Qed.
Lemma len_app a b : String.length (a ++ b) = String.length a + String.length b.
Proof. induction a as [|x a IH]; cbn; [reflexivity|now rewrite IH]. Qed.
Lemma get_app_l a : forall b j, j < String.length a -> String.get j (a ++ b) = String.get j a.
Proof. induction a as [|c a IH]; cbn; intros b j H; [lia|]. destruct j as [|j]; [reflexivity|]. apply IH. lia. Qed.
Lemma get_app_r a : forall b j, String.get (String.length a + j) (a ++ b) = String.get j b.
Proof. induction a as [|c a IH]; cbn; intros b j; [reflexivity|]. apply IH. Qed.
Lemma get_none s : forall j, String.length s <= j -> String.get j s = None.
Proof. induction s as [|c s IH]; intros j H; [destruct j; reflexivity|]. destruct j as [|j]; cbn in H; [lia|]. cbn. apply IH. lia. Qed.
Lemma repeat_len c n : String.length (repeat_str (String c "") n) = n.
Proof. induction n as [|n IH]; cbn; [reflexivity|now rewrite IH]. Qed.
Lemma repeat_get c n : forall j, j < n -> String.get j (repeat_str (String c "") n) = Some c.
Proof. induction n as [|n IH]; intros j H; [lia|]. cbn. destruct j as [|j]; [reflexivity|]. apply IH. lia. Qed.

Lemma caretize_spec o k : indented k (o_code o) (fst (caretize o k)) /\ carets (k + o_start o) (k + o_end o) (snd (caretize o k)) \/ o_end o < o_start o.
Proof.
  destruct (Nat.lt_ge_cases (o_end o) (o_start o)) as [H|H]; [now right|left]. unfold caretize. cbn [fst snd]. split.
  - split.
    + intros j Hj. rewrite get_app_l by (rewrite repeat_len; exact Hj). now apply repeat_get.
    + intros i. rewrite <- (repeat_len " " k) at 1. apply get_app_r.
  - intros j. destruct (Nat.ltb_spec j (k + o_start o)) as [H1|H1].
    + destruct (Nat.lt_ge_cases j k) as [H2|H2].
      * rewrite get_app_l by (rewrite repeat_len; exact H2). now apply repeat_get.
      * replace j with (String.length (repeat_str " " k) + (j - k)) by (rewrite repeat_len; lia). rewrite get_app_r.
        rewrite get_app_l by (rewrite repeat_len; lia). apply repeat_get. lia.
    + replace j with (String.length (repeat_str " " k) + (String.length (repeat_str " " (o_start o)) + (j - k - o_start o))) by (rewrite !repeat_len; lia).
      rewrite !get_app_r, !repeat_len. destruct (Nat.ltb_spec (k + (o_start o + (j - k - o_start o))) (k + o_end o)) as [H2|H2].
      * apply repeat_get. lia.
      * apply get_none. rewrite repeat_len. lia.
Qed.

(** * Lines *)
Lemma lines_nonempty s : exists h t, lines s = h :: t.
Proof. destruct s as [|c s]; cbn; [eauto|]. destruct (Ascii.eqb c _); [eauto|]. destruct (lines s); eauto. Qed.
Lemma lines_app a b : lines (a ++ String (ascii_of_nat 10) b) = lines a ++ lines b.
Proof.
  induction a as [|c a IH]; [reflexivity|]. change ((String c a ++ String (ascii_of_nat 10) b)%string) with (String c (a ++ String (ascii_of_nat 10) b)%string).
  cbn [lines]. rewrite IH. destruct (Ascii.eqb c (ascii_of_nat 10)); [reflexivity|]. destruct (lines_nonempty a) as [h [t ->]]. reflexivity.
Qed.
Definition one_lined (s : string) : Prop := all_chars (fun c => negb (Ascii.eqb c (ascii_of_nat 10))) s = true.
Lemma lines_one s : one_lined s -> lines s = [s].
Proof.
  unfold one_lined. induction s as [|c s IH]; [reflexivity|]. cbn [all_chars lines]. intros H. apply andb_true_iff in H. destruct H as [H1 H2]. apply negb_true_iff in H1.
  rewrite H1, IH by exact H2. reflexivity.
Qed.
Lemma one_lined_app a b : one_lined (a ++ b) <-> one_lined a /\ one_lined b.
Proof. unfold one_lined. rewrite PyLexProofs.all_chars_app. apply andb_true_iff. Qed.
Lemma one_lined_repeat c n : Ascii.eqb c (ascii_of_nat 10) = false -> one_lined (repeat_str (String c "") n).
Proof. intros H. unfold one_lined. induction n as [|n IH]; [reflexivity|]. cbn [repeat_str append all_chars]. rewrite IH, H. reflexivity. Qed.

Lemma err_lines msg o : one_lined (o_code o) ->
  lines (err_str msg (Some o)) = lines msg ++ [fst (caretize o 4); snd (caretize o 4)].
Proof.
  intros H.
  assert (H1 : one_lined (fst (caretize o 4)) /\ one_lined (snd (caretize o 4))).
  { unfold caretize. cbn [fst snd]. split; apply one_lined_app; (split; [now apply one_lined_repeat|]); [exact H|]. apply one_lined_app. split; now apply one_lined_repeat. }
  unfold err_str. destruct (caretize o 4) as [l1 l2]. cbn [fst snd] in *.
  destruct H1 as [H1 H2]. change nl with (String (ascii_of_nat 10) "").
  change ((String (ascii_of_nat 10) "" ++ l1 ++ String (ascii_of_nat 10) "" ++ l2)%string) with (String (ascii_of_nat 10) (l1 ++ String (ascii_of_nat 10) l2)%string).
  rewrite lines_app, lines_app, (lines_one _ H1), (lines_one _ H2). reflexivity.
Qed.

(** * Parts of the code *)
Lemma substring_0 a b : String.substring 0 (String.length a) (a ++ b) = a.
Proof. induction a as [|c a IH]; cbn; [now destruct b|now rewrite IH]. Qed.
Lemma substring_all a : String.substring 0 (String.length a) a = a.
Proof. induction a as [|c a IH]; cbn; [reflexivity|now rewrite IH]. Qed.
Lemma substring_skip a : forall b n m, String.substring (String.length a + n) m (a ++ b) = String.substring n m b.
Proof. induction a as [|c a IH]; intros b n m; [reflexivity|]. cbn. apply IH. Qed.
Lemma split_at k : forall s, k <= String.length s -> exists a b, s = (a ++ b)%string /\ String.length a = k.
Proof.
  induction k as [|k IH]; intros s H; [exists "", s; auto|]. destruct s as [|c s]; cbn in H; [lia|]. destruct (IH s ltac:(lia)) as [a [b [-> E]]].
  exists (String c a), b. split; [reflexivity|]. cbn. now rewrite E.
Qed.
Lemma split_three s i j : i <= j -> j <= String.length s -> exists a b c, s = (a ++ b ++ c)%string /\ String.length a = i /\ String.length b = j - i.
Proof.
  intros H1 H2. destruct (split_at i s ltac:(lia)) as [a [r [-> E]]]. rewrite len_app in H2. destruct (split_at (j - i) r ltac:(lia)) as [b [c [-> E']]]. exists a, b, c. auto.
Qed.
Lemma relevant_split a b c : relevant_code (mkOrigin (a ++ b ++ c) (String.length a) (String.length a + String.length b)) = b.
Proof.
  unfold relevant_code. cbn. replace (String.length a + String.length b - String.length a) with (String.length b) by lia.
  rewrite <- (Nat.add_0_r (String.length a)), substring_skip. apply substring_0.
Qed.
Lemma repr_lemma o : o_start o <= o_end o -> o_end o <= String.length (o_code o) ->
  exists before after, o_code o = (before ++ relevant_code o ++ after)%string /\ String.length before = o_start o /\
    String.length (relevant_code o) = o_end o - o_start o /\
    origin_repr o = ("<Origin " ++ before ++ "->" ++ relevant_code o ++ "<-" ++ after ++ " (" ++ nat_str (o_start o) ++ "-" ++ nat_str (o_end o) ++ ")>")%string.
Proof.
  intros H1 H2. destruct o as [code s e]. cbn [o_code o_start o_end] in *. destruct (split_three code s e H1 H2) as [a [b [c [-> [Ea Eb]]]]].
  subst s. assert (e = String.length a + String.length b) by lia. subst e.
  pose proof (relevant_split a b c) as R. exists a, c. rewrite R. split; [reflexivity|]. split; [reflexivity|]. split; [lia|].
  unfold origin_repr. rewrite R. cbn [o_code o_start o_end]. rewrite substring_0.
  replace (String.substring (String.length a + String.length b) _ (a ++ b ++ c)) with c; [reflexivity|].
  rewrite !len_app. rewrite substring_skip. rewrite <- (Nat.add_0_r (String.length b)) at 1. rewrite substring_skip.
  replace (String.length a + (String.length b + String.length c) - (String.length a + String.length b)) with (String.length c) by lia. symmetry. apply substring_all.
Qed.
Lemma relevant_get o i : o_end o <= String.length (o_code o) ->
  String.get i (relevant_code o) = if Nat.ltb i (o_end o - o_start o) then String.get (o_start o + i) (o_code o) else None.
Proof.
  intros H. unfold relevant_code. destruct (Nat.ltb_spec i (o_end o - o_start o)) as [H1|H1].
  - rewrite substring_correct1 by exact H1. f_equal. lia.
  - now apply substring_correct2.
Qed.
Lemma placed_relevant code t : placed code t -> relevant_code (pt_origin t) = pt_string t.
Proof.
  intros [A [b [a [E [B C]]]]]. destruct (pt_origin t) as [c s e]. cbn in *. subst c s e. rewrite E. apply relevant_split.
Qed.

(** * Constraints *)
Section Con.
Variable P : origin -> Prop.
Variable names : list string.
(** Strictly: a PatsyError has a place. *)
Definition cplace {X} (r : result X) : Prop :=
  match r with Err (PatsyError _ o) => exists o', o = Some o' /\ P o' | _ => True end.
Lemma cplace_bind {X Y} (r : result X) (k : X -> result Y) : cplace r -> (forall x, r = Ok x -> cplace (k x)) -> cplace (bind r k).
Proof. intros H K. destruct r as [x|e]; cbn; [now apply K|]. exact H. Qed.
Lemma cplace_own {X} msg n : placed_tree P n -> cplace (X := X) (Err (PatsyError msg (n_origin n))).
Proof. intros H. destruct H as [ty tok args o Ho _ _]. cbn. eauto. Qed.
Lemma mk_lcon_place a b c : cplace (mk_lcon a b c).
Proof. unfold mk_lcon. repeat match goal with |- context [if ?x then _ else _] => destruct x end; exact I. Qed.
Lemma lc_combine_place cs : cplace (lc_combine cs).
Proof. destruct cs as [|c cs]; [exact I|]. unfold lc_combine. destruct (negb _); [exact I|apply mk_lcon_place]. Qed.
Lemma force_con_place n r : placed_tree P n -> cplace r -> cplace (force_con names n r).
Proof. intros Hn H. unfold force_con. apply cplace_bind; [exact H|]. intros [v c|c] _; [|exact I]. destruct (all_zero v); [now apply cplace_own|apply mk_lcon_place]. Qed.
Lemma force_vec_place n r : placed_tree P n -> cplace r -> cplace (force_vec n r).
Proof. intros Hn H. unfold force_vec. apply cplace_bind; [exact H|]. intros [v c|c] _; [exact I|now apply cplace_own]. Qed.
Lemma extra_place t : cplace (extra_text t).
Proof. unfold extra_text. destruct t as [t|]; [destruct (tk_extra t)|]; exact I. Qed.

Lemma eval_con_place : forall n, placed_tree P n -> cplace (eval_con names n).
Proof.
  fix IH 2. intros n Hn. destruct Hn as [ty tok args o Ho Ht Hargs]. cbn [eval_con]. destruct ty as [ | |ty]; try exact I.
  assert (Own : forall X msg, cplace (X := X) (Err (PatsyError msg (Some o)))) by (intros; cbn; eauto).
  destruct Hargs as [|a l Ha Hl]; [|destruct Hl as [|b l Hb Hl]].
  - destruct (String.eqb ty "VARIABLE"). { apply cplace_bind; [apply extra_place|]. intros x _. destruct (name_index x names); exact I. }
    destruct (String.eqb ty "NUMBER"); [|exact I]. apply cplace_bind; [apply extra_place|]. intros x _. exact I.
  - pose proof (force_vec_place a _ Ha (IH a Ha)) as Fa.
    destruct (String.eqb ty "+"). { apply cplace_bind; [exact Fa|]. intros [v c] _. exact I. }
    destruct (String.eqb ty "-"); [|exact I]. apply cplace_bind; [exact Fa|]. intros [v c] _. exact I.
  - destruct Hl as [|]; [|exact I].
    pose proof (force_vec_place a _ Ha (IH a Ha)) as Fa. pose proof (force_vec_place b _ Hb (IH b Hb)) as Fb.
    pose proof (force_con_place a _ Ha (IH a Ha)) as Ca. pose proof (force_con_place b _ Hb (IH b Hb)) as Cb.
    destruct (String.eqb ty "+"). { apply cplace_bind; [exact Fa|]. intros [v c] _. apply cplace_bind; [exact Fb|]. intros [w d] _. exact I. }
    destruct (String.eqb ty "-"). { apply cplace_bind; [exact Fa|]. intros [v c] _. apply cplace_bind; [exact Fb|]. intros [w d] _. exact I. }
    destruct (String.eqb ty "/").
    { apply cplace_bind; [exact Fa|]. intros [v c] _. apply cplace_bind; [exact Fb|]. intros [w d] _. destruct (negb (all_zero w)); [now apply cplace_own|]. destruct (Qc_eq_bool d 0%Qc); exact I. }
    destruct (String.eqb ty "*").
    { apply cplace_bind; [exact Fa|]. intros [v c] _. apply cplace_bind; [exact Fb|]. intros [w d] _. destruct (all_zero v); [exact I|]. destruct (all_zero w); [exact I|]. apply Own. }
    destruct (String.eqb ty "=").
    { apply cplace_bind. { destruct (is_eq a); [|exact I]. apply cplace_bind; [exact Ca|]. intros c _. exact I. }
      intros cl _. apply cplace_bind. { destruct (is_eq b); [|exact I]. apply cplace_bind; [exact Cb|]. intros c _. exact I. }
      intros cr _. cbn zeta. apply cplace_bind.
      { destruct (is_eq a); [|exact Fa]. destruct Ha as [ty1 tok1 args1 o1 _ _ Hargs1]. cbn [n_args]. destruct Hargs1 as [|x1 l1 _ Hl1]; [exact I|]. destruct Hl1 as [|x2 l2 Hx2 _]; [exact I|].
        exact (force_vec_place x2 _ Hx2 (IH x2 Hx2)). }
      intros [v c] _. apply cplace_bind.
      { destruct (is_eq b); [|exact Fb]. destruct Hb as [ty1 tok1 args1 o1 _ _ Hargs1]. cbn [n_args]. destruct Hargs1 as [|x1 l1 Hx1 _]; [exact I|]. exact (force_vec_place x1 _ Hx1 (IH x1 Hx1)). }
      intros [w d] _. destruct (all_zero _); [apply Own|]. apply cplace_bind; [apply mk_lcon_place|]. intros k _. apply cplace_bind; [apply lc_combine_place|]. intros r _. exact I. }
    destruct (String.eqb ty ","); [|exact I].
    apply cplace_bind; [exact Ca|]. intros l _. apply cplace_bind; [exact Cb|]. intros r _. apply cplace_bind; [apply lc_combine_place|]. intros c _. exact I.
Qed.
End Con.

(** The tokens of a constraint stand in its text. *)
Lemma lexstep_nonempty names x ty r : lexstep names x ty r -> 0 < String.length x.
Proof.
  intros H. destruct H as [x r Hx|x r _ _ Hx _|x r _ _ Hx _|x r _ _ Hx _ _].
  - unfold is_punct in Hx. cbn in Hx. repeat (destruct Hx as [<-|Hx]; [cbn; lia|]). destruct Hx.
  - destruct x; [congruence|cbn; lia].
  - destruct Hx as [d1 [p [d2 [e [-> [_ [_ [_ [Hd _]]]]]]]]]. rewrite !len_app. destruct d2; [congruence|cbn; lia].
  - destruct x; [congruence|cbn; lia].
Qed.
Lemma lexes_inside names code pos s toks rest : lexes names code pos s toks rest -> forall pre, code = (pre ++ s)%string -> pos = String.length pre ->
  Forall (fun t => inside code (tk_origin t) /\ relevant_code (tk_origin t) = ttext t) toks /\ String.length rest <= String.length s.
Proof.
  induction 1 as [pos s|pos x r toks rest Hs H IH|pos x ty r toks rest Hs H IH]; intros pre Hc Hp.
  - auto.
  - destruct (IH (pre ++ x)%string) as [A B]; [now rewrite app_assoc_str|now rewrite len_app, Hp|]. split; [exact A|]. rewrite len_app. lia.
  - destruct (IH (pre ++ x)%string) as [A B]; [now rewrite app_assoc_str|now rewrite len_app, Hp|]. split; [|rewrite len_app; lia].
    constructor; [|exact A]. apply lexstep_nonempty in Hs. cbn [tk_origin ttext tk_extra]. unfold ttext. cbn [tk_extra]. split.
    + split; [reflexivity|]. cbn. rewrite Hc, !len_app. lia.
    + subst pos. rewrite Hc. apply relevant_split.
Qed.
Lemma mapM_err {A B} (f : A -> result B) l e : mapM f l = Err e -> exists x, In x l /\ f x = Err e.
Proof.
  induction l as [|a l IH]; cbn; [discriminate|]. destruct (f a) as [b|e'] eqn:E; cbn; [|intros [= <-]; exists a; auto].
  destruct (mapM f l) as [bs|e'']; cbn; [discriminate|]. intros [= <-]. destruct (IH eq_refl) as [x [H1 H2]]. exists x. auto.
Qed.
Lemma one_constraint names code m o : (let* tree := parse_constraint code names in eval_constraint names tree) = Err (PatsyError m o) ->
  exists o', o = Some o' /\ inside code o'.
Proof.
  unfold parse_constraint. destruct (tokenize_constraint code names) as [toks|e] eqn:E; cbn [bind].
  - apply tokenize_ok_iff in E. pose proof (lexes_inside _ _ _ _ _ _ E "" eq_refl eq_refl) as [F _].
    assert (Ft : Forall (fun t => inside code (tk_origin t)) toks) by (eapply Forall_impl; [|exact F]; cbn; tauto).
    pose proof (proj2 (lexes_known _ _ _ _ _ _ E)) as S.
    destruct (infix_parse toks constraint_ops constraint_atoms) as [n|e] eqn:EP; cbn [bind]; intros H.
    + apply (infix_place (inside code) (inside_hull code)) in EP; [|exact Ft]. pose proof (force_con_place (inside code) names n _ EP (eval_con_place (inside code) names n EP)) as C.
      unfold eval_constraint in H. rewrite H in C. exact C.
    + injection H as ->. destruct toks as [|t toks]; [rewrite parse_empty_lemma in EP by exact constraint_table_good; discriminate|].
      assert (Hne : t :: toks <> []) by discriminate.
      destruct (parse_errors_lemma _ _ code _ _ constraint_table_good S Hne EP) as [m' [t' [Hin [= -> ->]]]]. eexists. split; [reflexivity|]. rewrite Forall_forall in Ft. now apply Ft.
  - apply tokenize_err_iff in E. destruct E as [toks [rest [m' [L [Hr [_ [_ ->]]]]]]]. intros [= <- <-]. eexists. split; [reflexivity|].
    pose proof (lexes_inside _ _ _ _ _ _ L "" eq_refl eq_refl) as [_ Hl]. split; [reflexivity|]. cbn. destruct rest; [congruence|]. cbn in *. lia.
Qed.
Lemma strings_located names codes m o : linear_constraint (LikeStrings codes) names = Err (PatsyError m o) ->
  exists code o', In code codes /\ o = Some o' /\ inside code o'.
Proof.
  unfold linear_constraint. destruct (mapM _ codes) as [cs|e] eqn:E; cbn [bind]; intros H.
  - exfalso. pose proof (lc_combine_place (fun _ => False) cs) as C. rewrite H in C. cbn in C. destruct C as [o' [_ []]].
  - injection H as ->. apply mapM_err in E. destruct E as [code [Hin E]]. apply one_constraint in E. destruct E as [o' [E Ho]]. eauto.
Qed.
