From Coq Require Import Ascii.
From Verif Require Import Base InfixModel InfixSpec InfixProofs DescModel NumModel ConstraintModel ConstraintSpec
  ConstraintLexProofs ConstraintProofs.
Open Scope nat_scope.

(** * Acceptance *)
Section Accept.
Variable names : list string.
Hypothesis Hnd : NoDup names.
Notation N := (length names).

(** With distinct names, a combination that never changes has only zero coefficients. *)
Definition indicator (x y : string) : Qc := if String.eqb x y then 1%Qc else 0%Qc.
Lemma dot_indicator l v i x : NoDup l -> nth_error l i = Some x -> length v = length l ->
  dot v (map (indicator x) l) = nth i v 0%Qc.
Proof.
  intros H. revert v i. induction H as [|y l Hy H IH]; intros v i E L; [destruct i; discriminate|].
  destruct v as [|q v]; [discriminate|]. cbn in L. destruct i as [|i]; cbn in E |- *.
  - injection E as <-. unfold indicator at 1. rewrite String.eqb_refl.
    replace (dot v (map (indicator y) l)) with 0%Qc; [ring|].
    assert (Z : map (indicator y) l = repeat 0%Qc (length l)).
    { clear - Hy. induction l as [|z l IH]; cbn; [reflexivity|]. rewrite IH by (intros F; apply Hy; now right). f_equal. unfold indicator.
      destruct (String.eqb_spec y z) as [->|]; [exfalso; apply Hy; now left|reflexivity]. }
    rewrite Z. clear. revert v. induction (length l) as [|n IHn]; intros [|a v]; cbn; try reflexivity. rewrite <- IHn. ring.
  - unfold indicator at 1. destruct (String.eqb_spec x y) as [->|]; [exfalso; apply Hy; eapply nth_error_In; eauto|].
    rewrite (IH v i E) by lia. ring.
Qed.
Lemma never_changes v : length v = N -> (forall b1 b2 : string -> Qc, dot v (map b1 names) = dot v (map b2 names)) <-> all_zero v = true.
Proof.
  intros L. split.
  - intros H. apply all_zero_iff. apply Forall_forall. intros q Hq. destruct (In_nth v q 0%Qc Hq) as [i [Hi <-]].
    destruct (nth_error names i) as [x|] eqn:E; [|apply nth_error_None in E; lia].
    rewrite <- (dot_indicator names v i x Hnd E L). rewrite (H (indicator x) (fun _ => 0%Qc)). clear. generalize names as l. intros l. revert v.
    induction l as [|y l IH]; intros [|a v]; cbn; try reflexivity. rewrite IH. ring.
  - intros H b1 b2. apply all_zero_iff in H. now rewrite !dot_zero.
Qed.
Lemma constant_iff c v k : vec_ok names c v k -> (constant c <-> all_zero v = true).
Proof.
  intros [L H]. rewrite <- (never_changes v L). unfold constant. split.
  - intros C b1 b2. specialize (C b1 b2). rewrite !H in C. assert (E : (dot v (map b1 names) + k = dot v (map b2 names) + k)%Qc) by congruence.
    replace (dot v (map b1 names)) with ((dot v (map b1 names) + k) - k)%Qc by ring. rewrite E. ring.
  - intros C b1 b2. rewrite !H. f_equal. f_equal. apply C.
Qed.
Lemma same_difference_iff c d v k w j : vec_ok names c v k -> vec_ok names d w j ->
  (same_difference c d <-> all_zero (vmap2 Qcminus v w) = true).
Proof.
  intros [L H] [L' H']. rewrite <- (never_changes (vmap2 Qcminus v w)) by (rewrite vmap2_length; lia). unfold same_difference. split.
  - intros C b1 b2. specialize (C b1 b2). rewrite !H, !H' in C. cbn in C. rewrite !dot_minus by lia.
    assert (E : ((dot v (map b1 names) + k) - (dot w (map b1 names) + j) = (dot v (map b2 names) + k) - (dot w (map b2 names) + j))%Qc) by congruence.
    replace (dot v (map b1 names) - dot w (map b1 names))%Qc with ((dot v (map b1 names) + k) - (dot w (map b1 names) + j) - k + j)%Qc by ring. rewrite E. ring.
  - intros C b1 b2. rewrite !H, !H'. cbn. f_equal. specialize (C b1 b2). rewrite !dot_minus in C by lia.
    replace ((dot v (map b1 names) + k) - (dot w (map b1 names) + j))%Qc with ((dot v (map b1 names) - dot w (map b1 names)) + k - j)%Qc by ring. rewrite C. ring.
Qed.

Lemma linear_not_con c : linear c -> is_con c = false.
Proof.
  unfold is_con. induction c as [t|t c IH|l IHl t r IHr|lp c IH rp]; cbn; auto. intros [_ [_ [-> [-> _]]]]. reflexivity.
Qed.
Lemma expr_accept c : is_con c = false -> (linear_constraint_expr c <-> linear c /\ ~ constant c).
Proof.
  unfold is_con. induction c as [t|t c IH|l IHl t r IHr|lp c IH rp]; cbn [unparen linear_constraint_expr]; [tauto|tauto| |].
  - intros H. apply orb_false_iff in H. destruct H as [-> ->]. tauto.
  - intros H. rewrite (IH H). reflexivity.
Qed.

Definition accept_at (c : cst) (r : result cval) : Prop :=
  match r with
  | Ok (CVec _ _) => linear c
  | Ok (CCon _) => linear_constraint_expr c
  | Err e => is_patsy_error e = true /\ ~ linear c /\ ~ (is_con c = true /\ linear_constraint_expr c)
  end.
Lemma force_vec_accept c n r : sound_at names c r -> accept_at c r ->
  match force_vec n r with
  | Ok (v, k) => vec_ok names c v k /\ is_con c = false /\ linear c
  | Err e => is_patsy_error e = true /\ ~ linear c
  end.
Proof.
  intros [S1 S2] A. unfold force_vec. destruct r as [[v k|lc]|e]; cbn in *.
  - destruct (S1 v k eq_refl). auto.
  - destruct (S2 lc eq_refl) as [_ Hc]. split; [reflexivity|]. intros H. apply linear_not_con in H. congruence.
  - tauto.
Qed.
Lemma force_con_accept c n r : sound_at names c r -> accept_at c r ->
  match force_con names n r with
  | Ok lc => con_ok names c lc /\ linear_constraint_expr c
  | Err e => is_patsy_error e = true /\ ~ linear_constraint_expr c
  end.
Proof.
  intros S A. pose proof (fun lc => force_con_sound names c n r lc S) as FS. destruct S as [S1 S2]. unfold force_con in *. destruct r as [[v k|lc]|e]; unfold accept_at in A; cbn [bind] in *.
  - destruct (S1 v k eq_refl) as [Hv Hc]. pose proof (expr_accept c Hc) as EA. pose proof (constant_iff c v k Hv) as CI. destruct (all_zero v) eqn:Z0.
    + split; [reflexivity|]. rewrite EA. intros [_ H]. apply H. now apply CI.
    + destruct Hv as [Hl _]. destruct (one_row names v (- k)%Qc Hl) as [lc [E _]]. rewrite E in FS |- *. split; [now apply FS|]. apply EA. split; [exact A|]. rewrite CI. discriminate.
  - destruct (S2 lc eq_refl) as [Hc _]. auto.
  - destruct A as [P [A1 A2]]. split; [exact P|]. intros H. destruct (is_con c) eqn:Ec; [now apply A2|]. apply (expr_accept c Ec) in H. tauto.
Qed.

Lemma eval_accept m : forall c, csize c <= m -> valid constraint_ops constraint_atoms c -> known names c -> division_safe c ->
  forall n, represents n (tree_of c) -> accept_at c (eval_con names n).
Proof.
  induction m as [|m IH]; intros c Hm V K D n H; [destruct c; cbn in Hm; lia|].
  destruct c as [t|t c|l t r|lp c rp].
  - apply rep_atom in H. destruct H as [o ->]. inversion V as [? _ _ Hin| | |]; subst. cbn in Hin. destruct K as [x [Ex K]].
    assert (T : tk_type t = TName "NUMBER" \/ tk_type t = TName "VARIABLE") by (destruct Hin as [|[|[]]]; auto). clear Hin.
    destruct T as [T|T]; rewrite T; cbn; rewrite Ex; cbn; [exact I|]. pose proof (name_index_spec x names) as NI.
    destruct (name_index x names); [exact I|]. exfalso. apply NI, K. now rewrite (tok_name _ _ _ T).
  - apply rep_un in H. destruct H as [a [o [-> Ha]]]. inversion V as [|? ? p _ Hd Hvc _| |]; subst. cbn in Hm, K, D.
    pose proof (eval_sound names _ c (le_n _) Hvc a Ha) as Sc. pose proof (IH c ltac:(lia) Hvc K D a Ha) as Ac.
    pose proof (force_vec_accept c a _ Sc Ac) as F. apply declares1 in Hd. destruct Hd as [s [T Hs]]. rewrite T. cbn in Hs.
    destruct Hs as [<-|[<-|[]]]; cbn; destruct (force_vec a (eval_con names a)) as [[v0 k0]|e]; cbn; try tauto; (split; [tauto|split; [tauto|]]); intros [F' _]; discriminate.
  - apply rep_bin in H. destruct H as [a [b [o [-> [Ha Hb]]]]]. inversion V as [| |? ? ? p _ Hd Hvl Hvr _ _|]; subst. cbn [csize] in Hm.
    cbn [known] in K. destruct K as [Kl Kr]. cbn [division_safe] in D. destruct D as [Dl [Dr Dd]].
    pose proof (eval_sound names _ l (le_n _) Hvl a Ha) as Sl. pose proof (IH l ltac:(lia) Hvl Kl Dl a Ha) as Al.
    pose proof (eval_sound names _ r (le_n _) Hvr b Hb) as Sr. pose proof (IH r ltac:(lia) Hvr Kr Dr b Hb) as Ar.
    pose proof (force_vec_accept l a _ Sl Al) as Fl. pose proof (force_vec_accept r b _ Sr Ar) as Fr.
    pose proof (force_con_accept l a _ Sl Al) as Cl. pose proof (force_con_accept r b _ Sr Ar) as Cr.
    apply declares2 in Hd. destruct Hd as [s [T Hs]]. rewrite T.
    cbn in Hs. destruct Hs as [<-|[<-|Hs]].
    + (* , *)
      assert (NL : ~ linear (CBin l t r)) by (intros HL; apply linear_not_con in HL; unfold is_con in HL; cbn [unparen] in HL; rewrite (tok_name _ _ _ T) in HL; discriminate).
      assert (LC : linear_constraint_expr (CBin l t r) <-> linear_constraint_expr l /\ linear_constraint_expr r) by (cbn [linear_constraint_expr]; rewrite (tok_name _ _ _ T); reflexivity).
      cbn [eval_con String.eqb Ascii.eqb Bool.eqb]. destruct (force_con names a (eval_con names a)) as [cl|e] eqn:EL; cbn [bind].
      2: { unfold accept_at. rewrite LC. tauto. }
      destruct (force_con names b (eval_con names b)) as [cr|e] eqn:ER; cbn [bind].
      2: { unfold accept_at. rewrite LC. tauto. }
      destruct Cl as [[L1 [L2 L3]] Ll]. destruct Cr as [[R1 [R2 R3]] Lr].
      destruct (combine_spec [cl; cr] names) as [k [E _]]; [discriminate|auto|]. rewrite E. cbn [bind]. unfold accept_at. rewrite LC. auto.
    + (* = *)
      assert (NL : ~ linear (CBin l t r)) by (intros HL; apply linear_not_con in HL; unfold is_con in HL; cbn [unparen] in HL; rewrite !(tok_name _ _ _ T) in HL; discriminate).
      set (lhs := match equation l with Some (_, e) => e | None => l end).
      set (rhs := match equation r with Some (e, _) => e | None => r end).
      assert (LC : linear_constraint_expr (CBin l t r) <->
        (equation l <> None -> linear_constraint_expr l) /\ (equation r <> None -> linear_constraint_expr r) /\ linear lhs /\ linear rhs /\ ~ same_difference lhs rhs).
      { cbn [linear_constraint_expr]. rewrite !(tok_name _ _ _ T). reflexivity. }
      pose proof (equation_node l a Hvl Ha) as EQL. pose proof (equation_node r b Hvr Hb) as EQR.
      assert (SL : match (if is_eq a then let* c := force_con names a (eval_con names a) in Ok [c] else Ok []) with
                   | Ok cl => Forall (fun l => lc_names l = names /\ well_shaped l) cl /\ (equation l <> None -> linear_constraint_expr l)
                   | Err e => is_patsy_error e = true /\ ~ (equation l <> None -> linear_constraint_expr l)
                   end /\
                   match (if is_eq a then match n_args a with _ :: a2 :: _ => force_vec a2 (eval_con names a2) | _ => Err IndexError end else force_vec a (eval_con names a)) with
                   | Ok (v, k) => vec_ok names lhs v k /\ linear lhs
                   | Err e => is_patsy_error e = true /\ ~ linear lhs
                   end).
      { subst lhs. destruct (equation l) as [[l1 l2]|] eqn:El.
        - destruct EQL as [Eq [a1 [a2 [Ea [Ha1 Ha2]]]]]. rewrite Eq, Ea. split.
          + destruct (force_con names a (eval_con names a)) as [c|e]; cbn [bind]; destruct Cl as [C1 C2].
            * split; [constructor; [destruct C1 as [? [? _]]; auto|constructor]|auto].
            * split; [exact C1|]. intros F. apply C2, F. discriminate.
          + pose proof (equation_size _ _ _ El). destruct (equation_valid _ _ _ El Hvl) as [_ V2].
            assert (KD : known names l2 /\ division_safe l2).
            { clear - El Kl Dl. unfold equation in El. induction l as [t|t c IH|l' IHl t r' IHr|lp c IH rp]; cbn in *; try discriminate; [|auto].
              destruct (tok_is "=" t); [|discriminate]. injection El as -> ->. tauto. }
            pose proof (force_vec_accept l2 a2 _ (eval_sound names _ l2 (le_n _) V2 a2 Ha2) (IH l2 ltac:(lia) V2 (proj1 KD) (proj2 KD) a2 Ha2)) as F2.
            destruct (force_vec a2 (eval_con names a2)) as [[v k]|e]; tauto.
        - rewrite EQL. split; [split; [constructor|congruence]|]. destruct (force_vec a (eval_con names a)) as [[v k]|e]; tauto. }
      assert (SR : match (if is_eq b then let* c := force_con names b (eval_con names b) in Ok [c] else Ok []) with
                   | Ok cl => Forall (fun l => lc_names l = names /\ well_shaped l) cl /\ (equation r <> None -> linear_constraint_expr r)
                   | Err e => is_patsy_error e = true /\ ~ (equation r <> None -> linear_constraint_expr r)
                   end /\
                   match (if is_eq b then match n_args b with b1 :: _ => force_vec b1 (eval_con names b1) | _ => Err IndexError end else force_vec b (eval_con names b)) with
                   | Ok (v, k) => vec_ok names rhs v k /\ linear rhs
                   | Err e => is_patsy_error e = true /\ ~ linear rhs
                   end).
      { subst rhs. destruct (equation r) as [[r1 r2]|] eqn:Er.
        - destruct EQR as [Eq [b1 [b2 [Eb [Hb1 Hb2]]]]]. rewrite Eq, Eb. split.
          + destruct (force_con names b (eval_con names b)) as [c|e]; cbn [bind]; destruct Cr as [C1 C2].
            * split; [constructor; [destruct C1 as [? [? _]]; auto|constructor]|auto].
            * split; [exact C1|]. intros F. apply C2, F. discriminate.
          + pose proof (equation_size _ _ _ Er). destruct (equation_valid _ _ _ Er Hvr) as [V1 _].
            assert (KD : known names r1 /\ division_safe r1).
            { clear - Er Kr Dr. unfold equation in Er. induction r as [t|t c IH|l' IHl t r' IHr|lp c IH rp]; cbn in *; try discriminate; [|auto].
              destruct (tok_is "=" t); [|discriminate]. injection Er as -> ->. tauto. }
            pose proof (force_vec_accept r1 b1 _ (eval_sound names _ r1 (le_n _) V1 b1 Hb1) (IH r1 ltac:(lia) V1 (proj1 KD) (proj2 KD) b1 Hb1)) as F2.
            destruct (force_vec b1 (eval_con names b1)) as [[v k]|e]; tauto.
        - rewrite EQR. split; [split; [constructor|congruence]|]. destruct (force_vec b (eval_con names b)) as [[v k]|e]; tauto. }
      clearbody lhs rhs. destruct SL as [SL1 SL2]. destruct SR as [SR1 SR2].
      cbn [eval_con String.eqb Ascii.eqb Bool.eqb].
      destruct (if is_eq a then let* c := force_con names a (eval_con names a) in Ok [c] else Ok []) as [cl|e]; cbn [bind]; [|unfold accept_at; rewrite LC; tauto].
      destruct (if is_eq b then let* c := force_con names b (eval_con names b) in Ok [c] else Ok []) as [cr|e]; cbn [bind]; [|unfold accept_at; rewrite LC; tauto].
      destruct (if is_eq a then match n_args a with _ :: a2 :: _ => _ | _ => _ end else _) as [[v k]|e]; cbn [bind]; [|unfold accept_at; rewrite LC; tauto].
      destruct (if is_eq b then match n_args b with b1 :: _ => _ | _ => _ end else _) as [[w d]|e]; cbn [bind]; [|unfold accept_at; rewrite LC; tauto].
      destruct SL2 as [VL HL]. destruct SR2 as [VR HR]. pose proof (same_difference_iff _ _ _ _ _ _ VL VR) as SD.
      destruct (all_zero (vmap2 Qcminus v w)); cbn [bind].
      * unfold accept_at. rewrite LC. split; [reflexivity|]. split; [exact NL|]. tauto.
      * destruct VL as [Lv _]. destruct VR as [Rv _].
        destruct (one_row names (vmap2 Qcminus v w) (- k + d)%Qc) as [c0 [E0 [N0 [W0 S0]]]]; [rewrite vmap2_length by lia; exact Lv|].
        rewrite E0. cbn [bind].
        destruct (combine_spec (cl ++ cr ++ [c0]) names) as [c1 [E1 _]]; [destruct cl, cr; discriminate| |].
        { apply Forall_app. split; [apply SL1|]. apply Forall_app. split; [apply SR1|]. auto. }
        rewrite E1. cbn [bind]. unfold accept_at. rewrite LC. rewrite SD. intuition discriminate.
    + assert (Hns : String.eqb s "," = false /\ String.eqb s "=" = false) by (destruct Hs as [<-|[<-|[<-|[<-|[]]]]]; split; reflexivity).
      destruct Hns as [Hn1 Hn2].
      assert (NC : ~ (is_con (CBin l t r) = true /\ linear_constraint_expr (CBin l t r))) by (unfold is_con; cbn [unparen]; rewrite !(tok_name _ _ _ T), Hn1, Hn2; intros [F _]; discriminate).
      assert (LL : linear (CBin l t r) <-> linear l /\ linear r /\ (String.eqb s "*" = true -> constant l \/ constant r) /\ (String.eqb s "/" = true -> constant r)).
      { cbn [linear]. rewrite !(tok_name _ _ _ T), Hn1, Hn2. tauto. }
      rewrite (tok_name _ _ _ T) in Dd.
      destruct Hs as [<-|[<-|[<-|[<-|[]]]]]; cbn [eval_con String.eqb Ascii.eqb Bool.eqb] in *;
        (destruct (force_vec a (eval_con names a)) as [[v0 k0]|e]; cbn [bind]; [|unfold accept_at; rewrite LL; tauto]);
        (destruct (force_vec b (eval_con names b)) as [[v1 k1]|e]; cbn [bind]; [|unfold accept_at; rewrite LL; tauto]);
        destruct Fl as [Vl [Cfl Hl]]; destruct Fr as [Vr [Cfr Hr]]; pose proof (constant_iff _ _ _ Vl) as CL; pose proof (constant_iff _ _ _ Vr) as CR.
      * unfold accept_at. rewrite LL. intuition discriminate.
      * unfold accept_at. rewrite LL. intuition discriminate.
      * destruct (all_zero v0); [unfold accept_at; rewrite LL; intuition discriminate|]. destruct (all_zero v1); [unfold accept_at; rewrite LL; intuition discriminate|].
        unfold accept_at. rewrite LL. split; [reflexivity|]. split; [|exact NC]. intros [_ [_ [F _]]]. destruct (F eq_refl) as [F'|F']; [apply CL in F'|apply CR in F']; discriminate.
      * destruct (all_zero v1) eqn:Z1; cbn [negb].
        -- destruct (Qc_eq_bool k1 0%Qc) eqn:Zk.
           ++ exfalso. apply (Dd eq_refl). intros b0. destruct Vr as [_ Vr]. rewrite Vr. apply all_zero_iff in Z1. rewrite dot_zero by assumption. apply qc_eqb in Zk. subst k1. f_equal; ring.
           ++ unfold accept_at. rewrite LL. intuition discriminate.
        -- unfold accept_at. rewrite LL. split; [reflexivity|]. split; [|exact NC]. intros [_ [_ [_ F]]]. apply CR in F; [discriminate|reflexivity].
  - inversion V; subst. cbn in Hm. exact (IH c ltac:(lia) ltac:(assumption) K D n H).
Qed.
End Accept.

(** * Strings *)
Lemma constraint_table_good : good_table constraint_ops.
Proof. repeat (constructor; [cbn; repeat split; try lia; try congruence; auto|]); constructor. Qed.
Definition known_tok (names : list string) (t : token) : Prop := exists x, tk_extra t = Some x /\ (tok_is "VARIABLE" t = true -> In x names).
Lemma lexes_known names code pos s toks rest : lexes names code pos s toks rest ->
  Forall (known_tok names) toks /\ Forall (fun t => o_code (tk_origin t) = code) toks.
Proof.
  induction 1 as [pos s|pos x r toks rest _ _ IH|pos x ty r toks rest Hs _ [IH1 IH2]]; [split; constructor|exact IH|].
  split; constructor; auto. exists x. split; [reflexivity|]. unfold tok_is. cbn.
  inversion Hs as [? ? Hp|? ? _ Hin _ _|? ? _ _ _ _|]; subst; [|intros _; exact Hin|discriminate].
  unfold is_punct in Hp. cbn in Hp. repeat (destruct Hp as [<-|Hp]; [discriminate|]). destruct Hp.
Qed.
Lemma known_yield names c : Forall (known_tok names) (yield c) -> known names c.
Proof.
  induction c as [t|t c IH|l IHl t r IHr|lp c IH rp]; cbn.
  - intros H. exact (Forall_inv H).
  - intros H. apply IH. now inversion H.
  - intros H. apply Forall_app in H. destruct H as [H1 H2]. split; [auto|]. apply IHr. now inversion H2.
  - intros H. apply IH. apply Forall_inv_tail in H. apply Forall_app in H. tauto.
Qed.

Lemma parse_reads names code :
  (forall n, parse_constraint code names = Ok n <-> exists c, reads names code c /\ parse_constraint code names = Ok n /\ represents n (tree_of c)) /\
  (forall c, reads names code c -> exists n, parse_constraint code names = Ok n /\ represents n (tree_of c)).
Proof.
  assert (P : forall toks, tokenize_constraint code names = Ok toks -> one_source code toks).
  { intros toks E. apply tokenize_ok_iff in E. apply lexes_known in E. destruct E as [_ E]. exact E. }
  split.
  - intros n. split; [|intros [c [_ [H _]]]; exact H]. intros H. pose proof H as H'. unfold parse_constraint in H.
    destruct (tokenize_constraint code names) as [toks|e] eqn:E; cbn [bind] in H; [|discriminate].
    destruct (parse_correct_lemma constraint_ops constraint_atoms code toks constraint_table_good (P _ eq_refl)) as [A _].
    destruct (A n H) as [c [V [Y R]]]. exists c. split; [|auto]. split; [|exact V]. rewrite Y. now apply tokenize_ok_iff.
  - intros c [L V]. apply tokenize_ok_iff in L. unfold parse_constraint. rewrite L. cbn [bind].
    destruct (parse_correct_lemma constraint_ops constraint_atoms code (yield c) constraint_table_good (P _ L)) as [_ B].
    exact (B c V eq_refl).
Qed.

Lemma one_string_ok names code lc : (let* tree := parse_constraint code names in eval_constraint names tree) = Ok lc ->
  exists c, reads names code c /\ con_ok names c lc.
Proof.
  destruct (parse_constraint code names) as [n|] eqn:E; cbn [bind]; [|discriminate]. intros H.
  destruct (parse_reads names code) as [A _]. apply A in E. destruct E as [c [R [E Rep]]]. exists c. split; [exact R|].
  eapply force_con_sound; [|exact H]. eapply eval_sound; [apply le_n|apply R|exact Rep].
Qed.
Lemma strings_meaning names codes lc : codes <> [] -> linear_constraint (LikeStrings codes) names = Ok lc ->
  exists cs, Forall2 (reads names) codes cs /\ lc_names lc = names /\ well_shaped lc /\
    forall beta, satisfies lc beta <-> Forall (holds beta) cs.
Proof.
  intros Hne. unfold linear_constraint. destruct (mapM _ codes) as [lcs|] eqn:E; cbn [bind]; [|discriminate]. intros H.
  apply mapM_ok_Forall2 in E.
  assert (X : exists cs, Forall2 (reads names) codes cs /\ Forall2 (con_ok names) cs lcs).
  { clear - E. induction E as [|code lc codes lcs H1 _ [cs [IH1 IH2]]]; [exists []; auto|]. destruct (one_string_ok _ _ _ H1) as [c [R C]].
    exists (c :: cs). auto. }
  destruct X as [cs [X1 X2]]. exists cs. split; [exact X1|].
  assert (Hne' : lcs <> []) by (intros ->; inversion E; subst; congruence).
  destruct (combine_spec lcs names Hne') as [c [E1 [N1 [W1 [_ [_ S1]]]]]].
  { clear - X2. induction X2 as [|c lc cs lcs [H1 [H2 _]] _ IH]; constructor; auto. }
  rewrite E1 in H. injection H as <-. split; [exact N1|]. split; [exact W1|]. intros beta. rewrite S1. clear - X2.
  induction X2 as [|c lc cs lcs [_ [_ H]] _ IH]; [split; constructor|]. rewrite !Forall_cons_iff, IH, H. reflexivity.
Qed.

Lemma combine_one c : well_shaped c -> exists c', lc_combine [c] = Ok c'.
Proof.
  intros H. destruct (combine_spec [c] (lc_names c)) as [c' [E _]]; [discriminate|auto|]. eauto.
Qed.
Lemma accepts_lemma names code c : NoDup names -> reads names code c -> division_safe c ->
  match linear_constraint (LikeString code) names with
  | Ok _ => linear_constraint_expr c
  | Err e => is_patsy_error e = true /\ ~ linear_constraint_expr c
  end.
Proof.
  intros Hnd R D. destruct (parse_reads names code) as [_ B]. destruct (B c R) as [n [E Rep]]. destruct R as [L V].
  assert (K : known names c) by (apply known_yield; eapply lexes_known; exact L).
  pose proof (force_con_accept names Hnd c n _ (eval_sound names _ c (le_n _) V n Rep) (eval_accept names Hnd _ c (le_n _) V K D n Rep)) as F.
  unfold linear_constraint. cbn [mapM]. rewrite E. cbn [bind]. unfold eval_constraint.
  destruct (force_con names n (eval_con names n)) as [lc|e]; cbn [bind]; [|exact F].
  destruct F as [[_ [W _]] F]. destruct (combine_one lc W) as [c' ->]. exact F.
Qed.
Lemma unreadable_lemma names code : (exists toks, toks <> [] /\ lexes names code 0 code toks "") \/ ~ (exists toks, lexes names code 0 code toks "") ->
  ~ (exists c, reads names code c) ->
  exists m o, linear_constraint (LikeString code) names = Err (PatsyError m (Some o)) /\ o_code o = code.
Proof.
  intros Hl Hn. unfold linear_constraint. cbn [mapM]. unfold parse_constraint.
  destruct (tokenize_constraint code names) as [toks|e] eqn:E; cbn [bind].
  - apply tokenize_ok_iff in E. destruct Hl as [[toks' [Hne L]]|F]; [|exfalso; eauto].
    assert (toks' = toks) by (apply tokenize_ok_iff in E, L; congruence). subst toks'.
    pose proof (proj2 (lexes_known _ _ _ _ _ _ E)) as S.
    destruct (infix_parse toks constraint_ops constraint_atoms) as [n|e] eqn:EP; cbn [bind].
    + exfalso. destruct (parse_correct_lemma constraint_ops constraint_atoms code toks constraint_table_good S) as [A _].
      destruct (A n EP) as [c [V [Y R]]]. apply Hn. exists c. split; [now rewrite Y|exact V].
    + destruct (parse_errors_lemma _ _ code toks e constraint_table_good S Hne EP) as [m [t [Hin ->]]]. exists m, (tk_origin t). split; [reflexivity|].
      rewrite Forall_forall in S. now apply S.
  - apply tokenize_err_iff in E. destruct E as [toks [rest [m [_ [_ [_ [_ ->]]]]]]]. eexists. eexists. split; reflexivity.
Qed.
Lemma blank_lemma names code : lexes names code 0 code [] "" -> linear_constraint (LikeString code) names = Err IndexError.
Proof.
  intros H. apply tokenize_ok_iff in H. unfold linear_constraint. cbn [mapM]. unfold parse_constraint. rewrite H. cbn [bind].
  rewrite parse_empty_lemma by exact constraint_table_good. reflexivity.
Qed.

(** * combine *)
Lemma combine_ok_iff cs c : lc_combine cs = Ok c -> Forall well_shaped cs ->
  cs <> [] /\ Forall (fun d => lc_names d = lc_names c) cs /\ well_shaped c /\
  lc_coefs c = flat_map lc_coefs cs /\ lc_consts c = flat_map lc_consts cs /\
  forall beta, satisfies c beta <-> Forall (fun d => satisfies d beta) cs.
Proof.
  intros H W. destruct cs as [|c0 cs]; [discriminate|]. split; [discriminate|].
  assert (E : Forall (fun d => lc_names d = lc_names c0) (c0 :: cs)).
  { unfold lc_combine in H. destruct (forallb (fun d => names_eqb (lc_names d) (lc_names c0)) (c0 :: cs)) eqn:E; cbn [negb] in H; [|discriminate].
    rewrite forallb_forall in E. apply Forall_forall. intros d Hd. apply names_eqb_iff. now apply E. }
  destruct (combine_spec (c0 :: cs) (lc_names c0)) as [c' [E' [N1 [W1 [A [B C]]]]]]; [discriminate| |].
  { rewrite Forall_forall in *. auto. }
  rewrite E' in H. injection H as <-. rewrite N1. auto 10.
Qed.
Lemma combine_total cs : Forall well_shaped cs ->
  ((exists c, lc_combine cs = Ok c) <-> cs <> [] /\ exists names, Forall (fun d => lc_names d = names) cs) /\
  (forall e, lc_combine cs = Err e -> exists m, e = ValueError m).
Proof.
  intros W. split; [split|].
  - intros [c H]. destruct (combine_ok_iff _ _ H W) as [A [B _]]. eauto.
  - intros [Hne [names H]]. destruct (combine_spec cs names Hne) as [c [E _]]; [rewrite Forall_forall in *; auto|]. eauto.
  - intros e H. destruct cs as [|c0 cs]; cbn in H; [injection H as <-; eauto|].
    unfold lc_combine in H. destruct (negb _); [injection H as <-; eauto|].
    pose proof (mk_lcon_spec (lc_names c0) (flat_map lc_coefs (c0 :: cs)) (flat_map lc_consts (c0 :: cs))) as M.
    destruct (mk_lcon _ _ _) as [c|e']; [discriminate|]. injection H as <-. apply M.
Qed.

(** * Mappings *)
Lemma np_index_spec n z i : np_index n z = Ok i <-> i < n /\ (z = Z.of_nat i \/ z = Z.of_nat i - Z.of_nat n)%Z.
Proof.
  unfold np_index. destruct (Z.ltb_spec z 0) as [Hz|Hz].
  - destruct (Z.leb_spec 0 (z + Z.of_nat n)); cbn [andb]; [destruct (Z.ltb_spec (z + Z.of_nat n) (Z.of_nat n)); cbn [andb]|]; (split; [intros [= <-]; lia || discriminate|]); try lia.
    intros [H1 H2]. f_equal. lia.
  - destruct (Z.leb_spec 0 z); cbn [andb]; [destruct (Z.ltb_spec z (Z.of_nat n)); cbn [andb]|]; (split; [intros H'; try discriminate; injection H' as <-; lia|]); try lia.
    intros [H1 H2]. f_equal. lia.
Qed.
Lemma name_index_column names s i : name_index s names = Some i <-> names_column names (KName s) i.
Proof.
  cbn. revert i. induction names as [|y l IH]; intros i; cbn.
  - split; [discriminate|]. intros [H _]. destruct i; discriminate.
  - destruct (String.eqb_spec y s) as [->|N].
    + split; [intros [= <-]; split; [reflexivity|lia]|]. intros [H1 H2]. destruct i as [|i]; [reflexivity|]. exfalso. exact (H2 0 ltac:(lia) eq_refl).
    + destruct i as [|i].
      * split; [|intros [[= E] _]; congruence]. destruct (name_index s l); discriminate.
      * specialize (IH i). split.
        -- destruct (name_index s l) as [k|]; cbn; [|discriminate]. intros [= <-]. destruct IH as [IH _]. destruct (IH eq_refl) as [A B]. split; [exact A|].
           intros [|j] Hj E; cbn in E; [congruence|]. exact (B j ltac:(lia) E).
        -- intros [A B]. cbn in A. destruct IH as [_ IH]. rewrite IH; [reflexivity|]. split; [exact A|]. intros j Hj. exact (B (S j) ltac:(lia)).
Qed.
(** The position the code computes for a key, before numpy's rule for negative ones. *)
Definition key_pos (k : ckey) (i : nat) : Z := match k with KName _ => Z.of_nat i | KInt z => z end.
Lemma key_index_spec names k i : (let* idx := key_index names k in np_index (length names) idx) = Ok i <-> names_column names k i.
Proof.
  destruct k as [s|z]; cbn [key_index].
  - pose proof (name_index_column names s) as H. destruct (name_index s names) as [j|] eqn:E; cbn [bind].
    + rewrite np_index_spec, <- H. pose proof (name_index_spec s names) as NI. rewrite E in NI. split; [intros [? ?]; f_equal; lia|]. intros [= ->]. split; [apply NI|]. now left.
    + split; [discriminate|]. intros F. apply H in F. discriminate.
  - cbn [bind]. rewrite np_index_spec. reflexivity.
Qed.
Lemma key_pos_index names k i idx : key_index names k = Ok idx -> names_column names k i -> idx = key_pos k i.
Proof.
  destruct k as [s|z]; cbn [key_index key_pos].
  - intros E H. apply name_index_column in H. rewrite H in E. now injection E as <-.
  - intros [= ->] _. reflexivity.
Qed.
Definition unit_row (n i : nat) : list Qc := set_nth (repeat 0%Qc n) i 1%Qc.
Definition key_positions (items : list (ckey * Qc)) (idxs : list nat) : list Z := map (fun p => key_pos (fst (fst p)) (snd p)) (List.combine items idxs).
Lemma mapping_ok names items used rows : mapping_rows names items used = Ok rows <->
  exists idxs, Forall2 (fun it i => names_column names (fst it) i) items idxs /\
    rows = map (fun p => (unit_row (length names) (snd p), snd (fst p))) (List.combine items idxs) /\
    NoDup (key_positions items idxs) /\ forall z, In z (key_positions items idxs) -> ~ In z used.
Proof.
  revert used rows. induction items as [|[k v] items IH]; intros used rows; cbn [mapping_rows].
  - split; [intros [= <-]; exists []; cbn; repeat split; auto using NoDup_nil|]. intros [idxs [H1 [-> _]]]. inversion H1; subst. reflexivity.
  - pose proof (key_index_spec names k) as KS. destruct (key_index names k) as [idx|e] eqn:EK; cbn [bind] in *.
    2: { split; [discriminate|]. intros [idxs [H1 _]]. inversion H1 as [|? i ? ? F]; subst. cbn in F. apply KS in F. discriminate. }
    destruct (existsb (Z.eqb idx) used) eqn:EU.
    { split; [discriminate|]. intros [idxs [H1 [_ [_ H2]]]]. exfalso. inversion H1 as [|? i ? idxs' F HF]; subst. cbn in F.
      apply existsb_exists in EU. destruct EU as [z [Hz Ez]]. apply Z.eqb_eq in Ez. subst z. apply (H2 idx); [|exact Hz]. left. cbn. symmetry. eapply key_pos_index; eauto. }
    assert (NU : ~ In idx used).
    { intros Hin. assert (X : existsb (Z.eqb idx) used = true); [|congruence]. apply existsb_exists. exists idx. split; [exact Hin|apply Z.eqb_refl]. }
    destruct (np_index (length names) idx) as [i|e] eqn:EI; cbn [bind].
    2: { split; [discriminate|]. intros [idxs [H1 _]]. inversion H1 as [|? i ? ? F]; subst. cbn in F. apply KS in F. discriminate. }
    assert (F : names_column names k i) by now apply KS.
    pose proof (key_pos_index _ _ _ _ EK F) as EP.
    specialize (IH (idx :: used)). destruct (mapping_rows names items (idx :: used)) as [rest|e] eqn:ER; cbn [bind].
    + destruct (proj1 (IH rest) eq_refl) as [idxs [H1 [H2 [H3 H4]]]]. split.
      * intros [= <-]. exists (i :: idxs). split; [constructor; assumption|]. split; [cbn; now rewrite H2|]. unfold key_positions. cbn. rewrite <- EP. split.
        -- constructor; [|exact H3]. intros Hin. apply (H4 idx Hin). now left.
        -- intros z [<-|Hz]; [exact NU|]. intros Hu. apply (H4 z Hz). now right.
      * intros [idxs' [H1' [-> _]]]. inversion H1' as [|? i' ? idxs2 F' HF']; subst. cbn in F'. apply KS in F'. injection F' as <-.
        assert (idxs2 = idxs).
        { clear - H1 HF'. revert idxs2 HF'. induction H1 as [|it j its js Hj _ IH]; intros js' H; inversion H as [|? j' ? js2 Hj' H']; subst; [reflexivity|].
          f_equal; [|now apply IH]. apply key_index_spec in Hj, Hj'. congruence. }
        subst idxs2. cbn. reflexivity.
    + split; [discriminate|]. intros [idxs' [H1' [_ [H3 H4]]]]. inversion H1' as [|? i' ? idxs2 F' HF']; subst. cbn in F'. apply KS in F'. injection F' as <-.
      unfold key_positions in H3, H4. cbn in H3, H4. inversion H3 as [|? ? Hn Hd]; subst.
      assert (C : Err e = Ok (map (fun p => (unit_row (length names) (snd p), snd (fst p))) (List.combine items idxs2))); [|discriminate].
      apply IH. exists idxs2. split; [exact HF'|]. split; [reflexivity|]. split; [exact Hd|]. intros z Hz [Ez|Hu]; [apply Hn; rewrite Ez; exact Hz|]. exact (H4 z (or_intror Hz) Hu).
Qed.
Lemma mapping_err names items used e : mapping_rows names items used = Err e -> (exists m, e = ValueError m) \/ e = IndexError.
Proof.
  revert used. induction items as [|[k v] items IH]; intros used; cbn [mapping_rows]; [discriminate|].
  destruct (key_index names k) as [idx|e'] eqn:EK; cbn [bind].
  - destruct (existsb (Z.eqb idx) used); [intros [= <-]; eauto|]. destruct (np_index (length names) idx) as [i|e'] eqn:EI; cbn [bind].
    + destruct (mapping_rows names items (idx :: used)) as [rest|e'] eqn:ER; cbn [bind]; [discriminate|]. intros [= <-]. eauto.
    + intros [= <-]. unfold np_index in EI. destruct (_ && _)%bool; [discriminate|]. injection EI as <-. auto.
  - intros [= <-]. destruct k as [s|z]; cbn in EK; [destruct (name_index s names); [discriminate|]; injection EK as <-; eauto|discriminate].
Qed.

Lemma names_column_lt names k i : names_column names k i -> exists x, nth_error names i = Some x.
Proof.
  destruct k as [s|z]; cbn; [intros [H _]; eauto|]. intros [H _]. destruct (nth_error names i) eqn:E; [eauto|]. apply nth_error_None in E. lia.
Qed.
Lemma combine_map_fst {A B} (l : list A) (m : list B) : length l = length m -> map fst (List.combine l m) = l.
Proof. revert m. induction l as [|x l IH]; intros [|y m] H; cbn in *; try discriminate; [reflexivity|]. f_equal. auto. Qed.
Lemma mapping_lemma names items lc : linear_constraint (LikeMapping items) names = Ok lc ->
  lc_names lc = names /\ well_shaped lc /\ length (lc_coefs lc) = length items /\
  exists idxs, Forall2 (fun it i => names_column names (fst it) i) items idxs /\
    lc_coefs lc = map (unit_row (length names)) idxs /\ lc_consts lc = map snd items /\
    forall beta, satisfies lc beta <-> Forall2 (fun it i => forall x, nth_error names i = Some x -> beta x = snd it) items idxs.
Proof.
  unfold linear_constraint. destruct (mapping_rows names items []) as [rows|] eqn:E; cbn [bind]; [|discriminate]. intros H.
  apply mapping_ok in E. destruct E as [idxs [H1 [-> _]]]. pose proof (f2_len _ _ _ H1) as L.
  pose proof (mk_lcon_spec names (map fst (map (fun p : ckey * Qc * nat => (unit_row (length names) (snd p), snd (fst p))) (List.combine items idxs)))
    (map snd (map (fun p : ckey * Qc * nat => (unit_row (length names) (snd p), snd (fst p))) (List.combine items idxs)))) as M. rewrite H in M. destruct M as [-> W].
  cbn [lc_names lc_coefs lc_consts] in *. split; [reflexivity|]. split; [exact W|]. split; [rewrite !map_length, combine_length; lia|].
  exists idxs. split; [exact H1|]. rewrite !map_map. cbn [fst snd]. split; [|split].
  - clear - L. revert idxs L. induction items as [|it items IH]; intros [|i idxs] L; cbn in *; try discriminate; [reflexivity|]. f_equal. auto.
  - clear - L. revert idxs L. induction items as [|it items IH]; intros [|i idxs] L; cbn in *; try discriminate; [reflexivity|]. f_equal. auto.
  - intros beta. unfold satisfies. cbn [lc_names lc_coefs lc_consts]. rewrite ?map_map. cbn [fst snd]. clear - H1. induction H1 as [|it i items idxs Hc _ IH]; cbn [List.combine map fst snd].
    + split; constructor.
    + destruct (names_column_lt _ _ _ Hc) as [x Ex].
      assert (D : dot (unit_row (length names) i) (map beta names) = beta x).
      { apply dot_unit; [now rewrite nth_error_map, Ex|]. apply nth_error_Some. congruence. }
      split; intros F; inversion F as [|? ? ? ? F1 F2]; subst; (constructor; [|now apply IH]).
      * intros y Ey. rewrite D in F1. congruence.
      * rewrite D. auto.
Qed.
Lemma mapping_accept_lemma names items : Forall (fun it => match fst it with KInt z => (0 <= z)%Z | KName _ => True end) items ->
  ((exists lc, linear_constraint (LikeMapping items) names = Ok lc) <->
   items <> [] /\ exists idxs, Forall2 (fun it i => names_column names (fst it) i) items idxs /\ NoDup idxs) /\
  (forall e, linear_constraint (LikeMapping items) names = Err e -> (exists m, e = ValueError m) \/ e = IndexError).
Proof.
  intros Hpos. assert (KP : forall idxs, Forall2 (fun it i => names_column names (fst it) i) items idxs -> key_positions items idxs = map Z.of_nat idxs).
  { intros idxs H. unfold key_positions. induction H as [|[k v] i items idxs Hc _ IH]; cbn; [reflexivity|]. inversion Hpos as [|? ? P1 P2]; subst. rewrite IH by exact P2. f_equal.
    destruct k as [s|z]; cbn in *; [reflexivity|]. lia. }
  assert (ND : forall idxs : list nat, NoDup (map Z.of_nat idxs) <-> NoDup idxs).
  { intros idxs. split; [apply NoDup_map_inv|]. intros H. apply FinFun.Injective_map_NoDup; [|exact H]. intros a b. lia. }
  unfold linear_constraint. pose proof (mapping_ok names items []) as MO. pose proof (mapping_err names items []) as ME.
  destruct (mapping_rows names items []) as [rows|e] eqn:E; cbn [bind].
  - destruct (proj1 (MO rows) eq_refl) as [idxs [H1 [Er [H3 _]]]]. rewrite (KP _ H1), ND in H3. pose proof (f2_len _ _ _ H1) as L.
    pose proof (mk_lcon_spec names (map fst rows) (map snd rows)) as M. destruct (mk_lcon _ _ _) as [lc|e].
    + split; [|discriminate]. split; [|intros; eauto]. intros _. split; [|eauto]. intros ->. subst rows. cbn in M. destruct M as [-> [_ [F _]]]. apply F. reflexivity.
    + split; [|intros e' [= <-]; left; apply M]. split; [intros [lc F]; discriminate|]. intros [Hne _]. exfalso. apply M. subst rows. split; [|split]; cbn [lc_names lc_coefs lc_consts].
      * apply Forall_forall. intros row Hr. rewrite map_map in Hr. apply in_map_iff in Hr. destruct Hr as [p [<- _]]. cbn. unfold unit_row. now rewrite set_nth_len, repeat_length.
      * destruct items, idxs; cbn in *; congruence || discriminate.
      * now rewrite !map_length.
  - split; [|intros e' [= <-]; now apply ME]. split; [intros [lc F]; discriminate|]. intros [_ [idxs [H1 H2]]]. exfalso.
    assert (C : Err e = Ok (map (fun p => (unit_row (length names) (snd p), snd (fst p))) (List.combine items idxs))); [|discriminate].
    apply MO. exists idxs. split; [exact H1|]. split; [reflexivity|]. split; [rewrite (KP _ H1); now apply ND|]. intros z _ [].
Qed.

(** * Decimal numbers *)
Lemma is_digit_val c : is_digit c = true -> digit_val c = Some (digit_of c).
Proof.
  unfold is_digit, digit_val, digit_of. destruct ((48 <=? nat_of_ascii c) && (nat_of_ascii c <=? 57))%bool eqn:E; [|discriminate]. intros _.
  apply andb_true_iff in E. destruct E as [E _]. apply Nat.leb_le in E. f_equal. lia.
Qed.
Lemma digits_acc_place s acc : digits s -> digits_acc acc s = (acc * 10 ^ Z.of_nat (String.length s) + place_value s)%Z.
Proof.
  revert acc. induction s as [|c s IH]; intros acc H; [cbn; lia|]. apply chars_cons in H. destruct H as [Hc H]. cbn [digits_acc place_value String.length].
  rewrite (is_digit_val c Hc), IH by exact H. rewrite Nat2Z.inj_succ, Z.pow_succ_r by lia. ring.
Qed.
Lemma place_app a b : place_value (a ++ b)%string = (place_value a * 10 ^ Z.of_nat (String.length b) + place_value b)%Z.
Proof.
  induction a as [|c a IH]; cbn [append place_value]; [cbn; lia|]. rewrite IH, length_app_str, Nat2Z.inj_add, Z.pow_add_r by lia. ring.
Qed.
Lemma place_nonneg s : digits s -> (0 <= place_value s)%Z.
Proof.
  induction s as [|c s IH]; intros H; [cbn; lia|]. apply chars_cons in H. destruct H as [Hc H]. cbn [place_value]. specialize (IH H).
  assert (D : (0 <= digit_of c)%Z).
  { unfold is_digit, digit_val in Hc. unfold digit_of. destruct ((48 <=? nat_of_ascii c) && (nat_of_ascii c <=? 57))%bool eqn:E; [|discriminate].
    apply andb_true_iff in E. destruct E as [E _]. apply Nat.leb_le in E. lia. }
  assert (0 <= 10 ^ Z.of_nat (String.length s))%Z by (apply Z.pow_nonneg; lia). nia.
Qed.
Lemma q10_ten z : q10 z = ten_to (Z.to_nat z).
Proof. unfold q10. induction (Z.to_nat z) as [|n IH]; cbn [Qcpower ten_to]; [reflexivity|]. now rewrite IH. Qed.
Lemma ten_nonzero n : ten_to n <> 0%Qc.
Proof.
  induction n as [|n IH]; cbn; [discriminate|]. intros H. apply Qcmult_integral in H. destruct H as [H|H]; [discriminate|auto].
Qed.
Lemma ten_add a b : ten_to (a + b) = (ten_to a * ten_to b)%Qc.
Proof. induction a as [|a IH]; cbn; [ring|]. rewrite IH. ring. Qed.
Definition ten_z (x : Z) : Qc := if (x <? 0)%Z then (/ ten_to (Z.to_nat (- x)))%Qc else ten_to (Z.to_nat x).
Lemma scale10_z m x : scale10 m x = (qz m * ten_z x)%Qc.
Proof. unfold scale10, ten_z. rewrite !q10_ten. destruct (x <? 0)%Z; reflexivity. Qed.
Lemma ten_z_sub x n : ten_z (x - Z.of_nat n) = (ten_z x / ten_to n)%Qc.
Proof.
  unfold ten_z. destruct (Z.ltb_spec (x - Z.of_nat n) 0) as [H|H], (Z.ltb_spec x 0) as [H'|H']; try lia.
  - replace (Z.to_nat (- (x - Z.of_nat n))) with (Z.to_nat (- x) + n) by lia. rewrite ten_add.
    field. repeat split; try apply ten_nonzero.
  - assert (E : ten_to n = (ten_to (Z.to_nat x) * ten_to (Z.to_nat (- (x - Z.of_nat n))))%Qc) by (rewrite <- ten_add; f_equal; lia). rewrite E. field. split; apply ten_nonzero.
  - assert (E : ten_to (Z.to_nat x) = (ten_to (Z.to_nat (x - Z.of_nat n)) * ten_to n)%Qc) by (rewrite <- ten_add; f_equal; lia). rewrite E. field. apply ten_nonzero.
Qed.
Lemma ten_z_int n : qz (10 ^ Z.of_nat n) = ten_to n.
Proof.
  induction n as [|n IH]; [reflexivity|]. rewrite Nat2Z.inj_succ, Z.pow_succ_r by lia. cbn [ten_to]. rewrite <- IH. unfold qz.
  apply Qc_is_canon. unfold Qcmult. cbn [this Q2Qc]. rewrite !Qred_correct. unfold inject_Z, Qmult, Qeq. cbn. lia.
Qed.
Lemma qz_add a b : qz (a + b) = (qz a + qz b)%Qc.
Proof. unfold qz. apply Qc_is_canon. unfold Qcplus. cbn [this Q2Qc]. rewrite !Qred_correct. unfold inject_Z, Qplus, Qeq. cbn. lia. Qed.
Lemma qz_mul a b : qz (a * b) = (qz a * qz b)%Qc.
Proof. unfold qz. apply Qc_is_canon. unfold Qcmult. cbn [this Q2Qc]. rewrite !Qred_correct. unfold inject_Z, Qmult, Qeq. cbn. lia. Qed.

Definition exp_value (s : string) : Z :=
  if first_is (one_of "eE") s then
    let s := str_drop 1 s in
    if first_is (Ascii.eqb "-") s then (- digits_acc 0 (str_drop 1 s))%Z
    else digits_acc 0 (if first_is (Ascii.eqb "+") s then str_drop 1 s else s)
  else 0%Z.
Lemma digit_first d p : digits d -> d <> ""%string -> (forall c, is_digit c = true -> p c = false) -> first_is p d = false.
Proof. intros H N P. destruct (digits_nonempty d H N) as [c [r [-> Hc]]]. cbn. auto. Qed.
Lemma digit_not_minus c : is_digit c = true -> Ascii.eqb "-" c = false.
Proof. destruct (Ascii.eqb_spec "-" c) as [<-|]; [discriminate|reflexivity]. Qed.
Lemma digit_not_plus c : is_digit c = true -> Ascii.eqb "+" c = false.
Proof. destruct (Ascii.eqb_spec "+" c) as [<-|]; [discriminate|reflexivity]. Qed.
Lemma exp_value_factor e f : exponent_factor e f -> ten_z (exp_value e) = f.
Proof.
  intros [|e0 sg d He Hs Hd Hn|e0 d He Hd Hn]; [reflexivity| |].
  - assert (E : exp_value (e0 ++ sg ++ d)%string = place_value d).
    { assert (D : digits_acc 0 d = place_value d) by (rewrite digits_acc_place by exact Hd; lia).
      pose proof (digit_first d (Ascii.eqb "-") Hd Hn digit_not_minus) as M1. pose proof (digit_first d (Ascii.eqb "+") Hd Hn digit_not_plus) as M2.
      cbn in He, Hs. unfold exp_value. destruct He as [<-|[<-|[]]], Hs as [<-|[<-|[]]];
      match goal with |- context [first_is (one_of "eE") ?t] => change (first_is (one_of "eE") t) with true end; cbn [append str_drop]; rewrite ?drop_0, ?M1, ?M2; try exact D;
      match goal with |- context [first_is (Ascii.eqb "-") ?t] => change (first_is (Ascii.eqb "-") t) with false end;
      match goal with |- context [first_is (Ascii.eqb "+") ?t] => change (first_is (Ascii.eqb "+") t) with true end; exact D. }
    rewrite E. unfold ten_z. pose proof (place_nonneg d Hd). destruct (Z.ltb_spec (place_value d) 0); [lia|reflexivity].
  - assert (E : exp_value (e0 ++ "-" ++ d)%string = (- place_value d)%Z).
    { assert (D : digits_acc 0 d = place_value d) by (rewrite digits_acc_place by exact Hd; lia). rewrite <- D.
      cbn in He. destruct He as [<-|[<-|[]]]; cbn [append]; unfold exp_value; cbn [str_drop];
      match goal with |- context [first_is (one_of "eE") ?t] => change (first_is (one_of "eE") t) with true end; cbn iota;
      rewrite ?drop_0; match goal with |- context [first_is (Ascii.eqb "-") ?t] => change (first_is (Ascii.eqb "-") t) with true end; cbn iota; reflexivity. }
    rewrite E. unfold ten_z. pose proof (place_nonneg d Hd). destruct (Z.ltb_spec (- place_value d) 0).
    + now rewrite Z.opp_involutive.
    + assert (place_value d = 0%Z) as -> by lia. reflexivity.
Qed.
Lemma exp_starts e f p : exponent_factor e f -> (forall c, one_of "eE" c = true -> p c = false) -> first_is p e = false.
Proof.
  intros [|e0 sg d He Hs Hd Hn|e0 d He Hd Hn] P; [reflexivity| |]; cbn in He; destruct He as [<-|[<-|[]]]; cbn [append first_is]; apply P; reflexivity.
Qed.
Lemma e_not_digit c : one_of "eE" c = true -> is_digit c = false.
Proof. intros H. destruct (is_digit c) eqn:E; [|reflexivity]. apply digit_not_e in E. congruence. Qed.
Lemma e_not_dot c : one_of "eE" c = true -> Ascii.eqb "." c = false.
Proof. destruct (Ascii.eqb_spec "." c) as [<-|]; [discriminate|reflexivity]. Qed.

Lemma decimal_lemma a b e f : digits a -> digits b -> b <> ""%string -> exponent_factor e f ->
  decimal_value (a ++ "." ++ b ++ e) = ((qz (place_value a) + qz (place_value b) / ten_to (String.length b)) * f)%Qc /\
  decimal_value (b ++ e) = (qz (place_value b) * f)%Qc.
Proof.
  intros Ha Hb Hn He. pose proof (exp_value_factor e f He) as EF. split.
  - assert (E1 : first_is (Ascii.eqb "-") (a ++ "." ++ b ++ e)%string = false /\ first_is (one_of "-+") (a ++ "." ++ b ++ e)%string = false).
    { destruct a as [|c a]; [split; reflexivity|]. apply chars_cons in Ha. destruct Ha as [Hc _]. cbn [append first_is]. split; [now apply digit_not_minus|now apply digit_not_sign]. }
    destruct E1 as [E1 E2]. unfold decimal_value. rewrite E1, E2. cbn zeta.
    rewrite (span_app is_digit a ("." ++ b ++ e)%string Ha) by reflexivity. rewrite drop_app, take_app.
    match goal with |- context [first_is (Ascii.eqb ".") ?t] => change (first_is (Ascii.eqb ".") t) with true end. cbn iota.
    assert (D1 : str_drop 1 ("." ++ b ++ e)%string = (b ++ e)%string) by (cbn [append str_drop]; apply drop_0). rewrite D1.
    rewrite (span_app is_digit b e Hb (exp_starts e f _ He e_not_digit)), take_app.
    assert (D2 : str_drop (1 + String.length b) ("." ++ b ++ e)%string = e) by (cbn [append str_drop plus]; apply drop_app). rewrite D2.
    change (if first_is (one_of "eE") e then _ else 0%Z) with (exp_value e). rewrite scale10_z, ten_z_sub, EF.
    rewrite digits_acc_place by (apply digits_app; auto). rewrite place_app. cbn [Z.mul Z.add].
    rewrite qz_add, qz_mul, ten_z_int. field. apply ten_nonzero.
  - destruct (digits_nonempty b Hb Hn) as [c [r [Eb Hc]]].
    assert (E1 : first_is (Ascii.eqb "-") (b ++ e)%string = false /\ first_is (one_of "-+") (b ++ e)%string = false).
    { rewrite Eb. cbn [append first_is]. split; [now apply digit_not_minus|now apply digit_not_sign]. }
    destruct E1 as [E1 E2]. unfold decimal_value. rewrite E1, E2. cbn zeta.
    rewrite (span_app is_digit b e Hb (exp_starts e f _ He e_not_digit)), drop_app, take_app.
    rewrite (exp_starts e f _ He e_not_dot). cbn iota.
    change (if first_is (one_of "eE") e then _ else 0%Z) with (exp_value e). rewrite scale10_z. cbn [String.length Z.of_nat]. rewrite Z.sub_0_r, EF, app_nil_str.
    rewrite digits_acc_place by exact Hb. cbn [Z.mul Z.add]. reflexivity.
Qed.
Lemma number_has_value s : number_text s -> exists a b e f, digits a /\ digits b /\ b <> ""%string /\ exponent_factor e f /\ (s = a ++ "." ++ b ++ e \/ s = b ++ e)%string.
Proof.
  intros [d1 [pt [d2 [e [-> [H1 [Hp [H2 [Hn He]]]]]]]]].
  assert (F : exists f, exponent_factor e f).
  { destruct He as [|e0 sg d A B C D]; [eexists; constructor|]. cbn in B. destruct B as [<-|[<-|[<-|[]]]].
    - eexists. apply (ef_pos e0 ""); cbn; auto.
    - eexists. apply (ef_pos e0 "+"); cbn; auto.
    - eexists. apply (ef_neg e0 d); auto. }
  destruct F as [f F]. cbn in Hp. destruct Hp as [<-|[<-|[]]].
  - exists ""%string, (d1 ++ d2)%string, e, f. split; [reflexivity|]. split; [now apply digits_app|]. split; [destruct d1, d2; cbn; congruence|]. split; [exact F|]. right. cbn. now rewrite app_assoc_str.
  - exists d1, d2, e, f. auto 10.
Qed.

Lemma matrix_meaning names coefs consts :
  let k := match consts with Some c => c | None => map (fun _ => 0%Qc) coefs end in
  match linear_constraint (match consts with Some c => LikePair coefs c | None => LikeArray coefs end) names with
  | Ok lc => well_shaped (mkLcon names coefs k) /\ lc = mkLcon names coefs k /\
      forall beta, satisfies lc beta <-> Forall2 (fun row c => dot row (map beta names) = c) coefs k
  | Err e => (exists m, e = ValueError m) /\ ~ well_shaped (mkLcon names coefs k)
  end.
Proof.
  intros k. assert (E : linear_constraint (match consts with Some c => LikePair coefs c | None => LikeArray coefs end) names = mk_lcon names coefs (Some k)).
  { unfold k. destruct consts as [c|]; [reflexivity|]. cbn. unfold mk_lcon. f_equal.
    assert (R : forall {A} (l : list A), map (fun _ => 0%Qc) l = repeat 0%Qc (length l)) by (intros A l; induction l; cbn; congruence). now rewrite R. }
  rewrite E. pose proof (mk_lcon_spec names coefs k) as M. destruct (mk_lcon _ _ _) as [lc|e]; [|exact M]. destruct M as [-> M].
  split; [exact M|]. split; [reflexivity|]. intros beta. reflexivity.
Qed.
