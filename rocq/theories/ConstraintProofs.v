From Coq Require Import Ascii.
From Verif Require Import Base InfixModel InfixSpec InfixProofs DescModel NumModel ConstraintModel ConstraintSpec.
Open Scope nat_scope.

(** * Vectors *)
Lemma qc_eqb x y : Qc_eq_bool x y = true <-> x = y.
Proof.
  unfold Qc_eq_bool. destruct (Qc_eq_dec x y); intuition congruence.
Qed.
Lemma all_zero_iff v : all_zero v = true <-> Forall (fun x => x = 0%Qc) v.
Proof.
  unfold all_zero. rewrite forallb_forall, Forall_forall. split; intros H x Hx; [apply qc_eqb|apply qc_eqb]; auto.
Qed.
Lemma dot_zero v w : Forall (fun x => x = 0%Qc) v -> dot v w = 0%Qc.
Proof.
  intros H. revert w. induction H as [|x v -> H IH]; intros [|y w]; cbn; try reflexivity. rewrite IH. ring.
Qed.
Lemma dot_repeat n w : dot (repeat 0%Qc n) w = 0%Qc.
Proof. apply dot_zero. apply Forall_forall. intros x Hx. now apply repeat_spec in Hx. Qed.
Lemma name_index_spec x l : match name_index x l with
  | Some i => nth_error l i = Some x /\ i < length l
  | None => ~ In x l
  end.
Proof.
  induction l as [|y l IH]; cbn; [tauto|]. destruct (String.eqb_spec y x) as [->|N].
  - cbn. split; [reflexivity|lia].
  - destruct (name_index x l) as [i|]; cbn; [destruct IH; split; [assumption|lia]|]. intros [E|E]; auto.
Qed.
Lemma dot_unit n i w y : nth_error w i = Some y -> i < n -> dot (set_nth (repeat 0%Qc n) i 1%Qc) w = y.
Proof.
  revert i w. induction n as [|n IH]; intros i w E L; [lia|]. destruct w as [|z w]; [destruct i; discriminate|]. destruct i as [|i]; cbn in *.
  - injection E as ->. rewrite dot_repeat. ring.
  - rewrite (IH i w E) by lia. ring.
Qed.
Lemma set_nth_len {A} (l : list A) i x : length (set_nth l i x) = length l.
Proof. revert i. induction l as [|y l IH]; intros [|i]; cbn; auto. Qed.
Lemma vmap2_length f a b : length a = length b -> length (vmap2 f a b) = length a.
Proof. intros H. unfold vmap2. rewrite map_length, combine_length. lia. Qed.
Lemma dot_plus a b w : length a = length b -> dot (vmap2 Qcplus a b) w = (dot a w + dot b w)%Qc.
Proof.
  revert b w. induction a as [|x a IH]; intros [|y b] [|z w] H; cbn in *; try discriminate; try ring.
  unfold vmap2 in IH. rewrite IH by lia. ring.
Qed.
Lemma dot_minus a b w : length a = length b -> dot (vmap2 Qcminus a b) w = (dot a w - dot b w)%Qc.
Proof.
  revert b w. induction a as [|x a IH]; intros [|y b] [|z w] H; cbn in *; try discriminate; try ring.
  unfold vmap2 in IH. rewrite IH by lia. ring.
Qed.
Lemma dot_scale (f : Qc -> Qc) k a w : (forall x, f x = (k * x)%Qc) -> dot (map f a) w = (k * dot a w)%Qc.
Proof.
  intros Hf. revert w. induction a as [|x a IH]; intros [|y w]; cbn; try ring. rewrite IH, Hf. ring.
Qed.

Lemma f2_len {A B} (P : A -> B -> Prop) l m : Forall2 P l m -> length l = length m.
Proof. induction 1; cbn; auto. Qed.

(** * Shapes *)
Lemma names_eqb_iff a b : names_eqb a b = true <-> a = b.
Proof. unfold names_eqb. destruct (list_eq_dec string_dec a b); intuition congruence. Qed.
Lemma mk_lcon_spec names coefs consts :
  match mk_lcon names coefs (Some consts) with
  | Ok c => c = mkLcon names coefs consts /\ well_shaped c
  | Err e => (exists m, e = ValueError m) /\ ~ well_shaped (mkLcon names coefs consts)
  end.
Proof.
  unfold mk_lcon, well_shaped. cbn.
  destruct (forallb (fun row => length row =? length names) coefs) eqn:E; cbn.
  - assert (HF : Forall (fun row => length row = length names) coefs).
    { apply Forall_forall. intros row Hr. rewrite forallb_forall in E. specialize (E row Hr). cbn beta in E. now apply Nat.eqb_eq in E. }
    destruct coefs as [|r0 coefs]; cbn [length Nat.eqb].
    + split; [eauto|]. intros [_ [H _]]. congruence.
    + destruct consts as [|k0 consts]; cbn [length Nat.eqb negb]; [split; [eauto|intros [_ [_ H]]; discriminate]|].
      destruct (Nat.eqb_spec (length coefs) (length consts)); cbn.
      * split; [reflexivity|]. split; [exact HF|]. split; [discriminate|]. congruence.
      * split; [eauto|]. intros [_ [_ H]]. injection H as H. congruence.
  - split; [eauto|]. intros [H _]. 
    assert (C : forallb (fun row => length row =? length names) coefs = true); [|congruence].
    apply forallb_forall. rewrite Forall_forall in H. intros row Hr. apply Nat.eqb_eq. auto.
Qed.
Lemma combine_spec cs names : cs <> [] -> Forall (fun c => lc_names c = names /\ well_shaped c) cs ->
  exists c, lc_combine cs = Ok c /\ lc_names c = names /\ well_shaped c /\
    lc_coefs c = flat_map lc_coefs cs /\ lc_consts c = flat_map lc_consts cs /\
    forall beta, satisfies c beta <-> Forall (fun c => satisfies c beta) cs.
Proof.
  intros Hne H. destruct cs as [|c0 cs]; [congruence|]. unfold lc_combine.
  assert (Hin : In c0 (c0 :: cs)) by now left. remember (c0 :: cs) as l eqn:El. clear El Hne.
  assert (E : forallb (fun d => names_eqb (lc_names d) (lc_names c0)) l = true).
  { apply forallb_forall. intros d Hd. apply names_eqb_iff. rewrite Forall_forall in H. destruct (H d Hd) as [-> _], (H c0 Hin) as [-> _]. reflexivity. }
  rewrite E. cbn [negb]. assert (E0 : lc_names c0 = names) by (rewrite Forall_forall in H; now apply (H c0)). rewrite E0.
  assert (W : well_shaped (mkLcon names (flat_map lc_coefs l) (flat_map lc_consts l))).
  { split; [|split]; cbn.
    - clear - H. induction H as [|c l [E [H1 _]] H IH]; cbn; [constructor|]. apply Forall_app. split; [rewrite E in H1; exact H1|exact IH].
    - rewrite Forall_forall in H. destruct (H c0 Hin) as [_ [_ [N _]]]. intros E'. apply N. destruct (lc_coefs c0) as [|r0 rs] eqn:Er; [reflexivity|].
      exfalso. apply (in_nil (a := r0)). rewrite <- E'. apply in_flat_map. exists c0. split; [exact Hin|]. rewrite Er. now left.
    - clear - H. induction H as [|c l [_ [_ [_ H1]]] H IH]; cbn; [reflexivity|]. rewrite !app_length. lia. }
  pose proof (mk_lcon_spec names (flat_map lc_coefs l) (flat_map lc_consts l)) as M. destruct (mk_lcon _ _ _) as [c|e]; [|exfalso; now apply M].
  destruct M as [-> Hw]. eexists. split; [reflexivity|]. cbn. split; [reflexivity|]. split; [exact Hw|]. split; [reflexivity|]. split; [reflexivity|].
  intros beta. unfold satisfies at 1. cbn. clear - H. induction H as [|c l [E [_ [_ L]]] H IH]; cbn.
  - split; constructor.
  - split.
    + intros F. apply Forall2_app_inv_l in F as F'. destruct F' as [k1 [k2 [F1 [F2 Ek]]]].
      assert (k1 = lc_consts c /\ k2 = flat_map lc_consts l) as [-> ->].
      { apply f2_len in F1. clear - F1 Ek L. assert (LL : length (lc_consts c) = length k1) by lia. clear L F1.
        revert LL k2 Ek. generalize (lc_consts c) as a. induction k1 as [|y k1 IHk]; intros [|x a] LL k2 Ek; cbn in *; try discriminate; [auto|].
        injection Ek as -> Ek. destruct (IHk a ltac:(lia) k2 Ek) as [-> ->]. auto. }
      constructor; [unfold satisfies; now rewrite E|]. now apply IH.
    + intros F. inversion F as [|? ? F1 F2]; subst. apply Forall2_app; [exact F1|]. now apply IH.
Qed.

(** * The operator table *)
Lemma find_declares a ty p : declares constraint_ops a ty p -> In (a, ty) (map (fun o => (op_arity o, op_type o)) constraint_ops).
Proof.
  intros [b [c [E _]]]. rewrite E, map_app. apply in_or_app. right. now left.
Qed.
Lemma declares2 ty p : declares constraint_ops 2 ty p -> exists s, ty = TName s /\ In s [","; "="; "+"; "-"; "*"; "/"]%string.
Proof.
  intros H. apply find_declares in H. cbn in H.
  repeat (destruct H as [H|H]; [injection H as E <- || injection H as <-; try discriminate; eexists; (split; [reflexivity|cbn; tauto])|]). destruct H.
Qed.
Lemma declares1 ty p : declares constraint_ops 1 ty p -> exists s, ty = TName s /\ In s ["+"; "-"]%string.
Proof.
  intros H. apply find_declares in H. cbn in H.
  repeat (destruct H as [H|H]; [injection H as E <- || injection H as <-; try discriminate; eexists; (split; [reflexivity|cbn; tauto])|]). destruct H.
Qed.

Section Eval.
Variable names : list string.
Notation N := (length names).

Definition is_con (c : cst) : bool := match unparen c with CBin _ t _ => tok_is "," t || tok_is "=" t | _ => false end.

Fixpoint csize (c : cst) : nat :=
  match c with CAtom _ => 1 | CUn _ c => S (csize c) | CBin l _ r => S (csize l + csize r) | CParen _ c _ => S (csize c) end.

(** Inversion of [represents]. *)
Lemma rep_atom n t : represents n (tree_of (CAtom t)) -> exists o, n = Node (tk_type t) (Some t) [] o.
Proof. intros H. inversion H as [ty tok args org ts HF]; subst. inversion HF; subst. eauto. Qed.
Lemma rep_un n t c : represents n (tree_of (CUn t c)) -> exists a o, n = Node (tk_type t) (Some t) [a] o /\ represents a (tree_of c).
Proof. intros H. inversion H as [ty tok args org ts HF]; subst. inversion HF as [|a ? l ? Ha Hl]; subst. inversion Hl; subst. eauto. Qed.
Lemma rep_bin n l t r : represents n (tree_of (CBin l t r)) -> exists a b o, n = Node (tk_type t) (Some t) [a; b] o /\ represents a (tree_of l) /\ represents b (tree_of r).
Proof.
  intros H. inversion H as [ty tok args org ts HF]; subst. inversion HF as [|a ? l1 ? Ha Hl]; subst. inversion Hl as [|b ? l2 ? Hb Hl2]; subst.
  inversion Hl2; subst. eauto 8.
Qed.
Lemma tree_unparen c : tree_of c = tree_of (unparen c).
Proof. induction c; cbn; auto. Qed.
Lemma val_unparen beta c : val beta c = val beta (unparen c).
Proof. induction c; cbn; auto. Qed.
Lemma members_unparen c : members c = members (unparen c).
Proof. induction c; cbn; auto. Qed.
Lemma valid_unparen c : valid constraint_ops constraint_atoms c -> valid constraint_ops constraint_atoms (unparen c).
Proof. induction c; cbn; auto. intros H. inversion H; subst. auto. Qed.
Lemma known_unparen c : known names c -> known names (unparen c).
Proof. induction c; cbn; auto. Qed.
Lemma csize_unparen c : csize (unparen c) <= csize c.
Proof. induction c; cbn; lia. Qed.
Lemma unparen_not_paren c lp d rp : unparen c <> CParen lp d rp.
Proof. induction c; cbn; congruence. Qed.

(** What the evaluator returns. *)
Definition vec_ok (c : cst) (v : list Qc) (k : Qc) : Prop :=
  length v = N /\ forall beta, val beta c = Some (dot v (map beta names) + k)%Qc.
Definition con_ok (c : cst) (lc : lcon) : Prop :=
  lc_names lc = names /\ well_shaped lc /\ forall beta, satisfies lc beta <-> holds beta c.

Lemma one_row v k : length v = N -> exists c, mk_lcon names [v] (Some [k]) = Ok c /\ lc_names c = names /\ well_shaped c /\
  forall beta, satisfies c beta <-> dot v (map beta names) = k.
Proof.
  intros H. pose proof (mk_lcon_spec names [v] [k]) as M.
  assert (W : well_shaped (mkLcon names [v] [k])) by (split; [repeat constructor; exact H|split; [discriminate|reflexivity]]).
  destruct (mk_lcon _ _ _) as [c|e]; [|exfalso; now apply M]. destruct M as [-> Hw]. eexists. split; [reflexivity|]. split; [reflexivity|]. split; [exact Hw|].
  intros beta. unfold satisfies. cbn. split; [intros F; inversion F; subst; reflexivity|]. intros E. constructor; [exact E|constructor].
Qed.
Lemma minus_zero x y : (x - y = 0)%Qc <-> x = y.
Proof. split; [intros H; replace x with ((x - y) + y)%Qc by ring; rewrite H; ring|intros ->; ring]. Qed.

Lemma holds_expr beta c : is_con c = false -> (holds beta c <-> val beta c = Some 0%Qc).
Proof.
  unfold is_con. induction c as [t|t c IH|l IHl t r IHr|lp c IH rp]; cbn; try tauto.
  intros Hcon. apply orb_false_iff in Hcon. destruct Hcon as [-> ->]. tauto.
Qed.
Lemma members_single beta c x : is_con c = false -> Forall (fun e => val beta e = Some x) (members c) <-> val beta c = Some x.
Proof.
  intros H. rewrite members_unparen, (val_unparen beta c). unfold is_con in H. pose proof (unparen_not_paren c) as NP.
  assert (E : members (unparen c) = [unparen c]).
  { destruct (unparen c) as [t|t d|l t r|lp d rp]; [reflexivity|reflexivity| |exfalso; eapply NP; reflexivity].
    cbn [members]. apply orb_false_iff in H. destruct H as [_ ->]. reflexivity. }
  rewrite E. split; [intros F; apply (Forall_inv F)|]. intros E'. constructor; [exact E'|constructor].
Qed.
Lemma holds_eq beta c p : equation c = Some p -> (holds beta c <-> exists x, Forall (fun e => val beta e = Some x) (members c)).
Proof.
  unfold equation. induction c as [t|t c IH|l IHl t r IHr|lp c IH rp]; cbn; try discriminate.
  - destruct (tok_is "=" t) eqn:E; [|discriminate]. intros _. replace (tok_is "," t) with false; [tauto|].
    unfold tok_is in *. destruct (ttype_eqb_spec (tk_type t) (TName "=")) as [->|]; [reflexivity|discriminate].
  - intros H. apply IH. exact H.
Qed.
Lemma equation_members c l r : equation c = Some (l, r) -> members c = members l ++ members r.
Proof.
  unfold equation. induction c as [t|t c IH|l' IHl t r' IHr|lp c IH rp]; cbn; try discriminate.
  - destruct (tok_is "=" t); [|discriminate]. intros [= -> ->]. reflexivity.
  - exact IH.
Qed.
Lemma equation_size c l r : equation c = Some (l, r) -> csize l + csize r < csize c.
Proof.
  unfold equation. induction c as [t|t c IH|l' IHl t r' IHr|lp c IH rp]; cbn; try discriminate.
  - destruct (tok_is "=" t); [|discriminate]. intros [= -> ->]. lia.
  - intros H. apply IH in H. lia.
Qed.
Lemma equation_valid c l r : equation c = Some (l, r) -> valid constraint_ops constraint_atoms c ->
  valid constraint_ops constraint_atoms l /\ valid constraint_ops constraint_atoms r.
Proof.
  unfold equation. intros H V. apply valid_unparen in V. destruct (unparen c) as [t|t d|l' t r'|lp d rp]; try discriminate.
  destruct (tok_is "=" t); [|discriminate]. injection H as -> ->. inversion V; subst. auto.
Qed.
Lemma equation_node c n : valid constraint_ops constraint_atoms c -> represents n (tree_of c) ->
  match equation c with
  | Some (l, r) => is_eq n = true /\ exists a b, n_args n = [a; b] /\ represents a (tree_of l) /\ represents b (tree_of r)
  | None => is_eq n = false
  end.
Proof.
  intros V H. rewrite tree_unparen in H. apply valid_unparen in V. unfold equation. pose proof (unparen_not_paren c) as NP.
  destruct (unparen c) as [t|t d|l t r|lp d rp].
  - apply rep_atom in H. destruct H as [o ->]. inversion V as [? _ _ Hin| | |]; subst. unfold is_eq, is_type. cbn.
    cbn in Hin. destruct Hin as [<-|[<-|[]]]; reflexivity.
  - apply rep_un in H. destruct H as [a [o [-> _]]]. inversion V as [|? ? p _ Hd _ _| |]; subst. unfold is_eq, is_type. cbn.
    apply declares1 in Hd. destruct Hd as [s [-> Hs]]. cbn in Hs. destruct Hs as [<-|[<-|[]]]; reflexivity.
  - apply rep_bin in H. destruct H as [a [b [o [-> [Ha Hb]]]]]. unfold is_eq, is_type, tok_is. cbn.
    destruct (ttype_eqb (tk_type t) (TName "=")); [|reflexivity]. split; [reflexivity|]. eauto.
  - exfalso. eapply NP. reflexivity.
Qed.
Lemma equation_con c p : equation c = Some p -> is_con c = true.
Proof. unfold equation, is_con. destruct (unparen c); try discriminate. destruct (tok_is "=" t); [rewrite orb_true_r; reflexivity|discriminate]. Qed.

(** What is known about the value of one expression. *)
Definition sound_at (c : cst) (r : result cval) : Prop :=
  (forall v k, r = Ok (CVec v k) -> vec_ok c v k /\ is_con c = false) /\
  (forall lc, r = Ok (CCon lc) -> con_ok c lc /\ is_con c = true).
Lemma force_vec_sound c n r v k : sound_at c r -> force_vec n r = Ok (v, k) -> vec_ok c v k /\ is_con c = false.
Proof. intros [H _]. unfold force_vec. destruct r as [[v' k'|]|]; cbn; try discriminate. intros [= -> ->]. now apply H. Qed.
Lemma force_con_sound c n r lc : sound_at c r -> force_con names n r = Ok lc -> con_ok c lc.
Proof.
  intros [Hv Hc]. unfold force_con. destruct r as [[v k|l]|]; cbn; [| |discriminate].
  - destruct (Hv v k eq_refl) as [[Hl Hval] Hcon]. destruct (all_zero v); [discriminate|]. destruct (one_row v (- k)%Qc Hl) as [c' [E [H1 [H2 H3]]]]. rewrite E. intros [= <-].
    split; [exact H1|]. split; [exact H2|]. intros beta. rewrite H3, (holds_expr beta c Hcon), Hval. split.
    + intros ->. f_equal. ring.
    + intros E1. assert (E0 : (dot v (map beta names) + k)%Qc = 0%Qc) by congruence. replace (dot v (map beta names)) with ((dot v (map beta names) + k) - k)%Qc by ring. rewrite E0. ring.
  - intros [= <-]. now apply Hc.
Qed.

(** One side of an equation. *)
Definition side_ok (c : cst) (cs : list lcon) (v : list Qc) (k : Qc) : Prop :=
  length v = N /\ Forall (fun l => lc_names l = names /\ well_shaped l) cs /\
  forall beta, (Forall (fun l => satisfies l beta) cs <-> exists x, Forall (fun e => val beta e = Some x) (members c)) /\
    (forall x, Forall (fun e => val beta e = Some x) (members c) -> x = (dot v (map beta names) + k)%Qc).
Lemma side_plain c v k : vec_ok c v k -> is_con c = false -> side_ok c [] v k.
Proof.
  intros [Hl Hv] Hc. split; [exact Hl|]. split; [constructor|]. intros beta. split.
  - split; [intros _|constructor]. exists (dot v (map beta names) + k)%Qc. apply members_single; auto.
  - intros x F. apply members_single in F; [|exact Hc]. rewrite Hv in F. congruence.
Qed.
Lemma side_eq c e lc v k l r : equation c = Some (l, r) -> (e = l \/ e = r) -> con_ok c lc -> vec_ok e v k -> is_con e = false ->
  side_ok c [lc] v k.
Proof.
  intros He Hor [H1 [H2 H3]] [Hl Hv] Hc. split; [exact Hl|]. split; [constructor; [split; assumption|constructor]|]. intros beta.
  rewrite (equation_members _ _ _ He). split.
  - rewrite <- (equation_members _ _ _ He), <- (holds_eq beta c _ He), <- H3. split; [intros F; inversion F; assumption|]. intros S. constructor; [exact S|constructor].
  - intros x F. apply Forall_app in F. destruct F as [F1 F2]. assert (F : Forall (fun e => val beta e = Some x) (members e)) by (destruct Hor; subst; assumption).
    apply members_single in F; [|exact Hc]. rewrite Hv in F. congruence.
Qed.

Lemma tok_name s t x : tk_type t = TName x -> tok_is s t = String.eqb x s.
Proof. intros H. unfold tok_is. rewrite H. reflexivity. Qed.

Lemma eval_sound m : forall c, csize c <= m -> valid constraint_ops constraint_atoms c -> forall n, represents n (tree_of c) ->
  sound_at c (eval_con names n).
Proof.
  induction m as [|m IH]; intros c Hm V n H; [destruct c; cbn in Hm; lia|].
  destruct c as [t|t c|l t r|lp c rp].
  - apply rep_atom in H. destruct H as [o ->]. inversion V as [? _ _ Hin| | |]; subst. cbn in Hin.
    assert (T : tk_type t = TName "NUMBER" \/ tk_type t = TName "VARIABLE") by (destruct Hin as [|[|[]]]; auto). clear Hin.
    split.
    + intros v k E. split; [|reflexivity]. destruct T as [T|T]; rewrite T in E; cbn in E; unfold vec_ok; cbn [val]; rewrite (tok_name _ _ _ T); cbn.
      * destruct (tk_extra t) as [x|] eqn:Ex; cbn in E; [|discriminate]. injection E as <- <-. split; [apply repeat_length|]. intros beta.
        rewrite dot_repeat. unfold ttext. rewrite Ex. f_equal. ring.
      * destruct (tk_extra t) as [x|] eqn:Ex; cbn in E; [|discriminate]. pose proof (name_index_spec x names) as NI. destruct (name_index x names) as [i|]; [|discriminate].
        destruct NI as [NI Li]. injection E as <- <-. split; [now rewrite set_nth_len, repeat_length|]. intros beta.
        rewrite (dot_unit N i (map beta names) (beta x)); [unfold ttext; rewrite Ex; f_equal; ring|now rewrite nth_error_map, NI|exact Li].
    + intros lc E. destruct T as [T|T]; rewrite T in E; cbn in E; destruct (tk_extra t); cbn in E; try discriminate. destruct (name_index s names); discriminate.
  - apply rep_un in H. destruct H as [a [o [-> Ha]]]. inversion V as [|? ? p _ Hd Hvc _| |]; subst. cbn in Hm.
    pose proof (IH c ltac:(lia) Hvc a Ha) as Sc. apply declares1 in Hd. destruct Hd as [s [T Hs]]. rewrite T. cbn in Hs.
    destruct Hs as [<-|[<-|[]]]; cbn; (destruct (force_vec a (eval_con names a)) as [[v0 k0]|e] eqn:EV; cbn; [|split; discriminate]);
      destruct (force_vec_sound _ _ _ _ _ Sc EV) as [[Hl Hv] Hcon]; (split; [|discriminate]); intros v k [= <- <-]; (split; [|reflexivity]);
      unfold vec_ok; cbn [val]; rewrite !(tok_name _ _ _ T); cbn.
    + auto.
    + split; [now rewrite map_length|]. intros beta. rewrite Hv. cbn. f_equal. rewrite (dot_scale _ (Qcopp 1)) by reflexivity. ring.
  - apply rep_bin in H. destruct H as [a [b [o [-> [Ha Hb]]]]]. inversion V as [| |? ? ? p _ Hd Hvl Hvr _ _|]; subst. cbn [csize] in Hm.
    pose proof (IH l ltac:(lia) Hvl a Ha) as Sl. pose proof (IH r ltac:(lia) Hvr b Hb) as Sr.
    apply declares2 in Hd. destruct Hd as [s [T Hs]]. rewrite T.
    cbn in Hs. destruct Hs as [<-|[<-|Hs]].
    + (* , *)
      cbn [eval_con String.eqb Ascii.eqb Bool.eqb]. destruct (force_con names a (eval_con names a)) as [cl|e] eqn:EL; cbn [bind]; [|split; discriminate].
      destruct (force_con names b (eval_con names b)) as [cr|e] eqn:ER; cbn [bind]; [|split; discriminate].
      destruct (force_con_sound _ _ _ _ Sl EL) as [L1 [L2 L3]]. destruct (force_con_sound _ _ _ _ Sr ER) as [R1 [R2 R3]].
      destruct (combine_spec [cl; cr] names) as [k [E [K1 [K2 [_ [_ K3]]]]]]; [discriminate|auto|]. rewrite E. cbn. split; [discriminate|]. intros lc [= <-].
      split; [|unfold is_con; cbn; now rewrite (tok_name _ _ _ T)]. split; [exact K1|]. split; [exact K2|]. intros beta. rewrite K3. cbn [holds]. rewrite (tok_name _ _ _ T). cbn.
      rewrite <- L3, <- R3. split; [intros F; inversion F as [|? ? F1 F2]; inversion F2; subst; auto|]. intros [F1 F2]. auto.
    + (* = *)
      pose proof (equation_node l a Hvl Ha) as EQL. pose proof (equation_node r b Hvr Hb) as EQR.
      assert (SL : forall cl v k,
        (if is_eq a then let* c := force_con names a (eval_con names a) in Ok [c] else Ok []) = Ok cl ->
        (if is_eq a then match n_args a with _ :: a2 :: _ => force_vec a2 (eval_con names a2) | _ => Err IndexError end else force_vec a (eval_con names a)) = Ok (v, k) ->
        side_ok l cl v k).
      { intros cl v k E1 E2. destruct (equation l) as [[l1 l2]|] eqn:El.
        - destruct EQL as [Eq [a1 [a2 [Ea [Ha1 Ha2]]]]]. rewrite Eq in E1, E2. rewrite Ea in E2.
          destruct (force_con names a (eval_con names a)) as [c|e] eqn:EL; cbn in E1; [|discriminate]. injection E1 as <-.
          pose proof (equation_size _ _ _ El). destruct (equation_valid _ _ _ El Hvl) as [_ V2].
          destruct (force_vec_sound l2 _ _ _ _ (IH l2 ltac:(lia) V2 a2 Ha2) E2) as [W1 W2].
          eapply (side_eq l l2); eauto. eapply force_con_sound; eauto.
        - rewrite EQL in E1, E2. injection E1 as <-. destruct (force_vec_sound l _ _ _ _ Sl E2) as [W1 W2]. now apply side_plain. }
      assert (SR : forall cl v k,
        (if is_eq b then let* c := force_con names b (eval_con names b) in Ok [c] else Ok []) = Ok cl ->
        (if is_eq b then match n_args b with b1 :: _ => force_vec b1 (eval_con names b1) | _ => Err IndexError end else force_vec b (eval_con names b)) = Ok (v, k) ->
        side_ok r cl v k).
      { intros cl v k E1 E2. destruct (equation r) as [[r1 r2]|] eqn:Er.
        - destruct EQR as [Eq [b1 [b2 [Eb [Hb1 Hb2]]]]]. rewrite Eq in E1, E2. rewrite Eb in E2.
          destruct (force_con names b (eval_con names b)) as [c|e] eqn:ER; cbn in E1; [|discriminate]. injection E1 as <-.
          pose proof (equation_size _ _ _ Er). destruct (equation_valid _ _ _ Er Hvr) as [V1 _].
          destruct (force_vec_sound r1 _ _ _ _ (IH r1 ltac:(lia) V1 b1 Hb1) E2) as [W1 W2].
          eapply (side_eq r r1); eauto. eapply force_con_sound; eauto.
        - rewrite EQR in E1, E2. injection E1 as <-. destruct (force_vec_sound r _ _ _ _ Sr E2) as [W1 W2]. now apply side_plain. }
      cbn [eval_con String.eqb Ascii.eqb Bool.eqb]. cbn [bind].
      destruct (if is_eq a then let* c := force_con names a (eval_con names a) in Ok [c] else Ok []) as [cl|e]; cbn [bind]; [|split; discriminate].
      destruct (if is_eq b then let* c := force_con names b (eval_con names b) in Ok [c] else Ok []) as [cr|e]; cbn [bind]; [|split; discriminate].
      destruct (if is_eq a then match n_args a with _ :: a2 :: _ => _ | _ => _ end else _) as [[v k]|e]; cbn [bind]; [|split; discriminate].
      destruct (if is_eq b then match n_args b with b1 :: _ => _ | _ => _ end else _) as [[w d]|e]; cbn [bind]; [|split; discriminate].
      destruct (SL cl v k eq_refl eq_refl) as [Lv [Lc L]]. destruct (SR cr w d eq_refl eq_refl) as [Rv [Rc R]]. clear SL SR.
      destruct (all_zero (vmap2 Qcminus v w)); cbn [bind]; [split; discriminate|].
      destruct (one_row (vmap2 Qcminus v w) (- k + d)%Qc) as [c0 [E0 [N0 [W0 S0]]]]; [rewrite vmap2_length by lia; exact Lv|].
      rewrite E0. cbn [bind].
      destruct (combine_spec (cl ++ cr ++ [c0]) names) as [c1 [E1 [N1 [W1 [_ [_ S1]]]]]]; [destruct cl, cr; discriminate| |].
      { apply Forall_app. split; [exact Lc|]. apply Forall_app. split; [exact Rc|]. auto. }
      rewrite E1. cbn [bind]. split; [discriminate|]. intros lc [= <-]. split; [|unfold is_con; cbn; now rewrite !(tok_name _ _ _ T)].
      split; [exact N1|]. split; [exact W1|]. intros beta. rewrite S1. cbn [holds]. rewrite !(tok_name _ _ _ T). cbn [String.eqb Ascii.eqb Bool.eqb members].
      rewrite (tok_name _ _ _ T). cbn [String.eqb Ascii.eqb Bool.eqb].
      destruct (L beta) as [L1 L2]. destruct (R beta) as [R1 R2]. rewrite !Forall_app, L1, R1, Forall_cons_iff, S0, dot_minus by lia. split.
      * intros [[x Hx] [[y Hy] [Hd _]]]. exists x. apply Forall_app. split; [exact Hx|]. replace x with y; [exact Hy|].
        rewrite (L2 x Hx), (R2 y Hy).
        replace (dot v (map beta names)) with ((dot v (map beta names) - dot w (map beta names)) + dot w (map beta names))%Qc by ring. rewrite Hd. ring.
      * intros [x Hx]. apply Forall_app in Hx. destruct Hx as [Hx Hy]. split; [eauto|]. split; [eauto|]. split; [|constructor].
        pose proof (L2 x Hx) as E2. pose proof (R2 x Hy) as E3.
        assert (E4 : dot v (map beta names) = (x - k)%Qc) by (rewrite E2; ring).
        assert (E5 : dot w (map beta names) = (x - d)%Qc) by (rewrite E3; ring). rewrite E4, E5. ring.
    + assert (HV : forall v0 k0 v1 k1, force_vec a (eval_con names a) = Ok (v0, k0) -> force_vec b (eval_con names b) = Ok (v1, k1) ->
        vec_ok l v0 k0 /\ vec_ok r v1 k1).
      { intros v0 k0 v1 k1 E0 E1. destruct (force_vec_sound _ _ _ _ _ Sl E0) as [A _]. destruct (force_vec_sound _ _ _ _ _ Sr E1) as [B _]. auto. }
      assert (Hns : String.eqb s "," = false /\ String.eqb s "=" = false) by (destruct Hs as [<-|[<-|[<-|[<-|[]]]]]; split; reflexivity).
      destruct Hns as [Hn1 Hn2].
      assert (NC : is_con (CBin l t r) = false) by (unfold is_con; cbn [unparen]; rewrite !(tok_name _ _ _ T), Hn1, Hn2; reflexivity).
      assert (G : (forall lc, eval_con names (Node (TName s) (Some t) [a; b] o) <> Ok (CCon lc)) /\
        forall v k, eval_con names (Node (TName s) (Some t) [a; b] o) = Ok (CVec v k) -> vec_ok (CBin l t r) v k).
      2: { destruct G as [G1 G2]. split; [intros v k E; split; [now apply G2|exact NC]|]. intros lc E. exfalso. exact (G1 lc E). }
      unfold vec_ok. cbn [val]. rewrite !(tok_name _ _ _ T).
      destruct Hs as [<-|[<-|[<-|[<-|[]]]]]; cbn [eval_con String.eqb Ascii.eqb Bool.eqb];
        (destruct (force_vec a (eval_con names a)) as [[v0 k0]|e] eqn:E0; cbn [bind]; [|split; discriminate]);
        (destruct (force_vec b (eval_con names b)) as [[v1 k1]|e] eqn:E1; cbn [bind]; [|split; discriminate]);
        destruct (HV _ _ _ _ eq_refl eq_refl) as [[L1 L2] [R1 R2]].
      * split; [discriminate|]. intros v k [= <- <-]. split; [rewrite vmap2_length by lia; exact L1|]. intros beta. rewrite L2, R2. cbn. f_equal. rewrite dot_plus by lia. ring.
      * split; [discriminate|]. intros v k [= <- <-]. split; [rewrite vmap2_length by lia; exact L1|]. intros beta. rewrite L2, R2. cbn. f_equal. rewrite dot_minus by lia. ring.
      * destruct (all_zero v0) eqn:Z0; [|destruct (all_zero v1) eqn:Z1; [|split; discriminate]].
        -- split; [discriminate|]. intros v k [= <- <-]. split; [rewrite map_length; exact R1|]. intros beta. rewrite L2, R2. cbn. f_equal.
           apply all_zero_iff in Z0. rewrite (dot_scale _ k0) by reflexivity. rewrite (dot_zero v0) by assumption. ring.
        -- split; [discriminate|]. intros v k [= <- <-]. split; [rewrite map_length; exact L1|]. intros beta. rewrite L2, R2. cbn. f_equal.
           apply all_zero_iff in Z1. rewrite (dot_scale _ k1) by (intros; ring). rewrite (dot_zero v1) by assumption. ring.
      * destruct (all_zero v1) eqn:Z1; cbn [negb]; [|split; discriminate]. destruct (Qc_eq_bool k1 0%Qc) eqn:Zk; [split; discriminate|].
        split; [discriminate|]. intros v k [= <- <-]. split; [rewrite map_length; exact L1|]. intros beta. rewrite L2, R2. cbn.
        apply all_zero_iff in Z1. rewrite (dot_zero v1) by assumption. replace (0 + k1)%Qc with k1 by ring. rewrite Zk. f_equal.
        assert (Hk : k1 <> 0%Qc) by (intros E; apply qc_eqb in E; congruence).
        rewrite (dot_scale _ (/ k1)%Qc) by (intros; unfold Qcdiv; ring). unfold Qcdiv. ring.
  - inversion V; subst. cbn in Hm. destruct (IH c ltac:(lia) ltac:(assumption) n H) as [S1 S2]. split; [exact S1|exact S2].
Qed.
End Eval.
