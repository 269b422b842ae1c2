From Verif Require Import Base OriginModel OriginSpec OriginProofs InfixModel InfixSpec InfixProofs UtilModel UtilSpec UtilProofs
  DescModel DescSpec DescProofs DescTopProofs TokensModel TokensProofs ParseFormulaModel ParseFormulaSpec ParseFormulaProofs
  FormulaModel FormulaSpec FormulaProofs.

Section Describe.
Variable norm : string -> string.
Variable is_float : string -> bool.

Definition dmatch (d : dtok) (t : token) : Prop :=
  match d with
  | DOp s => tk_type t = TName s
  | DExpr s => tk_type t = TName (expr_type is_float s) /\ tk_extra t = Some s
  end.

Lemma sep_by_cons {A} (sep : A) x xs : sep_by sep (x :: xs) = x ++ flat_map (fun y => sep :: y) xs.
Proof.
  revert x; induction xs as [|y xs IH]; intros x; [reflexivity|].
  change (sep_by sep (x :: y :: xs)) with (x ++ sep :: sep_by sep (y :: xs)). rewrite IH. reflexivity.
Qed.

Lemma decl (o : operator) : In o default_ops -> declares default_ops (op_arity o) (op_type o) (op_prec o).
Proof.
  intros H. cbn in H.
  destruct H as [<-|[<-|[<-|[<-|[<-|[<-|[<-|[<-|[<-|[<-|[]]]]]]]]]]]; cbn;
  match goal with |- declares default_ops ?a ?ty ?p =>
    let rec go pre l :=
      match l with
      | mkOp ty a p :: ?r => exists pre, r
      | ?x :: ?r => go (pre ++ [x]) r
      end in
    let l := eval cbv [default_ops] in default_ops in go (@nil operator) l
  end; (split; [reflexivity|]); intros o Ho [E1 E2]; cbn in Ho;
    repeat (destruct Ho as [Ho|Ho]; [subst o; cbn in E1, E2; discriminate|]); contradiction.
Qed.
Lemma decl_tilde1 : declares default_ops 1 (TName "~") (-100).
Proof. apply (decl (mkOp (TName "~") 1 (-100))). cbn; tauto. Qed.
Lemma decl_tilde2 : declares default_ops 2 (TName "~") (-100).
Proof. apply (decl (mkOp (TName "~") 2 (-100))). cbn; tauto. Qed.
Lemma decl_plus : declares default_ops 2 (TName "+") 100.
Proof. apply (decl (mkOp (TName "+") 2 100)). cbn; tauto. Qed.
Lemma decl_colon : declares default_ops 2 (TName ":") 300.
Proof. apply (decl (mkOp (TName ":") 2 300)). cbn; tauto. Qed.
Lemma atoms_not_unary ty p : In ty atomic_token_types -> ~ declares default_ops 1 ty p.
Proof.
  intros H Hd. apply declares_in in Hd. cbn in H, Hd.
  repeat (destruct Hd as [Hd|Hd]; [injection Hd as Ht _; try discriminate; subst ty; intuition discriminate|]); exact Hd.
Qed.

Lemma ro_impl (P Q : Z -> Prop) c : (forall q, P q -> Q q) -> right_open default_ops P c -> right_open default_ops Q c.
Proof. intros H. induction 1; econstructor; eauto. Qed.
Lemma lo_impl (P Q : Z -> Prop) c : (forall q, P q -> Q q) -> left_open default_ops P c -> left_open default_ops Q c.
Proof. intros H. induction 1; econstructor; eauto. Qed.

Definition evals (i r : bool) (ts : list term) (c : cst) : Prop :=
  forall n code, represents n (tree_of c) -> well_org code n ->
    exists o, eval_any norm n = Ok (VExpr (MkIE i o r ts)) /\ (i = true -> o <> None).
Definition good (lvl : Z) (i r : bool) (ts : list term) (c : cst) : Prop :=
  valid default_ops atomic_token_types c /\ right_open default_ops (fun q => (lvl <= q)%Z) c /\
  left_open default_ops (fun q => (lvl <= q)%Z) c /\ evals i r ts c.
Definition nozero (c : cst) : Prop := forall n, represents n (tree_of c) -> ~ lit "ZERO" n.

Definition plain (f : string) : Prop := expr_type is_float f = "PYTHON_EXPR"%string /\ norm f = f.

Lemma represents_leaf n t : represents n (TNode (tk_type t) t []) ->
  exists org, n = Node (tk_type t) (Some t) [] org.
Proof. intros H. inversion H as [ty tok args org ts Ha]; subst. inversion Ha; subst. eauto. Qed.
Lemma represents_bin n ty t x y : represents n (TNode ty t [x; y]) ->
  exists a b org, n = Node ty (Some t) [a; b] org /\ represents a x /\ represents b y.
Proof.
  intros H. inversion H as [ty' tok args org ts Ha]; subst. inversion Ha as [|a ? ? ? H1 H2]; subst.
  inversion H2 as [|b ? ? ? H3 H4]; subst. inversion H4; subst. eauto 10.
Qed.
Lemma represents_un n ty t x : represents n (TNode ty t [x]) ->
  exists a org, n = Node ty (Some t) [a] org /\ represents a x.
Proof.
  intros H. inversion H as [ty' tok args org ts Ha]; subst. inversion Ha as [|a ? ? ? H1 H2]; subst.
  inversion H2; subst. eauto.
Qed.
Lemma org_args code ty t args org : well_org code (Node ty t args org) -> Forall (well_org code) args.
Proof. intros H. inversion H; assumption. Qed.

Lemma atom_good lvl s t : dmatch (DExpr s) t -> plain s -> good lvl false false [[s]] (CAtom t) /\ nozero (CAtom t).
Proof.
  intros [Ht Hx] [Hp Hn]. rewrite Hp in Ht. split.
  - split; [|split; [constructor|split; [constructor|]]].
    + constructor; rewrite ?Ht; [discriminate| |cbn; tauto]. intros p. apply atoms_not_unary. cbn; tauto.
    + intros n code Hr Hw. apply represents_leaf in Hr. destruct Hr as [org ->]. rewrite Ht.
      exists None. cbn. rewrite Hx, Hn. cbn. split; [reflexivity|discriminate].
  - intros n Hr. apply represents_leaf in Hr. destruct Hr as [org ->]. unfold lit. cbn. rewrite Ht. discriminate.
Qed.
Lemma one_good lvl t : dmatch (DExpr "1") t -> good lvl true false [] (CAtom t) /\ nozero (CAtom t).
Proof.
  intros [Ht Hx]. cbn in Ht. split.
  - split; [|split; [constructor|split; [constructor|]]].
    + constructor; rewrite ?Ht; [discriminate| |cbn; tauto]. intros p. apply atoms_not_unary. cbn; tauto.
    + intros n code Hr Hw. apply represents_leaf in Hr. destruct Hr as [org ->].
      inversion Hw; subst. rewrite Ht. eexists. cbn. split; [reflexivity|discriminate].
  - intros n Hr. apply represents_leaf in Hr. destruct Hr as [org ->]. unfold lit. cbn. rewrite Ht. discriminate.
Qed.
Lemma zero_good lvl t : dmatch (DExpr "0") t -> good lvl false true [] (CAtom t).
Proof.
  intros [Ht Hx]. cbn in Ht.
  split; [|split; [constructor|split; [constructor|]]].
  - constructor; rewrite ?Ht; [discriminate| |cbn; tauto]. intros p. apply atoms_not_unary. cbn; tauto.
  - intros n code Hr Hw. apply represents_leaf in Hr. destruct Hr as [org ->].
    rewrite Ht. eexists. cbn. split; [reflexivity|discriminate].
Qed.

Lemma NoDup_snoc_inv (l : list string) x r : NoDup (l ++ x :: r) -> NoDup (l ++ [x]).
Proof.
  intros H. replace (l ++ x :: r) with ((l ++ [x]) ++ r) in H by (rewrite <- app_assoc; reflexivity).
  revert H. generalize (l ++ [x]). intros m. induction m as [|y m IH]; cbn; intros H; [constructor|].
  inversion H as [|? ? Hn Hd]; subst. constructor; [|auto]. intros Hy. apply Hn. apply in_or_app. now left.
Qed.

(* a:b:c *)
Lemma colon_chain fs : forall c0 acc toks,
  good 300 false false [acc] c0 -> nozero c0 -> Forall plain fs -> NoDup (acc ++ fs) ->
  Forall2 dmatch (flat_map (fun f => [DOp ":"; DExpr f]) fs) toks ->
  exists c, yield c = yield c0 ++ toks /\ good 300 false false [acc ++ fs] c /\ nozero c.
Proof.
  induction fs as [|f fs IH]; intros c0 acc toks G0 Z0 Hp Hd HF; cbn [flat_map] in HF.
  - inversion HF; subst. exists c0. rewrite !app_nil_r. auto.
  - cbn [app] in HF. inversion HF as [|? t ? l1 Ht HF1]; subst. inversion HF1 as [|? u ? l2 Hu HF2]; subst.
    inversion Hp as [|? ? Pf Pfs]; subst. cbn in Ht.
    destruct (atom_good 301 f u Hu Pf) as [[Vu [_ [Lu Eu]]] _].
    destruct G0 as [V0 [R0 [L0 E0]]].
    destruct (IH (CBin c0 t (CAtom u)) (acc ++ [f]) l2) as [c [Hy [G Z]]].
    + split; [|split; [|split]].
      * econstructor; rewrite ?Ht; [discriminate|apply decl_colon|exact V0|exact Vu|exact R0|].
        eapply lo_impl; [|exact Lu]. cbn. intros; lia.
      * eapply ro_bin; [rewrite Ht; apply decl_colon|lia|constructor].
      * eapply lo_bin; [rewrite Ht; apply decl_colon|lia|exact L0].
      * intros n code Hr Hw. cbn [tree_of] in Hr. apply represents_bin in Hr.
        destruct Hr as [a [b [org [-> [Ha Hb]]]]]. pose proof (org_args _ _ _ _ _ Hw) as Hwa.
        inversion Hwa as [|? ? Wa Hwb]; subst. inversion Hwb as [|? ? Wb _]; subst.
        destruct (E0 _ _ Ha Wa) as [o1 [Ea _]]. destruct (Eu _ _ Hb Wb) as [o2 [Eb _]].
        exists None. split; [|discriminate]. rewrite Ht. cbn. rewrite Ea. cbn. rewrite Eb. cbn.
        change (uniq_terms [mk_term (acc ++ [f])]) with [mk_term (acc ++ [f])].
        rewrite mk_term_id; [reflexivity|]. eapply NoDup_snoc_inv; eauto.
    + intros n Hr. cbn [tree_of] in Hr. apply represents_bin in Hr. destruct Hr as [a [b [org [-> _]]]].
      unfold lit. cbn. rewrite Ht. discriminate.
    + exact Pfs.
    + rewrite <- app_assoc. exact Hd.
    + exact HF2.
    + exists c. split; [|].
      * rewrite Hy. cbn. rewrite <- !app_assoc. reflexivity.
      * rewrite <- app_assoc in G. auto.
Qed.

Lemma flat_map_map' {A B C} (g : A -> B) (h : B -> list C) l : flat_map h (map g l) = flat_map (fun x => h (g x)) l.
Proof. induction l as [|x l IH]; cbn; [reflexivity|]. now rewrite IH. Qed.

Lemma term_good t toks : t <> [] -> NoDup t -> Forall plain t -> Forall2 dmatch (term_toks t) toks ->
  exists c, yield c = toks /\ good 300 false false [t] c /\ nozero c.
Proof.
  intros Hne Hd Hp HF. destruct t as [|f fs]; [congruence|].
  unfold term_toks in HF. cbn [map] in HF. rewrite sep_by_cons, flat_map_map' in HF.
  cbn [app] in HF. inversion HF as [|? u ? l Hu HF1]; subst. inversion Hp as [|? ? Pf Pfs]; subst.
  destruct (atom_good 300 f u Hu Pf) as [G Z].
  destruct (colon_chain fs (CAtom u) [f] l G Z Pfs Hd HF1) as [c [Hy [Gc Zc]]].
  exists c. split; [exact Hy|]. auto.
Qed.

Definition okterm (t : term) : Prop := t <> [] /\ NoDup t /\ Forall plain t.

Lemma distinct_app_l us vs : distinct term_eqb (us ++ vs) -> distinct term_eqb us.
Proof.
  induction us as [|u us IH]; cbn; intros H; [constructor|]. inversion H as [|? ? Hf Hd]; subst.
  constructor; [apply Forall_app in Hf; tauto|apply IH; exact Hd].
Qed.

(* t1 + t2 + ... *)
Lemma plus_chain_good us : forall c0 i r ts toks,
  good 100 i r ts c0 -> (i = true -> r = false) -> Forall okterm us -> distinct term_eqb (ts ++ us) ->
  Forall2 dmatch (flat_map (fun t => DOp "+" :: term_toks t) us) toks ->
  exists c, yield c = yield c0 ++ toks /\ good 100 i r (ts ++ us) c.
Proof.
  induction us as [|u us IH]; intros c0 i r ts toks G0 Hir Ho Hd HF; cbn [flat_map] in HF.
  - inversion HF; subst. exists c0. rewrite !app_nil_r. auto.
  - cbn [app] in HF. inversion HF as [|? t ? l1 Ht HF1]; subst. apply Forall2_app_inv_l in HF1.
    destruct HF1 as [lu [lr [Hu [HF2 ->]]]]. inversion Ho as [|? ? [Hne [Hnd Hp]] Ho']; subst.
    destruct (term_good u lu Hne Hnd Hp Hu) as [cu [Yu [[Vu [Ru [Lu Eu]]] Zu]]]. cbn in Ht.
    destruct G0 as [V0 [R0 [L0 E0]]].
    destruct (IH (CBin c0 t cu) i r (ts ++ [u]) lr) as [c [Hy G]].
    + split; [|split; [|split]].
      * econstructor; rewrite ?Ht; [discriminate|apply decl_plus|exact V0|exact Vu|exact R0|].
        eapply lo_impl; [|exact Lu]. cbn. intros; lia.
      * eapply ro_bin; [rewrite Ht; apply decl_plus|lia|]. eapply ro_impl; [|exact Ru]. cbn. intros; lia.
      * eapply lo_bin; [rewrite Ht; apply decl_plus|lia|exact L0].
      * intros n code Hr Hw. cbn [tree_of] in Hr. apply represents_bin in Hr.
        destruct Hr as [a [b [org [-> [Ha Hb]]]]]. pose proof (org_args _ _ _ _ _ Hw) as Hwa.
        inversion Hwa as [|? ? Wa Hwb]; subst. inversion Hwb as [|? ? Wb _]; subst.
        destruct (E0 _ _ Ha Wa) as [o1 [Ea Oa]]. destruct (Eu _ _ Hb Wb) as [o2 [Eb _]].
        exists o1. split; [|exact Oa]. rewrite Ht. cbn. rewrite Ea. cbn.
        rewrite is_type_litb, (litb_false _ _ (Zu _ Hb)). rewrite Eb. cbn.
        unfold mk_ie.
        replace (implb i (is_some o1)) with true by (destruct i; [destruct o1; [reflexivity|exfalso; now apply Oa]|reflexivity]).
        replace (negb (i && r)) with true by (destruct i; [now rewrite Hir|reflexivity]).
        cbn. rewrite uniq_terms_id; [reflexivity|]. apply distinct_app_l with us. rewrite <- app_assoc. exact Hd.
    + exact Hir.
    + exact Ho'.
    + rewrite <- app_assoc. exact Hd.
    + exact HF2.
    + exists c. split.
      * rewrite Hy. cbn. rewrite <- !app_assoc, Yu. reflexivity.
      * rewrite <- app_assoc in G. exact G.
Qed.

Lemma good_weaken lvl lvl' i r ts c : (lvl' <= lvl)%Z -> good lvl i r ts c -> good lvl' i r ts c.
Proof.
  intros H [V [R [L E]]]. split; [exact V|]. split; [|split; [|exact E]].
  - eapply ro_impl; [|exact R]. cbn; intros; lia.
  - eapply lo_impl; [|exact L]. cbn; intros; lia.
Qed.

Lemma distinct_tl t ts : distinct term_eqb (t :: ts) -> distinct term_eqb ts.
Proof. intros H. now inversion H. Qed.

(* the left side: an optional leading intercept, then terms *)
Lemma lhs_good us (i : bool) toks : (i = true \/ us <> []) -> Forall okterm us -> distinct term_eqb us ->
  Forall2 dmatch (sum_toks (map term_toks (maybe_add_intercept i us))) toks ->
  exists c, yield c = toks /\ good 100 i false us c.
Proof.
  intros Hne Ho Hd HF. destruct i; cbn [maybe_add_intercept map] in HF; unfold sum_toks in HF.
  - rewrite sep_by_cons, flat_map_map' in HF. cbn [term_toks app INTERCEPT mk_term] in HF.
    change (term_toks INTERCEPT) with [DExpr "1"] in HF. cbn [app] in HF.
    inversion HF as [|? u ? l Hu HF1]; subst.
    destruct (one_good 100 u Hu) as [G _].
    destruct (plus_chain_good us (CAtom u) true false [] l G (fun _ => eq_refl) Ho Hd HF1) as [c [Hy Gc]]. eauto.
  - destruct us as [|u us]; [destruct Hne; congruence|].
    cbn [map] in HF. rewrite sep_by_cons, flat_map_map' in HF. apply Forall2_app_inv_l in HF.
    destruct HF as [lu [lr [Hu [HF ->]]]]. inversion Ho as [|? ? [Hn [Hnd Hp]] Ho']; subst.
    destruct (term_good u lu Hn Hnd Hp Hu) as [cu [Yu [Gu _]]].
    destruct (plus_chain_good us cu false false [u] lr (good_weaken 300 100 _ _ _ _ ltac:(lia) Gu)
                (fun H => eq_refl) Ho' Hd HF) as [c [Hy Gc]].
    exists c. rewrite Hy, Yu. auto.
Qed.

Lemma rhs_good us (i : bool) toks : Forall okterm us -> distinct term_eqb us ->
  Forall2 dmatch (rhs_toks (maybe_add_intercept i us)) toks ->
  exists c j, yield c = toks /\ good 100 j (negb i) us c.
Proof.
  intros Ho Hd HF. destruct i; cbn [maybe_add_intercept] in HF; unfold rhs_toks in HF.
  - change INTERCEPT with (@nil factor) in HF. destruct us as [|u us].
    + inversion HF as [|? x ? l Hu HF1]; subst. inversion HF1; subst.
      destruct (one_good 100 x Hu) as [G _]. exists (CAtom x), true. auto.
    + destruct (lhs_good (u :: us) false toks) as [c [Hy G]]; auto.
      * right; discriminate.
      * exists c, false. auto.
  - assert (HF' : Forall2 dmatch (sum_toks ([DExpr "0"] :: map term_toks us)) toks).
    { destruct us as [|[|f u] us]; [exact HF| |exact HF]. inversion Ho as [|? ? [Hn _] _]; congruence. }
    clear HF. unfold sum_toks in HF'. rewrite sep_by_cons, flat_map_map' in HF'. cbn [app] in HF'.
    inversion HF' as [|? x ? l Hu HF1]; subst.
    pose proof (zero_good 100 x Hu) as G.
    destruct (plus_chain_good us (CAtom x) false true [] l G ltac:(discriminate) Ho Hd HF1) as [c [Hy Gc]]. eauto.
Qed.

Definition sides_ok (m : model_desc) (i j : bool) (ls rs : list term) : Prop :=
  lhs_termlist m = maybe_add_intercept i ls /\ rhs_termlist m = maybe_add_intercept j rs /\
  Forall okterm ls /\ Forall okterm rs /\ distinct term_eqb ls /\ distinct term_eqb rs.

Lemma okterm_good us : Forall okterm us -> distinct term_eqb us -> good_terms us.
Proof. intros H Hd. split; [exact Hd|]. eapply Forall_impl; [|exact H]. intros t [A [B _]]. auto. Qed.

Lemma model_good m i j ls rs toks : sides_ok m i j ls rs -> Forall2 dmatch (describe_toks m) toks ->
  exists c, valid default_ops atomic_token_types c /\ yield c = toks /\
    forall n code, represents n (tree_of c) -> well_org code n -> n_type n = TName "~" /\ from_tree norm n = Ok m.
Proof.
  intros [El [Er [Hl [Hr [Dl Dr]]]]] HF. unfold describe_toks in HF. rewrite El, Er in HF.
  apply Forall2_app_inv_l in HF. destruct HF as [tl [tr [HFl [HF ->]]]].
  inversion HF as [|? t ? tr' Ht HFr]; subst. cbn in Ht.
  destruct (rhs_good rs j tr' Hr Dr HFr) as [cr [jj [Yr [Vr [_ [Lr Ev]]]]]].
  assert (Em : m = MkModelDesc (maybe_add_intercept i ls) (maybe_add_intercept j rs)).
  { destruct m as [a b]. cbn in *. now subst. }
  assert (Hcase : (i = true \/ ls <> []) \/ (i = false /\ ls = [])).
  { destruct i; [auto|]. destruct ls; [auto|]. left; right; discriminate. }
  destruct Hcase as [Hne|[Ei Els]].
  - destruct (lhs_good ls i tl Hne Hl Dl HFl) as [cl [Yl [Vl [Rl [_ El']]]]].
    exists (CBin cl t cr). split; [|split].
    + econstructor; rewrite ?Ht; [discriminate|apply decl_tilde2|exact Vl|exact Vr| |].
      * eapply ro_impl; [|exact Rl]. cbn; intros; lia.
      * eapply lo_impl; [|exact Lr]. cbn; intros; lia.
    + cbn. rewrite Yl, Yr. reflexivity.
    + intros n code HR Hw. cbn [tree_of] in HR. apply represents_bin in HR.
      destruct HR as [a [b [org [-> [Ha Hb]]]]]. pose proof (org_args _ _ _ _ _ Hw) as Hwa.
      inversion Hwa as [|? ? Wa Hwb]; subst. inversion Hwb as [|? ? Wb _]; subst.
      destruct (El' _ _ Ha Wa) as [o1 [Ea _]]. destruct (Ev _ _ Hb Wb) as [o2 [Eb _]].
      split; [exact Ht|]. rewrite Ht. apply from_tree_inv. rewrite (eval_model_2 norm _ _ _ _ _ _ Ea Eb).
      unfold sides_of. cbn [ie_intercept ie_terms ie_removed]. unfold mk_model_desc.
      rewrite !uniq_add by (apply okterm_good; assumption). rewrite negb_involutive. try rewrite Em. reflexivity.
  - subst i ls. cbn in HFl. inversion HFl; subst. exists (CUn t cr). split; [|split].
    + econstructor; rewrite ?Ht; [discriminate|apply decl_tilde1|exact Vr|].
      eapply lo_impl; [|exact Lr]. cbn; intros; lia.
    + reflexivity.
    + intros n code HR Hw. cbn [tree_of] in HR. apply represents_un in HR.
      destruct HR as [b [org [-> Hb]]]. pose proof (org_args _ _ _ _ _ Hw) as Hwa.
      inversion Hwa as [|? ? Wb _]; subst. destruct (Ev _ _ Hb Wb) as [o2 [Eb _]].
      split; [exact Ht|]. rewrite Ht. apply from_tree_inv. rewrite (eval_model_1 norm _ _ _ _ Eb).
      unfold sides_of. cbn [ie_intercept ie_terms ie_removed]. unfold mk_model_desc.
      rewrite !uniq_add by (apply okterm_good; assumption). rewrite negb_involutive. try rewrite Em. reflexivity.
Qed.

(** * Python tokens of a description *)
Fixpoint alt (prev : bool) (l : list dtok) : Prop :=
  match l with
  | [] => True
  | DExpr _ :: r => prev = false /\ alt true r
  | DOp o :: r => In o formula_ops /\ alt false r
  end.
Lemma alt_join x : forall p o r, alt p x -> In o formula_ops -> alt false r -> alt p (x ++ DOp o :: r).
Proof.
  induction x as [|[s|s] x IH]; intros p o r Hx Ho Hr; cbn in *; [auto| |];
    destruct Hx as [H1 H2]; split; auto.
Qed.
Lemma alt_sep o l : In o formula_ops -> Forall (alt false) l -> alt false (sep_by (DOp o) l).
Proof.
  intros Ho. induction 1 as [|x l Hx Hl IH]; [exact I|]. destruct l as [|y l].
  - cbn. rewrite app_nil_r. exact Hx.
  - change (sep_by (DOp o) (x :: y :: l)) with (x ++ DOp o :: sep_by (DOp o) (y :: l)). now apply alt_join.
Qed.
Lemma alt_term t : alt false (term_toks t).
Proof.
  destruct t as [|f t]; [cbn; auto|]. apply alt_sep; [cbn; tauto|]. apply Forall_forall. intros x Hx.
  apply in_map_iff in Hx. destruct Hx as [g [<- _]]. cbn. auto.
Qed.
Lemma alt_sum ts : alt false (sum_toks (map term_toks ts)).
Proof.
  apply alt_sep; [cbn; tauto|]. apply Forall_forall. intros x Hx. apply in_map_iff in Hx.
  destruct Hx as [g [<- _]]. apply alt_term.
Qed.
Lemma alt_rhs ts : alt false (rhs_toks ts).
Proof.
  assert (Z : forall us, alt false (sum_toks ([DExpr "0"] :: map term_toks us))).
  { intros us. apply alt_sep; [cbn; tauto|]. constructor; [cbn; auto|]. apply Forall_forall. intros x Hx.
    apply in_map_iff in Hx. destruct Hx as [g [<- _]]. apply alt_term. }
  destruct ts as [|[|f t] [|u us]]; try apply Z; [cbn; auto|apply alt_sum].
Qed.
Lemma alt_describe m : alt false (describe_toks m).
Proof. apply alt_join; [apply alt_sum|cbn; tauto|apply alt_rhs]. Qed.

Lemma spells_seg l gs : Forall2 spell1 l gs -> forall p, alt p l ->
  segmentation formula_ops gs /\
  (p = true -> gs = [] \/ exists t gs', gs = GMagic t :: gs' /\ stop formula_ops (pt_string t)).
Proof.
  induction 1 as [|d g l gs Hd Hl IH]; intros p Ha; [split; [apply seg_nil|auto]|].
  destruct d as [o|s], g as [t|ts]; cbn in Hd; try contradiction; cbn in Ha; destruct Ha as [H1 H2];
    destruct (IH _ H2) as [S N].
  - subst o. split.
    + apply seg_magic; [left; exact H1|exact S].
    + intros _. right. exists t, gs. split; [reflexivity|]. left; exact H1.
  - subst p. split; [|discriminate]. apply seg_expr; [apply Hd|exact S|auto].
Qed.

Lemma spells_tokens code l gs : from_tokenizer code (flatten gs) -> Forall2 spell1 l gs -> forall p, alt p l ->
  exists toks, Forall2 (token_for formula_ops is_float) gs toks /\ Forall2 dmatch l toks.
Proof.
  intros Hft H. induction H as [|d g l gs Hd Hl IH]; intros p Ha; [exists []; split; constructor|].
  unfold from_tokenizer in Hft. unfold flatten in Hft. cbn [flat_map] in Hft. apply Forall_app in Hft.
  destruct Hft as [Hg Hft].
  destruct d as [o|s], g as [t|ts]; cbn in Hd; try contradiction; cbn in Ha; destruct Ha as [H1 H2];
    destruct (IH Hft _ H2) as [toks [F1 F2]].
  - subst o. exists (mkToken (TName (pt_string t)) (pt_origin t) None :: toks).
    split; constructor; auto; [|reflexivity]. now constructor.
  - destruct Hd as [He Hp]. destruct He as [_ [_ [x [r [Er _]]]]].
    destruct (combine_ok code x r) as [o [_ Ho]]; [rewrite <- Er; exact Hg|].
    exists (mkToken (TName (expr_type is_float s)) o (Some s) :: toks).
    split; constructor; auto; [|split; reflexivity]. constructor; [now apply expr_type_kind|rewrite Er; exact Ho|exact Hp].
Qed.

Lemma describe_parses code it m i j ls rs : sides_ok m i j ls rs ->
  from_tokenizer code it -> spells (describe_toks m) it ->
  from_formula norm is_float it None = Ok m.
Proof.
  intros Hm Hft [gs [Hfl Hsp]]. rewrite <- Hfl in Hft.
  destruct (spells_seg _ _ Hsp false (alt_describe m)) as [Hseg _].
  destruct (spells_tokens code _ _ Hft Hsp false (alt_describe m)) as [toks [F1 F2]].
  destruct (model_good m i j ls rs toks Hm F2) as [c [Hv [Hy Hc]]].
  change formula_ops with def_ops in *.
  assert (Etok : tokenize_formula is_float it None def_ops = (toks, None)).
  { rewrite Hfl in Hft. apply (tokenize_ok_lemma is_float def_ops code it Hft);
      [cbn; intuition discriminate|cbn; intuition discriminate|]. eauto. }
  assert (Hsrc : one_source code toks) by (eapply token_for_source; eauto).
  pose proof (good_extra_table [] (Forall_nil _)) as Hg. rewrite app_nil_r in Hg.
  destruct (parse_correct_lemma default_ops atomic_token_types code toks Hg Hsrc) as [_ Hcomp].
  destruct (Hcomp c Hv Hy) as [n [En Hr]].
  unfold infix_parse in En. pose proof (infix_org code _ _ _ _ _ En Hsrc) as Hw.
  destruct (Hc n code Hr Hw) as [Ht Em].
  unfold from_formula, parse_formula. cbn [check_extra bind]. rewrite app_nil_r. fold def_ops. rewrite Etok.
  rewrite En. cbn [bind]. unfold wrap_tilde, is_type. rewrite Ht. cbn. exact Em.
Qed.

(** * What a model obtained from a formula looks like *)
Inductive leaf_code : node -> string -> Prop :=
| lc_leaf ty tok args org code : ty = TName "PYTHON_EXPR" -> args = [] -> tk_extra tok = Some code ->
    leaf_code (Node ty (Some tok) args org) code
| lc_arg ty tok args org a code : In a args -> leaf_code a code -> leaf_code (Node ty tok args org) code.

Lemma mem_leaf n : forall s, mem norm n s -> forall f, In f s -> exists code, leaf_code n code /\ f = norm code.
Proof.
  induction n as [ty tok args org IH] using node_ind2. intros s H f Hf.
  destruct ty as [| |ty]; try contradiction.
  destruct args as [|a [|b [|c args]]]; cbn [mem] in H; try contradiction.
  - destruct H as [-> [t [code [-> [Ht Hs]]]]]. exists code. apply Hs in Hf. destruct Hf as [<-|[]].
    split; [constructor; auto|reflexivity].
  - destruct H as [_ H]. inversion IH as [|? ? IHa _]; subst. destruct (IHa _ H _ Hf) as [code [L ->]].
    exists code. split; [|reflexivity]. apply lc_arg with a; [now left|exact L].
  - inversion IH as [|? ? IHa IH']; subst. inversion IH' as [|? ? IHb _]; subst.
    assert (LA : forall x, mem norm a x -> forall g, In g x -> exists code,
       leaf_code (Node (TName ty) tok [a; b] org) code /\ g = norm code).
    { intros x Hx g Hg. destruct (IHa _ Hx _ Hg) as [code [L ->]]. exists code. split; [|reflexivity].
      apply lc_arg with a; [now left|exact L]. }
    assert (LB : forall x, mem norm b x -> forall g, In g x -> exists code,
       leaf_code (Node (TName ty) tok [a; b] org) code /\ g = norm code).
    { intros x Hx g Hg. destruct (IHb _ Hx _ Hg) as [code [L ->]]. exists code. split; [|reflexivity].
      apply lc_arg with b; [right; now left|exact L]. }
    assert (J : (exists x y, mem norm a x /\ mem norm b y /\ same_set s (x ++ y)) ->
      exists code, leaf_code (Node (TName ty) tok [a; b] org) code /\ f = norm code).
    { intros [x [y [Hx [Hy E]]]]. apply E in Hf. apply in_app_iff in Hf. destruct Hf; eauto. }
    destruct H as [[_ [H|H]]|[[_ [H _]]|[[_ H]|[[_ [H|[H|H]]]|[[_ [H|[y [Hy E]]]]|[_ [k [xs [_ [_ [_ [Hx E]]]]]]]]]]]]; eauto.
    + apply E in Hf. destruct Hf as [[x [Hx Hfx]]|Hf]; eauto.
    + apply E in Hf. apply in_concat in Hf. destruct Hf as [x [Hx1 Hx2]]. rewrite Forall_forall in Hx. eauto.
Qed.

Lemma leaf_in_yield c : forall n code, represents n (tree_of c) -> leaf_code n code ->
  exists t, In t (yield c) /\ tk_type t = TName "PYTHON_EXPR" /\ tk_extra t = Some code.
Proof.
  induction c as [t|t c IH|l IHl t r IHr|lp c IH rp]; intros n code Hr Hl; cbn [tree_of yield] in *.
  - apply represents_leaf in Hr. destruct Hr as [org ->]. inversion Hl as [? ? ? ? ? E1 E2 E3|? ? ? ? ? ? Hin _]; subst.
    + exists t. split; [now left|auto].
    + destruct Hin.
  - apply represents_un in Hr. destruct Hr as [a [org [-> Ha]]].
    inversion Hl as [? ? ? ? ? E1 E2 E3|? ? ? ? ? ? Hin Hla]; subst; [discriminate|].
    destruct Hin as [<-|[]]. destruct (IH _ _ Ha Hla) as [t' [H1 H2]]. exists t'. split; [now right|exact H2].
  - apply represents_bin in Hr. destruct Hr as [a [b [org [-> [Ha Hb]]]]].
    inversion Hl as [? ? ? ? ? E1 E2 E3|? ? ? ? ? ? Hin Hla]; subst; [discriminate|].
    destruct Hin as [<-|[<-|[]]].
    + destruct (IHl _ _ Ha Hla) as [t' [H1 H2]]. exists t'. rewrite in_app_iff. auto.
    + destruct (IHr _ _ Hb Hla) as [t' [H1 H2]]. exists t'. rewrite in_app_iff. cbn. auto.
  - destruct (IH _ _ Hr Hl) as [t' [H1 H2]]. exists t'. split; [|exact H2]. right. apply in_or_app. now left.
Qed.

Lemma tidy_split ts : tidy ts -> exists i us, ts = maybe_add_intercept i us /\
  Forall (fun t => t <> [] /\ NoDup t) us /\ distinct term_eqb us.
Proof.
  intros [Hd [Hn Hi]].
  assert (Hdec : In [] ts \/ ~ In [] ts).
  { destruct (in_dec (list_eq_dec string_dec) [] ts); auto. }
  destruct Hdec as [Hin|Hin].
  - destruct (Hi Hin) as [us ->]. exists true, us. split; [reflexivity|].
    apply distinct_nth in Hd. inversion Hd as [|? ? Hf Hd']; inversion Hn as [|? ? _ Hn']; subst. split; [|exact Hd'].
    apply Forall_forall. intros t Ht. rewrite Forall_forall in Hf, Hn'. split; [|now apply Hn'].
    intros ->. specialize (Hf _ Ht). discriminate.
  - exists false, ts. split; [reflexivity|]. apply distinct_nth in Hd. split; [|exact Hd].
    apply Forall_forall. intros t Ht. rewrite Forall_forall in Hn. split; [|now apply Hn]. congruence.
Qed.

Lemma from_formula_sides code it m : from_tokenizer code it -> it <> [] ->
  from_formula norm is_float it None = Ok m ->
  (forall s, embedded_in it s -> norm s = s) ->
  exists i j ls rs, sides_ok m i j ls rs.
Proof.
  intros Hft Hne H Hn. unfold from_formula in H. apply bind_ok in H. destruct H as [n [Ep Hm]].
  destruct (parse_formula_top _ _ _ _ Hft Hne Ep) as [_ [gs [toks [c [Hs [Hfl [Hz [Hv [Hy Hrep]]]]]]]]].
  assert (HP : forall code, leaf_code n code -> plain (norm code)).
  { intros s Hl.
    assert (Ht : exists t, In t (yield c) /\ tk_type t = TName "PYTHON_EXPR" /\ tk_extra t = Some s).
    { destruct Hrep as [Hr|[m0 [Hr ->]]]; [eapply leaf_in_yield; eauto|].
      inversion Hl as [? ? ? ? ? E1 E2 E3|? ? ? ? ? ? Hin Hla]; subst. destruct Hin as [<-|[]].
      eapply leaf_in_yield; eauto. }
    destruct Ht as [t [Hin [Ht Hx]]]. rewrite Hy in Hin.
    assert (Hg : exists g, In g gs /\ token_for def_ops is_float g t).
    { clear - Hz Hin. induction Hz as [|g t' gs toks Hg Hz IH]; [contradiction|].
      destruct Hin as [->|Hin]; [exists g; split; [now left|exact Hg]|].
      destruct (IH Hin) as [g' [A B]]. exists g'. split; [now right|exact B]. }
    destruct Hg as [g [Hg Htf]]. inversion Htf as [p Hp|p Hp|p Hp|ts o text ty Hk Hh Hpt]; subst; cbn in Hx; try discriminate.
    injection Hx as ->. cbn in Ht. injection Ht as Ht.
    assert (He : embedded_in (flatten gs) s) by (exists gs, ts; auto).
    unfold plain. rewrite (Hn _ He). split; [|now apply Hn]. apply expr_type_kind in Hk. congruence. }
  destruct (from_tree_tidy _ _ _ Hm) as [Tl Tr].
  destruct (tidy_split _ Tl) as [i [ls [El [Fl Dl]]]]. destruct (tidy_split _ Tr) as [j [rs [Er [Fr Dr]]]].
  assert (Add : forall (b : bool) us t, In t us -> In t (maybe_add_intercept b us)).
  { intros b us t Ht. destruct b; [now right|exact Ht]. }
  assert (Key : forall t, (In t ls \/ In t rs) -> Forall plain t).
  { intros t Ht. apply Forall_forall. intros f Hf.
    assert (Hmem : exists a, (forall code, leaf_code a code -> leaf_code n code) /\ mem norm a t).
    { destruct (from_tree_meaning _ _ _ Hm) as [[tok [r [o [-> [Lem Lr]]]]]|[tok [l [r [o [-> [Ll Lr]]]]]]].
      - destruct Ht as [Ht|Ht].
        + exfalso. rewrite Lem in El. apply (Add i) in Ht. rewrite <- El in Ht. contradiction.
        + assert (Hin : In t (rhs_termlist m)) by (rewrite Er; apply Add; exact Ht).
          pose proof (lists_in _ _ _ Lr Hin) as [Hmem|[-> _]]; [|contradiction].
          exists r. split; [|exact Hmem]. intros. eapply lc_arg; [now left|eassumption].
      - destruct Ht as [Ht|Ht].
        + assert (Hin : In t (lhs_termlist m)) by (rewrite El; apply Add; exact Ht).
          pose proof (lists_in _ _ _ Ll Hin) as [Hmem|[-> _]]; [|contradiction].
          exists l. split; [|exact Hmem]. intros. eapply lc_arg; [now left|eassumption].
        + assert (Hin : In t (rhs_termlist m)) by (rewrite Er; apply Add; exact Ht).
          pose proof (lists_in _ _ _ Lr Hin) as [Hmem|[-> _]]; [|contradiction].
          exists r. split; [|exact Hmem]. intros. eapply lc_arg; [right; now left|eassumption]. }
    destruct Hmem as [a [Hla Hmem]]. destruct (mem_leaf a t Hmem f Hf) as [code' [L ->]]. apply HP. auto. }
  exists i, j, ls, rs. split; [exact El|]. split; [exact Er|].
  assert (Ok : forall us, Forall (fun t => t <> [] /\ NoDup t) us -> (forall t, In t us -> Forall plain t) -> Forall okterm us).
  { intros us H1 H2. apply Forall_forall. intros t Ht. rewrite Forall_forall in H1. destruct (H1 t Ht). split; auto. }
  split; [apply Ok; auto|]. split; [apply Ok; auto|]. auto.
Qed.

Lemma describe_roundtrip code code' it it' m : from_tokenizer code it -> it <> [] ->
  (forall s, embedded_in it s -> norm s = s) ->
  from_formula norm is_float it None = Ok m ->
  from_tokenizer code' it' -> spells (describe_toks m) it' ->
  from_formula norm is_float it' None = Ok m.
Proof.
  intros Hft Hne Hn Hm Hft' Hsp. destruct (from_formula_sides _ _ _ Hft Hne Hm Hn) as [i [j [ls [rs Hs]]]].
  eapply describe_parses; eauto.
Qed.

End Describe.

(** * The text of describe() *)
Definition text (l : list dtok) : string := String.concat "" (map dtext l).
Lemma text_app a b : text (a ++ b) = (text a ++ text b)%string.
Proof. unfold text. rewrite map_app. apply concat_app_s. Qed.
Lemma text_cons x b : text (x :: b) = (dtext x ++ text b)%string.
Proof. unfold text. cbn [map]. apply concat_cons. Qed.
Lemma text_sep o l : text (sep_by (DOp o) l) = String.concat (dtext (DOp o)) (map text l).
Proof.
  induction l as [|x l IH]; [reflexivity|]. destruct l as [|y l].
  - cbn [sep_by map String.concat]. now rewrite app_nil_r.
  - change (sep_by (DOp o) (x :: y :: l)) with (x ++ DOp o :: sep_by (DOp o) (y :: l)).
    rewrite text_app, text_cons, IH. reflexivity.
Qed.
Lemma text_term t : text (term_toks t) = term_code t.
Proof.
  destruct t as [|f t]; [reflexivity|]. unfold term_toks. rewrite text_sep.
  unfold term_code. replace (term_eqb (f :: t) INTERCEPT) with false.
  - cbn [term_name]. change (dtext (DOp ":")) with ":"%string. rewrite map_map. f_equal.
    rewrite <- (map_id (f :: t)) at 2. apply map_ext. reflexivity.
  - symmetry. destruct (term_eqb (f :: t) INTERCEPT) eqn:E; [|reflexivity]. apply term_eqb_spec in E.
    exfalso. apply (proj1 (E f)). now left.
Qed.
Lemma text_sum ts : text (sum_toks (map term_toks ts)) = String.concat " + " (map term_code ts).
Proof.
  unfold sum_toks. rewrite text_sep, map_map. cbn. f_equal. apply map_ext. apply text_term.
Qed.

Lemma term_eqb_intercept t : term_eqb t INTERCEPT = match t with [] => true | _ => false end.
Proof.
  destruct t as [|f t]; [reflexivity|]. destruct (term_eqb (f :: t) INTERCEPT) eqn:E; [|reflexivity].
  apply term_eqb_spec in E. exfalso. apply (proj1 (E f)). now left.
Qed.
Lemma filter_all {A} (p : A -> bool) l : (forall x, In x l -> p x = true) -> filter p l = l.
Proof.
  induction l as [|x l IH]; cbn; intros H; [reflexivity|]. rewrite H by auto. f_equal. apply IH. auto.
Qed.

Lemma describe_text m : tidy (lhs_termlist m) -> tidy (rhs_termlist m) ->
  (forall t f, In t (lhs_termlist m) -> In f t -> f <> ""%string) ->
  describe m = dlayout (describe_toks m).
Proof.
  intros Tl Tr Hf. unfold describe, describe_toks.
  assert (R : forall pre, (if termlist_eqb (rhs_termlist m) [INTERCEPT] then (pre ++ term_code INTERCEPT)%string
     else (pre ++ String.concat " + " ((if term_in INTERCEPT (rhs_termlist m) then [] else ["0"%string]) ++
       map term_code (filter (fun t => negb (term_eqb t INTERCEPT)) (rhs_termlist m))))%string) =
     (pre ++ text (rhs_toks (rhs_termlist m)))%string).
  { intros pre. destruct (tidy_split _ Tr) as [j [rs [-> [Fr _]]]].
    assert (Fil : filter (fun t => negb (term_eqb t INTERCEPT)) rs = rs).
    { apply filter_all. intros t Ht. rewrite Forall_forall in Fr. destruct (Fr t Ht) as [Hne _].
      rewrite term_eqb_intercept. destruct t; [congruence|reflexivity]. }
    destruct j; cbn [maybe_add_intercept].
    - destruct rs as [|r rs]; [reflexivity|].
      replace (termlist_eqb (INTERCEPT :: r :: rs) [INTERCEPT]) with false by reflexivity.
      replace (term_in INTERCEPT (INTERCEPT :: r :: rs)) with true by reflexivity.
      f_equal. cbn [app]. cbn [filter]. replace (term_eqb INTERCEPT INTERCEPT) with true by reflexivity. cbn [negb].
      cbn [filter] in Fil. rewrite Fil. symmetry. apply (text_sum (r :: rs)).
    - assert (T1 : term_in INTERCEPT rs = false).
      { destruct (term_in INTERCEPT rs) eqn:E; [|reflexivity]. apply term_in_spec in E. destruct E as [u [Hu E]].
        rewrite Forall_forall in Fr. destruct (Fr u Hu) as [Hne _]. destruct u as [|x u]; [congruence|].
        exfalso. apply (proj2 (E x)). now left. }
      assert (T2 : termlist_eqb rs [INTERCEPT] = false).
      { destruct rs as [|r [|r' rs]]; try reflexivity.
        pose proof (Forall_inv Fr) as [Hne _]. cbn in Hne. unfold termlist_eqb.
        cbn [List.length Nat.eqb List.combine forallb fst snd andb]. rewrite (term_eqb_intercept r).
        destruct r; [congruence|reflexivity]. }
      rewrite T1, T2, Fil. f_equal. cbn [app].
      replace (rhs_toks rs) with (sum_toks ([DExpr "0"] :: map term_toks rs)).
      + unfold sum_toks. rewrite text_sep. cbn [map]. rewrite map_map. cbn [dtext String.eqb]. cbn.
        rewrite (map_ext _ _ text_term). reflexivity.
      + destruct rs as [|[|f t] rs]; try reflexivity. pose proof (Forall_inv Fr) as [Hne _]. congruence. }
  rewrite R. clear R.
  destruct (lhs_termlist m) as [|t ts] eqn:El.
  - reflexivity.
  - assert (Hne : String.eqb (String.concat " + " (map term_code (t :: ts))) "" = false).
    { apply String.eqb_neq. intros E.
      assert (E2 : term_code t = ""%string).
      { cbn [map] in E. destruct ts; cbn [map String.concat] in E; [exact E|].
        destruct (term_code t); [reflexivity|discriminate]. }
      unfold term_code in E2. rewrite term_eqb_intercept in E2. destruct t as [|f t]; [discriminate|].
      cbn [term_name] in E2. assert (f = ""%string) as Ef.
      { destruct t; cbn in E2; [exact E2|]. destruct f; [reflexivity|discriminate]. }
      apply (Hf (f :: t) f); [now left|now left|exact Ef]. }
    rewrite Hne.
    replace (dlayout (sum_toks (map term_toks (t :: ts)) ++ DOp "~" :: rhs_toks (rhs_termlist m)))
      with (text (sum_toks (map term_toks (t :: ts)) ++ DOp "~" :: rhs_toks (rhs_termlist m))).
    + rewrite text_app, text_cons, text_sum. change (dtext (DOp "~")) with " ~ "%string.
      apply append_assoc_s.
    + unfold dlayout. cbn [map]. unfold sum_toks. rewrite sep_by_cons. destruct t as [|f t]; [reflexivity|].
      replace (term_toks (f :: t)) with ([DExpr f] ++ flat_map (fun y => DOp ":" :: y) (map (fun f => [DExpr f]) t));
        [reflexivity|]. unfold term_toks. cbn [map]. now rewrite sep_by_cons.
Qed.

Lemma describe_text_formula norm is_float it m : from_formula norm is_float it None = Ok m ->
  (forall t f, In t (lhs_termlist m) -> In f t -> f <> ""%string) ->
  describe m = dlayout (describe_toks m).
Proof.
  intros H. unfold from_formula in H. apply bind_ok in H. destruct H as [n [_ Hm]].
  destruct (from_tree_tidy _ _ _ Hm) as [A B]. now apply describe_text.
Qed.
