From Verif Require Import Base OriginModel InfixModel InfixSpec.

Lemma ttype_eqb_spec a b : reflect (a = b) (ttype_eqb a b).
Proof.
  destruct a, b; cbn; try (constructor; congruence).
  destruct (String.eqb_spec s s0); constructor; congruence.
Qed.

Lemma in_types_spec l ty : in_types l ty = true <-> In ty l.
Proof.
  unfold in_types. rewrite existsb_exists. split.
  - intros [x [Hin Hx]]. destruct (ttype_eqb_spec ty x); [subst; auto|discriminate].
  - intros H; exists ty; split; auto. destruct (ttype_eqb_spec ty ty); congruence.
Qed.

(** * Operator lookup *)

Definition opmatch (a : Z) (ty : ttype) (o : operator) : bool :=
  Z.eqb (op_arity o) a && ttype_eqb (op_type o) ty.

Lemma opmatch_spec a ty o : opmatch a ty o = true <-> op_arity o = a /\ op_type o = ty.
Proof.
  unfold opmatch. rewrite andb_true_iff, Z.eqb_eq.
  destruct (ttype_eqb_spec (op_type o) ty); intuition congruence.
Qed.

Lemma find_app {A} (f : A -> bool) l1 l2 :
  find f (l1 ++ l2) = match find f l1 with Some x => Some x | None => find f l2 end.
Proof. induction l1; cbn; auto. destruct (f a); auto. Qed.

Lemma find_none_iff {A} (f : A -> bool) l :
  find f l = None <-> forall x, In x l -> f x = false.
Proof.
  split; [apply find_none|]. induction l; cbn; auto. intros H.
  rewrite H; auto.
Qed.

Lemma lookup_declares ops a ty o :
  lookup_op ops a ty = Some o <-> o = mkOp ty a (op_prec o) /\ declares ops a ty (op_prec o).
Proof.
  unfold lookup_op, declares. change (fun o : operator => Z.eqb (op_arity o) a && ttype_eqb (op_type o) ty) with (opmatch a ty).
  split.
  - induction ops as [|x l IH] using rev_ind; cbn; [discriminate|].
    rewrite rev_app_distr; cbn. destruct (opmatch a ty x) eqn:E.
    + intros H; injection H as <-. apply opmatch_spec in E as [E1 E2].
      split; [destruct x; cbn in *; congruence|].
      exists l, []. split; [destruct x; cbn in *; congruence|intros ? []].
    + intros H. destruct (IH H) as [E0 [b [af [E1 E2]]]]. split; auto.
      exists b, (af ++ [x]). split.
      * rewrite E1, <- app_assoc. reflexivity.
      * intros o' Hin. apply in_app_iff in Hin as [Hin|[<-|[]]]; [auto|].
        intros HH. apply opmatch_spec in HH. congruence.
  - intros [Eo [b [af [-> Haf]]]].
    rewrite rev_app_distr; cbn. rewrite <- app_assoc; cbn.
    rewrite find_app. replace (find (opmatch a ty) (rev af)) with (@None operator).
    + cbn. replace (opmatch a ty _) with true; [congruence|].
      symmetry; apply opmatch_spec; auto.
    + symmetry; apply find_none_iff. intros x Hx. apply in_rev in Hx.
      destruct (opmatch a ty x) eqn:E; auto. apply opmatch_spec in E.
      destruct (Haf _ Hx E).
Qed.

Lemma declares_lookup ops a ty p :
  declares ops a ty p -> lookup_op ops a ty = Some (mkOp ty a p).
Proof. intros H. apply lookup_declares; cbn; auto. Qed.

Lemma lookup_some ops a ty o :
  lookup_op ops a ty = Some o -> exists p, o = mkOp ty a p /\ declares ops a ty p.
Proof. intros H; apply lookup_declares in H as [H1 H2]; eauto. Qed.

Lemma lookup_none ops a ty :
  lookup_op ops a ty = None <-> forall p, ~ declares ops a ty p.
Proof.
  split.
  - intros H p Hd. apply declares_lookup in Hd. congruence.
  - intros H. destruct (lookup_op ops a ty) eqn:E; auto.
    apply lookup_some in E as [p [_ Hd]]. destruct (H p Hd).
Qed.

Lemma declares_det ops a ty p q : declares ops a ty p -> declares ops a ty q -> p = q.
Proof. intros H1 H2. apply declares_lookup in H1, H2. congruence. Qed.

Lemma declares_good ops a ty p : good_table ops -> declares ops a ty p ->
  (p > -9999999)%Z /\ ty <> TLParen.
Proof.
  intros Hg [b [af [-> _]]]. unfold good_table in Hg. rewrite Forall_forall in Hg.
  destruct (Hg (mkOp ty a p)) as [H1 [H2 H3]]; [apply in_elt|]. cbn in *; auto.
Qed.

Lemma check_operators_good ops : good_table ops -> check_operators ops = Ok tt.
Proof.
  induction 1 as [|o l [H1 [H2 _]] _ IH]; cbn [check_operators]; auto.
  cbn [op_prec open_paren]. unfold assert.
  destruct (Z.ltb_spec (-9999999) (op_prec o)); [|lia].
  destruct H2 as [-> | ->]; cbn; auto.
Qed.

Section P.
Variable ops : list operator.
Variable atoms : list ttype.
Hypothesis Hgood : good_table ops.

Lemma right_open_impl (P Q : Z -> Prop) c :
  (forall q, P q -> Q q) -> right_open ops P c -> right_open ops Q c.
Proof. intros H; induction 1; econstructor; eauto. Qed.
Lemma left_open_impl (P Q : Z -> Prop) c :
  (forall q, P q -> Q q) -> left_open ops P c -> left_open ops Q c.
Proof. intros H; induction 1; econstructor; eauto. Qed.

(** * The abstract machine over concrete expressions *)

Inductive frame := FParen (lp : token) | FUn (p : Z) (t : token) | FBin (p : Z) (l : cst) (t : token).

Inductive astate := SNoun (fs : list frame) | SOp (fs : list frame) (c : cst).

Definition wrap (f : frame) (c : cst) : cst :=
  match f with FParen _ => c | FUn _ t => CUn t c | FBin _ l t => CBin l t c end.

Definition is_paren (f : frame) : bool := match f with FParen _ => true | _ => false end.
Definition fprec (f : frame) : Z :=
  match f with FParen _ => -9999999 | FUn p _ => p | FBin p _ _ => p end.
Definition ftok (f : frame) : token :=
  match f with FParen t => t | FUn _ t => t | FBin _ _ t => t end.

Fixpoint areduce (cond : frame -> bool) (fs : list frame) (c : cst) : list frame * cst :=
  match fs with
  | [] => ([], c)
  | f :: r => if cond f then areduce cond r (wrap f c) else (fs, c)
  end.

Definition nonparen f := negb (is_paren f).
Definition tighter (p : Z) f := Z.leb p (fprec f).

Definition astep (s : astate) (tok : token) : result astate :=
  match s with
  | SNoun fs =>
      if ttype_eqb (tk_type tok) TLParen then Ok (SNoun (FParen tok :: fs))
      else match lookup_op ops 1 (tk_type tok) with
      | Some o => Ok (SNoun (FUn (op_prec o) tok :: fs))
      | None => if in_types atoms (tk_type tok) then Ok (SOp fs (CAtom tok))
                else Err (PatsyError "expected a noun" (Some (tk_origin tok)))
      end
  | SOp fs c =>
      if ttype_eqb (tk_type tok) TRParen then
        match areduce nonparen fs c with
        | (FParen lp :: r, c') => Ok (SOp r (CParen lp c' tok))
        | _ => Err (PatsyError "missing '(' or extra ')'" (Some (tk_origin tok)))
        end
      else match lookup_op ops 2 (tk_type tok) with
      | Some o => let '(fs', c') := areduce (tighter (op_prec o)) fs c in
                  Ok (SNoun (FBin (op_prec o) c' tok :: fs'))
      | None => Err (PatsyError "expected an operator" (Some (tk_origin tok)))
      end
  end.

Definition afinish (s : astate) : result cst :=
  match s with
  | SNoun [] => Err IndexError
  | SNoun (f :: _) => Err (PatsyError "expected a noun, but instead the expression ended"
                             (Some (tk_origin (ftok f))))
  | SOp fs c => match areduce nonparen fs c with
                | ([], c') => Ok c'
                | (f :: _, _) => Err (PatsyError "Unmatched '('" (Some (tk_origin (ftok f))))
                end
  end.

Definition aparse (toks : list token) : result cst :=
  let* s := foldM astep toks (SNoun []) in afinish s.

(** * Concretisation *)

Fixpoint root_tok (c : cst) : token :=
  match c with CAtom t => t | CUn t _ => t | CBin _ t _ => t | CParen _ c _ => root_tok c end.

Fixpoint org_of (c : cst) : origin :=
  match c with
  | CAtom t => tk_origin t
  | CUn t c => mkOrigin (o_code (tk_origin t))
                 (Nat.min (o_start (tk_origin t)) (o_start (org_of c)))
                 (Nat.max (o_end (tk_origin t)) (o_end (org_of c)))
  | CBin l t r => mkOrigin (o_code (tk_origin t))
       (Nat.min (Nat.min (o_start (tk_origin t)) (o_start (org_of l))) (o_start (org_of r)))
       (Nat.max (Nat.max (o_end (tk_origin t)) (o_end (org_of l))) (o_end (org_of r)))
  | CParen lp c rp => mkOrigin (o_code (tk_origin lp))
       (Nat.min (Nat.min (o_start (tk_origin lp)) (o_start (tk_origin (root_tok c)))) (o_start (tk_origin rp)))
       (Nat.max (Nat.max (o_end (tk_origin lp)) (o_end (tk_origin (root_tok c)))) (o_end (tk_origin rp)))
  end.

Fixpoint node_of (c : cst) : node :=
  match c with
  | CAtom t => Node (tk_type t) (Some t) [] (Some (tk_origin t))
  | CUn t c' => Node (tk_type t) (Some t) [node_of c'] (Some (org_of c))
  | CBin l t r => Node (tk_type t) (Some t) [node_of l; node_of r] (Some (org_of c))
  | CParen lp c' rp => set_origin (node_of c') (Some (org_of c))
  end.

Lemma node_of_origin c : n_origin (node_of c) = Some (org_of c).
Proof. destruct c; cbn; auto. destruct (node_of c); reflexivity. Qed.
Lemma node_of_token c : n_token (node_of c) = Some (root_tok c).
Proof. induction c; cbn; auto. destruct (node_of c); cbn in *; auto. Qed.

Local Arguments n_origin : simpl never.
Local Arguments n_token : simpl never.

Definition so_of (f : frame) : stackop :=
  match f with
  | FParen t => mkStackOp open_paren t
  | FUn p t => mkStackOp (mkOp (tk_type t) 1 p) t
  | FBin p _ t => mkStackOp (mkOp (tk_type t) 2 p) t
  end.
Fixpoint nouns_of (fs : list frame) : list node :=
  match fs with
  | [] => []
  | FBin _ l _ :: r => node_of l :: nouns_of r
  | _ :: r => nouns_of r
  end.

Definition conc (s : astate) : bool * context :=
  match s with
  | SNoun fs => (true, mkCtx (map so_of fs) (nouns_of fs))
  | SOp fs c => (false, mkCtx (map so_of fs) (node_of c :: nouns_of fs))
  end.

(** * Yields and invariants *)

Definition yf (f : frame) : list token :=
  match f with FParen t => [t] | FUn _ t => [t] | FBin _ l t => yield l ++ [t] end.
Fixpoint yfs (fs : list frame) : list token :=
  match fs with [] => [] | f :: r => yfs r ++ yf f end.
Definition ys (s : astate) : list token :=
  match s with SNoun fs => yfs fs | SOp fs c => yfs fs ++ yield c end.

Definition above (fs : list frame) (q : Z) : Prop :=
  match fs with
  | FUn p _ :: _ => (p < q)%Z
  | FBin p _ _ :: _ => (p < q)%Z
  | _ => True
  end.

Fixpoint fok (fs : list frame) : Prop :=
  match fs with
  | [] => True
  | FParen lp :: r => tk_type lp = TLParen /\ fok r
  | FUn p t :: r => tk_type t <> TLParen /\ declares ops 1 (tk_type t) p /\ fok r
  | FBin p l t :: r =>
      tk_type t <> TRParen /\ declares ops 2 (tk_type t) p /\ valid ops atoms l /\
      right_open ops (fun q => (p <= q)%Z) l /\ left_open ops (above r) l /\
      above r p /\ fok r
  end.

Definition Inv (s : astate) : Prop :=
  match s with
  | SNoun fs => fok fs
  | SOp fs c => fok fs /\ valid ops atoms c /\ left_open ops (above fs) c /\
                right_open ops (fun _ => False) c
  end.

Lemma yield_wrap f c : is_paren f = false -> yield (wrap f c) = yf f ++ yield c.
Proof. destruct f; cbn; intros; try discriminate; auto. rewrite <- app_assoc; reflexivity. Qed.

Lemma areduce_spec cond (P : Z -> Prop) fs c fs' c' :
  (forall f, cond f = true -> is_paren f = false /\ P (fprec f)) ->
  areduce cond fs c = (fs', c') ->
  fok fs -> valid ops atoms c -> left_open ops (above fs) c -> right_open ops P c ->
  fok fs' /\ valid ops atoms c' /\ left_open ops (above fs') c' /\ right_open ops P c' /\
  yfs fs' ++ yield c' = yfs fs ++ yield c /\
  match fs' with f :: _ => cond f = false | [] => True end.
Proof.
  intros Hc. revert c. induction fs as [|f r IH]; cbn [areduce]; intros c E Hf Hv Hl Hr.
  - injection E as <- <-. cbn; auto 6.
  - destruct (cond f) eqn:Ec.
    2:{ injection E as <- <-. auto 8. }
    destruct (Hc _ Ec) as [Hnp HP].
    destruct f as [lp|p t|p l t]; cbn in Hnp; try discriminate; cbn [wrap] in E.
    + destruct Hf as [H1 [H2 H3]].
      edestruct (IH _ E) as (A1 & A2 & A3 & A4 & A5 & A6); auto.
      * econstructor; eauto.
      * constructor.
      * econstructor; eauto.
      * repeat split; auto. rewrite A5. cbn. rewrite <- app_assoc. reflexivity.
    + destruct Hf as (H1 & H2 & H3 & H4 & H5 & H6 & H7).
      edestruct (IH _ E) as (A1 & A2 & A3 & A4 & A5 & A6); auto.
      * econstructor; eauto.
      * econstructor; eauto.
      * econstructor; eauto.
      * repeat split; auto. rewrite A5. cbn. rewrite <- !app_assoc. reflexivity.
Qed.

Lemma left_open_above_fresh fs c : (forall P, left_open ops P c) -> left_open ops (above fs) c.
Proof. auto. Qed.

Lemma areduce_nonparen_head fs c fs' c' :
  areduce nonparen fs c = (fs', c') ->
  match fs' with f :: _ => is_paren f = true | [] => True end.
Proof.
  revert c. induction fs as [|f r IH]; cbn; intros c E.
  - injection E as <- <-; auto.
  - destruct (is_paren f) eqn:Ep; unfold nonparen at 1 in E; rewrite Ep in E; cbn in E.
    + injection E as <- <-; auto.
    + exact (IH _ E).
Qed.

Lemma astep_inv s tok s' : Inv s -> astep s tok = Ok s' -> Inv s' /\ ys s' = ys s ++ [tok].
Proof.
  destruct s as [fs|fs c]; cbn [astep Inv]; intros HI E.
  - destruct (ttype_eqb_spec (tk_type tok) TLParen) as [Ht|Ht].
    { injection E as <-. cbn; auto. }
    destruct (lookup_op ops 1 (tk_type tok)) as [o|] eqn:El.
    { injection E as <-. apply lookup_declares in El as [_ El]. cbn; auto. }
    destruct (in_types atoms (tk_type tok)) eqn:Ei; [|discriminate].
    injection E as <-. cbn. split; auto.
    split; auto. split; [|split; constructor].
    constructor; auto. { apply lookup_none; auto. } apply in_types_spec; auto.
  - destruct HI as (Hf & Hv & Hl & Hr).
    destruct (ttype_eqb_spec (tk_type tok) TRParen) as [Ht|Ht].
    + destruct (areduce nonparen fs c) as [fs' c'] eqn:Er.
      pose proof (areduce_nonparen_head _ _ _ _ Er) as Hh.
      eapply (areduce_spec _ (fun _ => True)) in Er; eauto.
      2:{ intros f Hf'. unfold nonparen in Hf'. apply negb_true_iff in Hf'. auto. }
      2:{ eapply right_open_impl; [|exact Hr]. intros q []. }
      destruct Er as (A1 & A2 & A3 & A4 & A5 & A6).
      destruct fs' as [|[lp|p t|p l t] r]; try discriminate.
      injection E as <-. cbn in *. destruct A1 as [A1 A1'].
      split.
      * split; auto. split; [constructor; auto|]. split; constructor.
      * rewrite <- A5, <- !app_assoc. reflexivity.
    + destruct (lookup_op ops 2 (tk_type tok)) as [o|] eqn:El; [|discriminate].
      apply lookup_declares in El as [_ El].
      destruct (areduce (tighter (op_prec o)) fs c) as [fs' c'] eqn:Er.
      injection E as <-.
      eapply (areduce_spec _ (fun q => (op_prec o <= q)%Z)) in Er; eauto.
      2:{ intros f Hf'. unfold tighter in Hf'. apply Z.leb_le in Hf'. split; auto.
          destruct f; auto. cbn in Hf'. destruct (declares_good _ _ _ _ Hgood El). lia. }
      2:{ eapply right_open_impl; [|exact Hr]. intros q []. }
      destruct Er as (A1 & A2 & A3 & A4 & A5 & A6).
      cbn. split.
      * repeat split; auto. destruct fs' as [|[lp|p t|p l t] r]; cbn; auto;
          unfold tighter in A6; cbn in A6; apply Z.leb_gt in A6; lia.
      * rewrite app_assoc, A5. reflexivity.
Qed.

Lemma arun_inv toks s s' : Inv s -> foldM astep toks s = Ok s' -> Inv s' /\ ys s' = ys s ++ toks.
Proof.
  revert s. induction toks as [|t l IH]; cbn; intros s HI E.
  - injection E as <-. rewrite app_nil_r; auto.
  - destruct (astep s t) as [s1|] eqn:E1; cbn in E; [|discriminate].
    destruct (astep_inv _ _ _ HI E1) as [HI1 Hy1].
    destruct (IH _ HI1 E) as [HI2 Hy2]. split; auto.
    rewrite Hy2, Hy1, <- app_assoc. reflexivity.
Qed.

Lemma aparse_sound toks c : aparse toks = Ok c -> valid ops atoms c /\ yield c = toks.
Proof.
  unfold aparse. destruct (foldM astep toks (SNoun [])) as [s|] eqn:E; cbn; [|discriminate].
  destruct (arun_inv _ (SNoun []) _ I E) as [HI Hy]. cbn in Hy.
  destruct s as [[|f fs]|fs c0]; cbn; try discriminate.
  destruct (areduce nonparen fs c0) as [[|f fs'] c'] eqn:Er; [|discriminate].
  intros H; injection H as <-. destruct HI as (Hf & Hv & Hl & Hr).
  eapply (areduce_spec _ (fun _ => True)) in Er; eauto.
  2:{ intros f Hf'. unfold nonparen in Hf'. apply negb_true_iff in Hf'. auto. }
  2:{ eapply right_open_impl; [|exact Hr]. intros q []. }
  destruct Er as (A1 & A2 & A3 & A4 & A5 & A6). cbn in *. rewrite <- Hy, <- A5; auto.
Qed.

(** * Completeness *)

Definition prec1 (t : token) : Z :=
  match lookup_op ops 1 (tk_type t) with Some o => op_prec o | None => 0 end.
Definition prec2 (t : token) : Z :=
  match lookup_op ops 2 (tk_type t) with Some o => op_prec o | None => 0 end.

Fixpoint decomp (c : cst) : list frame * cst :=
  match c with
  | CAtom t => ([], c)
  | CParen _ _ _ => ([], c)
  | CUn t r => let '(f, x) := decomp r in (f ++ [FUn (prec1 t) t], x)
  | CBin l t r => let '(f, x) := decomp r in (f ++ [FBin (prec2 t) l t], x)
  end.

Lemma areduce_app cond f1 f2 c :
  (forall f, In f f1 -> cond f = true) ->
  areduce cond (f1 ++ f2) c = areduce cond f2 (fold_left (fun x f => wrap f x) f1 c).
Proof.
  revert c. induction f1 as [|f r IH]; cbn; intros c H; auto.
  rewrite (H f); auto.
Qed.

Lemma decomp_rebuild c f x : decomp c = (f, x) -> fold_left (fun y g => wrap g y) f x = c.
Proof.
  revert f x. induction c as [t|t c IH|l IHl t r IHr|lp c IH rp]; cbn; intros f x E.
  - injection E as <- <-; auto.
  - destruct (decomp c) as [f' x'] eqn:Ec. injection E as <- <-.
    rewrite fold_left_app. cbn. f_equal; auto.
  - destruct (decomp r) as [f' x'] eqn:Ec. injection E as <- <-.
    rewrite fold_left_app. cbn. f_equal; auto.
  - injection E as <- <-; auto.
Qed.

Lemma decomp_frames (P : Z -> Prop) c f x :
  decomp c = (f, x) -> right_open ops P c ->
  forall g, In g f -> is_paren g = false /\ P (fprec g).
Proof.
  revert f x. induction c as [t|t c IH|l IHl t r IHr|lp c IH rp]; cbn; intros f x E HR g Hg.
  - injection E as <- <-; destruct Hg.
  - destruct (decomp c) as [f' x'] eqn:Ec. injection E as <- <-.
    inversion HR; subst. apply in_app_iff in Hg as [Hg|[<-|[]]]; eauto.
    split; auto. cbn. unfold prec1. erewrite declares_lookup by eauto. cbn; auto.
  - destruct (decomp r) as [f' x'] eqn:Ec. injection E as <- <-.
    inversion HR; subst. apply in_app_iff in Hg as [Hg|[<-|[]]]; eauto.
    split; auto. cbn. unfold prec2. erewrite declares_lookup by eauto. cbn; auto.
  - injection E as <- <-; destruct Hg.
Qed.

Lemma valid_right_open c : valid ops atoms c -> right_open ops (fun _ => True) c.
Proof. induction 1; econstructor; eauto. Qed.

Lemma declares_prec1 t p : declares ops 1 (tk_type t) p -> prec1 t = p.
Proof. intros H. unfold prec1. erewrite declares_lookup by eauto. reflexivity. Qed.
Lemma declares_prec2 t p : declares ops 2 (tk_type t) p -> prec2 t = p.
Proof. intros H. unfold prec2. erewrite declares_lookup by eauto. reflexivity. Qed.

Lemma areduce_stop cond f r c : cond f = false -> areduce cond (f :: r) c = (f :: r, c).
Proof. cbn. intros ->. reflexivity. Qed.

Lemma areduce_above p fs c : above fs p -> (p > -9999999)%Z ->
  areduce (tighter p) fs c = (fs, c).
Proof.
  intros Ha Hp. destruct fs as [|f r]; auto. apply areduce_stop.
  unfold tighter. apply Z.leb_gt. destruct f; cbn in *; lia.
Qed.

Lemma feed_complete c : valid ops atoms c ->
  forall fs f x, left_open ops (above fs) c -> decomp c = (f, x) ->
  foldM astep (yield c) (SNoun fs) = Ok (SOp (f ++ fs) x).
Proof.
  induction 1 as [t H1 H2 H3|t c p H1 H2 Hv IH H3|l t r p H1 H2 Hl IHl Hr IHr H3 H4|lp c rp H1 H2 Hv IH];
    intros fs f x HL E; cbn [yield decomp] in *.
  - injection E as <- <-. cbn.
    destruct (ttype_eqb_spec (tk_type t) TLParen); [congruence|].
    apply lookup_none in H2. rewrite H2. apply in_types_spec in H3. rewrite H3. reflexivity.
  - destruct (decomp c) as [f' x'] eqn:Ec. injection E as <- <-.
    cbn [foldM astep]. destruct (ttype_eqb_spec (tk_type t) TLParen); [congruence|].
    rewrite (declares_lookup _ _ _ _ H2). cbn [bind op_prec].
    erewrite (IH (FUn p t :: fs)); [|cbn [above]; exact H3|reflexivity].
    rewrite (declares_prec1 _ _ H2), <- app_assoc. reflexivity.
  - destruct (decomp r) as [f' x'] eqn:Ec. injection E as <- <-.
    inversion HL as [| | |? ? ? q Hq1 Hq2 Hq3]; subst.
    assert (q = p) by (eapply declares_det; eauto). subst q.
    destruct (decomp l) as [fl xl] eqn:El.
    rewrite foldM_app. rewrite (IHl fs fl xl); auto. cbn [bind foldM astep].
    destruct (ttype_eqb_spec (tk_type t) TRParen); [congruence|].
    rewrite (declares_lookup _ _ _ _ H2). cbn [op_prec].
    rewrite areduce_app.
    2:{ intros g Hg. pose proof (decomp_frames _ _ _ _ El H3 _ Hg) as [_ Hp].
        unfold tighter. apply Z.leb_le. exact Hp. }
    rewrite (decomp_rebuild _ _ _ El).
    rewrite areduce_above; auto. 2:{ apply (declares_good _ _ _ _ Hgood H2). }
    cbn [bind].
    erewrite (IHr (FBin p l t :: fs)); [|exact H4|reflexivity].
    rewrite (declares_prec2 _ _ H2), <- app_assoc. reflexivity.
  - injection E as <- <-.
    cbn [foldM astep]. destruct (ttype_eqb_spec (tk_type lp) TLParen); [|congruence].
    cbn [bind]. rewrite foldM_app.
    destruct (decomp c) as [f' x'] eqn:Ec.
    rewrite (IH (FParen lp :: fs) f' x'); auto.
    2:{ clear - Hv. induction Hv; econstructor; eauto. exact I. }
    cbn [bind foldM astep].
    destruct (ttype_eqb_spec (tk_type rp) TRParen); [|congruence].
    rewrite areduce_app.
    2:{ intros g Hg. pose proof (decomp_frames _ _ _ _ Ec (valid_right_open _ Hv) _ Hg) as [Hp _].
        unfold nonparen. rewrite Hp. reflexivity. }
    rewrite (decomp_rebuild _ _ _ Ec). cbn. reflexivity.
Qed.

Lemma valid_left_open_nil c : valid ops atoms c -> left_open ops (above []) c.
Proof. induction 1; econstructor; eauto. exact I. Qed.

Lemma aparse_complete c : valid ops atoms c -> aparse (yield c) = Ok c.
Proof.
  intros Hv. destruct (decomp c) as [f x] eqn:E. unfold aparse.
  rewrite (feed_complete _ Hv [] f x (valid_left_open_nil _ Hv) E). cbn [bind afinish].
  rewrite areduce_app.
  2:{ intros g Hg. pose proof (decomp_frames _ _ _ _ E (valid_right_open _ Hv) _ Hg) as [Hp _].
      unfold nonparen. rewrite Hp. reflexivity. }
  rewrite (decomp_rebuild _ _ _ E). reflexivity.
Qed.

(** * Refinement: the concrete machine follows the abstract one *)

Section Src.
Variable code : string.
Definition src (c : cst) : Prop := one_source code (yield c).
Definition srcs (s : astate) : Prop := one_source code (ys s).

Lemma one_source_app l1 l2 : one_source code (l1 ++ l2) <-> one_source code l1 /\ one_source code l2.
Proof. apply Forall_app. Qed.
Lemma one_source_cons t l : one_source code (t :: l) <-> o_code (tk_origin t) = code /\ one_source code l.
Proof. split; [inversion 1; auto|intros []; constructor; auto]. Qed.

Lemma src_org c : src c -> o_code (org_of c) = code /\ o_code (tk_origin (root_tok c)) = code.
Proof.
  unfold src. induction c as [t|t c IH|l IHl t r IHr|lp c IH rp]; cbn;
    rewrite ?one_source_app, ?one_source_cons, ?one_source_app; intuition auto.
Qed.

Lemma run_op_refines f fs c :
  is_paren f = false -> src (wrap f c) ->
  run_op (mkCtx (map so_of (f :: fs)) (node_of c :: nouns_of (f :: fs)))
  = Ok (mkCtx (map so_of fs) (node_of (wrap f c) :: nouns_of fs)).
Proof.
  intros Hp Hs. pose proof Hs as Hs0. unfold src in Hs0.
  destruct f as [lp|p t|p l t]; cbn in Hp; try discriminate; cbn [wrap yield] in Hs0.
  - apply one_source_cons in Hs0 as [Ht Hc].
    destruct (src_org c Hc) as [Ho _].
    cbn. change (Pos.to_nat 1) with 1. cbn. rewrite node_of_origin. unfold combine, keep_some. cbn.
    rewrite Ho, Ht, String.eqb_refl. cbn. reflexivity.
  - apply one_source_app in Hs0 as [Hl Hc]. apply one_source_cons in Hc as [Ht Hc].
    destruct (src_org c Hc) as [Ho _]. destruct (src_org l Hl) as [Ho' _].
    cbn. change (Pos.to_nat 2) with 2. cbn. rewrite !node_of_origin. unfold combine, keep_some. cbn.
    rewrite Ho, Ho', Ht, String.eqb_refl. cbn. reflexivity.
Qed.

Lemma reduce_refines cond acond fs c :
  (forall f, In f fs -> acond f = cond (so_of f)) ->
  (forall f, acond f = true -> is_paren f = false) ->
  one_source code (yfs fs ++ yield c) ->
  reduce_while cond (map so_of fs) (node_of c :: nouns_of fs)
  = let '(fs', c') := areduce acond fs c in
    Ok (mkCtx (map so_of fs') (node_of c' :: nouns_of fs')).
Proof.
  intros Hcond Hnp. revert c. induction fs as [|f r IH]; intros c Hs; auto.
  cbn [map reduce_while areduce]. rewrite <- (Hcond f) by (left; reflexivity).
  destruct (acond f) eqn:Ef; [|reflexivity].
  assert (Hw : one_source code (yfs r ++ yield (wrap f c))).
  { rewrite yield_wrap by auto. cbn in Hs. rewrite app_assoc. exact Hs. }
  pose proof (run_op_refines f r c (Hnp _ Ef) (proj2 (proj1 (one_source_app _ _) Hw))) as HR.
  cbn [map] in HR. rewrite HR. cbn [bind noun_stack].
  apply IH; auto. intros g Hg; apply Hcond; right; auto.
Qed.

Lemma fok_sub fs c cond fs' c' : areduce cond fs c = (fs', c') -> fok fs -> fok fs'.
Proof.
  revert c. induction fs as [|f r IH]; cbn [areduce]; intros c E H.
  - injection E as <- <-; auto.
  - destruct (cond f); [|injection E as <- <-; auto].
    eapply IH; eauto. destruct f; cbn in H; tauto.
Qed.

Lemma fok_type fs f : fok fs -> In f fs ->
  is_paren f = ttype_eqb (op_type (so_op (so_of f))) TLParen /\ fprec f = op_prec (so_op (so_of f)).
Proof.
  induction fs as [|g r IH]; [intros _ []|].
  intros Hf [<-|Hin].
  - destruct g as [lp|p t|p l t]; cbn in *; auto.
    + destruct (ttype_eqb_spec (tk_type t) TLParen); tauto.
    + destruct Hf as (_ & Hd & _). destruct (declares_good _ _ _ _ Hgood Hd).
      destruct (ttype_eqb_spec (tk_type t) TLParen); tauto.
  - apply IH; auto. destruct g; cbn in Hf; tauto.
Qed.

Lemma areduce_yield cond fs c fs' c' :
  (forall f, cond f = true -> is_paren f = false) ->
  areduce cond fs c = (fs', c') -> yfs fs' ++ yield c' = yfs fs ++ yield c.
Proof.
  intros Hnp. revert c; induction fs as [|f r IH]; cbn [areduce]; intros c E.
  - injection E as <- <-; auto.
  - destruct (cond f) eqn:Ef; [|injection E as <- <-; auto].
    rewrite (IH _ E), yield_wrap by auto. cbn. rewrite app_assoc. reflexivity.
Qed.

Lemma nonparen_np f : nonparen f = true -> is_paren f = false.
Proof. apply negb_true_iff. Qed.
Lemma tighter_np p ty f : declares ops 2 ty p -> tighter p f = true -> is_paren f = false.
Proof.
  intros Hd H. destruct f; auto. unfold tighter in H. apply Z.leb_le in H. cbn in H.
  destruct (declares_good _ _ _ _ Hgood Hd); lia.
Qed.

Lemma step_refines s tok :
  Inv s -> srcs s -> o_code (tk_origin tok) = code ->
  read_token ops atoms (conc s) tok
  = match astep s tok with Ok s' => Ok (conc s') | Err e => Err e end.
Proof.
  intros HI Hs Ht. destruct s as [fs|fs c]; cbn [conc read_token].
  - cbn [astep]. unfold read_noun_context. cbn [op_stack noun_stack].
    destruct (ttype_eqb (tk_type tok) TLParen); [reflexivity|].
    destruct (lookup_op ops 1 (tk_type tok)) as [o|] eqn:El.
    { apply lookup_some in El as [p [-> _]]. reflexivity. }
    destruct (in_types atoms (tk_type tok)); reflexivity.
  - destruct HI as (Hf & Hv & Hl & Hr). unfold srcs in Hs; cbn [ys] in Hs.
    cbn [astep]. unfold read_op_context. cbn [op_stack noun_stack].
    destruct (ttype_eqb (tk_type tok) TRParen).
    + rewrite (reduce_refines _ nonparen); auto using nonparen_np.
      2:{ intros f Hin. unfold nonparen. destruct (fok_type _ _ Hf Hin) as [-> _]. reflexivity. }
      destruct (areduce nonparen fs c) as [fs' c'] eqn:Er.
      pose proof (areduce_nonparen_head _ _ _ _ Er) as Hh.
      pose proof (areduce_yield _ _ _ _ _ nonparen_np Er) as Hy.
      rewrite <- Hy in Hs. apply one_source_app in Hs as [Hs1 Hs2].
      destruct (src_org c' Hs2) as [_ Ho].
      destruct fs' as [|[lp|p t|p l t] r]; try discriminate; cbn [bind op_stack]; [reflexivity|].
      cbn. rewrite node_of_token. cbn. unfold combine. cbn.
      cbn in Hs1. apply one_source_app in Hs1 as [_ Hs1]. apply one_source_cons in Hs1 as [Hlp _].
      rewrite Ho, Ht, Hlp, String.eqb_refl. cbn. reflexivity.
    + destruct (lookup_op ops 2 (tk_type tok)) as [o|] eqn:El; [|reflexivity].
      apply lookup_some in El as [p [-> Hd]]. cbn [op_prec].
      rewrite (reduce_refines _ (tighter p)); eauto using tighter_np.
      2:{ intros f Hin. unfold tighter. destruct (fok_type _ _ Hf Hin) as [_ ->]. reflexivity. }
      destruct (areduce (tighter p) fs c) as [fs' c'] eqn:Er.
      cbn. reflexivity.
Qed.

Lemma run_refines toks s :
  Inv s -> srcs s -> one_source code toks ->
  foldM (read_token ops atoms) toks (conc s)
  = match foldM astep toks s with Ok s' => Ok (conc s') | Err e => Err e end.
Proof.
  revert s. induction toks as [|t l IH]; intros s HI Hs Ht; cbn [foldM]; auto.
  apply one_source_cons in Ht as [Ht Hl].
  rewrite (step_refines s t HI Hs Ht).
  destruct (astep s t) as [s1|] eqn:E1; cbn [bind]; auto.
  destruct (astep_inv _ _ _ HI E1) as [HI1 Hy1].
  apply IH; auto. unfold srcs. rewrite Hy1. apply one_source_app; split; auto.
  apply one_source_cons; split; auto. constructor.
Qed.

Lemma finish_refines fs c :
  fok fs -> one_source code (yfs fs ++ yield c) ->
  finish_loop (map so_of fs) (node_of c :: nouns_of fs)
  = match areduce nonparen fs c with
    | ([], c') => Ok [node_of c']
    | (f :: _, _) => Err (PatsyError "Unmatched '('" (Some (tk_origin (ftok f))))
    end.
Proof.
  revert c. induction fs as [|f r IH]; intros c Hf Hs; auto.
  cbn [map finish_loop areduce].
  destruct (fok_type _ f Hf (or_introl eq_refl)) as [Hp _]. rewrite <- Hp.
  unfold nonparen at 1. destruct (is_paren f) eqn:Ep; cbn [negb].
  - destruct f; cbn in *; try discriminate. reflexivity.
  - assert (Hw : one_source code (yfs r ++ yield (wrap f c))).
    { rewrite yield_wrap by auto. cbn in Hs. rewrite app_assoc. exact Hs. }
    pose proof (run_op_refines f r c Ep (proj2 (proj1 (one_source_app _ _) Hw))) as HR.
    cbn [map] in HR. rewrite HR. cbn [bind noun_stack].
    apply IH; auto. destruct f; cbn in Hf; tauto.
Qed.

Lemma parse_refines toks : one_source code toks ->
  infix_parse toks ops atoms
  = match aparse toks with Ok c => Ok (node_of c) | Err e => Err e end.
Proof.
  intros Hs. unfold infix_parse, infix_parse_stream, aparse. rewrite check_operators_good by auto. cbn [bind].
  change (true, mkCtx [] []) with (conc (SNoun [])).
  rewrite run_refines; auto; [|exact I|constructor].
  destruct (foldM astep toks (SNoun [])) as [s|] eqn:E; cbn [bind]; auto.
  destruct (arun_inv _ (SNoun []) _ I E) as [HI Hy]. cbn in Hy.
  destruct s as [[|f fs]|fs c]; cbn [conc afinish map op_stack].
  - reflexivity.
  - destruct f; reflexivity.
  - cbn [noun_stack]. destruct HI as (Hf & _). cbn in Hy.
    rewrite finish_refines; auto. 2:{ rewrite Hy; auto. }
    destruct (areduce nonparen fs c) as [[|f' fs'] c']; reflexivity.
Qed.
End Src.

(** * Errors *)

Lemma areduce_frames_in cond fs c fs' c' f :
  areduce cond fs c = (fs', c') -> In f fs' -> In f fs.
Proof.
  revert c. induction fs as [|g r IH]; cbn [areduce]; intros c E Hin.
  - injection E as <- <-; auto.
  - destruct (cond g); [right; eauto|injection E as <- <-; auto].
Qed.

Lemma ftok_in_yfs fs f : In f fs -> In (ftok f) (yfs fs).
Proof.
  induction fs as [|g r IH]; [intros []|]. intros [<-|Hin]; cbn; apply in_app_iff.
  - right. destruct g; cbn; auto. apply in_app_iff; right; left; auto.
  - left; auto.
Qed.

Definition located_error (toks : list token) (e : exn) : Prop :=
  exists msg t, In t toks /\ e = PatsyError msg (Some (tk_origin t)).

Lemma astep_err s tok e : astep s tok = Err e -> located_error [tok] e.
Proof.
  unfold located_error. destruct s as [fs|fs c]; cbn [astep].
  - destruct (ttype_eqb (tk_type tok) TLParen); [discriminate|].
    destruct (lookup_op ops 1 (tk_type tok)); [discriminate|].
    destruct (in_types atoms (tk_type tok)); [discriminate|].
    intros H; injection H as <-. do 2 eexists; split; [left; reflexivity|reflexivity].
  - destruct (ttype_eqb (tk_type tok) TRParen).
    + destruct (areduce nonparen fs c) as [[|[lp|p t|p l t] r] c'];
        intros H; try discriminate; injection H as <-; do 2 eexists; (split; [left; reflexivity|reflexivity]).
    + destruct (lookup_op ops 2 (tk_type tok)).
      * destruct (areduce (tighter (op_prec o)) fs c); discriminate.
      * intros H; injection H as <-. do 2 eexists; split; [left; reflexivity|reflexivity].
Qed.

Lemma arun_err toks s e : foldM astep toks s = Err e -> located_error toks e.
Proof.
  revert s. induction toks as [|t l IH]; cbn; intros s E; [discriminate|].
  destruct (astep s t) eqn:E1; cbn in E.
  - apply IH in E as [m [t' [Hin ->]]]. exists m, t'; split; [right|]; auto.
  - injection E as <-. apply astep_err in E1 as [m [t' [[<-|[]] ->]]].
    exists m, t; split; [left|]; auto.
Qed.

Lemma aparse_err toks e : toks <> [] -> aparse toks = Err e -> located_error toks e.
Proof.
  intros Hne. unfold aparse.
  destruct (foldM astep toks (SNoun [])) as [s|] eqn:E; cbn.
  2:{ intros H; injection H as <-. eapply arun_err; eauto. }
  destruct (arun_inv _ (SNoun []) _ I E) as [HI Hy]. cbn in Hy.
  destruct s as [[|f fs]|fs c]; cbn.
  - cbn in Hy. congruence.
  - intros H; injection H as <-. exists "expected a noun, but instead the expression ended"%string, (ftok f). split; auto.
    rewrite <- Hy. apply ftok_in_yfs. left; auto.
  - destruct (areduce nonparen fs c) as [[|f fs'] c'] eqn:Er; [discriminate|].
    intros H; injection H as <-. exists "Unmatched '('"%string, (ftok f). split; auto.
    rewrite <- Hy. apply in_app_iff; left. apply ftok_in_yfs.
    eapply areduce_frames_in; [exact Er|left; reflexivity].
Qed.

(** * Trees and origins *)

Lemma represents_set_origin n o t : represents n t -> represents (set_origin n o) t.
Proof. destruct 1; constructor; auto. Qed.

Lemma node_of_represents c : represents (node_of c) (tree_of c).
Proof.
  induction c; cbn; try (constructor; repeat constructor; auto).
  apply represents_set_origin; auto.
Qed.

(** Viable prefixes. *)
Notation viable := (viable ops atoms).

Lemma astep_not_viable p tok e :
  (exists s, foldM astep p (SNoun []) = Ok s /\ astep s tok = Err e) -> ~ viable (p ++ [tok]).
Proof.
  intros [s [Hp He]] [suf [c [Hv Hy]]].
  pose proof (aparse_complete c Hv) as Hc. rewrite Hy in Hc. unfold aparse in Hc.
  rewrite <- app_assoc, foldM_app, Hp in Hc. cbn in Hc. rewrite He in Hc. discriminate.
Qed.

Lemma close_all : forall fs c s0, Inv (SOp fs c) -> foldM astep s0 (SNoun []) = Ok (SOp fs c) ->
  viable s0.
Proof.
  (* number of open parens decreases *)
  intros fs. remember (List.length (filter is_paren fs)) as n eqn:Hn.
  revert fs Hn. induction n as [n IH] using lt_wf_ind. intros fs Hn c s0 HI Hrun.
  destruct (areduce nonparen fs c) as [[|f r] c'] eqn:Er.
  - exists [], c'. rewrite app_nil_r. apply aparse_sound. unfold aparse. rewrite Hrun. cbn.
    rewrite Er. reflexivity.
  - pose proof (areduce_nonparen_head _ _ _ _ Er) as Hh. destruct f as [lp| |]; try discriminate.
    set (rp := mkToken TRParen (mkOrigin "" 0 0) None).
    assert (Hstep : astep (SOp fs c) rp = Ok (SOp r (CParen lp c' rp))).
    { cbn. rewrite Er. reflexivity. }
    destruct (astep_inv _ _ _ HI Hstep) as [HI' _].
    destruct (IH (List.length (filter is_paren r))) with (fs := r) (c := CParen lp c' rp) (s0 := s0 ++ [rp])
      as [suf [cc [Hv Hy]]]; auto.
    + assert (Hlen : forall fs c, areduce nonparen fs c = (FParen lp :: r, c') ->
                List.length (filter is_paren fs) = S (List.length (filter is_paren r))).
      { clear. induction fs as [|g fs IH]; cbn; intros c E; [discriminate|].
        unfold nonparen at 1 in E. destruct (is_paren g) eqn:Eg; cbn in E.
        - injection E as -> -> ->. reflexivity.
        - rewrite <- (IH _ E). reflexivity. }
      rewrite Hn, (Hlen _ _ Er). lia.
    + rewrite foldM_app, Hrun. cbn [bind foldM]. rewrite Hstep. reflexivity.
    + exists ([rp] ++ suf), cc. split; auto. rewrite Hy, <- app_assoc. reflexivity.
Qed.

Lemma run_viable p s a : In a atoms -> a <> TLParen -> (forall q, ~ declares ops 1 a q) ->
  foldM astep p (SNoun []) = Ok s -> viable p.
Proof.
  intros Ha1 Ha2 Ha3 Hrun.
  destruct (arun_inv _ (SNoun []) _ I Hrun) as [HI _].
  destruct s as [fs|fs c]; [|eapply close_all; eauto].
  set (t := mkToken a (mkOrigin "" 0 0) None).
  assert (Hstep : astep (SNoun fs) t = Ok (SOp fs (CAtom t))).
  { cbn. destruct (ttype_eqb_spec a TLParen); [congruence|].
    apply lookup_none in Ha3. rewrite Ha3. apply in_types_spec in Ha1. rewrite Ha1. reflexivity. }
  destruct (astep_inv _ _ _ HI Hstep) as [HI' _].
  destruct (close_all fs (CAtom t) (p ++ [t]) HI') as [suf [c [Hv Hy]]].
  { rewrite foldM_app, Hrun. cbn [bind foldM]. rewrite Hstep. reflexivity. }
  exists (t :: suf), c. split; auto. rewrite Hy, <- app_assoc. reflexivity.
Qed.

Lemma foldM_err_split toks s e : foldM astep toks s = Err e ->
  exists p t q s', toks = p ++ t :: q /\ foldM astep p s = Ok s' /\ astep s' t = Err e.
Proof.
  revert s. induction toks as [|t l IH]; cbn; intros s E; [discriminate|].
  destruct (astep s t) as [s1|e1] eqn:E1; cbn in E.
  - destruct (IH _ E) as (p & t' & q & s' & -> & H1 & H2).
    exists (t :: p), t', q, s'. cbn. rewrite E1. auto.
  - injection E as <-. exists [], t, l, s. cbn. auto.
Qed.

Lemma aparse_err_earliest toks e a :
  In a atoms -> a <> TLParen -> (forall q, ~ declares ops 1 a q) ->
  toks <> [] -> aparse toks = Err e ->
  exists m p t q, toks = p ++ t :: q /\ e = PatsyError m (Some (tk_origin t)) /\
    ((viable p /\ ~ viable (p ++ [t])) \/
     (viable toks /\ ~ exists c, valid ops atoms c /\ yield c = toks)).
Proof.
  intros Ha1 Ha2 Ha3 Hne He. pose proof He as He0. unfold aparse in He.
  destruct (foldM astep toks (SNoun [])) as [s|e'] eqn:E; cbn in He.
  - destruct (aparse_err _ _ Hne He0) as [m [t [Hin ->]]].
    apply in_split in Hin as [p [q Hq]]. exists m, p, t, q. split; [auto|]. split; [auto|].
    right. split; [eapply run_viable; eauto|].
    intros [c [Hv Hy]]. pose proof (aparse_complete c Hv) as Hc. rewrite Hy in Hc. congruence.
  - injection He as ->. destruct (foldM_err_split _ _ _ E) as (p & t & q & s' & Hq & H1 & H2).
    destruct (astep_err _ _ _ H2) as [m [t' [[<-|[]] ->]]].
    exists m, p, t, q. split; [auto|]. split; [auto|]. left. split; [eapply run_viable; eauto|].
    eapply astep_not_viable. eauto.
Qed.
End P.

(** * Origins *)

Definition lo (l : list token) := match l with [] => 0 | t :: _ => o_start (tk_origin t) end.
Definition hi (l : list token) := match l with [] => 0 | t :: _ => o_end (tk_origin (last l t)) end.

Lemma last_irrel {A} (l : list A) x y : l <> [] -> last l x = last l y.
Proof. induction l as [|a l IH]; [congruence|]. intros _. cbn. destruct l; auto. apply IH; congruence. Qed.

Lemma extent_lo_hi code l : l <> [] -> one_source code l -> extent l = Some (mkOrigin code (lo l) (hi l)).
Proof. destruct l; [congruence|]. intros _ H. inversion H; subst. reflexivity. Qed.

Lemma lo_app l1 l2 : l1 <> [] -> lo (l1 ++ l2) = lo l1.
Proof. destruct l1; [congruence|]. reflexivity. Qed.
Lemma last_app {A} (l1 l2 : list A) d : l2 <> [] -> last (l1 ++ l2) d = last l2 d.
Proof.
  intros H. induction l1 as [|x l IH]; auto. cbn.
  destruct (l ++ l2) eqn:E; [apply app_eq_nil in E as [_ E]; congruence|]. exact IH.
Qed.
Lemma hi_app l1 l2 : l2 <> [] -> hi (l1 ++ l2) = hi l2.
Proof.
  intros H. unfold hi. destruct (l1 ++ l2) eqn:E.
  - apply app_eq_nil in E as [_ E]. congruence.
  - rewrite <- E. rewrite last_app by auto. destruct l2; [congruence|].
    f_equal; f_equal. apply last_irrel. congruence.
Qed.

Lemma in_order_app l1 l2 : in_order (l1 ++ l2) -> in_order l1 /\ in_order l2.
Proof.
  induction l1 as [|t l1 IH]; cbn; intros H; [split; auto; constructor|].
  destruct (l1 ++ l2) as [|u l] eqn:El.
  - apply app_eq_nil in El as [-> ->]. split; auto. constructor.
  - inversion H as [| |? ? ? Hx Hu Hl]; subst. destruct (IH Hl) as [A B]. split; auto.
    destruct l1 as [|u' l1]; [constructor; auto|]. cbn in El. injection El as -> _.
    constructor; auto.
Qed.

Lemma in_order_lo_hi l : in_order l -> lo l <= hi l /\
  forall t, In t l -> lo l <= o_start (tk_origin t) /\ o_end (tk_origin t) <= hi l /\
                      o_start (tk_origin t) <= o_end (tk_origin t).
Proof.
  induction 1 as [|t Ht|t u l Ht Hu Hl [IH1 IH2]].
  - split; auto. intros t [].
  - cbn. split; auto. intros ? [<-|[]]; auto.
  - replace (hi (t :: u :: l)) with (hi (u :: l)).
    2:{ change (t :: u :: l) with ([t] ++ (u :: l)). rewrite hi_app by congruence. reflexivity. }
    cbn [lo] in *. split; [lia|].
    intros x [<-|Hin]; [lia|]. destruct (IH2 _ Hin) as (A & B & C). lia.
Qed.

Lemma yield_nonempty c : yield c <> [].
Proof. destruct c; cbn; try congruence. destruct (yield c1); cbn; congruence. Qed.

Lemma root_tok_in c : In (root_tok c) (yield c).
Proof.
  induction c as [t|t c IH|l IHl t r IHr|lp c IH rp]; cbn; auto.
  - apply in_app_iff; right; left; auto.
  - right. apply in_app_iff; auto.
Qed.

Lemma in_order_cross l1 l2 t u : in_order (l1 ++ l2) -> In t l1 -> In u l2 ->
  o_end (tk_origin t) <= o_start (tk_origin u).
Proof.
  induction l1 as [|x l1 IH]; cbn; intros H Ht Hu; [destruct Ht|].
  destruct Ht as [->|Ht].
  - assert (Hin : In u (l1 ++ l2)) by (apply in_app_iff; auto).
    destruct (l1 ++ l2) as [|z l] eqn:El; [destruct Hin|].
    inversion H as [| |? ? ? Hx Hz Hl]; subst.
    destruct (in_order_lo_hi _ Hl) as [_ HH]. destruct (HH u Hin) as (A & _ & _). cbn in A. lia.
  - apply IH; auto. exact (proj2 (in_order_app [x] (l1 ++ l2) H)).
Qed.

Lemma org_of_extent code c : one_source code (yield c) -> in_order (yield c) ->
  org_of c = mkOrigin code (lo (yield c)) (hi (yield c)).
Proof.
  induction c as [t|t c IH|l IHl t r IHr|lp c IH rp]; cbn [yield org_of]; intros Hs Ho.
  - inversion Hs; subst. cbn. destruct (tk_origin t); reflexivity.
  - pose proof (in_order_app [t] (yield c) Ho) as [_ Hoc].
    inversion Hs; subst. rewrite IH by auto. cbn [o_start o_end].
    change (t :: yield c) with ([t] ++ yield c). rewrite hi_app by apply yield_nonempty.
    destruct (in_order_lo_hi _ Ho) as [_ HB].
    destruct (HB t (or_introl eq_refl)) as (A1 & A2 & A3). cbn [lo] in A1.
    destruct (in_order_lo_hi _ Hoc) as [B1 B2].
    assert (lo (t :: yield c) <= lo (yield c)).
    { destruct (yield c) as [|u y] eqn:Ey; [exfalso; eapply yield_nonempty; eauto|].
      destruct (HB u) as (A & _); [cbn; auto|]. cbn in A |- *. exact A. }
    assert (o_end (tk_origin t) <= hi (yield c)).
    { change (t :: yield c) with ([t] ++ yield c) in A2. rewrite hi_app in A2 by apply yield_nonempty. exact A2. }
    cbn [app lo] in *. f_equal; lia.
  - pose proof (proj1 (one_source_app code _ _) Hs) as [Hsl Hsr].
    inversion Hsr; subst.
    destruct (in_order_app _ _ Ho) as [Hol Hotr].
    pose proof (in_order_app [t] (yield r) Hotr) as [_ Hor].
    rewrite IHl, IHr by auto. cbn [o_start o_end].
    rewrite lo_app by apply yield_nonempty. rewrite hi_app by congruence.
    change (t :: yield r) with ([t] ++ yield r). rewrite hi_app by apply yield_nonempty.
    destruct (in_order_lo_hi _ Hol) as [L1 L2]. destruct (in_order_lo_hi _ Hor) as [R1 R2].
    assert (X1 : hi (yield l) <= o_start (tk_origin t)).
    { pose proof (yield_nonempty l) as Hn. destruct (yield l) as [|u y] eqn:Ey; [congruence|].
      cbn [hi]. apply (in_order_cross (u :: y) (t :: yield r)); auto; [|left; auto].
      clear. revert u. induction y as [|v y IH]; intros u; [left; auto|].
      right. change (last (u :: v :: y) u) with (last (v :: y) u).
      rewrite (last_irrel _ u v) by congruence. apply IH. }
    assert (X2 : o_end (tk_origin t) <= lo (yield r)).
    { pose proof (yield_nonempty r) as Hn. destruct (yield r) as [|u y] eqn:Ey; [congruence|].
      cbn [lo]. apply (in_order_cross [t] (u :: y)); auto; left; auto. }
    assert (X3 : o_start (tk_origin t) <= o_end (tk_origin t)).
    { destruct (in_order_lo_hi _ Hotr) as [_ HB]. apply (HB t); left; auto. }
    f_equal; lia.
  - inversion Hs as [|? ? Hlp Hs']; subst.
    destruct (proj1 (one_source_app _ _ _) Hs') as [Hsc Hsr]. inversion Hsr; subst.
    destruct (in_order_lo_hi _ Ho) as [_ HB].
    destruct (HB lp) as (A1 & A2 & A3); [left; auto|].
    destruct (HB rp) as (B1 & B2 & B3). { right; apply in_app_iff; right; left; auto. }
    destruct (HB (root_tok c)) as (C1 & C2 & C3). { right; apply in_app_iff; left; apply root_tok_in. }
    change (lp :: yield c ++ [rp]) with ((lp :: yield c) ++ [rp]) in *.
    rewrite hi_app in * by congruence. cbn [lo hi app last] in *. f_equal; lia.
Qed.

Lemma set_origin_twice n o o' : set_origin (set_origin n o) o' = set_origin n o'.
Proof. destruct n; reflexivity. Qed.
Lemma set_origin_same n : set_origin n (n_origin n) = n.
Proof. destruct n; reflexivity. Qed.

Lemma node_of_located code c : one_source code (yield c) -> in_order (yield c) ->
  (forall text, set_origin (node_of c) (extent text) = located text c) ->
  node_of c = located (yield c) c.
Proof.
  intros Hs Ho HE. rewrite <- HE.
  rewrite (extent_lo_hi code) by auto using yield_nonempty.
  rewrite <- org_of_extent by auto. rewrite <- node_of_origin, set_origin_same. reflexivity.
Qed.

Lemma node_of_located_gen code c : one_source code (yield c) -> in_order (yield c) ->
  forall text, set_origin (node_of c) (extent text) = located text c.
Proof.
  induction c as [t|t c IH|l IHl t r IHr|lp c IH rp]; intros Hs Ho text.
  - reflexivity.
  - cbn [yield] in Hs, Ho. apply one_source_cons in Hs as [Ht Hs].
    destruct (in_order_app [t] (yield c) Ho) as [_ Hoc].
    cbn. rewrite <- (node_of_located code) by auto. reflexivity.
  - cbn [yield] in Hs, Ho. apply one_source_app in Hs as [Hsl Hsr].
    apply one_source_cons in Hsr as [Ht Hsr].
    destruct (in_order_app _ _ Ho) as [Hol Hotr].
    pose proof (in_order_app [t] (yield r) Hotr) as [_ Hor].
    cbn. rewrite <- !(node_of_located code) by auto. reflexivity.
  - cbn [yield] in Hs, Ho. apply one_source_cons in Hs as [Ht Hs].
    apply one_source_app in Hs as [Hsc _].
    pose proof (in_order_app [lp] (yield c ++ [rp]) Ho) as [_ Ho'].
    destruct (in_order_app _ _ Ho') as [Hoc _].
    cbn. rewrite set_origin_twice. apply IH; auto.
Qed.

Lemma node_of_located_full code c : one_source code (yield c) -> in_order (yield c) ->
  node_of c = located (yield c) c.
Proof. intros Hs Ho. eapply node_of_located; eauto using node_of_located_gen. Qed.

(** * Property lemmas *)

Lemma parse_correct_lemma ops atoms code toks :
  good_table ops -> one_source code toks ->
  (forall n, infix_parse toks ops atoms = Ok n ->
     exists c, valid ops atoms c /\ yield c = toks /\ represents n (tree_of c)) /\
  (forall c, valid ops atoms c -> yield c = toks ->
     exists n, infix_parse toks ops atoms = Ok n /\ represents n (tree_of c)).
Proof.
  intros Hg Hs. rewrite (parse_refines ops atoms Hg code toks Hs). split.
  - intros n H. destruct (aparse ops atoms toks) as [c|] eqn:E; [|discriminate].
    injection H as <-. destruct (aparse_sound _ _ Hg _ _ E) as [A B].
    exists c; auto using node_of_represents.
  - intros c Hv <-. rewrite aparse_complete by auto. eexists; split; [reflexivity|].
    apply node_of_represents.
Qed.

Lemma unambiguous_lemma ops atoms c1 c2 :
  good_table ops -> valid ops atoms c1 -> valid ops atoms c2 -> yield c1 = yield c2 -> c1 = c2.
Proof.
  intros Hg H1 H2 E. apply (aparse_complete _ _ Hg) in H1, H2. congruence.
Qed.

Lemma parse_errors_lemma ops atoms code toks e :
  good_table ops -> one_source code toks -> toks <> [] ->
  infix_parse toks ops atoms = Err e ->
  exists m t, In t toks /\ e = PatsyError m (Some (tk_origin t)).
Proof.
  intros Hg Hs Hne. rewrite (parse_refines ops atoms Hg code toks Hs).
  destruct (aparse ops atoms toks) eqn:E; [discriminate|].
  intros H; injection H as <-. exact (aparse_err _ _ Hg _ _ Hne E).
Qed.

Lemma parse_errors_earliest_lemma ops atoms code toks e a :
  good_table ops -> one_source code toks -> toks <> [] ->
  In a atoms -> a <> TLParen -> (forall q, ~ declares ops 1 a q) ->
  infix_parse toks ops atoms = Err e ->
  exists m p t q, toks = p ++ t :: q /\ e = PatsyError m (Some (tk_origin t)) /\
    ((viable ops atoms p /\ ~ viable ops atoms (p ++ [t])) \/
     (viable ops atoms toks /\ ~ exists c, valid ops atoms c /\ yield c = toks)).
Proof.
  intros Hg Hs Hne H1 H2 H3. rewrite (parse_refines ops atoms Hg code toks Hs).
  destruct (aparse ops atoms toks) eqn:E; [discriminate|].
  intros H; injection H as <-. eapply aparse_err_earliest; eauto.
Qed.

Lemma parse_empty_lemma ops atoms : good_table ops -> infix_parse [] ops atoms = Err IndexError.
Proof. intros Hg. unfold infix_parse, infix_parse_stream. rewrite check_operators_good by auto. reflexivity. Qed.

Lemma parse_located_lemma ops atoms code toks n :
  good_table ops -> one_source code toks -> in_order toks ->
  infix_parse toks ops atoms = Ok n ->
  exists c, valid ops atoms c /\ yield c = toks /\ n = located toks c.
Proof.
  intros Hg Hs Ho. rewrite (parse_refines ops atoms Hg code toks Hs).
  destruct (aparse ops atoms toks) as [c|] eqn:E; [|discriminate].
  intros H; injection H as <-. destruct (aparse_sound _ _ Hg _ _ E) as [A B]. subst toks.
  exists c; split; auto. split; auto. eapply node_of_located_full; eauto.
Qed.
