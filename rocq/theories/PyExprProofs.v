(** Evaluating an expression only depends on the variables it names. *)
From Verif Require Import Base TokensModel BuildModel EvalModel EvalSpec EvalBinsProofs EvalProofs EvalTopProofs PyExprModel PyExprSpec.
Open Scope string_scope.
Open Scope list_scope.

Section P.
Context {val world op : Type}.
Variable apply : op -> list val -> world -> result val * world.
Variable truth : val -> world -> result bool * world.
Variable pybuiltins : @namespace val.
Local Notation pyexpr := (@pyexpr val op).
Local Notation sem := (sem apply truth pybuiltins).

Section Ind.
Variable P : pyexpr -> Prop.
Hypothesis HN : forall s, P (PName s).
Hypothesis HC : forall v, P (PConst v).
Hypothesis HO : forall o args, Forall P args -> P (PNode o args).
Hypothesis HI : forall a b c, P a -> P b -> P c -> P (PIf a b c).
Hypothesis HA : forall a b, P a -> P b -> P (PAnd a b).
Hypothesis HR : forall a b, P a -> P b -> P (POr a b).
Hypothesis HM : forall a rest, P a -> Forall (fun p => P (snd p)) rest -> P (PCompare a rest).
Hypothesis HW : forall s e, P e -> P (PWalrus s e).
Hypothesis HQ : forall s, P (PQuote s).
Hypothesis HS : forall l, P (PScope l).
Fixpoint pyexpr_rect' (e : pyexpr) : P e :=
  match e with
  | PName s => HN s
  | PConst v => HC v
  | PNode o args => HO o args ((fix go l : Forall P l := match l with [] => Forall_nil _ | a :: r => Forall_cons _ (pyexpr_rect' a) (go r) end) args)
  | PIf a b c => HI a b c (pyexpr_rect' a) (pyexpr_rect' b) (pyexpr_rect' c)
  | PAnd a b => HA a b (pyexpr_rect' a) (pyexpr_rect' b)
  | POr a b => HR a b (pyexpr_rect' a) (pyexpr_rect' b)
  | PCompare a rest => HM a rest (pyexpr_rect' a)
      ((fix go (l : list (op * pyexpr)) : Forall (fun p => P (snd p)) l :=
          match l with
          | [] => Forall_nil _
          | (o, b) :: r => @Forall_cons _ (fun p => P (snd p)) (o, b) r (pyexpr_rect' b) (go r)
          end) rest)
  | PWalrus s e => HW s e (pyexpr_rect' e)
  | PQuote s => HQ s
  | PScope l => HS l
  end.
End Ind.

(** * The names in an expression *)
Local Notation names := (@PyExprModel.names val op).
Definition lists (r : result (list string)) (M : string -> Prop) (S : Prop) : Prop :=
  match r with Ok ns => (forall s, In s ns <-> M s) /\ ~ S | Err _ => S end.
Lemma lists_iff r M S M' S' : lists r M S -> (forall s, M s <-> M' s) -> (S <-> S') -> lists r M' S'.
Proof. intros H HM HS. destruct r as [ns|e]; cbn in *; [|tauto]. destruct H as [A B]. split; [intros s; now rewrite A, HM|tauto]. Qed.
Lemma lists_both r1 r2 M1 M2 S1 S2 : lists r1 M1 S1 -> lists r2 M2 S2 ->
  lists (let* x := r1 in let* y := r2 in Ok (x ++ y)) (fun s => M1 s \/ M2 s) (S1 \/ S2).
Proof.
  intros H1 H2. destruct r1 as [x|e1]; cbn [bind lists] in *; [|now left]. destruct r2 as [y|e2]; cbn [bind lists] in *; [|now right].
  destruct H1 as [A1 B1], H2 as [A2 B2]. split; [|tauto]. intros s. now rewrite in_app_iff, A1, A2.
Qed.
Definition scoped (e : pyexpr) : Prop := exists l, part (PScope l) e.
Definition named (e : pyexpr) : Prop := lists (names e) (fun s => mentions s e) (scoped e).
Lemma lists_args (l : list pyexpr) : Forall named l ->
  lists ((fix go (l : list pyexpr) : result (list string) := match l with [] => Ok [] | a :: r => let* x := names a in let* xs := go r in Ok (x ++ xs) end) l)
    (fun s => exists a, In a l /\ mentions s a) (exists a, In a l /\ scoped a).
Proof.
  induction 1 as [|a l Ha Hl IH].
  - split; [|intros (a & [] & _)]. intros s. split; [intros []|intros (a & [] & _)].
  - eapply lists_iff; [exact (lists_both _ _ _ _ _ _ Ha IH)| |].
    + intros s. split; [intros [H|(b & Hb & H)]; [exists a|exists b]; (split; [cbn; auto|exact H])|intros (b & [<-|Hb] & H); [now left|right; eauto]].
    + split; [intros [H|(b & Hb & H)]; [exists a|exists b]; (split; [cbn; auto|exact H])|intros (b & [<-|Hb] & H); [now left|right; eauto]].
Qed.
Lemma lists_rest (l : list (op * pyexpr)) : Forall (fun p => named (snd p)) l ->
  lists ((fix go (l : list (op * pyexpr)) : result (list string) := match l with [] => Ok [] | (_, b) :: r => let* y := names b in let* ys := go r in Ok (y ++ ys) end) l)
    (fun s => exists p, In p l /\ mentions s (snd p)) (exists p, In p l /\ scoped (snd p)).
Proof.
  induction 1 as [|[o a] l Ha Hl IH].
  - split; [|intros (a & [] & _)]. intros s. split; [intros []|intros (a & [] & _)].
  - eapply lists_iff; [exact (lists_both _ _ _ _ _ _ Ha IH)| |].
    + intros s. split; [intros [H|(b & Hb & H)]; [exists (o, a)|exists b]; (split; [cbn; auto|exact H])|intros (b & [<-|Hb] & H); [now left|right; eauto]].
    + split; [intros [H|(b & Hb & H)]; [exists (o, a)|exists b]; (split; [cbn; auto|exact H])|intros (b & [<-|Hb] & H); [now left|right; eauto]].
Qed.
(** Parts of an expression that is not a name, assignment, Q() or scope itself. *)
Definition basic (p : pyexpr) : Prop := match p with PName _ | PWalrus _ _ | PQuote _ | PScope _ => True | _ => False end.
Lemma through e (K : list pyexpr) : ~ basic e -> (forall p, basic p -> (part p e <-> exists a, In a K /\ part p a)) ->
  (forall s, mentions s e <-> exists a, In a K /\ mentions s a) /\ (scoped e <-> exists a, In a K /\ scoped a).
Proof.
  intros _ H. split.
  - intros s. unfold mentions. split.
    + intros [A|[[v A]|[-> [t A]]]]; apply H in A; try exact I; destruct A as (a & Ha & Hp); exists a; (split; [exact Ha|]); eauto 6.
    + intros (a & Ha & [A|[[v A]|[-> [t A]]]]); [left|right; left; exists v|right; right; split; [reflexivity|exists t]]; apply H; try exact I; eauto.
  - unfold scoped. split.
    + intros [l A]. apply H in A; [|exact I]. destruct A as (a & Ha & Hp). eauto.
    + intros (a & Ha & l & A). exists l. apply H; [exact I|]. eauto.
Qed.
Lemma names_lemma e : named e.
Proof.
  induction e as [s|v|o args IH|a b c IHa IHb IHc|a b IHa IHb|a b IHa IHb|a rest IHa IHr|s e IH|s|l] using pyexpr_rect'; unfold named; cbn [PyExprModel.names].
  - split; [|intros [l H]; inversion H]. intros t. split.
    + intros [<-|[]]. left. constructor.
    + intros [H|[[v H]|[_ [u H]]]]; inversion H. now left.
  - split; [|intros [l H]; inversion H]. intros t. split; [intros []|]. intros [H|[[w H]|[_ [u H]]]]; inversion H.
  - destruct (through (PNode o args) args) as [T1 T2]; [intros []| |].
    + intros p Hp. split; [intros H; inversion H; subst; [destruct Hp|eauto]|intros (a & Ha & H); econstructor; eauto].
    + eapply lists_iff; [exact (lists_args args IH)|intros s; now rewrite T1|now rewrite T2].
  - destruct (through (PIf a b c) [a; b; c]) as [T1 T2]; [intros []| |].
    + intros p Hp. split; [intros H; inversion H; subst; [destruct Hp|eauto]|intros (x & Hx & H); econstructor; eauto].
    + pose proof (lists_both _ _ _ _ _ _ IHa (lists_both _ _ _ _ _ _ IHb IHc)) as L.
      replace (let* x := names a in let* y := names b in let* z := names c in Ok (x ++ y ++ z)) with (let* x := names a in let* y := (let* y := names b in let* z := names c in Ok (y ++ z)) in Ok (x ++ y)).
      * eapply lists_iff; [exact L| |].
        -- intros s. rewrite T1. split; [intros [H|[H|H]]; [exists a|exists b|exists c]; (split; [cbn; auto|exact H])|intros (x & [<-|[<-|[<-|[]]]] & H); auto].
        -- rewrite T2. split; [intros [H|[H|H]]; [exists a|exists b|exists c]; (split; [cbn; auto|exact H])|intros (x & [<-|[<-|[<-|[]]]] & H); auto].
      * destruct (names a); [|reflexivity]. cbn [bind]. destruct (names b); [|reflexivity]. cbn [bind]. destruct (names c); reflexivity.
  - destruct (through (PAnd a b) [a; b]) as [T1 T2]; [intros []| |].
    + intros p Hp. split; [intros H; inversion H; subst; [destruct Hp|eauto]|intros (x & Hx & H); econstructor; eauto].
    + eapply lists_iff; [exact (lists_both _ _ _ _ _ _ IHa IHb)| |].
      -- intros s. rewrite T1. split; [intros [H|H]; [exists a|exists b]; (split; [cbn; auto|exact H])|intros (x & [<-|[<-|[]]] & H); auto].
      -- rewrite T2. split; [intros [H|H]; [exists a|exists b]; (split; [cbn; auto|exact H])|intros (x & [<-|[<-|[]]] & H); auto].
  - destruct (through (POr a b) [a; b]) as [T1 T2]; [intros []| |].
    + intros p Hp. split; [intros H; inversion H; subst; [destruct Hp|eauto]|intros (x & Hx & H); econstructor; eauto].
    + eapply lists_iff; [exact (lists_both _ _ _ _ _ _ IHa IHb)| |].
      -- intros s. rewrite T1. split; [intros [H|H]; [exists a|exists b]; (split; [cbn; auto|exact H])|intros (x & [<-|[<-|[]]] & H); auto].
      -- rewrite T2. split; [intros [H|H]; [exists a|exists b]; (split; [cbn; auto|exact H])|intros (x & [<-|[<-|[]]] & H); auto].
  - destruct (through (PCompare a rest) (a :: map snd rest)) as [T1 T2]; [intros []| |].
    + intros p Hp. split.
      * intros H. inversion H; subst; [destruct Hp|exists a; split; [now left|assumption]|]. exists b. split; [right; apply in_map_iff; now exists (o, b)|assumption].
      * intros (x & [<-|Hx] & H); [now apply part_left|]. apply in_map_iff in Hx. destruct Hx as ((o & y) & <- & Hy). eapply part_right; eauto.
    + eapply lists_iff; [exact (lists_both _ _ _ _ _ _ IHa (lists_rest rest IHr))| |].
      -- intros s. rewrite T1. split; [intros [H|(x & Hx & H)]; [exists a; split; [now left|exact H]|exists (snd x); split; [right; now apply in_map|exact H]]|].
         intros (x & [<-|Hx] & H); [now left|right]. apply in_map_iff in Hx. destruct Hx as (y & <- & Hy). eauto.
      -- rewrite T2. split; [intros [H|(x & Hx & H)]; [exists a; split; [now left|exact H]|exists (snd x); split; [right; now apply in_map|exact H]]|].
         intros (x & [<-|Hx] & H); [now left|right]. apply in_map_iff in Hx. destruct Hx as (y & <- & Hy). eauto.
  - unfold named in IH. destruct (names e) as [x|err]; cbn [bind lists] in *.
    + destruct IH as [A B]. split.
      * intros t. cbn [In]. rewrite A. unfold mentions. split.
        -- intros [->|[H|[[v H]|[-> [u H]]]]]; [right; left; exists e; constructor|left; now constructor|right; left; exists v; now constructor|right; right; split; [reflexivity|exists u; now constructor]].
        -- intros [H|[[v H]|[-> [u H]]]]; inversion H; subst; auto 6; right; eauto 6.
      * intros [l H]. inversion H; subst. apply B. now exists l.
    + destruct IH as [l H]. exists l. now constructor.
  - split; [|intros [l H]; inversion H]. intros t. split.
    + intros [<-|[]]. right. right. split; [reflexivity|]. exists s. constructor.
    + intros [H|[[v H]|[-> [u H]]]]; inversion H. now left.
  - exists l. constructor.
Qed.

(** Two lists of namespaces agree on the names [N], and both have a zeroth dict. *)
Definition agree (N : list string) (l1 l2 : list (@namespace val)) : Prop :=
  l1 <> [] /\ l2 <> [] /\ forall s, In s N -> vlookup l1 s = vlookup l2 s.
Definition agree_st N (s1 s2 : list (@namespace val) * world) : Prop := agree N (fst s1) (fst s2) /\ snd s1 = snd s2.
Definition same {A} N (m1 m2 : result A * (list (@namespace val) * world)) : Prop := fst m1 = fst m2 /\ agree_st N (snd m1) (snd m2).

Lemma same_andthen {A B} N (m1 m2 : result A * _) (k1 k2 : A -> _ -> result B * _) : same N m1 m2 ->
  (forall a s1 s2, agree_st N s1 s2 -> same N (k1 a s1) (k2 a s2)) -> same N (andthen m1 k1) (andthen m2 k2).
Proof.
  destruct m1 as [[a|e] s1], m2 as [[b|e'] s2]; intros [H1 H2] Hk; cbn in *; try discriminate.
  - injection H1 as ->. now apply Hk.
  - injection H1 as ->. split; [reflexivity|exact H2].
Qed.
Lemma same_world {A} N (f : world -> result A * world) s1 s2 : agree_st N s1 s2 -> same N (on_world f s1) (on_world f s2).
Proof. intros [H1 H2]. unfold on_world. rewrite H2. destruct (f (snd s2)). split; [reflexivity|]. now split. Qed.
Lemma vlookup_vset (l : list (@namespace val)) s v k : l <> [] -> vlookup (vset l s v) k = if String.eqb k s then Some v else vlookup l k.
Proof. destruct l as [|d l]; [congruence|]. intros _. cbn. unfold ns_set. now destruct (String.eqb k s). Qed.
Lemma agree_set N (l1 l2 : list (@namespace val)) s v : agree N l1 l2 -> agree N (vset l1 s v) (vset l2 s v).
Proof.
  intros [A [B C]]. split; [destruct l1; [congruence|discriminate]|]. split; [destruct l2; [congruence|discriminate]|].
  intros k Hk. rewrite !vlookup_vset by assumption. now rewrite C.
Qed.
Lemma same_ret {A} N (a : A) s1 s2 : agree_st N s1 s2 -> same N (Ok a, s1) (Ok a, s2).
Proof. intros H. split; [reflexivity|exact H]. Qed.

Lemma load_agree N s s1 s2 : In s N -> agree_st N s1 s2 -> same N (load pybuiltins s s1) (load pybuiltins s s2).
Proof. intros Hi [[Ha [Hb Hc]] Hw]. unfold load. rewrite (Hc s Hi). split; [reflexivity|]. split; [split; auto|exact Hw]. Qed.
Lemma incl_l {A} (a b N : list A) : incl (a ++ b) N -> incl a N.
Proof. intros H x Hx. apply H, in_app_iff. now left. Qed.
Lemma incl_r {A} (a b N : list A) : incl (a ++ b) N -> incl b N.
Proof. intros H x Hx. apply H, in_app_iff. now right. Qed.

Lemma sem_agree N e : forall ns, names e = Ok ns -> incl ns N -> incl (quoted e) N -> forall s1 s2, agree_st N s1 s2 -> same N (sem e s1) (sem e s2).
Proof.
  induction e as [s|v|o args IH|a b c IHa IHb IHc|a b IHa IHb|a b IHa IHb|a rest IHa IHr|s e IH|s|l] using pyexpr_rect'; intros ns Hn Hi Hq s1 s2 Hs; cbn [PyExprModel.names PyExprModel.sem quoted] in *.
  - injection Hn as <-. apply load_agree; [apply Hi; now left|exact Hs].
  - now apply same_ret.
  - apply same_andthen; [|intros vs t1 t2 Ht; now apply same_world].
    rename ns into nl, Hn into E.
    revert nl E Hi Hq s1 s2 Hs. induction IH as [|a r Ha Hr IH]; intros nl E Hi Hq s1 s2 Hs; [now apply same_ret|]. cbn in E, Hq.
    destruct (names a) as [x|] eqn:Ea; [|discriminate]. cbn in E. destruct (_ r) as [y|] eqn:Er in E; [|discriminate]. injection E as <-.
    apply same_andthen; [apply (Ha x); eauto using incl_l|]. intros v t1 t2 Ht.
    apply same_andthen; [apply (IH y); eauto using incl_r|]. intros vs u1 u2 Hu. now apply same_ret.
  - destruct (names a) as [x|] eqn:Ea; [|discriminate]. cbn in Hn. destruct (names b) as [y|] eqn:Eb; [|discriminate]. cbn in Hn. destruct (names c) as [z|] eqn:Ec; [|discriminate]. injection Hn as <-.
    apply same_andthen; [apply (IHa x); eauto using incl_l|]. intros v t1 t2 Ht. apply incl_r in Hi, Hq.
    apply same_andthen; [now apply same_world|]. intros [] u1 u2 Hu; [apply (IHb y)|apply (IHc z)]; eauto using incl_l, incl_r.
  - destruct (names a) as [x|] eqn:Ea; [|discriminate]. cbn in Hn. destruct (names b) as [y|] eqn:Eb; [|discriminate]. injection Hn as <-.
    apply same_andthen; [apply (IHa x); eauto using incl_l|]. intros v t1 t2 Ht.
    apply same_andthen; [now apply same_world|]. intros [] u1 u2 Hu; [apply (IHb y); eauto using incl_r|now apply same_ret].
  - destruct (names a) as [x|] eqn:Ea; [|discriminate]. cbn in Hn. destruct (names b) as [y|] eqn:Eb; [|discriminate]. injection Hn as <-.
    apply same_andthen; [apply (IHa x); eauto using incl_l|]. intros v t1 t2 Ht.
    apply same_andthen; [now apply same_world|]. intros [] u1 u2 Hu; [now apply same_ret|apply (IHb y); eauto using incl_r].
  - destruct (names a) as [x|] eqn:Ea; [|discriminate]. cbn in Hn. destruct (_ rest) as [nl|] eqn:E in Hn; [|discriminate]. injection Hn as <-.
    apply same_andthen; [apply (IHa x); eauto using incl_l|].
    apply incl_r in Hi, Hq. clear Ea IHa Hs s1 s2. revert nl E Hi Hq.
    induction IHr as [|[o b] r Hb Hr IH]; intros nl E Hi Hq v t1 t2 Ht; [now apply same_ret|]. cbn in E, Hq.
    destruct (names b) as [y|] eqn:Eb; [|discriminate]. cbn in E. destruct (_ r) as [z|] eqn:Er in E; [|discriminate]. injection E as <-.
    apply same_andthen; [apply (Hb y); eauto using incl_l|]. intros w u1 u2 Hu.
    apply same_andthen; [now apply same_world|]. intros c q1 q2 Hq12. destruct r as [|p r]; [now apply same_ret|].
    apply same_andthen; [now apply same_world|]. intros [] r1 r2 Hr12; [|now apply same_ret].
    apply (IH z); eauto using incl_r.
  - destruct (names e) as [x|] eqn:Ea; [|discriminate]. injection Hn as <-.
    apply same_andthen; [apply (IH x); auto; intros q Hq'; apply Hi; now right|]. intros v [l1 w1] [l2 w2] [Ht1 Ht2]. split; [reflexivity|]. split; [now apply agree_set|exact Ht2].
  - injection Hn as <-. apply same_andthen; [apply load_agree; [apply Hi; now left|exact Hs]|]. intros v t1 t2 Ht. pose proof Ht as [[Ha [Hb Hc]] Hw].
    rewrite (Hc s) by (apply Hq; now left). split; [reflexivity|exact Ht].
  - discriminate.
Qed.

(** * [Q("x")] for [x] *)
Definition finds (D : string -> Prop) (l : list (@namespace val)) : Prop := l <> [] /\ vlookup l "Q" <> None /\ forall s, D s -> vlookup l s <> None.
Definition keeps {A} (D : string -> Prop) (m1 m2 : result A * (list (@namespace val) * world)) : Prop := m1 = m2 /\ finds D (fst (snd m1)).
Lemma keeps_andthen {A B} D (m1 m2 : result A * _) (k1 k2 : A -> _ -> result B * _) : keeps D m1 m2 ->
  (forall a st, finds D (fst st) -> keeps D (k1 a st) (k2 a st)) -> keeps D (andthen m1 k1) (andthen m2 k2).
Proof. intros [<- H] Hk. destruct m1 as [[a|e] s1]; cbn in *; [now apply Hk|]. split; auto. Qed.
Lemma keeps_world {A} D (f : world -> result A * world) st : finds D (fst st) -> keeps D (on_world f st) (on_world f st).
Proof. intros H. unfold on_world. destruct (f (snd st)). split; auto. Qed.
Lemma keeps_ret {A} D (a : result A) st : finds D (fst st) -> keeps D (a, st) (a, st).
Proof. now split. Qed.
Lemma finds_set D l s v : finds D l -> finds D (vset l s v).
Proof.
  intros [H1 [H2 H3]]. split; [destruct l; [congruence|discriminate]|]. rewrite vlookup_vset by exact H1. split; [now destruct (String.eqb "Q" s)|].
  intros k Hk. rewrite vlookup_vset by exact H1. destruct (String.eqb k s); [discriminate|]. now apply H3.
Qed.

Lemma sem_requoted (D : string -> Prop) e : forall e', requoted D e e' -> forall st, finds D (fst st) -> keeps D (sem e st) (sem e' st).
Proof.
  induction e as [s|v|o args IH|a b c IHa IHb IHc|a b IHa IHb|a b IHa IHb|a rest IHa IHr|s e IH|s|l] using pyexpr_rect'; intros e' Hr st Hst; inversion Hr; subst; cbn [PyExprModel.sem].
  - assert (L : forall s, vlookup (fst st) s <> None -> exists v, load pybuiltins s st = (Ok v, st) /\ vlookup (fst st) s = Some v).
    { intros k Hk. unfold load. destruct (vlookup (fst st) k) as [v|]; [|congruence]. now exists v. }
    pose proof Hst as [_ [HQ HD]]. destruct (L s (HD s ltac:(assumption))) as [v [Hl Hv]]. destruct (L "Q" HQ) as [q [Hl' _]]. rewrite Hl, Hl'. cbn. rewrite Hv. now apply keeps_ret.
  - now apply keeps_ret.
  - now apply keeps_ret.
  - apply keeps_andthen; [|intros vs t Ht; now apply keeps_world].
    match goal with F : Forall2 _ args _ |- _ => clear Hr; revert l' F st Hst end. induction IH as [|a r Ha Hr IH]; intros l' F st Hst; inversion F; subst; [now apply keeps_ret|].
    apply keeps_andthen; [now apply Ha|]. intros v t Ht. apply keeps_andthen; [now apply IH|]. intros vs u Hu. now apply keeps_ret.
  - apply keeps_andthen; [now apply IHa|]. intros v t Ht. apply keeps_andthen; [now apply keeps_world|]. intros [] u Hu; [now apply IHb|now apply IHc].
  - apply keeps_andthen; [now apply IHa|]. intros v t Ht. apply keeps_andthen; [now apply keeps_world|]. intros [] u Hu; [now apply IHb|now apply keeps_ret].
  - apply keeps_andthen; [now apply IHa|]. intros v t Ht. apply keeps_andthen; [now apply keeps_world|]. intros [] u Hu; [now apply keeps_ret|now apply IHb].
  - apply keeps_andthen; [now apply IHa|]. match goal with F : Forall2 _ rest _ |- _ => clear Hst; clear st; revert l' F Hr end. intros l' F _. revert l' F.
    induction IHr as [|[o b] r Hb Hr IH]; intros l' F v t Ht; inversion F as [|p [o' b'] r1 r2 [E1 E2] E3]; subst; [now apply keeps_ret|]. cbn in E1, E2, Hb. subst o'.
    apply keeps_andthen; [now apply Hb|]. intros w u Hu. apply keeps_andthen; [now apply keeps_world|]. intros c q Hq.
    destruct E3 as [|p p' r r' E3 E4]; [now apply keeps_ret|].
    apply keeps_andthen; [now apply keeps_world|]. intros [] z Hz; [|now apply keeps_ret]. exact (IH (p' :: r') (Forall2_cons _ _ E3 E4) w z Hz).
  - apply keeps_andthen; [now apply IH|]. intros v [l w] Ht. split; [reflexivity|]. cbn. now apply finds_set.
  - apply keeps_andthen; [|intros v t Ht; now apply keeps_ret]. unfold load. now apply keeps_ret.
Qed.

Lemma requoted_quoted (D : string -> Prop) (e : pyexpr) : forall e', requoted D e e' -> forall s, In s (quoted e') -> In s (quoted e) \/ D s.
Proof.
  induction e as [s|v|o args IH|a b c IHa IHb IHc|a b IHa IHb|a b IHa IHb|a rest IHa IHr|s e IH|s|l] using pyexpr_rect'; intros e' Hr k Hk; inversion Hr; subst; cbn [quoted] in *; rewrite ?in_app_iff in *; try tauto.
  - destruct Hk as [<-|[]]. now right.
  - match goal with F : Forall2 _ args _ |- _ => clear Hr; revert l' F Hk end. induction IH as [|a r Ha Hr IH]; intros l' F Hk; inversion F; subst; [destruct Hk|].
    cbn in *. rewrite in_app_iff in *. destruct Hk as [Hk|Hk]; [edestruct Ha; eauto|edestruct IH; eauto].
  - destruct Hk as [Hk|[Hk|Hk]]; [edestruct IHa; eauto|edestruct IHb; eauto|edestruct IHc; eauto].
  - destruct Hk as [Hk|Hk]; [edestruct IHa; eauto|edestruct IHb; eauto].
  - destruct Hk as [Hk|Hk]; [edestruct IHa; eauto|edestruct IHb; eauto].
  - destruct Hk as [Hk|Hk]; [edestruct IHa; eauto|].
    assert (In k (flat_map (fun p => quoted (snd p)) rest) \/ D k); [|tauto].
    match goal with F : Forall2 _ rest _ |- _ => clear Hr; revert l' F Hk end. induction IHr as [|p r Ha Hr IH]; intros l' F Hk; inversion F as [|? ? ? ? [E1 E2] E3]; subst; [destruct Hk|].
    cbn in *. rewrite in_app_iff in *. destruct Hk as [Hk|Hk]; [edestruct Ha; eauto|edestruct IH; eauto].
  - edestruct IH; eauto.
Qed.

(** * Lookup order *)
Lemma vlookup_spec (l : list (@namespace val)) s v : vlookup l s = Some v <-> exists l1 d l2, l = l1 ++ d :: l2 /\ Forall (fun d => d s = None) l1 /\ d s = Some v.
Proof.
  induction l as [|d l IH]; cbn; [split; [discriminate|intros [[|? ?] [? [? [H _]]]]; discriminate]|].
  destruct (d s) as [x|] eqn:E.
  - split.
    + intros H. injection H as ->. exists [], d, l. repeat split; auto.
    + intros [[|d1 l1] [d' [l2 [H1 [H2 H3]]]]]; injection H1 as Ha Hb; subst; [congruence|]. inversion H2; subst. congruence.
  - rewrite IH. split.
    + intros [l1 [d' [l2 [-> [H2 H3]]]]]. exists (d :: l1), d', l2. repeat split; auto.
    + intros [[|d1 l1] [d' [l2 [H1 [H2 H3]]]]]; injection H1 as Ha Hb; subst; [congruence|]. inversion H2; subst. eauto 10.
Qed.
Lemma vlookup_app (a b : list (@namespace val)) s : vlookup (a ++ b) s = match vlookup a s with Some v => Some v | None => vlookup b s end.
Proof. induction a as [|d a IH]; [reflexivity|]. cbn. now destruct (d s). Qed.
Lemma factor_lookup (st : @factor_state val) data objects s : vlookup (factor_locals st data objects) s =
  match data s with Some v => Some v | None => match objects s with Some v => Some v | None => vlookup (fs_env st) s end end.
Proof. unfold factor_locals, eval_locals, new_vld. cbn. destruct (data s); [reflexivity|]. now destruct (objects s). Qed.
Lemma name_lookup e inner s w :
  env_eval apply truth pybuiltins e inner (PName s) w =
  (match inner s with
   | Some v => Ok v
   | None => match vlookup e s with
             | Some v => Ok v
             | None => match pybuiltins s with Some v => Ok v | None => Err NameError end
             end
   end, w).
Proof. unfold env_eval, eval_locals, new_vld. cbn. destruct (inner s); [reflexivity|]. destruct (vlookup e s); reflexivity. Qed.

(** * Subsetting *)
Variable lex : string -> result (list ptok).
Variable parse : string -> result pyexpr.
Variable stateful : val -> bool.
Variable builtins : @namespace val.
Lemma subset_eval code e st mentioned : memorize_passes_needed lex (ast_names_of parse) stateful builtins code e = Ok st ->
  ast_names_of parse code = Ok mentioned ->
  forall expr ns, names expr = Ok ns -> (forall s, In s ns -> In s mentioned \/ In s (map fst (fs_transforms st))) ->
  forall (data objects : namespace) w, (forall o, In o (map fst (fs_transforms st)) -> objects o <> None) ->
  (forall s, In s (quoted expr) -> data s <> None \/ In s mentioned \/ vlookup (with_outer_namespace e builtins) s = None) ->
  env_eval apply truth pybuiltins (fs_env st) (vlookup (new_vld [data; objects])) expr w =
  env_eval apply truth pybuiltins (with_outer_namespace e builtins) (vlookup (new_vld [data; objects])) expr w.
Proof.
  intros H Hm expr ns Hn Hsub data objects w Hobj Hquo.
  destruct (eval_code_lemma lex (ast_names_of parse) stateful builtins code e st H) as [mentioned' [toks [ms [A [B [C [D [E [F [G [I J]]]]]]]]]]].
  rewrite Hm in A. injection A as <-.
  unfold env_eval. pose proof (sem_agree (ns ++ quoted expr) expr ns Hn (incl_appl _ (incl_refl ns)) (incl_appr _ (incl_refl _))
    (eval_locals (fs_env st) (vlookup (new_vld [data; objects])), w) (eval_locals (with_outer_namespace e builtins) (vlookup (new_vld [data; objects])), w)) as S.
  destruct S as [S1 [S2 S3]].
  - split; [|reflexivity]. split; [discriminate|]. split; [discriminate|]. intros s Hs. unfold eval_locals, new_vld. cbn.
    destruct (data s) as [d|] eqn:Ed; [reflexivity|]. destruct (objects s) as [v|] eqn:Eo; [reflexivity|]. rewrite J. unfold with_outer_namespace in *.
    assert (In s mentioned \/ vlookup (e ++ [builtins]) s = None) as [Hs'|Hs'].
    { apply in_app_iff in Hs. destruct Hs as [Hs|Hs].
      - destruct (Hsub s Hs) as [Hs'|Hs']; [now left|exfalso; exact (Hobj s Hs' Eo)].
      - destruct (Hquo s Hs) as [Hs'|[Hs'|Hs']]; auto. congruence. }
    + apply str_in_iff in Hs'. now rewrite Hs'.
    + rewrite Hs'. now destruct (str_in s mentioned).
  - destruct (sem expr _) as [r1 t1], (sem expr _) as [r2 t2]. cbn in *. subst r1. now rewrite S3.
Qed.

Lemma quoted_eval code code' e st st' mentioned mentioned' :
  memorize_passes_needed lex (ast_names_of parse) stateful builtins code e = Ok st -> ast_names_of parse code = Ok mentioned ->
  memorize_passes_needed lex (ast_names_of parse) stateful builtins code' e = Ok st' -> ast_names_of parse code' = Ok mentioned' ->
  forall expr expr' ns ns' (data objects : namespace) w,
  names expr = Ok ns -> (forall s, In s ns -> In s mentioned \/ In s (map fst (fs_transforms st))) ->
  names expr' = Ok ns' -> (forall s, In s ns' -> In s mentioned' \/ In s (map fst (fs_transforms st'))) ->
  (forall o, In o (map fst (fs_transforms st)) \/ In o (map fst (fs_transforms st')) -> objects o <> None) ->
  vlookup (with_outer_namespace e builtins) "Q" <> None ->
  (forall s, In s (quoted expr) -> data s <> None) ->
  requoted (fun s => data s <> None) expr expr' ->
  env_eval apply truth pybuiltins (fs_env st') (vlookup (new_vld [data; objects])) expr' w =
  env_eval apply truth pybuiltins (fs_env st) (vlookup (new_vld [data; objects])) expr w.
Proof.
  intros H Hm H' Hm' expr expr' ns ns' data objects w Hn Hsub Hn' Hsub' Hobj HQ Hquo Hr.
  rewrite (subset_eval code e st mentioned H Hm expr ns Hn Hsub data objects w); [|auto|intros s Hs; left; auto].
  rewrite (subset_eval code' e st' mentioned' H' Hm' expr' ns' Hn' Hsub' data objects w);
    [|auto|intros s Hs; left; destruct (requoted_quoted _ _ _ Hr s Hs) as [Hs'|Hs']; [apply Hquo; exact Hs'|exact Hs']].
  unfold env_eval. destruct (sem_requoted _ expr expr' Hr (eval_locals (with_outer_namespace e builtins) (vlookup (new_vld [data; objects])), w)) as [-> _]; [|reflexivity].
  unfold eval_locals, new_vld. split; [discriminate|]. split.
  - cbn. destruct (data "Q"); [discriminate|]. destruct (objects "Q"); [discriminate|]. exact HQ.
  - intros s Hs. cbn. destruct (data s); [discriminate|congruence].
Qed.
End P.
