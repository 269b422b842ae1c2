(** Proofs about models that contain others (C100). *)
From Coq Require Import ZArith Permutation Ring_theory.
From Verif Require Import Base RedundancyModel RedundancySpec RankSpec RankProofs DescModel BuildModel BuildSpec BuildDesignProofs MemorizeModel MemorizeSpec CategoricalModel CategoricalSpec PipeModel PipeSpec PipeProofs EntrySpec EntryProofs
  RankMatSpec RankMatLinProofs RankMatProofs RankPipeSpec RankPipeProofs SpaceSpec.
Open Scope list_scope.
Open Scope nat_scope.

Section Models.
Context {R : Type} (rO rI : R) (radd rmul rsub : R -> R -> R) (ropp : R -> R).
Hypothesis Rth : ring_theory rO rI radd rmul rsub ropp (@eq R).
Context {P : Type}.

Lemma nested_model (ok : P -> Prop) num1 num2 level1 level2 number1 number2 tl1 tl2 Y :
  nested rI rmul ok num1 num2 level1 level2 number1 number2 tl1 tl2 ->
  in_model rO rI radd rmul ok num1 level1 number1 tl1 Y -> in_model rO rI radd rmul ok num2 level2 number2 tl2 Y.
Proof.
  intros Hn [gs [Hgs HY]].
  assert (G : exists gs' : list (term * list nat * ((factor -> nat) -> R)),
    Forall (fun x => let '(t, ks, g) := x in In t tl2 /\ chooses num2 t ks /\ forall r r', (forall f, In f (categoricals num2 t) -> r f = r' f) -> g r = g r') gs' /\
    forall p, ok p -> rsum rO radd (fun x => let '(t, ks, g) := x in rmul (product rI rmul number1 (combine (numerics num1 t) ks) p) (g (level1 p))) gs =
      rsum rO radd (fun x => let '(t, ks, g) := x in rmul (product rI rmul number2 (combine (numerics num2 t) ks) p) (g (level2 p))) gs').
  { clear HY. induction Hgs as [|[[t ks] g] gs [Ht [Hc Hg]] Hgs IH].
    - exists []. split; [constructor|]. reflexivity.
    - destruct IH as [gs' [Hgs' E]]. destruct (Hn t Ht) as [u [Hu [Hk [h [Hh1 Hh2]]]]]. destruct (Hk ks Hc) as [ks' [Hc' Ek]].
      exists ((u, ks', fun r => g (h r)) :: gs'). split.
      + constructor; [|exact Hgs']. split; [exact Hu|]. split; [exact Hc'|]. intros r r' Hr. apply Hg. intros f Hf. now apply Hh1.
      + intros p Hp. cbn [rsum]. rewrite (E p Hp), (Ek p Hp). f_equal. f_equal. apply Hg. intros f Hf. now apply Hh2. }
  destruct G as [gs' [Hgs' E]]. exists gs'. split; [exact Hgs'|]. intros p Hp. rewrite (HY p Hp). now apply E.
Qed.

Lemma rprod_perm {A} (f : A -> R) l l' : Permutation l l' -> rprod rI rmul f l = rprod rI rmul f l'.
Proof.
  induction 1 as [|x l l' H IH|x y l|l l' l'' H1 IH1 H2 IH2]; cbn [rprod]; [reflexivity|now rewrite IH| |now rewrite IH1].
  rewrite !(Rmul_assoc Rth). now rewrite (Rmul_comm Rth (f y)).
Qed.
Lemma perm_choices (w : factor -> nat) l l' : Permutation l l' -> forall ks, Forall2 (fun k f => k < w f) ks l ->
  exists ks', Forall2 (fun k f => k < w f) ks' l' /\ Permutation (combine l ks) (combine l' ks').
Proof.
  induction 1 as [|x l l' H IH|x y l|l l' l'' H1 IH1 H2 IH2]; intros ks Hks.
  - exists ks. split; [exact Hks|]. apply Permutation_refl.
  - inversion Hks as [|k z ks0 l0 Hk Hks0]; subst. destruct (IH ks0 Hks0) as [ks' [A B]]. exists (k :: ks'). split; [now constructor|]. cbn [combine]. now constructor.
  - inversion Hks as [|k z ks0 l0 Hk Hks0]; subst. inversion Hks0 as [|k' z ks1 l0 Hk' Hks1]; subst. exists (k' :: k :: ks1). split; [now repeat constructor|]. cbn [combine]. constructor.
  - destruct (IH1 ks Hks) as [ks1 [A B]]. destruct (IH2 ks1 A) as [ks2 [A2 B2]]. exists ks2. split; [exact A2|]. now transitivity (combine l' ks1).
Qed.
Lemma margin_covers (ok : P -> Prop) num level number t u : NoDup t -> NoDup u -> margin_of num t u ->
  covers rI rmul ok num num level level number number t u.
Proof.
  intros Ht Hu [Hn Hc]. split.
  - intros ks Hks. assert (Hp : Permutation (numerics num t) (numerics num u)).
    { apply NoDup_Permutation; [now apply NoDup_filter..|exact Hn]. }
    destruct (perm_choices (width num) _ _ Hp ks Hks) as [ks' [A B]]. exists ks'. split; [exact A|]. intros p _. unfold product. now apply rprod_perm.
  - exists (fun r => r). split; [intros r r' H f Hf; apply H, Hc, Hf|reflexivity].
Qed.
Lemma margins_nested (ok : P -> Prop) num level number tl1 tl2 : Forall (@NoDup factor) tl1 -> Forall (@NoDup factor) tl2 -> margins num tl1 tl2 ->
  nested rI rmul ok num num level level number number tl1 tl2.
Proof.
  intros H1 H2 Hm t Ht. destruct (Hm t Ht) as [u [Hu M]]. exists u. split; [exact Hu|]. rewrite Forall_forall in H1, H2. apply margin_covers; auto.
Qed.

Lemma comb_ext (ok : P -> Prop) (l m : list (P -> R)) : Forall2 (fun a b => forall r, ok r -> a r = b r) l m -> forall co r, ok r -> comb rO radd rmul co l r = comb rO radd rmul co m r.
Proof.
  unfold comb. induction 1 as [|a b l m H Hd IH]; intros [|c co] r Hr; cbn [combine rsum]; try reflexivity. cbn [fst snd]. now rewrite (H r Hr), (IH co r Hr).
Qed.
Lemma column_at level number {Q} (lv : Q -> factor -> nat) (nu : Q -> factor -> nat -> R) (id : @column_id R) (p : P) (q : Q) :
  (forall f, lv q f = level p f) -> (forall f k, nu q f k = number p f k) -> column rO rI rmul level number id p = column rO rI rmul lv nu id q.
Proof.
  intros H1 H2. unfold column. induction (combine _ _) as [|[f i] l IH]; cbn [rprod]; [reflexivity|]. rewrite IH. f_equal. unfold entry_of. cbn [fst snd]. destruct (dget _ _ _); [now rewrite H1|now rewrite H2].
Qed.
Lemma comb_at level number {Q} (lv : Q -> factor -> nat) (nu : Q -> factor -> nat -> R) (ids : list (@column_id R)) co (p : P) (q : Q) :
  (forall f, lv q f = level p f) -> (forall f k, nu q f k = number p f k) ->
  comb rO radd rmul co (map (column rO rI rmul level number) ids) p = comb rO radd rmul co (map (column rO rI rmul lv nu) ids) q.
Proof.
  intros H1 H2. unfold comb. revert co. induction ids as [|id ids IH]; intros [|c co]; cbn [map combine rsum]; try reflexivity. cbn [fst snd]. now rewrite IH, (column_at level number lv nu id p q H1 H2).
Qed.
End Models.

Lemma learned_unique {V I C S D : Type} (passes : factor -> result (S * Z)) (chunk : factor -> S -> nat -> D -> result S) (finish : factor -> S -> nat -> result S) (eval : factor -> S -> D -> result (@fobj V I C))
  origin_of addr hash_order na (data : nat -> list D) fs f s k levels c s' k' levels' c' :
  learned passes chunk finish eval origin_of addr hash_order na data fs f s k levels c -> learned passes chunk finish eval origin_of addr hash_order na data fs f s' k' levels' c' ->
  k = k' /\ levels = levels' /\ c = c'.
Proof.
  assert (T : forall s s', trained passes chunk finish data f s -> trained passes chunk finish data f s' -> s = s').
  { intros a b [s0 [n [Ep R]]] [s0' [n' [Ep' R']]]. rewrite Ep in Ep'. injection Ep' as <- <-. rewrite R in R'. now injection R'. }
  intros [a n Ta Ty|a sn lv c0 Ta Ty El] [b n' Tb Ty'|b sn' lv' c0' Tb Ty' El']; pose proof (T _ _ Ta Tb) as <-; rewrite Ty in Ty'; try discriminate; injection Ty' as <-; [auto|]. rewrite El in El'. injection El' as <- <-. auto.
Qed.

(** A design as a list of columns over any kind of rows. *)
Lemma design_columns {V : Type} (rO rI : V) (radd rmul rsub : V -> V -> V) (ropp : V -> V) tl num c rows :
  ring_theory rO rI radd rmul rsub ropp (@eq V) -> design_of rO rI radd rmul tl num c rows ->
  Forall (@NoDup factor) tl /\ exists (ids : list (@column_id V)) (nlev : factor -> nat), length ids = c /\
    (forall (P : Type) (ok : P -> Prop) level number, (forall p, ok p -> legit nlev (all_categoricals num tl) (level p)) ->
       forall Y, in_span rO radd rmul ok (map (column rO rI rmul level number) ids) Y <-> in_model rO rI radd rmul ok num level number tl Y) /\
    forall m r lev nu, rows m r lev nu -> legit nlev (all_categoricals num tl) lev /\
      forall (Q : Type) (lv : Q -> factor -> nat) (nm : Q -> factor -> nat -> V) (q : Q) co, (forall f, lv q f = lev f) -> (forall f k, nm q f k = nu f k) ->
        prediction rO radd rmul m co r = comb rO radd rmul co (map (column rO rI rmul lv nm) ids) q.
Proof.
  intros Rth H.
  destruct H as [I C S D visnan ilabel ieqb passes chunk finish eval origin_of code_cm hash set_order order_mem order_exam addr hash_order df_index value_is data na act tls ds j x levels contrast
    Hi Hs Hme He Hx value_fun Hval Hb Ha Htl Hxj Hnd Hcf Hl Hgood].
  destruct (builders_inv passes chunk finish eval origin_of code_cm hash set_order order_mem order_exam addr hash_order Hs Hme He data na tls ds Hb)
    as [act0 [numc [cat [fis [kn [dis [Ha0 [Eds [Hd [Hid Hf]]]]]]]]]]. rewrite Ha in Ha0. injection Ha0 as <-.
  assert (Edf : design_for numc (contrast_for code_cm cat) hash fis tl = Ok (ds_info x)).
  { apply mapM_ok_Forall2 in Hd. rewrite Eds, nth_error_map in Hxj. destruct (nth_error dis j) as [di|] eqn:Ej; [|discriminate]. injection Hxj as <-. exact (nth_forall2 _ _ _ Hd j tl di Htl Ej). }
  destruct (design_for_lemma _ _ _ _ _ _ Edf) as [_ [_ [Hnames Hinfos]]].
  assert (Hfin : forall f, In f (concat tl) -> In f (factors_of tls)).
  { intros f Hff. unfold factors_of. apply in_concat. exists (concat tl). split; [apply in_map; eapply nth_error_In, Htl|exact Hff]. }
  assert (Hnum : known_factors numc cat x tl num levels contrast).
  { intros f Hff. destruct (Hf f (Hfin f Hff)) as [fi [s [k [lv [c [L1 [L2 [L3 [L4 [L5 [L6 L7]]]]]]]]]]]. specialize (Hl f Hff). cbv zeta in Hl. rewrite (Hinfos f Hff), L2. destruct (num f) as [nf|].
    - destruct Hl as [s' [lv' [c' L]]]. destruct (learned_unique _ _ _ _ _ _ _ _ _ _ _ _ _ _ _ _ _ _ _ L1 L) as [-> [-> ->]]. split; [now rewrite L6|]. split; [discriminate|]. exists fi. split; [reflexivity|]. intros n0 [= <-]. exact L4.
    - destruct Hl as [s' L]. destruct (learned_unique _ _ _ _ _ _ _ _ _ _ _ _ _ _ _ _ _ _ _ L1 L) as [-> [-> ->]]. split; [now rewrite L6|]. split; [intros _; exact L7|]. exists fi. split; [reflexivity|]. discriminate. }
  split; [exact Hnd|].
  destruct (design_span rO rI radd rmul rsub ropp Rth code_cm hash numc cat fis x tl num levels contrast Edf Hnum Hnd Hcf Hgood) as [Hft Hspan].
  exists (columns_of (infos_of (ds_info x)) (codings_of (ds_info x))), (fun f => length (levels f)). split; [now rewrite Hnames, map_length|]. split.
  - intros P ok level number Hlegit. exact (proj2 (Hspan P ok level number Hlegit)).
  - intros m r lev nu [used d na' w ms labels i level number Hu Hp Hbd Hxi Hmi Hr Hdes Elev Enu].
    destruct (entries_lemma rI rmul visnan ilabel ieqb Hi passes chunk finish eval origin_of code_cm hash set_order order_mem order_exam addr hash_order df_index Hs Hme He Hx value_is value_fun data tls Hval na used ds d na' w ms labels Hb Hu
      (fun f s o H1 H2 H3 H4 => Hp f (eval f s) o H1 (Hval f s H2 H3) H4) Hbd) as [act1 [act' [n [ks [Ha1 [Ha' [Hrows [_ Hent]]]]]]]].
    rewrite Ha in Ha1. injection Ha1 as <-. specialize (Hdes act' n ks Ha' Hrows).
    pose proof (nth_forall2 _ _ _ Hent i x m Hxi Hmi) as Hem.
    destruct (matrix_columns_are rO rI radd rmul rsub ropp Rth passes origin_of code_cm addr hash_order value_is value_fun data tls _ _ _ x m ks tl num levels contrast level number Hem Hdes Hft) as [Hlegit Ecol].
    split; [intros f Hff; rewrite Elev; now apply (Hlegit r Hr)|].
    intros Q lv nm q co H1 H2. unfold prediction. rewrite <- (comb_ext rO radd rmul _ _ _ Ecol co r Hr). apply comb_at; [intros f; now rewrite H1|intros f k; now rewrite H2].
Qed.

Lemma nested_lemma {V : Type} (rO rI : V) (radd rmul rsub : V -> V -> V) (ropp : V -> V) tl1 num1 c1 rows1 tl2 num2 c2 rows2 {P : Type} (ok : P -> Prop) level1 level2 number1 number2 :
  ring_theory rO rI radd rmul rsub ropp (@eq V) -> design_of rO rI radd rmul tl1 num1 c1 rows1 -> design_of rO rI radd rmul tl2 num2 c2 rows2 ->
  nested rI rmul ok num1 num2 level1 level2 number1 number2 tl1 tl2 ->
  forall co, length co = c1 -> exists co', length co' = c2 /\
    forall p m1 r1 m2 r2, ok p -> rows1 m1 r1 (level1 p) (number1 p) -> rows2 m2 r2 (level2 p) (number2 p) ->
      prediction rO radd rmul m1 co r1 = prediction rO radd rmul m2 co' r2.
Proof.
  intros Rth H1 H2 Hn co Hco.
  destruct (design_columns rO rI radd rmul rsub ropp tl1 num1 c1 rows1 Rth H1) as [_ [ids1 [nlev1 [E1 [S1 R1]]]]].
  destruct (design_columns rO rI radd rmul rsub ropp tl2 num2 c2 rows2 Rth H2) as [_ [ids2 [nlev2 [E2 [S2 R2]]]]].
  set (ok' := fun p => ok p /\ legit nlev1 (all_categoricals num1 tl1) (level1 p) /\ legit nlev2 (all_categoricals num2 tl2) (level2 p)).
  assert (Hn' : nested rI rmul ok' num1 num2 level1 level2 number1 number2 tl1 tl2).
  { intros t Ht. destruct (Hn t Ht) as [u [Hu [A [h [B1 B2]]]]]. exists u. split; [exact Hu|]. split.
    - intros ks Hks. destruct (A ks Hks) as [ks' [A1 A2]]. exists ks'. split; [exact A1|]. intros p Hp. apply A2, Hp.
    - exists h. split; [exact B1|]. intros p Hp. apply B2, Hp. }
  assert (Hs : in_span rO radd rmul ok' (map (column rO rI rmul level1 number1) ids1) (comb rO radd rmul co (map (column rO rI rmul level1 number1) ids1))).
  { exists co. split; [now rewrite map_length, E1|reflexivity]. }
  apply (S1 P ok' level1 number1) in Hs; [|intros p Hp; apply Hp].
  apply (nested_model rO rI radd rmul ok' _ _ _ _ _ _ _ _ _ Hn') in Hs.
  apply (S2 P ok' level2 number2) in Hs; [|intros p Hp; apply Hp]. destruct Hs as [co' [Hl Hco']]. exists co'. split; [now rewrite Hl, map_length|].
  intros p m1 r1 m2 r2 Hp A B. destruct (R1 m1 r1 _ _ A) as [L1 Q1]. destruct (R2 m2 r2 _ _ B) as [L2 Q2].
  rewrite (Q1 P level1 number1 p co (fun _ => eq_refl) (fun _ _ => eq_refl)), (Q2 P level2 number2 p co' (fun _ => eq_refl) (fun _ _ => eq_refl)). apply Hco'. repeat split; assumption.
Qed.

Lemma lt_sorted_unique l : forall m, Sorted.StronglySorted lt l -> Sorted.StronglySorted lt m -> (forall k, In k l <-> In k m) -> l = m.
Proof.
  induction l as [|a l IH]; intros [|b m] Hl Hm H; [reflexivity|exfalso; apply (H b); now left|exfalso; apply (H a); now left|].
  inversion Hl as [|? ? Hl' Fa]; subst. inversion Hm as [|? ? Hm' Fb]; subst. rewrite Forall_forall in Fa, Fb.
  assert (a = b).
  { destruct (proj1 (H a) (or_introl eq_refl)) as [E|E]; [congruence|]. destruct (proj2 (H b) (or_introl eq_refl)) as [E'|E']; [congruence|]. specialize (Fb a E). specialize (Fa b E'). lia. }
  subst b. f_equal. apply IH; [assumption..|]. intros k. split; intros Hk.
  - destruct (proj1 (H k) (or_intror Hk)) as [E|E]; [|exact E]. subst k. specialize (Fa a Hk). lia.
  - destruct (proj2 (H k) (or_intror Hk)) as [E|E]; [|exact E]. subst k. specialize (Fb a Hk). lia.
Qed.
