(** Proofs about the rank of the matrices that are built. *)
From Coq Require Import ZArith Permutation Ring_theory.
From Verif Require Import Base RedundancyModel RedundancySpec RedundancyProofs PickProofs RankSpec RankProofs RankTopProofs DescModel BuildModel BuildSpec BuildProofs BuildOrderProofs BuildDesignProofs PySort
  MemorizeModel MemorizeSpec CategoricalModel CategoricalSpec PipeModel PipeSpec PipeProofs EntrySpec EntryProofs RankMatSpec RankMatLinProofs RankMatProofs RankPipeSpec.
Open Scope list_scope.
Open Scope nat_scope.

(** * Only the factors of the terms matter *)
Section Ext.
Context {R : Type} (rO rI : R) (radd rmul : R -> R -> R) {P : Type} (ok : P -> Prop).
Variables (num num' : factor -> option nat) (level : P -> factor -> nat) (number : P -> factor -> nat -> R) (terms : list term).
Hypothesis E : forall f, In f (concat terms) -> num f = num' f.
Lemma in_terms t f : In t terms -> In f t -> In f (concat terms).
Proof. intros H1 H2. apply in_concat. now exists t. Qed.
Lemma numerics_ext t : In t terms -> numerics num t = numerics num' t.
Proof. intros Ht. apply filter_ext_in. intros f Hf. unfold is_numeric. now rewrite (E f (in_terms t f Ht Hf)). Qed.
Lemma categoricals_ext t : In t terms -> categoricals num t = categoricals num' t.
Proof. intros Ht. apply filter_ext_in. intros f Hf. unfold is_numeric. now rewrite (E f (in_terms t f Ht Hf)). Qed.
Lemma all_categoricals_ext : all_categoricals num terms = all_categoricals num' terms.
Proof. unfold all_categoricals. f_equal. apply map_ext_in. apply categoricals_ext. Qed.
Lemma chooses_ext t ks : In t terms -> chooses num t ks -> chooses num' t ks.
Proof.
  intros Ht. unfold chooses. rewrite (numerics_ext t Ht). assert (G : forall f, In f (numerics num' t) -> width num f = width num' f).
  { intros f Hf. unfold numerics in Hf. apply filter_In in Hf. unfold width. now rewrite (E f (in_terms t f Ht (proj1 Hf))). }
  revert ks. induction (numerics num' t) as [|f l IH]; intros ks H; inversion H; subst; constructor; [rewrite <- (G f (or_introl eq_refl)); assumption|]. apply IH; [|assumption]. intros g Hg. apply G. now right.
Qed.
Lemma product_in_ext a : product_in num terms a -> product_in num' terms a.
Proof. intros [t [ks [H1 [H2 ->]]]]. exists t, ks. split; [exact H1|]. split; [now apply chooses_ext|]. now rewrite (numerics_ext t H1). Qed.
Lemma in_model_ext Y : in_model rO rI radd rmul ok num level number terms Y -> in_model rO rI radd rmul ok num' level number terms Y.
Proof.
  intros [gs [H1 H2]]. exists gs. split.
  - eapply Forall_impl; [|exact H1]. intros [[t ks] g] [A [B G]]. split; [exact A|]. split; [now apply chooses_ext|]. now rewrite <- (categoricals_ext t A).
  - intros p Hp. rewrite (H2 p Hp). clear H2. induction gs as [|[[t ks] g] gs IH]; cbn; [reflexivity|]. inversion H1 as [|x y H0 H1']; subst. destruct H0 as [A _]. rewrite (numerics_ext t A), (IH H1'). reflexivity.
Qed.
End Ext.
Lemma rich_ext {R P} (rO rI : R) radd rmul (ok : P -> Prop) num num' level number nlev terms : (forall f, In f (concat terms) -> num f = num' f) ->
  rich rO rI radd rmul ok num level number nlev terms -> rich rO rI radd rmul ok num' level number nlev terms.
Proof.
  intros E H rho Hr ms Hm. unfold rich in H. rewrite <- (all_categoricals_ext num num' terms E) in Hr |- *. apply (H rho Hr ms).
  eapply Forall_impl; [|exact Hm]. intros a. apply product_in_ext. intros f Hf. symmetry. now apply E.
Qed.
Lemma nth_error_nth' {A} (l : list A) i d x : nth_error l i = Some x -> nth i l d = x.
Proof. revert i. induction l as [|y l IH]; intros [|i] H; try discriminate; cbn in *; [now injection H|now apply IH]. Qed.

Section Pipe.
Context {V I C S D : Type}.
Variables (rO rI : V) (radd rmul rsub : V -> V -> V) (ropp : V -> V).
Hypothesis Rth : ring_theory rO rI radd rmul rsub ropp (@eq V).
Variables (visnan : V -> bool) (ilabel : nat -> I) (ieqb : I -> I -> bool).
Hypothesis ieqb_eq : forall a b, ieqb a b = true <-> a = b.
Variable passes : factor -> result (S * Z).
Variable chunk : factor -> S -> nat -> D -> result S.
Variable finish : factor -> S -> nat -> result S.
Variable eval : factor -> S -> D -> result (@fobj V I C).
Variable origin_of : factor -> option origin.
Variable code_cm : list pval -> option C -> bool -> result (@ctr V).
Variable hash : list (bool * factor) -> Z.
Variable set_order : list factor -> list factor.
Variables order_mem order_exam : nat -> list factor -> list factor.
Variable addr : pval -> nat.
Variable hash_order : list pval -> list pval.
Variable df_index : D -> option (list I).
Hypothesis Hset : forall l, Permutation (set_order l) l.
Hypothesis Hmem : forall n l, Permutation (order_mem n l) l.
Hypothesis Hexam : forall n l, Permutation (order_exam n l) l.
Hypothesis Hidx : indexed eval.
Variable value_is : factor -> (D -> result (@fobj V I C)) -> Prop.
Hypothesis value_fun : forall f g g', value_is f g -> value_is f g' -> forall d, g d = g' d.
Local Notation builders := (design_matrix_builders passes chunk finish eval origin_of code_cm hash set_order order_mem order_exam addr hash_order).
Local Notation factor_value := (factor_value origin_of addr hash_order value_is).
Local Notation learned := (learned passes chunk finish eval origin_of addr hash_order).
Variable data : nat -> list D.
Variable tls : list (list term).
Hypothesis Hval : forall f s, In f (factors_of tls) -> trained passes chunk finish data f s -> value_is f (eval f s).
Local Notation exam := (exam_chunks passes data (factors_of tls)).

Lemma learned_value na na' d f s k levels c lv c' v : In f (factors_of tls) -> learned na data (factors_of tls) f s k levels c -> factor_value na exam na' d f lv c' v ->
  match v with VNum n _ => k = FNum n | VCat _ => lv = levels /\ c' = c /\ exists n, k = FCat n end.
Proof.
  intros Hf L F.
  assert (T : forall g g', value_is f g -> value_is f g' -> type_of (as_value g) origin_of na f exam = type_of (as_value g') origin_of na f exam).
  { intros g g' Hg Hg'. apply type_of_ext. intros d0. unfold as_value. now rewrite (value_fun f g g' Hg Hg'). }
  assert (G : forall s, type_of (value_with eval s) origin_of na f exam = type_of (as_value (eval f s)) origin_of na f exam) by (intros s0; now apply type_of_ext).
  destruct L as [s n Tr Ty|s sn levels c Tr Ty El]; rewrite G in Ty;
  destruct F as [g n' o Hg Ht Ho Hnd Hin Hnc|g sn' lv c' o codes Hg Ht Hl Ho Hc]; pose proof (T g (eval f s) Hg (Hval f s Hf Tr)) as E; rewrite Ht, Ty in E; try discriminate; injection E as ->; [reflexivity|].
  rewrite El in Hl. injection Hl as <- <-. repeat split. eexists. reflexivity.
Qed.

(** What the design of the terms [tl] knows about their factors. *)
Definition known_factors (numc : list (factor * nat)) (cat : list (factor * (list pval * option C))) (x : @design V S) (tl : list term) (num : factor -> option nat) (levels : factor -> list pval) (contrast : factor -> option C) : Prop :=
  forall f, In f (concat tl) -> num f = dget String.eqb f numc /\ (num f = None -> dget String.eqb f cat = Some (levels f, contrast f)) /\
    exists fi, dget String.eqb f (infos_of (ds_info x)) = Some fi /\ (forall n, num f = Some n -> fi_kind fi = FNum n).
Lemma all_categoricals_in num tl f : In f (all_categoricals num tl) -> In f (concat tl) /\ num f = None.
Proof.
  intros H. unfold all_categoricals in H. apply in_concat in H. destruct H as [l [H1 H2]]. apply in_map_iff in H1. destruct H1 as [t [<- Ht]]. unfold categoricals in H2. apply filter_In in H2. destruct H2 as [H2 H3].
  split; [now apply (in_terms tl t)|]. unfold is_numeric in H3. destruct (num f); [discriminate|reflexivity].
Qed.

(** The columns of the design, as functions of any kind of rows. *)
Lemma design_span numc cat fis x tl num levels contrast : design_for numc (contrast_for code_cm cat) hash fis tl = Ok (ds_info x) -> known_factors numc cat x tl num levels contrast ->
  Forall (@NoDup factor) tl -> collision_free hash (concat tl) ->
  let cm f b := code_cm (levels f) (contrast f) b in
  (forall f, In f (all_categoricals num tl) -> good_coding rO rI radd rmul (fun f => length (levels f)) (fun f b => cm_cols (cm f b)) (fun f b => cm_entry rO (cm f b)) f) ->
  (forall id, In id (columns_of (infos_of (ds_info x)) (codings_of (ds_info x))) -> forall f, In f (si_factors (snd (fst id))) -> In f (concat tl)) /\
  forall (P : Type) (ok : P -> Prop) level number, (forall p, ok p -> legit (fun f => length (levels f)) (all_categoricals num tl) (level p)) ->
  let cols := map (column rO rI rmul level number) (columns_of (infos_of (ds_info x)) (codings_of (ds_info x))) in
  (rich rO rI radd rmul ok num level number (fun f => length (levels f)) tl -> independent rO radd rmul ok cols) /\
  forall Y, in_span rO radd rmul ok cols Y <-> in_model rO rI radd rmul ok num level number tl Y.
Proof.
  intros Edf Hnum Hnd Hcf cm Hgood.
  destruct (design_for_lemma _ _ _ _ _ _ Edf) as [_ [Hmk [_ Hinfos]]].
  set (num2 := fun f => dget String.eqb f numc). assert (E2 : forall f, In f (concat tl) -> num f = num2 f) by (intros f Hff; apply Hnum, Hff).
  set (nlev := fun f => length (levels f)). set (cc := contrast_for code_cm cat).
  assert (Ecc : forall f b, In f (all_categoricals num tl) -> cc f b = cm f b).
  { intros f b H. destruct (all_categoricals_in num tl f H) as [H1 H2]. destruct (Hnum f H1) as [_ [H3 _]]. unfold cc, contrast_for. rewrite (H3 H2). reflexivity. }
  assert (Hcm : contrasts_are rO cc nlev (fun f b => cm_cols (cc f b)) (fun f b => cm_entry rO (cc f b))).
  { intros f b m0 E. rewrite E. split; [reflexivity|]. reflexivity. }
  assert (Hfis : forall f n, In f (concat tl) -> dget String.eqb f numc = Some n -> exists fi, dget String.eqb f (infos_of (ds_info x)) = Some fi /\ fi_kind fi = FNum n).
  { intros f n0 Hff E. destruct (Hnum f Hff) as [E1 [_ [fi [E3 E4]]]]. exists fi. split; [exact E3|]. apply E4. now rewrite E1. }
  assert (Hgood' : forall f, In f (all_categoricals num2 tl) -> good_coding rO rI radd rmul nlev (fun f b => cm_cols (cc f b)) (fun f b => cm_entry rO (cc f b)) f).
  { intros f H. rewrite <- (all_categoricals_ext num num2 tl E2) in H. specialize (Hgood f H). unfold good_coding in *. rewrite !(Ecc f _ H). exact Hgood. }
  split.
  - exact (factors_in_terms rO rI radd rmul rsub ropp Rth (fun _ : unit => False) numc cc hash (fun _ _ => 0) (fun _ _ _ => rO) (infos_of (ds_info x)) tl Hfis nlev _ _ Hcm Hnd Hcf Hgood' (fun _ F => False_ind _ F) (codings_of (ds_info x)) Hmk).
  - intros P ok level number Hlegit. 
    assert (Hlegit' : forall r, ok r -> legit nlev (all_categoricals num2 tl) (level r)).
    { intros r Hr. rewrite <- (all_categoricals_ext num num2 tl E2). now apply Hlegit. }
    pose proof (matrix_rank rO rI radd rmul rsub ropp Rth ok numc cc hash level number (infos_of (ds_info x)) tl Hfis nlev _ _ Hcm Hnd Hcf Hgood' Hlegit' (codings_of (ds_info x)) Hmk) as [A B].
    split; [intros Hrich; exact (A (rich_ext rO rI radd rmul _ num num2 level number nlev tl E2 Hrich))|]. intros Y. split.
    + intros H. apply (in_model_ext rO rI radd rmul _ num2 num level number tl); [intros f Hff; symmetry; now apply E2|]. now apply B.
    + intros H. apply B. apply (in_model_ext rO rI radd rmul _ num num2 level number tl E2 Y H).
Qed.

(** The columns of a matrix that is built are the columns of the design in the rows of the matrix. *)
Lemma matrix_columns_are na na' d (x : @design V S) m ks tl num levels contrast level number :
  entries_are rI rmul origin_of addr hash_order code_cm value_is na exam na' d ks (ds_info x) m ->
  describes (factor_value na exam na' d) ks tl num levels contrast level number ->
  (forall id, In id (columns_of (infos_of (ds_info x)) (codings_of (ds_info x))) -> forall f, In f (si_factors (snd (fst id))) -> In f (concat tl)) ->
  (forall r, matrix_row m r -> legit (fun f => length (levels f)) (all_categoricals num tl) (level r)) /\
  Forall2 (fun a b => forall r, matrix_row m r -> a r = b r) (map (column rO rI rmul level number) (columns_of (infos_of (ds_info x)) (codings_of (ds_info x)))) (matrix_columns rO m).
Proof.
  intros Hem Hdes Hft. assert (Hks : m_rows m = length ks) by apply Hem. split.
  - intros r Hr f H. destruct (all_categoricals_in num tl f H) as [H1 H2]. specialize (Hdes f H1). rewrite H2 in Hdes. destruct Hdes as [codes [_ G]].
    unfold matrix_row in Hr. rewrite Hks in Hr. destruct (nth_error ks r) as [k|] eqn:Ek; [|apply nth_error_None in Ek; lia]. now apply (G r k).
  - destruct Hem as [_ [_ Hcols]]. unfold matrix_columns. unfold matrix_row. rewrite Hks. clear - Rth Hcols Hdes Hft value_fun.
    induction Hcols as [|id col ids cols [Hlen Hcol] Hcols IH]; cbn [map]; constructor; [|apply IH; intros id' Hi; apply Hft; now right].
    intros r Hr. destruct (nth_error ks r) as [k|] eqn:Ek; [|apply nth_error_None in Ek; lia]. destruct (Hcol r k Ek) as [vs [Hvs Ev]]. rewrite (nth_error_nth' _ _ _ _ Ev).
    specialize (Hft id (or_introl eq_refl)). unfold column.
    assert (G : forall l vs, Forall2 (fun p v => contributes origin_of addr hash_order code_cm value_is na exam na' d (fst p) (dget String.eqb (fst p) (si_contrasts (snd (fst id)))) (snd p) k v) l vs ->
      (forall q, In q l -> In (fst q) (concat tl)) -> forall a, fold_left rmul vs a = rmul a (rprod rI rmul (fun q => entry_of rO level number (snd (fst id)) (fst q) (snd q) r) l)).
    { clear - Rth Hdes Ek value_fun. induction 1 as [|q v l vs Hc H IH]; intros Hq a; cbn [fold_left rprod]; [rewrite (Rmul_comm Rth); symmetry; apply (Rmul_1_l Rth)|].
      rewrite IH by (intros; apply Hq; now right). rewrite <- (Rmul_assoc Rth). f_equal. f_equal. destruct q as [f i]. cbn [fst snd] in *. specialize (Hdes f (Hq (f, i) (or_introl eq_refl))). unfold entry_of.
      destruct Hc as [lv c n rows row F Ec Hrow Hv|lv c codes z m full row F Hz Ec Hm0 Hrow Hv]; rewrite Ec.
      - destruct (num f) as [n'|].
        + destruct Hdes as [rows' [F' G]]. pose proof (factor_value_fun origin_of addr hash_order value_is value_fun _ _ _ _ _ _ _ _ F _ _ _ F') as E. injection E as <- <-. symmetry. exact (G _ _ _ _ _ Ek Hrow Hv).
        + destruct Hdes as [codes [F' G]]. pose proof (factor_value_fun origin_of addr hash_order value_is value_fun _ _ _ _ _ _ _ _ F _ _ _ F') as E. discriminate.
      - destruct (num f) as [n'|].
        + destruct Hdes as [rows' [F' G]]. pose proof (factor_value_fun origin_of addr hash_order value_is value_fun _ _ _ _ _ _ _ _ F _ _ _ F') as E. discriminate.
        + destruct Hdes as [codes' [F' G]]. pose proof (factor_value_fun origin_of addr hash_order value_is value_fun _ _ _ _ _ _ _ _ F _ _ _ F') as E. injection E as <-. destruct (G r k Ek) as [G1 _]. rewrite Hz in G1. injection G1 as G1. apply Nat2Z.inj in G1. subst z.
          now rewrite (nth_error_nth' _ _ _ _ Hrow), (nth_error_nth' _ _ _ _ Hv). }
    rewrite (G _ _ Hvs); [symmetry; apply (Rmul_1_l Rth)|]. intros [f i] Hq. apply Hft. now apply in_combine_l in Hq.
Qed.

Lemma forall2_peq {R P} (ok : P -> Prop) (l m : list (P -> R)) : Forall2 (fun a b => forall r, ok r -> a r = b r) l m -> peq ok l m.
Proof. induction 1; constructor; assumption. Qed.
Lemma nth_forall2 {A B} (Q : A -> B -> Prop) l l' : Forall2 Q l l' -> forall i a b, nth_error l i = Some a -> nth_error l' i = Some b -> Q a b.
Proof. induction 1 as [|a b l l' H Hd IH]; intros [|i] x y H1 H2; try discriminate; cbn in *; [injection H1 as <-; injection H2 as <-; exact H|eauto]. Qed.

Lemma pipe_rank na used ds d na' w ms labels : builders data na tls = Ok ds -> incl used ds ->
  (forall f s o, In f (factors_in used) -> In f (factors_of tls) -> trained passes chunk finish data f s -> eval f s d = Ok o -> proper_codes (o_value o)) ->
  build rI rmul visnan ilabel ieqb eval origin_of df_index used d na' w = Ok (ms, labels) ->
  exists act act' n ks, get_action na = Ok act /\ get_action na' = Ok act' /\
    rows_used visnan origin_of addr hash_order value_is (na_what act) exam (na_what act') d (df_index d) (factors_in used) n ks /\
    (na_on act' = NARaise -> ks = seq 0 n) /\
    forall i j tl x m num levels contrast level number, nth_error tls j = Some tl -> nth_error ds j = Some x -> nth_error used i = Some x -> nth_error ms i = Some m ->
      Forall (@NoDup factor) tl -> collision_free hash (concat tl) ->
      describes (factor_value (na_what act) exam (na_what act') d) ks tl num levels contrast level number ->
      let cm f b := code_cm (levels f) (contrast f) b in
      (forall f, In f (all_categoricals num tl) -> good_coding rO rI radd rmul (fun f => length (levels f)) (fun f b => cm_cols (cm f b)) (fun f b => cm_entry rO (cm f b)) f) ->
      (rich rO rI radd rmul (matrix_row m) num level number (fun f => length (levels f)) tl -> independent rO radd rmul (matrix_row m) (matrix_columns rO m)) /\
      forall Y, in_span rO radd rmul (matrix_row m) (matrix_columns rO m) Y <-> in_model rO rI radd rmul (matrix_row m) num level number tl Y.
Proof.
  intros Hb Hu Hp Hm.
  destruct (entries_lemma rI rmul visnan ilabel ieqb ieqb_eq passes chunk finish eval origin_of code_cm hash set_order order_mem order_exam addr hash_order df_index Hset Hmem Hexam Hidx value_is value_fun data tls Hval na used ds d na' w ms labels Hb Hu Hp Hm)
    as [act [act' [n [ks [Ha [Ha' [Hrows [Hraise Hent]]]]]]]].
  exists act, act', n, ks. split; [exact Ha|]. split; [exact Ha'|]. split; [exact Hrows|]. split; [exact Hraise|].
  intros i j tl x m num levels contrast level number Htl Hxj Hxi Hmi Hnd Hcf Hdes cm Hgood.
  destruct (builders_inv passes chunk finish eval origin_of code_cm hash set_order order_mem order_exam addr hash_order Hset Hmem Hexam data na tls ds Hb)
    as [act0 [numc [cat [fis [kn [dis [Ha0 [Eds [Hd [Hid Hf]]]]]]]]]]. rewrite Ha in Ha0. injection Ha0 as <-.
  assert (Edf : design_for numc (contrast_for code_cm cat) hash fis tl = Ok (ds_info x)).
  { apply mapM_ok_Forall2 in Hd. rewrite Eds, nth_error_map in Hxj. destruct (nth_error dis j) as [di|] eqn:Ej; [|discriminate]. injection Hxj as <-. exact (nth_forall2 _ _ _ Hd j tl di Htl Ej). }
  pose proof (nth_forall2 _ _ _ Hent i x m Hxi Hmi) as Hem.
  destruct (design_for_lemma _ _ _ _ _ _ Edf) as [_ [_ [_ Hinfos]]].
  assert (Hfin : forall f, In f (concat tl) -> In f (factors_of tls)).
  { intros f Hff. unfold factors_of. apply in_concat. exists (concat tl). split; [apply in_map; eapply nth_error_In, Htl|exact Hff]. }
  assert (Hnum : known_factors numc cat x tl num levels contrast).
  { intros f Hff. destruct (Hf f (Hfin f Hff)) as [fi [s [k [lv [c [L1 [L2 [L3 [L4 [L5 [L6 L7]]]]]]]]]]]. specialize (Hdes f Hff). rewrite (Hinfos f Hff), L2. destruct (num f) as [nf|].
    - destruct Hdes as [rows [F _]]. pose proof (learned_value _ _ _ _ _ _ _ _ _ _ _ (Hfin f Hff) L1 F) as K. cbn in K. rewrite K in *. split; [now rewrite L6|]. split; [discriminate|]. exists fi. split; [reflexivity|]. intros n0 [= <-]. exact L4.
    - destruct Hdes as [codes [F _]]. pose proof (learned_value _ _ _ _ _ _ _ _ _ _ _ (Hfin f Hff) L1 F) as [-> [-> [n0 K]]]. rewrite K in *. split; [now rewrite L6|]. split; [intros _; exact L7|]. exists fi. split; [reflexivity|]. discriminate. }
  destruct (design_span numc cat fis x tl num levels contrast Edf Hnum Hnd Hcf Hgood) as [Hft Hspan].
  destruct (matrix_columns_are _ _ _ x m ks tl num levels contrast level number Hem Hdes Hft) as [Hlegit Ecol]. apply forall2_peq in Ecol.
  destruct (Hspan nat (matrix_row m) level number Hlegit) as [A B].
  split; [intros Hrich; exact (peq_independent rO rI radd rmul rsub ropp Rth _ _ _ Ecol (A Hrich))|]. intros Y. split.
  - intros H. apply B. apply (peq_span rO rI radd rmul rsub ropp Rth _ _ _ Y (peq_sym _ _ _ Ecol) H).
  - intros H. apply (peq_span rO rI radd rmul rsub ropp Rth _ _ _ Y Ecol). now apply B.
Qed.
End Pipe.
