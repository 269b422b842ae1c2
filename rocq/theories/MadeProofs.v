(** Proofs about what can go wrong when designs are made. *)
From Coq Require Import Permutation.
From Verif Require Import Base PySort RedundancySpec RankSpec UtilModel UtilProofs DescModel DescSpec DescProofs FormulaModel BuildModel BuildSpec BuildProofs BuildOrderProofs BuildDesignProofs NameSpec NameStructProofs NameBuildProofs NameProofs NameProps
  MemorizeModel MemorizeSpec MemorizeProofs CategoricalModel CategoricalSpec CategoricalKeyProofs CategoricalCodeProofs CategoricalProofs CategoricalTypeProofs CategoricalProps MemorizeProps PipeModel PipeSpec PipeProofs MadeSpec.
Open Scope nat_scope.

Lemma mapM_err {A B} (g : A -> result B) l e : mapM g l = Err e -> exists a, In a l /\ g a = Err e.
Proof.
  induction l as [|a l IH]; cbn [mapM]; [discriminate|]. destruct (g a) as [b|e'] eqn:E; cbn [bind].
  - destruct (mapM g l); cbn [bind]; [discriminate|]. intros [= <-]. destruct (IH eq_refl) as [x [H1 H2]]. exists x. split; [now right|exact H2].
  - intros [= <-]. exists a. split; [now left|exact E].
Qed.

(** * Contrasts that fail *)
Section Contrasts.
Context {V : Type}.
Variable num : list (factor * nat).
Variables g g' : factor -> bool -> result (@ctr V).
Variable hash : list (bool * factor) -> Z.
Hypothesis Hg : forall f b c, g f b = Ok c -> g' f b = Ok c.

(** [r] went wrong because of a factor among [fs] that is not numerical. *)
Definition blame {A} (fs : list factor) (r : result A) : Prop :=
  exists f b e, In f fs /\ dget String.eqb f num = None /\ g f b = Err e /\ r = Err e.
Lemma blame_bind {A B} fs (r : result A) (k : A -> result B) : blame fs r -> blame fs (bind r k).
Proof. intros [f [b [e [H1 [H2 [H3 ->]]]]]]. exists f, b, e. auto. Qed.
Lemma blame_incl {A} fs fs' (r : result A) : incl fs fs' -> blame fs r -> blame fs' r.
Proof. intros Hi [f [b [e [H1 H2]]]]. exists f, b, e. split; [now apply Hi|exact H2]. Qed.

Lemma subterm_sim t c : subterm_for num g t c = subterm_for num g' t c \/ blame t (subterm_for num g t c).
Proof.
  unfold subterm_for.
  match goal with |- bind (foldM ?a t ?s) _ = bind (foldM ?b t ?s) _ \/ _ => set (st := a); set (st' := b) end.
  assert (H : forall l s0, incl l t -> foldM st l s0 = foldM st' l s0 \/ blame t (foldM st l s0)).
  { induction l as [|f l IH]; intros [[fs cms] n] Hl; [now left|]. cbn [foldM].
    assert (Hf : st (fs, cms, n) f = st' (fs, cms, n) f \/ blame t (st (fs, cms, n) f)).
    { unfold st, st'. destruct (dget String.eqb f num) eqn:En; [now left|]. destruct (dget String.eqb f c) as [b|]; [|now left].
      destruct (g f b) as [m|e] eqn:Eg; [rewrite (Hg _ _ _ Eg); now left|]. right. exists f, b, e. repeat (split; [auto|]); auto. apply Hl. now left. }
    destruct Hf as [<-|Hf]; [|right; now apply blame_bind].
    destruct (st (fs, cms, n) f) as [s1|]; cbn [bind]; [|now left]. apply IH. intros x Hx. apply Hl. now right. }
  destruct (H t ([], [], 1) (incl_refl t)) as [<-|B]; [now left|right; now apply blame_bind].
Qed.
Lemma mapM_sim {A B} (h h' : A -> result B) fs l : (forall a, In a l -> h a = h' a \/ blame fs (h a)) -> mapM h l = mapM h' l \/ blame fs (mapM h l).
Proof.
  induction l as [|a l IH]; intros H; [now left|]. cbn [mapM]. destruct (H a (or_introl eq_refl)) as [<-|B0]; [|right; now apply blame_bind].
  destruct (h a); cbn [bind]; [|now left]. destruct IH as [<-|B1]; [intros x Hx; apply H; now right|now left|]. right. now apply blame_bind.
Qed.
Lemma term_sim t used : infos_for_term num g hash t used = infos_for_term num g' hash t used \/ blame t (infos_for_term num g hash t used).
Proof.
  unfold infos_for_term. destruct (RedundancyModel.pick_contrasts_for_term _ _ _ _ _) as [p|]; cbn [bind]; [|now left].
  destruct (mapM_sim (subterm_for num g t) (subterm_for num g' t) t (fst p)) as [<-|B]; [intros a _; apply subterm_sim|now left|right; now apply blame_bind].
Qed.
Lemma bucket_sim ts : forall used, infos_for_bucket num g hash ts used = infos_for_bucket num g' hash ts used \/ blame (concat ts) (infos_for_bucket num g hash ts used).
Proof.
  induction ts as [|t ts IH]; intros used; [now left|]. cbn [infos_for_bucket concat].
  destruct (term_sim t used) as [<-|B]; [|right; apply blame_bind; revert B; apply blame_incl; intros x Hx; apply in_app_iff; now left].
  destruct (infos_for_term num g hash t used) as [p|]; cbn [bind]; [|now left].
  destruct (IH (snd p)) as [<-|B]; [now left|]. right. apply blame_bind. revert B. apply blame_incl. intros x Hx. apply in_app_iff. now right.
Qed.
Lemma make_sim terms : make_subterm_infos num g hash terms = make_subterm_infos num g' hash terms \/ blame (concat terms) (make_subterm_infos num g hash terms).
Proof.
  unfold make_subterm_infos.
  destruct (mapM_sim (fun p => infos_for_bucket num g hash (by_degree (snd p)) []) (fun p => infos_for_bucket num g' hash (by_degree (snd p)) []) (concat terms) (empty_first (buckets num terms))) as [<-|B].
  - intros p Hp. destruct (bucket_sim (by_degree (snd p)) []) as [E|B]; [now left|right]. revert B. apply blame_incl. intros f Hf. apply in_concat in Hf. destruct Hf as [t [Ht Hf]].
    apply in_concat. exists t. split; [|exact Hf]. apply (Permutation_in _ (buckets_perm num terms)). apply in_concat. exists (snd p). split.
    + apply in_map. unfold empty_first in Hp. apply in_app_iff in Hp. destruct Hp as [Hp|Hp]; now apply filter_In in Hp.
    + unfold by_degree in Ht. eapply Permutation_in; [apply Permutation_sym, py_sort_perm|exact Ht].
  - now left.
  - right. now apply blame_bind.
Qed.
Lemma design_sim fis terms : design_for num g hash fis terms = design_for num g' hash fis terms \/ blame (concat terms) (design_for num g hash fis terms).
Proof. unfold design_for. destruct (make_sim terms) as [<-|B]; [now left|right; now apply blame_bind]. Qed.
End Contrasts.

Section Made.
Context {V I C S D : Type}.
Variable passes : factor -> result (S * Z).
Variable chunk : factor -> S -> nat -> D -> result S.
Variable finish : factor -> S -> nat -> result S.
Variable eval : factor -> S -> D -> result (@fobj V I C).
Variable origin_of : factor -> option origin.
Variable code_cm : list pval -> option C -> bool -> result (@ctr V).
Variable hash : list (bool * factor) -> Z.
Variable set_order : list factor -> list factor.
Variables order_mem order_exam : nat -> list factor -> list factor.
Variable addr : pval -> nat.
Variable hash_order : list pval -> list pval.
Hypothesis Hset : forall l, Permutation (set_order l) l.
Hypothesis Hmem : forall n l, Permutation (order_mem n l) l.
Hypothesis Hexam : forall n l, Permutation (order_exam n l) l.

Local Notation builders := (design_matrix_builders passes chunk finish eval origin_of code_cm hash set_order order_mem order_exam addr hash_order).
Local Notation learned := (learned passes chunk finish eval origin_of addr hash_order).
Local Notation trained := (trained passes chunk finish).
Local Notation prepare := (prepare passes chunk finish eval origin_of set_order order_mem order_exam addr hash_order).
Local Notation unmade := (unmade passes chunk finish eval origin_of code_cm addr hash_order).

(** * What is learned, is learned in one way *)
Lemma trained_fun data f s s' : trained data f s -> trained data f s' -> s = s'.
Proof. intros [s0 [k [H1 H2]]] [s1 [k1 [H3 H4]]]. rewrite H1 in H3. injection H3 as <- <-. rewrite H2 in H4. now injection H4. Qed.
Lemma learned_fun na data fs f s k lv c s' k' lv' c' : learned na data fs f s k lv c -> learned na data fs f s' k' lv' c' -> s = s' /\ k = k' /\ lv = lv' /\ c = c'.
Proof.
  intros [s1 n T Ty|s1 sn lv1 c1 T Ty L] [s2 n2 T2 Ty2|s2 sn2 lv2 c2 T2 Ty2 L2]; pose proof (trained_fun _ _ _ _ T T2); subst; rewrite Ty in Ty2; try discriminate; injection Ty2 as <-; [auto|].
  rewrite L in L2. injection L2 as <- <-. auto.
Qed.

(** * Preparing *)
Lemma prepare_err data act tls e : prepare data act tls = Err e ->
  (exists f, In f (factors_of tls) /\ (passes f = Err e \/ exists s k, passes f = Ok (s, k) /\ run chunk finish s (calls_for data (Z.to_nat k) f) = Err e)) \/
  (exists f s, In f (factors_of tls) /\ trained data f s /\ type_of (value_with eval s) origin_of (na_what act) f (exam_chunks passes data (factors_of tls)) = Err e) \/
  (exists f, In f (factors_of tls) /\ exam_chunks passes data (factors_of tls) = [] /\ e = AssertionError).
Proof.
  unfold PipeProofs.prepare. set (fs := all_factors set_order tls).
  destruct (factors_memorize String.eqb passes chunk finish data order_mem (pass_bound passes fs) fs) as [[states log]|e'] eqn:Em; cbn [bind].
  2: { intros [= <-]. left. destruct (memorize_errors String.eqb String.eqb_eq passes chunk finish data order_mem Hmem _ fs e' (all_factors_NoDup set_order Hset tls) (fun f s k Hf E => bound_ok passes fs f s k Hf E) Em) as [f [Hf E]].
       exists f. split; [|exact E]. now apply (all_factors_in set_order Hset). }
  set (evalv := fun (f : factor) (d : D) => let* s := lookup (dget String.eqb f states) in let* o := eval f s d in Ok (o_value o)). set (n := length (filter is_iteration log)).
  destruct (memorize_calls String.eqb String.eqb_eq passes chunk finish data order_mem Hmem _ fs states log (all_factors_NoDup set_order Hset tls) (fun f s k Hf E => bound_ok passes fs f s k Hf E) Em) as [k [Hk [_ Hit]]].
  assert (Hn : data n = exam_chunks passes data (factors_of tls)).
  { unfold exam_chunks. f_equal. rewrite <- (max_factors passes set_order Hset). fold fs. unfold n. change (filter is_iteration log) with (filter is_iter log). rewrite Hit, map_length, seq_length.
    f_equal. apply map_ext_in. intros f Hf. destruct (Hk f Hf) as [s [s' [E _]]]. unfold pass_count. now rewrite E. }
  assert (Hs : forall f, In f fs -> exists s, trained data f s /\ dget String.eqb f states = Some s /\
            type_of evalv origin_of (na_what act) f (data n) = type_of (value_with eval s) origin_of (na_what act) f (exam_chunks passes data (factors_of tls))).
  { intros f Hf. destruct (Hk f Hf) as [s0 [s [P1 [_ [P2 P3]]]]]. exists s. split; [exists s0, (k f); now split|]. split; [exact P3|].
    rewrite (PipeProofs.type_of_ext origin_of evalv (value_with eval s) (na_what act) f) by (intros d; unfold evalv, value_with; now rewrite P3). now rewrite Hn. }
  unfold factor in *.
  destruct (examine_factor_types String.eqb evalv origin_of (na_what act) order_exam addr hash_order fs (data n)) as [[num cat]|e'] eqn:Ee; cbn [bind].
  2: { intros [= <-]. right. left. destruct (factor_type_errors C string D String.eqb evalv origin_of (na_what act) order_exam addr hash_order fs (data n) e' String.eqb_eq Hexam (all_factors_NoDup set_order Hset tls) Ee) as [f [Hf E]].
       destruct (Hs f Hf) as [s [T [_ E']]]. exists f, s. split; [now apply (all_factors_in set_order Hset)|]. split; [exact T|]. now rewrite <- E'. }
  pose proof (factor_types C string D String.eqb evalv origin_of (na_what act) order_exam addr hash_order fs (data n) String.eqb_eq Hexam (all_factors_NoDup set_order Hset tls)) as Hty.
  rewrite Ee in Hty.
  match goal with |- context [@mapM ?A ?B ?f ?l] => destruct (@mapM A B f l) as [infos|e'] eqn:Ei end; cbn [bind].
  2: { intros [= <-]. right. right. apply mapM_err in Ei. destruct Ei as [[i f] [Hin E]]. apply in_combine_r in Hin. specialize (Hty f Hin). exists f. split; [now apply (all_factors_in set_order Hset)|].
       unfold new_info in E. cbn [fst snd] in E. rewrite <- Hn. destruct (dget String.eqb f num) eqn:E1; [discriminate|]. destruct (dget String.eqb f cat) as [[lv c]|] eqn:E2; [discriminate|]. injection E as <-. split; [|reflexivity].
       unfold type_of in Hty. destruct (data n) as [|d r]; [reflexivity|]. exfalso. destruct (evalv f d) as [v|]; cbn [bind] in Hty; [|exact Hty].
       destruct (guess_categorical v).
       - destruct (look _ _ _ _ _ _) as [sn|]; cbn [bind] in Hty; [|exact Hty]. destruct Hty as [_ H]. congruence.
       - destruct (column_count _ _) as [m|]; cbn [bind] in Hty; [|exact Hty]. destruct Hty as [H _]. congruence. }
  match goal with |- context [@mapM ?A ?B ?f ?l] => destruct (@mapM A B f l) as [kn|e'] eqn:Ek end; cbn [bind]; [discriminate|].
  intros _. exfalso. apply mapM_err in Ek. destruct Ek as [[i f] [Hin E]]. apply in_combine_r in Hin. destruct (Hs f Hin) as [s [_ [E' _]]]. unfold new_known in E. cbn [fst snd] in E. rewrite E' in E. discriminate.
Qed.

(** * Making designs *)
Hypothesis Hrows : forall levels c full m, code_cm levels c full = Ok m -> length (ct_rows m) = length levels.

Lemma builders_err data na tls e : Forall different_terms tls -> Forall (fun tl => collision_free hash (concat tl)) tls ->
  builders data na tls = Err e -> get_action na = Err e \/ exists act, get_action na = Ok act /\ unmade (na_what act) data tls e.
Proof.
  intros Hd Hcf. rewrite builders_prepare. destruct (get_action na) as [act|e'] eqn:Ea; cbn [bind]; [|intros [= <-]; now left].
  intros H. right. exists act. split; [reflexivity|]. destruct (prepare data act tls) as [[[[num cat] fis] kn]|e'] eqn:Ep; cbn [bind] in H.
  2: { injection H as <-. destruct (prepare_err data act tls e' Ep) as [[f [Hf E]]|[[f [s [Hf [T E]]]]|[f [Hf [E ->]]]]]; [eapply un_train|eapply un_type|eapply un_empty]; eassumption. }
  apply (prepare_inv passes chunk finish eval origin_of set_order order_mem order_exam addr hash_order Hset Hmem Hexam) in Ep. destruct Ep as [_ Hf].
  destruct (mapM _ tls) as [dis|e'] eqn:Em; cbn [bind] in H; [discriminate|]. injection H as <-. apply mapM_err in Em. destruct Em as [tl [Htl E]].
  set (g := contrast_for code_cm cat) in *.
  set (g' := fun f b => match g f b with Ok m => Ok m | Err _ => Ok (mkCtr (match dget String.eqb f cat with Some p => repeat [] (length (fst p)) | None => [] end) []) end : result (@ctr V)).
  rewrite Forall_forall in Hd, Hcf. pose proof (Hd tl Htl) as Hdt. pose proof (Hcf tl Htl) as Hct.
  assert (Hin : forall f, In f (concat tl) -> In f (factors_of tls)).
  { intros f Hfi. unfold factors_of. apply in_concat. exists (concat tl). split; [now apply in_map|exact Hfi]. }
  destruct (design_sim num g g' hash (fun f b c Hc => ltac:(unfold g'; rewrite Hc; reflexivity)) fis tl) as [Es|[f [b [e0 [B1 [B2 [B3 B4]]]]]]].
  2: { rewrite E in B4. injection B4 as <-. destruct (Hf f (Hin f B1)) as [fi [s [k [lv [c [L [F1 [F2 [F3 [F4 [F5 F6]]]]]]]]]]].
       destruct k as [m|m]; [congruence|]. unfold g, contrast_for in B3. rewrite F6 in B3. cbn [lookup bind fst snd] in B3. eapply un_contrast; [exact (Hin f B1)|exact L|exact B3]. }
  assert (Ht : typed num g' fis tl).
  { intros f Hfi. destruct (Hf f (Hin f Hfi)) as [fi [s [k [lv [c [L [F1 [F2 [F3 [F4 [F5 F6]]]]]]]]]]]. exists fi. split; [exact F1|]. split; [exact F2|]. rewrite F3. destruct k as [m|m]; [exact F5|].
    split; [exact F5|]. intros full. unfold g', g, contrast_for. rewrite F6. cbn [lookup bind fst snd]. assert (m = length lv) by (now inversion L). subst m.
    destruct (code_cm lv c full) as [mm|] eqn:Ec; eexists; (split; [reflexivity|]); [now apply (Hrows _ _ _ _ Ec)|]. cbn. apply repeat_length. }
  rewrite Es in E. destruct (design_made_unless_names_clash V num g' hash fis tl Ht Hdt Hct) as [cs [_ [_ He]]].
  eapply un_names; [exact Htl| |exact (He _ E)]. intros [P1 P2]. destruct (plain_names_never_clash V num g' hash fis tl Ht Hdt Hct P1) as [d Ed]; [|congruence].
  intros f full m Hfi Hm. destruct (Hf f (Hin f Hfi)) as [fi [s [k [lv [c [L [F1 [F2 [F3 [F4 [F5 F6]]]]]]]]]]]. unfold g', g, contrast_for in Hm. rewrite F6 in Hm.
  destruct k as [q|q]; cbn [lookup bind fst snd] in Hm; [injection Hm as <-; split; constructor|].
  destruct (code_cm lv c full) as [mm|] eqn:Ec; injection Hm as <-; [|split; constructor]. eapply P2; eassumption.
Qed.
End Made.
