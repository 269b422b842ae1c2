(** Nothing depends on hashes and the orders of sets. *)
From Coq Require Import Permutation.
From Verif Require Import Base ParseFormulaModel PySort RankSpec RedundancyModel RedundancySpec RedundancyProofs RedundancyProps UtilModel DescModel FormulaModel BuildModel BuildSpec BuildProofs BuildSubtermProofs BuildInfoProofs
  BuildMatrixProofs BuildAllProofs BuildTopProofs BuildOrderProofs BuildSubsetProofs BuildDesignProofs
  MemorizeModel MemorizeSpec CategoricalModel CategoricalSpec CategoricalKeyProofs CategoricalProofs CategoricalSortProofs CategoricalTypeProofs CategoricalProps PipeModel PipeSpec PipeProofs PipeHighProofs PipeSeedSpec.
Open Scope nat_scope.

Lemma mapM_ext_in {A B} (f g : A -> result B) l : (forall a, In a l -> f a = g a) -> mapM f l = mapM g l.
Proof. induction l as [|a l IH]; intros H; [reflexivity|]. cbn. rewrite H by now left. destruct (g a); cbn; [|reflexivity]. now rewrite IH by (intros; apply H; now right). Qed.
Lemma foldM_ext_in' {A T} (f g : T -> A -> result T) l : (forall s a, In a l -> f s a = g s a) -> forall s, foldM f l s = foldM g l s.
Proof. induction l as [|a l IH]; intros H s; [reflexivity|]. cbn. rewrite H by now left. destruct (g s a); cbn; [|reflexivity]. apply IH. intros. apply H. now right. Qed.
Lemma filter_ext_in' {A} (p q : A -> bool) l : (forall a, In a l -> p a = q a) -> filter p l = filter q l.
Proof. induction l as [|a l IH]; intros H; [reflexivity|]. cbn. rewrite H by now left. now rewrite IH by (intros; apply H; now right). Qed.

(** * Hashes of subterms *)
Section Hash.
Variables (hash1 hash2 : list (bool * factor) -> Z) (fs : list factor).
Hypothesis H1 : collision_free hash1 fs.
Hypothesis H2 : collision_free hash2 fs.

(** A set of factors coded by contrasts, drawn from [fs]. *)
Definition plainset (s : list (bool * factor)) : Prop := exists a, s = map (fun f => (false, f)) a /\ NoDup a /\ incl a fs.

Lemma mk_plainset es : incl es fs -> plainset (mk_subterm String.eqb (map (fun f => (false, f)) es)).
Proof.
  unfold mk_subterm. intros Hi. assert (G : forall s, plainset s -> plainset (fold_left (fun s e => RedundancyModel.set_add String.eqb e s) (map (fun f => (false, f)) es) s)).
  { induction es as [|f es IH]; intros s Hs; [exact Hs|]. cbn [map fold_left]. apply IH; [intros x Hx; apply Hi; now right|].
    unfold RedundancyModel.set_add. destruct (ef_in String.eqb (false, f) s) eqn:E; [exact Hs|].
    destruct Hs as [a [-> [Ha Hin]]]. exists (a ++ [f]). rewrite map_app. split; [reflexivity|]. split.
    - apply Permutation_NoDup with (l := f :: a); [apply Permutation_cons_append|]. constructor; [|exact Ha]. intros Hf.
      apply not_true_iff_false in E. apply E. unfold ef_in. apply existsb_exists. exists (false, f). split; [apply in_map_iff; eauto|]. unfold ef_eqb. cbn. apply String.eqb_refl.
    - intros x Hx. apply in_app_iff in Hx. destruct Hx as [Hx|[<-|[]]]; [auto|apply Hi; now left]. }
  apply G. exists []. repeat split; [constructor|easy].
Qed.

Lemma used_same s used : plainset s -> Forall plainset used -> in_used hash1 s used = in_used hash2 s used.
Proof.
  intros [a [-> [Na Ia]]] Hu. unfold in_used. induction Hu as [|u used [b [-> [Nb Ib]]] Hu IH]; [reflexivity|]. cbn. rewrite IH. f_equal.
  apply eq_true_iff_eq. rewrite !Z.eqb_eq, (H1 b a), (H2 b a) by assumption. reflexivity.
Qed.
Lemma update_same l : forall used, Forall plainset l -> Forall plainset used -> update_used hash1 used l = update_used hash2 used l /\ Forall plainset (update_used hash1 used l).
Proof.
  induction l as [|s l IH]; intros used Hl Hu; [split; [reflexivity|exact Hu]|]. unfold update_used. cbn [fold_left]. inversion Hl; subst.
  rewrite (used_same s used) by assumption. apply IH; [assumption|]. destruct (in_used hash2 s used); [exact Hu|]. apply Forall_app. split; [exact Hu|constructor; [assumption|constructor]].
Qed.

Lemma subset_incl (l s : list factor) : In s (subsets_sorted l) -> incl s l.
Proof.
  intros Hs. destruct (subsets_complete_sorted factor l) as [ps [H _]]. destruct (Forall2_in_r _ _ _ H s Hs) as [p [_ Hp]].
  intros f Hf. destruct (Forall2_in_r _ _ _ Hp f Hf) as [i [_ Hi]]. eapply nth_error_In, Hi.
Qed.
Lemma pick_same t num1 num2 used : incl t fs -> (forall f, In f t -> num1 f = num2 f) -> Forall plainset used ->
  pick_contrasts_for_term String.eqb hash1 t num1 used = pick_contrasts_for_term String.eqb hash2 t num2 used /\
  forall p, pick_contrasts_for_term String.eqb hash1 t num1 used = Ok p -> Forall plainset (snd p).
Proof.
  intros Ht Hn Hu. unfold pick_contrasts_for_term.
  rewrite (filter_ext_in' (fun f => negb (num1 f)) (fun f => negb (num2 f))) by (intros f Hf; now rewrite Hn).
  set (cands := map _ (subsets_sorted _)).
  assert (Hc : Forall plainset cands).
  { unfold cands. rewrite Forall_map, Forall_forall. intros s Hs. apply mk_plainset. intros f Hf. apply (subset_incl _ _ Hs) in Hf. apply filter_In in Hf. apply Ht, Hf. }
  rewrite (filter_ext_in' (fun s => negb (in_used hash1 s used)) (fun s => negb (in_used hash2 s used))) by (intros s Hs; f_equal; apply used_same; [rewrite Forall_forall in Hc; auto|exact Hu]).
  set (subs := filter (fun s : list (bool * factor) => negb (in_used hash2 s used)) cands). change (filter _ cands) with subs.
  assert (Hs : Forall plainset subs) by (unfold subs; apply incl_Forall with (l1 := cands); [apply incl_filter|exact Hc]).
  destruct (update_same subs used Hs Hu) as [E Hp]. change (list (bool * string)) with (list (bool * factor)) in *.
  change (@update_used string hash1 used subs) with (@update_used factor hash1 used subs). change (@update_used string hash2 used subs) with (@update_used factor hash2 used subs). rewrite <- E.
  split; [reflexivity|]. destruct (simplify String.eqb subs); cbn [bind]; [|discriminate]. intros p [= <-]. exact Hp.
Qed.
End Hash.

(** * Codings *)
Section Codings.
Context {V : Type}.
Variables (num1 num2 : list (factor * nat)) (cm1 cm2 : factor -> bool -> result (@ctr V)) (hash1 hash2 : list (bool * factor) -> Z) (fs : list factor).
Hypothesis Hn : forall f, In f fs -> dget String.eqb f num1 = dget String.eqb f num2.
Hypothesis Hcm : forall f b, In f fs -> dget String.eqb f num1 = None -> cm1 f b = cm2 f b.
Hypothesis H1 : collision_free hash1 fs.
Hypothesis H2 : collision_free hash2 fs.

Lemma is_num_same f : In f fs -> is_num num1 f = is_num num2 f.
Proof.
  intros Hf. unfold is_num, dmem. specialize (Hn f Hf).
  now rewrite Hn.
Qed.
Lemma subterm_same t c : incl t fs -> subterm_for num1 cm1 t c = subterm_for num2 cm2 t c.
Proof.
  intros Ht. unfold subterm_for.
  match goal with |- bind (foldM ?a _ _) _ = bind (foldM ?b _ _) _ => rewrite (foldM_ext_in' a b); [reflexivity|] end.
  intros [[s cms] n] f Hf. apply Ht in Hf. rewrite <- (Hn f Hf). destruct (dget String.eqb f num1) eqn:E; [reflexivity|]. destruct (dget String.eqb f c); [|reflexivity]. now rewrite (Hcm f b Hf E).
Qed.
Lemma bucket_same ts : Forall (fun t => incl t fs) ts -> forall used, Forall (plainset fs) used ->
  infos_for_bucket num1 cm1 hash1 ts used = infos_for_bucket num2 cm2 hash2 ts used.
Proof.
  induction 1 as [|t ts Ht Hts IH]; intros used Hu; [reflexivity|]. cbn [infos_for_bucket]. unfold infos_for_term.
  destruct (pick_same hash1 hash2 fs H1 H2 t (is_num num1) (is_num num2) used Ht (fun f Hf => is_num_same f (Ht f Hf)) Hu) as [E Hp].
  rewrite <- E. destruct (pick_contrasts_for_term String.eqb hash1 t (is_num num1) used) as [p|] eqn:Ep; cbn [bind]; [|reflexivity].
  rewrite (mapM_ext_in (subterm_for num1 cm1 t) (subterm_for num2 cm2 t)) by (intros c _; now apply subterm_same).
  destruct (mapM (subterm_for num2 cm2 t) (fst p)) as [sis|]; cbn [bind fst snd]; [|reflexivity].
  now rewrite (IH (snd p) (Hp p eq_refl)).
Qed.
Lemma buckets_same terms : Forall (fun t => incl t fs) terms -> buckets num1 terms = buckets num2 terms.
Proof.
  intros Ht. unfold buckets. generalize (@nil (list factor * list term)). induction Ht as [|t ts Ht Hts IH]; intros d; [reflexivity|]. cbn [fold_left].
  assert (E : bucket_add num1 t d = bucket_add num2 t d).
  { assert (Eb : bucket_of num1 t = bucket_of num2 t) by (unfold bucket_of; apply filter_ext_in'; intros f Hf; apply is_num_same, Ht, Hf).
    induction d as [|[b l] d IHd]; cbn; rewrite Eb; [reflexivity|]. now rewrite IHd. }
  rewrite E. apply IH.
Qed.
Lemma buckets_incl num terms p t : In p (buckets num terms) -> In t (snd p) -> In t terms.
Proof.
  unfold buckets. assert (G : forall d, In p (fold_left (fun d t => bucket_add num t d) terms d) -> In t (snd p) -> In t terms \/ exists q, In q d /\ In t (snd q)).
  { induction terms as [|x terms IH]; intros d Hp Ht; [right; eauto|]. cbn [fold_left] in Hp. destruct (IH _ Hp Ht) as [H|[q [Hq Hqt]]]; [left; now right|].
    clear - Hq Hqt. induction d as [|[b l] d IHd]; cbn in Hq.
    - destruct Hq as [<-|[]]. destruct Hqt as [<-|[]]. left. now left.
    - destruct (bucket_eqb b (bucket_of num x)).
      + destruct Hq as [<-|Hq]; [|right; exists q; split; [now right|exact Hqt]]. cbn in Hqt. apply in_app_iff in Hqt. destruct Hqt as [Hqt|[<-|[]]]; [right; exists (b, l); split; [now left|exact Hqt]|left; now left].
      + destruct Hq as [<-|Hq]; [right; exists (b, l); split; [now left|exact Hqt]|]. destruct (IHd Hq) as [H|[q' [Hq' Ht']]]; [now left|right; exists q'; split; [now right|exact Ht']]. }
  intros Hp Ht. destruct (G [] Hp Ht) as [H|[q [[] _]]]. exact H.
Qed.
Lemma make_same terms : incl (concat terms) fs -> make_subterm_infos num1 cm1 hash1 terms = make_subterm_infos num2 cm2 hash2 terms.
Proof.
  intros Hi. assert (Ht : Forall (fun t => incl t fs) terms) by (apply Forall_forall; intros t Hin f Hf; apply Hi, in_concat; eauto).
  unfold make_subterm_infos. rewrite <- (buckets_same terms Ht).
  rewrite (mapM_ext_in (fun p => infos_for_bucket num1 cm1 hash1 (by_degree (snd p)) []) (fun p => infos_for_bucket num2 cm2 hash2 (by_degree (snd p)) [])); [reflexivity|].
  intros p Hp. apply bucket_same; [|constructor]. apply Forall_forall. intros t Hin. rewrite Forall_forall in Ht. apply Ht.
  unfold by_degree in Hin. eapply Permutation_in in Hin; [|symmetry; apply py_sort_perm]. eapply buckets_incl; [|exact Hin].
  unfold empty_first in Hp. apply in_app_iff in Hp. destruct Hp as [Hp|Hp]; apply filter_In in Hp; apply Hp.
Qed.
End Codings.

(** * Identities *)
Lemma dget_anon f fis : dget String.eqb f (anon_infos fis) = option_map anon_info (dget String.eqb f fis).
Proof. induction fis as [|[g fi] fis IH]; cbn; [reflexivity|]. destruct (String.eqb g f); [reflexivity|exact IH]. Qed.
Lemma dset_anon f fi fis : anon_infos (dset String.eqb f fi fis) = dset String.eqb f (anon_info fi) (anon_infos fis).
Proof. induction fis as [|[g gi] fis IH]; cbn; [reflexivity|]. destruct (String.eqb g f); cbn; [reflexivity|f_equal; exact IH]. Qed.
Lemma kind_anon o1 o2 : option_map anon_info o1 = option_map anon_info o2 -> forall {A} (k : factor -> fkind -> result A),
  (let* fi := lookup o1 in k (fi_factor fi) (fi_kind fi)) = (let* fi := lookup o2 in k (fi_factor fi) (fi_kind fi)).
Proof. destruct o1 as [[i f n]|], o2 as [[j g m]|]; cbn; try discriminate; [|reflexivity]. now intros [= -> ->]. Qed.

Section Erase.
Context {V : Type}.
Notation subterm_info := (@subterm_info V).
Notation design_info := (@design_info V).
(** Factor infos that agree, but for identities, on the factors of a subterm. *)
Definition alike (fis1 fis2 : finfos) (f : factor) : Prop := option_map anon_info (dget String.eqb f fis1) = option_map anon_info (dget String.eqb f fis2).

Lemma names_same fis1 fis2 (s : subterm_info) : (forall f, In f (si_factors s) -> alike fis1 fis2 f) -> subterm_column_names fis1 s = subterm_column_names fis2 s.
Proof.
  intros H. unfold subterm_column_names, subterm_column_combinations.
  rewrite (mapM_ext_in (factor_columns fis1 s) (factor_columns fis2 s)).
  2: { intros f Hf. unfold factor_columns. destruct (dget String.eqb f (si_contrasts s)); [reflexivity|]. exact (kind_anon _ _ (H f Hf) (fun _ k => match k with FNum n => Ok n | FCat _ => Err (TypeError "range(None)") end)). }
  destruct (mapM (factor_columns fis2 s) (si_factors s)); cbn [bind]; [|reflexivity].
  rewrite (mapM_ext_in (column_name fis1 s) (column_name fis2 s)); [reflexivity|]. intros c _. unfold column_name.
  rewrite (mapM_ext_in (name_piece fis1 s) (name_piece fis2 s)); [reflexivity|]. intros [f i] Hin. apply in_combine_l in Hin. unfold name_piece.
  exact (kind_anon _ _ (H f Hin) (fun _ k => match k with
    | FNum n => if Nat.ltb 1 n then Ok (f ++ "[" ++ nat_str i ++ "]")%string else assert (Nat.eqb i 0) (Ok f)
    | FCat _ => let* c := lookup (dget String.eqb f (si_contrasts s)) in match nth_error (ct_suffixes c) i with Some suffix => Ok (f ++ suffix)%string | None => Err IndexError end end)).
Qed.
Lemma keys_anon fis : map fst (anon_infos fis) = map fst fis.
Proof. unfold anon_infos. rewrite map_map. reflexivity. Qed.
Lemma anon_alike fis1 fis2 f : anon_infos fis1 = anon_infos fis2 -> alike fis1 fis2 f.
Proof. intros H. unfold alike. now rewrite <- !dget_anon, H. Qed.
Lemma check_same fis1 fis2 (cs : list (term * list subterm_info)) : anon_infos fis1 = anon_infos fis2 -> check_codings fis1 cs = check_codings fis2 cs.
Proof.
  intros H. unfold check_codings. assert (K : map fst fis1 = map fst fis2) by (rewrite <- (keys_anon fis1), H; apply keys_anon). rewrite K.
  assert (Fb : forall fis : finfos, forallb (fun p => String.eqb (fst p) (fi_factor (snd p))) fis = forallb (fun p => String.eqb (fst p) (fi_factor (snd p))) (anon_infos fis))
    by (induction fis as [|[f fi] fis IH]; cbn; [reflexivity|now rewrite IH]).
  rewrite (Fb fis1), (Fb fis2), H.
  rewrite (mapM_ext_in (fun p : term * list subterm_info => mapM (check_subterm fis1) (snd p)) (fun p => mapM (check_subterm fis2) (snd p))); [reflexivity|].
  intros p _. apply mapM_ext_in. intros s _. unfold check_subterm.
  match goal with |- bind (foldM ?a _ _) _ = bind (foldM ?b _ _) _ => rewrite (foldM_ext_in' a b); [reflexivity|] end.
  intros [n cats] f _. exact (kind_anon _ _ (anon_alike fis1 fis2 f H) (fun _ k => match k with
      | FNum m => Ok (n * m, cats)
      | FCat ncat => let* c := lookup (dget String.eqb f (si_contrasts s)) in
          check (Nat.eqb (List.length (ct_rows c)) ncat) "Mismatched contrast matrix for factor" (Ok (n * ct_ncols c, f :: cats)) end)).
Qed.
Lemma mk_same names fis1 fis2 (cs : list (term * list subterm_info)) (d1 : design_info) : anon_infos fis1 = anon_infos fis2 -> mk_design_info names (Some fis1) (Some cs) = Ok d1 ->
  exists d2, mk_design_info names (Some fis2) (Some cs) = Ok d2 /\ anonymous d1 = anonymous d2 /\ infos_of d2 = fis2.
Proof.
  intros H. unfold mk_design_info. rewrite (check_same fis1 fis2 cs H). destruct (check_codings fis2 cs); cbn [bind]; [|discriminate].
  destruct (mk_slices _ _ _) as [[tsl nsl]|]; cbn [bind]; [|discriminate]. unfold assert. destruct (match tsl with Some _ => _ | None => _ end); [|discriminate].
  destruct (covers_from _ _ _); [|discriminate]. destruct (Nat.eqb _ _); [|discriminate]. unfold check. destruct (forallb _ _); [|discriminate].
  intros [= <-]. eexists. split; [reflexivity|]. unfold anonymous. cbn. now rewrite H.
Qed.
Lemma add_same fis1 fis2 l : (forall f, In f l -> alike fis1 fis2 f) -> forall a1 a2 b1, anon_infos a1 = anon_infos a2 -> foldM (add_info fis1) l a1 = Ok b1 ->
  exists b2, foldM (add_info fis2) l a2 = Ok b2 /\ anon_infos b1 = anon_infos b2.
Proof.
  induction l as [|f l IH]; intros H a1 a2 b1 Ha; cbn; [intros [= <-]; eauto|].
  unfold add_info at 1 3. pose proof (H f (or_introl eq_refl)) as Hf. unfold alike in Hf.
  destruct (dget String.eqb f fis1) as [fi1|], (dget String.eqb f fis2) as [fi2|]; cbn in *; try discriminate. injection Hf as E1 E2.
  apply IH; [intros g Hg; apply H; now right|]. rewrite !dset_anon, Ha. unfold anon_info. now rewrite E1, E2.
Qed.

Lemma design_same num1 num2 cm1 cm2 hash1 hash2 fis1 fis2 tl d1 :
  (forall f, In f (concat tl) -> dget String.eqb f num1 = dget String.eqb f num2) ->
  (forall f b, In f (concat tl) -> dget String.eqb f num1 = None -> cm1 f b = cm2 f b) ->
  collision_free hash1 (concat tl) -> collision_free hash2 (concat tl) ->
  (forall f, In f (concat tl) -> alike fis1 fis2 f) ->
  design_for num1 cm1 hash1 fis1 tl = Ok d1 -> exists d2 : design_info, design_for num2 cm2 hash2 fis2 tl = Ok d2 /\ anonymous d1 = anonymous d2.
Proof.
  intros Hn Hc H1 H2 Ha Hd. destruct (design_for_lemma num1 cm1 hash1 fis1 tl d1 Hd) as [Hcon [Hm _]].
  destruct (constructed_facts d1 Hcon) as [fs [cs [E1 [E2 [Hck _]]]]]. unfold codings_of in Hm. rewrite E2 in Hm.
  destruct (order_lemma num1 cm1 hash1 tl cs Hm) as [Hp _].
  unfold design_for in *. rewrite <- (make_same num1 num2 cm1 cm2 hash1 hash2 (concat tl) Hn Hc H1 H2 tl (incl_refl _)). rewrite Hm in *. cbn [bind] in *.
  unfold assert in *. destruct (_ && _); [|discriminate].
  change (foldM (fun a f => let* fi := lookup (dget String.eqb f fis1) in Ok (dset String.eqb f fi a)) (concat tl) []) with (foldM (add_info fis1) (concat tl) []) in Hd.
  change (foldM (fun a f => let* fi := lookup (dget String.eqb f fis2) in Ok (dset String.eqb f fi a)) (concat tl) []) with (foldM (add_info fis2) (concat tl) []).
  destruct (foldM (add_info fis1) (concat tl) []) as [this1|] eqn:Et; cbn [bind] in *; [|discriminate].
  destruct (add_same fis1 fis2 (concat tl) Ha [] [] this1 eq_refl Et) as [this2 [-> E]]. cbn [bind].
  rewrite <- (mapM_ext_in (fun p => mapM (subterm_column_names fis1) (snd p)) (fun p => mapM (subterm_column_names fis2) (snd p)) cs).
  2: { intros [t ss] Hin. cbn [snd]. apply mapM_ext_in. intros s Hs. apply names_same. intros f Hf. apply Ha. apply in_concat. exists t. split.
       - eapply Permutation_in; [exact Hp|]. apply (in_map fst) in Hin. exact Hin.
       - eapply (ck_incl _ _ Hck t ss s); eassumption. }
  destruct (mapM _ cs) as [names|]; cbn [bind] in *; [|discriminate].
  destruct (mk_same _ _ _ _ _ E Hd) as [d2 [Hd2 [H _]]]. exists d2. split; [exact Hd2|exact H].
Qed.
Lemma designs_same num1 num2 cm1 cm2 hash1 hash2 fis1 fis2 tls dis1 :
  (forall f, In f (concat (map (@concat factor) tls)) -> dget String.eqb f num1 = dget String.eqb f num2) ->
  (forall f b, In f (concat (map (@concat factor) tls)) -> dget String.eqb f num1 = None -> cm1 f b = cm2 f b) ->
  Forall (fun tl => collision_free hash1 (concat tl)) tls -> Forall (fun tl => collision_free hash2 (concat tl)) tls ->
  (forall f, In f (concat (map (@concat factor) tls)) -> alike fis1 fis2 f) ->
  mapM (design_for num1 cm1 hash1 fis1) tls = Ok dis1 -> exists dis2 : list design_info, mapM (design_for num2 cm2 hash2 fis2) tls = Ok dis2 /\ Forall2 (fun d1 d2 => anonymous d1 = anonymous d2) dis1 dis2.
Proof.
  intros Hn Hc H1 H2 Ha H. apply mapM_ok_Forall2 in H. induction H as [|tl d1 tls dis1 E H IH]; [exists []; split; [reflexivity|constructor]|].
  inversion H1; inversion H2; subst. cbn [map concat] in *.
  destruct (design_same num1 num2 cm1 cm2 hash1 hash2 fis1 fis2 tl d1) as [d2 [E2 Ed]]; auto; try (intros; (apply Hn || apply Hc || apply Ha); auto; apply in_or_app; now left).
  destruct IH as [dis2 [E3 Ed2]]; auto; try (intros; (apply Hn || apply Hc || apply Ha); auto; apply in_or_app; now right).
  exists (d2 :: dis2). cbn [mapM]. rewrite E2, E3. split; [reflexivity|now constructor].
Qed.
End Erase.

(** * Levels *)
Lemma sniff_data_distinct {C} na org (st st' : @sniffer C) d fin : sniff_data na org st d = Ok (st', fin) -> NoDup (keys (sn_set st)) -> NoDup (keys (sn_set st')).
Proof.
  assert (G : forall l, (let* values := l in let* s := foldM (sniff_value na org) values (sn_set st) in Ok (mkSniffer (sn_contrast st) (sn_levels st) s, is_bools s)) = Ok (st', fin) -> NoDup (keys (sn_set st)) -> NoDup (keys (sn_set st'))).
  { intros [l|]; cbn [bind]; [|discriminate]. destruct (foldM _ l _) as [s|] eqn:E; cbn [bind]; [|discriminate]. intros [= <- _] H. cbn. now destruct (sniff_values_keys na org l _ _ E H). }
  destruct d; try exact (G _); cbn; intros [= <- _]; cbn; [auto|]. intros _. constructor; [intros [A|[]]; discriminate|constructor; [intros []|constructor]].
Qed.
Lemma sniff_distinct {C} na org (st st' : @sniffer C) v fin : sniff na org st v = Ok (st', fin) -> NoDup (keys (sn_set st)) -> NoDup (keys (sn_set st')).
Proof.
  destruct v as [d c [l|]|d]; cbn; [intros [= <- _]; auto| |]; intros H H'; eapply sniff_data_distinct; try exact H; exact H'.
Qed.
Lemma look_distinct {C F D} (ev : F -> D -> result (@value C)) org na f chunks : forall sn sn', look ev org na f chunks sn = Ok sn' -> NoDup (keys (sn_set sn)) -> NoDup (keys (sn_set sn')).
Proof.
  induction chunks as [|d r IH]; intros sn sn'; cbn [look]; [intros [= <-]; auto|]. destruct (ev f d) as [v|]; cbn [bind]; [|discriminate].
  destruct (sniff na (org f) sn v) as [[st fin]|] eqn:E; cbn [bind]; [|discriminate]. intros H Hn. apply (sniff_distinct _ _ _ _ _ _ E) in Hn.
  destruct fin; [injection H as <-; exact Hn|]. eapply IH; eassumption.
Qed.
Lemma type_distinct {C F D} (ev : F -> D -> result (@value C)) org na f chunks sn : type_of ev org na f chunks = Ok (Some (TCat sn)) -> distinct (sn_set sn).
Proof.
  unfold type_of. destruct chunks as [|d r]; [discriminate|]. destruct (ev f d) as [v|]; cbn [bind]; [|discriminate]. destruct (guess_categorical v).
  - destruct (look _ _ _ _ _ _) as [s|] eqn:E; cbn [bind]; [|discriminate]. intros [= <-]. apply distinct_iff. eapply look_distinct; [exact E|constructor].
  - destruct (column_count _ v); discriminate.
Qed.
Lemma distinct_same l x y : distinct l -> In x l -> In y l -> same x y -> x = y.
Proof.
  intros H Hx Hy E. apply distinct_iff in H. apply same_iff in E. unfold keys in H. clear - H Hx Hy E.
  induction l as [|a l IH]; [destruct Hx|]. inversion H; subst. destruct Hx as [<-|Hx], Hy as [<-|Hy]; auto; exfalso; apply H2; [rewrite E|rewrite <- E]; now apply in_map.
Qed.
Lemma py_sort_ext {A} (f g : A -> A -> bool) l : (forall a b, In a l -> In b l -> f a b = g a b) -> py_sort f l = py_sort g l.
Proof.
  induction l as [|x l IH]; intros H; [reflexivity|]. cbn [py_sort fold_right]. fold (py_sort f l). fold (py_sort g l). rewrite IH by (intros; apply H; now right).
  assert (G : forall m, incl m l -> insert f x m = insert g x m).
  { induction m as [|y m IHm]; intros Hm; [reflexivity|]. cbn. rewrite H; [|right; apply Hm; now left|now left]. rewrite IHm; [reflexivity|]. intros z Hz. apply Hm. now right. }
  apply G. intros z Hz. now apply py_sort_in in Hz.
Qed.
Lemma sort_addr a1 a2 l : (forall v, In v l -> a1 v = a2 v) -> sort_levels a1 l = sort_levels a2 l.
Proof.
  intros H. apply py_sort_ext. intros x y Hx Hy. unfold sort_key_lt. now rewrite (H x Hx), (H y Hy).
Qed.
Lemma forall2_same_eq L l m : distinct L -> incl l L -> incl m L -> Forall2 same l m -> l = m.
Proof.
  intros Hd Hl Hm H. induction H as [|x y l m E H IH]; [reflexivity|]. f_equal.
  - apply (distinct_same L); auto; [apply Hl|apply Hm]; now left.
  - apply IH; intros z Hz; [apply Hl|apply Hm]; now right.
Qed.
Lemma perm_same_levels l m : distinct l -> Permutation l m -> same_levels l m.
Proof.
  intros Hd Hp. split; [exact Hd|]. split.
  - apply distinct_iff in Hd. apply distinct_iff. eapply Permutation_NoDup; [|exact Hd]. now apply Permutation_map.
  - intros w. split; intros [x [A B]]; exists x; (split; [|exact B]); [|apply Permutation_sym in Hp]; eapply Permutation_in; eauto.
Qed.
Lemma sorted_perm w1 w2 s l1 l2 : distinct s -> order_fixed w1 w2 s -> Permutation l1 s -> Permutation l2 s ->
  sort_levels (py_addr w1) l1 = sort_levels (py_addr w2) l2.
Proof.
  intros Hd Ho P1 P2. assert (P : Permutation l1 l2) by (rewrite P1; symmetry; apply P2).
  assert (Hd1 : distinct l1). { apply distinct_iff. apply distinct_iff in Hd. eapply Permutation_NoDup; [apply Permutation_map, Permutation_sym, P1|exact Hd]. }
  assert (Hs : same_levels l1 l2) by now apply perm_same_levels.
  assert (Hin : forall P : pval -> Prop, Forall P s -> Forall P (l1 ++ l2)).
  { intros Q HQ. apply Forall_app. split; (eapply Permutation_Forall; [apply Permutation_sym; (apply P1 || apply P2)|exact HQ]). }
  assert (Hi1 : forall a, incl (sort_levels a l1) s) by (intros a x Hx; unfold sort_levels in Hx; rewrite py_sort_in in Hx; now apply (Permutation_in _ P1)).
  assert (Hi2 : forall a, incl (sort_levels a l2) s) by (intros a x Hx; unfold sort_levels in Hx; rewrite py_sort_in in Hx; now apply (Permutation_in _ P2)).
  destruct Ho as [Hp|[Hp [Ha He]]].
  - apply (forall2_same_eq s); auto. apply levels_order_plain; auto.
  - assert (E : sort_levels (py_addr w2) l2 = sort_levels (py_addr w1) l2).
    { apply sort_addr. intros v Hv. symmetry. apply He. now apply (Permutation_in _ P2). }
    rewrite E. apply (forall2_same_eq s); auto. apply levels_order; auto.
    intros a b Ia Ib. apply Ha; [clear Ib; rename Ia into X|clear Ia; rename Ib into X]; apply in_app_iff in X; destruct X as [X|X]; [apply (Permutation_in _ P1) in X|apply (Permutation_in _ P2) in X|apply (Permutation_in _ P1) in X|apply (Permutation_in _ P2) in X]; exact X.
Qed.
Lemma sorted_same w1 w2 s : distinct s -> order_fixed w1 w2 s -> (forall l, Permutation (py_hash_order w1 l) l) -> (forall l, Permutation (py_hash_order w2 l) l) ->
  sort_levels (py_addr w1) (py_hash_order w1 s) = sort_levels (py_addr w2) (py_hash_order w2 s).
Proof. intros. eapply sorted_perm; eauto. Qed.
