(** Proofs about the rank of whole design matrices. *)
From Coq Require Import ZArith Permutation Ring Ring_theory.
From Verif Require Import Base RedundancyModel RedundancySpec RedundancyProofs PickProofs RankSpec RankProofs RankTopProofs DescModel BuildModel BuildSpec BuildProofs BuildOrderProofs PySort RankMatSpec RankMatLinProofs.
Open Scope list_scope.
Open Scope nat_scope.

Section Mat.
Context {R : Type} (rO rI : R) (radd rmul rsub : R -> R -> R) (ropp : R -> R).
Hypothesis Rth : ring_theory rO rI radd rmul rsub ropp (@eq R).
Add Ring Rring : Rth.
Context {P : Type} (ok : P -> Prop).
Variable num_cols : list (factor * nat).
Variable code_cm : factor -> bool -> result (@ctr R).
Variable hash : list (bool * factor) -> Z.
Variables (level : P -> factor -> nat) (number : P -> factor -> nat -> R).
Variable fis : list (factor * finfo).
Local Notation num := (fun f => dget String.eqb f num_cols).
Local Notation is_numeric := (is_numeric num).
Local Notation width := (width num).
Local Notation numerics := (numerics num).
Local Notation categoricals := (categoricals num).
Local Notation product := (product rI rmul number).
Local Notation column := (column rO rI rmul level number).
Local Notation entry_of := (entry_of rO level number).
Local Notation peq := (peq ok).
Local Notation pairs := (pairs rmul).
Local Notation prodcols := (prodcols rI rmul).
Local Notation "x * y" := (rmul x y).
Variable terms : list term.
Hypothesis Hfis : forall f n, In f (concat terms) -> num f = Some n -> exists fi, dget String.eqb f fis = Some fi /\ fi_kind fi = FNum n.

Lemma numeric_is f : is_numeric f = is_num num_cols f.
Proof. unfold RankMatSpec.is_numeric, is_num, dmem. now destruct (dget String.eqb f num_cols). Qed.

(** * Subterms *)
Definition coded (c : list (factor * bool)) (f : factor) : bool := is_num num_cols f || dmem String.eqb f c.
Lemma subterm_shape t c s : NoDup t -> subterm_for num_cols code_cm t c = Ok s ->
  si_factors s = filter (coded c) t /\
  (forall f, is_num num_cols f = true -> dget String.eqb f (si_contrasts s) = None) /\
  (forall f b, In f t -> is_num num_cols f = false -> dget String.eqb f c = Some b -> exists m, code_cm f b = Ok m /\ dget String.eqb f (si_contrasts s) = Some m).
Proof.
  intros Hn H. unfold subterm_for in H. match type of H with bind (foldM ?g t ([], [], 1)) _ = _ => set (step := g) in H end.
  assert (G : forall l fs0 cms0 n0 fs cms n, NoDup l -> foldM step l (fs0, cms0, n0) = Ok (fs, cms, n) ->
    fs = fs0 ++ filter (coded c) l /\
    (forall f, ~ In f l \/ is_num num_cols f = true -> dget String.eqb f cms = dget String.eqb f cms0) /\
    (forall f b, In f l -> is_num num_cols f = false -> dget String.eqb f c = Some b -> exists m, code_cm f b = Ok m /\ dget String.eqb f cms = Some m)).
  { induction l as [|f l IH]; intros fs0 cms0 n0 fs cms n Hl E; cbn [foldM] in E.
    - injection E as <- <- <-. split; [now rewrite app_nil_r|]. split; [reflexivity|intros f b []].
    - inversion Hl as [|x y Hf Hl']; subst x y. destruct (step (fs0, cms0, n0) f) as [[[fs1 cms1] n1]|] eqn:E1; cbn [bind] in E; [|discriminate].
      destruct (IH _ _ _ _ _ _ Hl' E) as [A [B C]]. unfold step in E1. cbn [filter]. unfold coded at 1. unfold is_num, dmem in *. destruct (dget String.eqb f num_cols) as [k|] eqn:En.
      + injection E1 as <- <- <-. cbn [orb]. split; [rewrite A, <- app_assoc; reflexivity|]. split.
        * intros g Hg. apply B. destruct Hg as [Hg|Hg]; [left; intros K; apply Hg; now right|now right].
        * intros g b [<-|Hg] Hi; [rewrite En in Hi; discriminate|]. now apply C.
      + cbn [orb]. destruct (dget String.eqb f c) as [b0|] eqn:Ec.
        * destruct (code_cm f b0) as [m|] eqn:Em; cbn [bind] in E1; [|discriminate]. injection E1 as <- <- <-. split; [rewrite A, <- app_assoc; reflexivity|]. split.
          -- intros g Hg. rewrite B by (destruct Hg as [Hg|Hg]; [left; intros K; apply Hg; now right|now right]). rewrite (dget_dset String.eqb seqb_sym seqb_trans).
             destruct (String.eqb_spec f g) as [->|Hne]; [|reflexivity]. destruct Hg as [Hg|Hg]; [destruct Hg; now left|rewrite En in Hg; discriminate].
          -- intros g b [<-|Hg] Hi Hb; [|now apply C]. rewrite Ec in Hb. injection Hb as <-. exists m. split; [exact Em|]. rewrite B by (now left). rewrite (dget_dset String.eqb seqb_sym seqb_trans), String.eqb_refl. reflexivity.
        * injection E1 as <- <- <-. split; [exact A|]. split.
          -- intros g Hg. apply B. destruct Hg as [Hg|Hg]; [left; intros K; apply Hg; now right|now right].
          -- intros g b [<-|Hg] Hi Hb; [rewrite Ec in Hb; discriminate|now apply C]. }
  destruct (foldM step t ([], [], 1)) as [[[fs cms] n]|] eqn:E; cbn [bind] in H; [|discriminate]. injection H as <-. cbn [si_factors si_contrasts].
  destruct (G t _ _ _ _ _ _ Hn E) as [A [B C]]. split; [exact A|]. split; [|exact C]. intros f Hf. rewrite B by (now right). reflexivity.
Qed.

(** The columns of a list of numeric factors, and of a coding. *)
Definition monos (N : list factor) : list (P -> R) := map (fun ks => product (combine N ks)) (combos (map width N)).
Variables (nlev : factor -> nat) (ncol : factor -> bool -> nat) (M : factor -> bool -> nat -> nat -> R).
Hypothesis Hcm : contrasts_are rO code_cm nlev ncol M.
Local Notation coding_col := (coding_col rI rmul M).
Local Notation coding_cols := (coding_cols rI rmul ncol M).
Definition at_level (g : (factor -> nat) -> R) (p : P) : R := g (level p).

Lemma monos_prod N : peq (monos N) (prodcols (fun f => map (fun i p => number p f i) (seq 0 (width f))) N).
Proof. unfold monos. apply (prodcols_combos rO rI radd rmul rsub ropp Rth ok (fun f i p => number p f i) width N). Qed.
Lemma coding_col_rprod c : forall ks rho, coding_col c ks rho = rprod rI rmul (fun q => M (fst (fst q)) (snd (fst q)) (rho (fst (fst q))) (snd q)) (combine c ks).
Proof. induction c as [|[f b] c IH]; intros [|k ks] rho; cbn; [reflexivity..|]. now rewrite IH. Qed.
Lemma coding_prod c : peq (map at_level (coding_cols c)) (prodcols (fun x => map (fun i p => M (fst x) (snd x) (level p (fst x)) i) (seq 0 (ncol (fst x) (snd x)))) c).
Proof.
  eapply pe_trans; [|apply (prodcols_combos rO rI radd rmul rsub ropp Rth ok (fun x i p => M (fst x) (snd x) (level p (fst x)) i) (fun x => ncol (fst x) (snd x)) c)].
  unfold RankSpec.coding_cols. rewrite map_map. apply peq_map. intros ks p _ _. unfold at_level. apply coding_col_rprod.
Qed.
Lemma prodcols_map {X Y} (E : Y -> list (P -> R)) (h : X -> Y) xs : prodcols E (map h xs) = prodcols (fun x => E (h x)) xs.
Proof. induction xs as [|x xs IH]; cbn; [reflexivity|]. now rewrite IH. Qed.

Lemma dget_key (c : list (factor * bool)) f b : NoDup (map fst c) -> In (f, b) c -> dget String.eqb f c = Some b.
Proof. intros Hn Hi. apply (dget_distinct String.eqb String.eqb_refl); [now apply distinct_NoDup|exact Hi]. Qed.
Lemma dmem_key (c : list (factor * bool)) f : dmem String.eqb f c = true <-> In f (map fst c).
Proof.
  rewrite dmem_in. split.
  - intros [[k b] [H E]]. apply String.eqb_eq in E. cbn in E. subst. now apply (in_map fst) in H.
  - intros H. apply in_map_iff in H. destruct H as [p [<- H]]. exists p. split; [exact H|apply String.eqb_refl].
Qed.

Lemma subterm_cols t c s : incl t (concat terms) -> NoDup t -> NoDup (map fst c) -> incl (map fst c) (categoricals t) -> (forall p f, ok p -> In f (categoricals t) -> level p f < nlev f) ->
  subterm_for num_cols code_cm t c = Ok s ->
  peq (map (fun ks => column (t, s, ks)) (combos (counts_of fis s))) (pairs (monos (numerics t)) (map at_level (coding_cols c))).
Proof.
  intros Hin Ht Hc Hi Hl Hs. destruct (subterm_shape t c s Ht Hs) as [A [B C]].
  assert (Hcat : forall f, In f (map fst c) -> In f t /\ is_num num_cols f = false).
  { intros f Hf. apply Hi in Hf. unfold RankMatSpec.categoricals in Hf. apply filter_In in Hf. destruct Hf as [H1 H2]. rewrite numeric_is, negb_true_iff in H2. now split. }
  assert (Hperm : Permutation (si_factors s) (numerics t ++ map fst c)).
  { rewrite A. apply NoDup_Permutation; [now apply NoDup_filter| |].
    - apply nodup_app; [now apply NoDup_filter|exact Hc|]. intros f H1 H2. unfold RankMatSpec.numerics in H1. apply filter_In in H1. destruct H1 as [_ H1]. rewrite numeric_is in H1. destruct (Hcat f H2). congruence.
    - intros f. rewrite in_app_iff, filter_In. unfold coded, RankMatSpec.numerics. rewrite filter_In, orb_true_iff, numeric_is, dmem_key. split; [tauto|]. intros [H|H]; [tauto|]. destruct (Hcat f H). tauto. }
  eapply pe_trans.
  { apply (prodcols_combos rO rI radd rmul rsub ropp Rth ok (fun f i p => entry_of s f i p) (count_of fis s) (si_factors s)). }
  eapply pe_trans; [apply (prodcols_perm rO rI radd rmul rsub ropp Rth ok); exact Hperm|].
  eapply pe_trans; [apply (prodcols_app rO rI radd rmul rsub ropp Rth ok)|].
  apply (pairs_peq rO rI radd rmul rsub ropp Rth ok).
  - eapply pe_trans; [|apply peq_sym, monos_prod]. apply (prodcols_ext rO rI radd rmul rsub ropp Rth ok). intros f Hf. unfold RankMatSpec.numerics in Hf. apply filter_In in Hf. destruct Hf as [Hft Hf].
    rewrite numeric_is in Hf. assert (Ew : count_of fis s f = width f).
    { unfold count_of. rewrite (B f Hf). unfold RankMatSpec.width. unfold is_num, dmem in Hf. destruct (dget String.eqb f num_cols) as [n|] eqn:En; [|discriminate].
      destruct (Hfis f n (Hin f Hft) En) as [fi [E1 E2]]. now rewrite E1, E2. }
    rewrite Ew. apply peq_map. intros i p _ _. unfold RankMatSpec.entry_of. now rewrite (B f Hf).
  - rewrite prodcols_map. eapply pe_trans; [|apply peq_sym, coding_prod]. apply (prodcols_ext rO rI radd rmul rsub ropp Rth ok). intros [f b] Hf. cbn [fst snd].
    assert (Hk : In f (map fst c)) by (now apply (in_map fst) in Hf). destruct (Hcat f Hk) as [K1 K2]. destruct (C f b K1 K2 (dget_key c f b Hc Hf)) as [m [Em Ed]]. destruct (Hcm f b m Em) as [W E].
    assert (Ew : count_of fis s f = ncol f b) by (unfold count_of; now rewrite Ed). rewrite Ew. apply peq_map. intros i p Hiq Hp. apply in_seq in Hiq. unfold RankMatSpec.entry_of. rewrite Ed. apply E; [|lia]. apply Hl; [exact Hp|now apply Hi].
Qed.

(** * Buckets *)
Local Notation bof := (bucket_of num_cols).
Lemma bucket_cols ts : forall used r, infos_for_bucket num_cols code_cm hash ts used = Ok r ->
  exists css, pick_all String.eqb hash ts (is_num num_cols) used = Ok css /\
    forall N, (forall t, In t ts -> incl t (concat terms) /\ NoDup t /\ Permutation (numerics t) N /\ forall p f, ok p -> In f (categoricals t) -> level p f < nlev f) ->
      Forall2 (fun cs cat => Forall (fun c => incl (map fst c) cat) cs) css (map categoricals ts) -> Forall (@wf_coding factor) (concat css) ->
      peq (map column (flat_map (columns_of_term fis) r)) (pairs (monos N) (map at_level (flat_map coding_cols (concat css)))) /\
      Forall (fun id => exists c s, In (fst (fst id)) ts /\ wf_coding c /\ incl (map fst c) (categoricals (fst (fst id))) /\ snd (fst id) = s /\ subterm_for num_cols code_cm (fst (fst id)) c = Ok s /\ In (snd id) (combos (counts_of fis s)))
        (flat_map (columns_of_term fis) r).
Proof.
  induction ts as [|t ts IH]; intros used r; cbn [infos_for_bucket pick_all].
  - intros [= <-]. exists []. split; [reflexivity|]. intros. cbn. split; [constructor|constructor].
  - unfold infos_for_term. destruct (pick_contrasts_for_term String.eqb hash t (is_num num_cols) used) as [[cs used']|] eqn:Ep; cbn [bind fst snd]; [|discriminate].
    destruct (mapM (subterm_for num_cols code_cm t) cs) as [sis|] eqn:Es; cbn [bind fst snd]; [|discriminate].
    destruct (infos_for_bucket num_cols code_cm hash ts used') as [rest|] eqn:Er; cbn [bind]; [|discriminate].
    intros [= <-]. destruct (IH _ _ Er) as [css [Ec Hc]]. rewrite Ec. cbn [bind]. exists (cs :: css). split; [reflexivity|].
    intros N HN HF HW. cbn [map] in HF. inversion HF as [|x y xs ys Hi HF']; subst x y xs ys. cbn [concat] in HW. apply Forall_app in HW. destruct HW as [HW1 HW2].
    destruct (Hc N (fun t' Ht' => HN t' (or_intror Ht')) HF' HW2) as [Q1 Q2]. destruct (HN t (or_introl eq_refl)) as [Hin [Ht [Hp Hl]]].
    apply mapM_ok_Forall2 in Es. cbn [flat_map concat]. rewrite !flat_map_app, !map_app.
    assert (G : peq (map column (columns_of_term fis (t, sis))) (pairs (monos N) (map at_level (flat_map coding_cols cs))) /\
      Forall (fun id => exists c s, In (fst (fst id)) (t :: ts) /\ wf_coding c /\ incl (map fst c) (categoricals (fst (fst id))) /\ snd (fst id) = s /\ subterm_for num_cols code_cm (fst (fst id)) c = Ok s /\ In (snd id) (combos (counts_of fis s))) (columns_of_term fis (t, sis))).
    { unfold columns_of_term. cbn [fst snd]. clear - Rth Hi HW1 Hin Ht Hp Hl Es Hcm Hfis. induction Es as [|c s cs sis Hs Es IHs]; cbn [flat_map map]; [split; constructor|].
      inversion Hi as [|x y Hi1 Hi2]; subst x y. inversion HW1 as [|x y W1 W2]; subst x y. destruct (IHs W2 Hi2) as [I1 I2]. split.
      - rewrite !map_app, map_map, (pairs_app_r rmul). apply peq_app; [|exact I1]. eapply pe_trans; [exact (subterm_cols t c s Hin Ht W1 Hi1 Hl Hs)|].
        apply (pairs_peq_l rmul ok). eapply pe_trans; [apply monos_prod|]. eapply pe_trans; [|apply peq_sym, monos_prod]. now apply (prodcols_perm rO rI radd rmul rsub ropp Rth ok).
      - apply Forall_app. split; [|exact I2]. apply Forall_forall. intros id Hid. apply in_map_iff in Hid. destruct Hid as [ks [<- Hks]]. exists c, s. cbn [fst snd]. repeat split; try assumption. now left. }
    destruct G as [G1 G2]. split.
    + rewrite (pairs_app_r rmul). now apply peq_app.
    + apply Forall_app. split; [exact G2|]. eapply Forall_impl; [|exact Q2]. cbv beta. intros id [c [s [H1 H2]]]. exists c, s. split; [now right|exact H2].
Qed.

Hypothesis Hnd : Forall (@NoDup factor) terms.
Hypothesis Hcf : collision_free hash (concat terms).
Local Notation all := (all_categoricals num terms).
Hypothesis Hgood : forall f, In f all -> good_coding rO rI radd rmul nlev ncol M f.
Hypothesis Hrows : forall p, ok p -> legit nlev all (level p).
Local Notation LG := (legit nlev all).
Local Notation blk := (list factor * list ((factor -> nat) -> R))%type.

Definition blk_ok (b : list factor) (B : blk) : Prop :=
  (exists t, In t terms /\ bucket_eqb b (bof t) = true /\ fst B = numerics t) /\
  independent rO radd rmul LG (snd B) /\
  (forall g r r', In g (snd B) -> (forall f, In f all -> r f = r' f) -> g r = g r') /\
  (forall t g, In t terms -> bucket_eqb b (bof t) = true -> (forall r r', (forall f, In f (categoricals t) -> r f = r' f) -> g r = g r') -> in_span rO radd rmul LG (snd B) g).
Definition blk_cols (B : blk) : list (P -> R) := pairs (monos (fst B)) (map at_level (snd B)).

Lemma numerics_bof t : numerics t = bof t.
Proof. unfold RankMatSpec.numerics, bucket_of. apply filter_ext. apply numeric_is. Qed.
Lemma cats_eq t : categoricals t = filter (fun f => negb (is_num num_cols f)) t.
Proof. unfold RankMatSpec.categoricals. apply filter_ext. intros f. now rewrite numeric_is. Qed.
Lemma cats_eqs ts : map categoricals ts = map (filter (fun f => negb (is_num num_cols f))) ts.
Proof. apply map_ext, cats_eq. Qed.
Lemma bof_perm b t t' : In t terms -> In t' terms -> bucket_eqb b (bof t) = true -> bucket_eqb b (bof t') = true -> Permutation (numerics t) (numerics t').
Proof.
  intros Ht Ht' H1 H2. rewrite !numerics_bof. rewrite Forall_forall in Hnd. apply NoDup_Permutation; [apply NoDup_filter; auto..|].
  apply beq_spec in H1. apply beq_spec in H2. destruct H1 as [A1 A2], H2 as [B1 B2]. intros f. split; auto.
Qed.

Lemma bucket_blk b ts r : In (b, ts) (buckets num_cols terms) -> infos_for_bucket num_cols code_cm hash (by_degree ts) [] = Ok r ->
  exists B, blk_ok b B /\ peq (map column (flat_map (columns_of_term fis) r)) (blk_cols B) /\
    Forall (fun id => exists c s, In (fst (fst id)) terms /\ wf_coding c /\ incl (map fst c) (categoricals (fst (fst id))) /\ snd (fst id) = s /\ subterm_for num_cols code_cm (fst (fst id)) c = Ok s /\ In (snd id) (combos (counts_of fis s)))
        (flat_map (columns_of_term fis) r).
Proof.
  intros Hin Hr. pose proof (binv_buckets num_cols terms) as Hb. pose proof (bi_ts _ _ _ Hb b ts Hin) as Ets. destruct (bi_has _ _ _ Hb b ts Hin) as [t0 [Ht0 Hb0]].
  assert (Hts : forall t, In t (by_degree ts) <-> In t terms /\ bucket_eqb b (bof t) = true).
  { intros t. unfold by_degree. rewrite py_sort_in, Ets, filter_In. tauto. }
  assert (Hnd' : Forall (@NoDup factor) (by_degree ts)) by (apply Forall_forall; intros t Ht; apply (proj1 (Forall_forall _ _) Hnd); now apply Hts).
  assert (Hcf' : collision_free hash (concat (by_degree ts))).
  { assert (Hincl : incl (concat (by_degree ts)) (concat terms)) by (intros f Hf; apply in_concat in Hf; destruct Hf as [t [H1 H2]]; apply in_concat; exists t; split; [now apply Hts|exact H2]).
    intros x y Ha Hb'. apply Hcf; eapply incl_tran; eassumption. }
  assert (Hcat : forall t f, In t terms -> In f (categoricals t) -> In f all).
  { intros t f Ht Hf. unfold all_categoricals. apply in_concat. exists (categoricals t). split; [now apply in_map|exact Hf]. }
  set (alb := concat (map (filter (fun f => negb (is_num num_cols f))) (by_degree ts))).
  assert (Hsub : forall f, In f alb -> In f all).
  { intros f Hf. apply in_concat in Hf. destruct Hf as [l [Hl Hf]]. apply in_map_iff in Hl. destruct Hl as [t [<- Ht]]. apply (Hcat t); [now apply Hts|]. now rewrite cats_eq. }
  destruct (full_rank_lemma rO rI radd rmul rsub ropp String.eqb hash (is_num num_cols) (by_degree ts) nlev ncol M LG Rth String.eqb_eq Hcf' Hnd') as [css [Ecss [Hind Hspan]]].
  { intros f Hf. apply Hgood. now apply Hsub. }
  { split; [intros rho H f Hf; apply H; now apply Hsub|]. intros rho H. exists (fun f => if in_dec string_dec f alb then rho f else 0). split.
    - intros f Hf. destruct (in_dec string_dec f alb) as [Hi|_]; [now apply H|]. destruct (Hgood f Hf) as [_ [K _]]. lia.
    - intros f Hf. now destruct (in_dec string_dec f alb). }
  fold alb in Hspan. destruct (bucket_cols (by_degree ts) [] r Hr) as [css' [Ec' Hcols]]. pose proof (eq_trans (eq_sym Ecss) Ec') as Ecc. injection Ecc as <-.
  destruct (pick_facts String.eqb String.eqb_eq (is_num num_cols) hash (by_degree ts) Hcf' Hnd') as [css' [Ec'' [HW [_ [HF _]]]]]. pose proof (eq_trans (eq_sym Ecss) Ec'') as Ecc. injection Ecc as <-. clear Ec' Ec''.
  exists (numerics t0, flat_map coding_cols (concat css)). split; [|].
  - split; [|split; [|split]]; cbn [fst snd].
    + exists t0. repeat split; assumption.
    + exact Hind.
    + intros g q q' Hg Hq. apply in_flat_map in Hg. destruct Hg as [c [Hc Hg]]. unfold RankSpec.coding_cols in Hg. apply in_map_iff in Hg. destruct Hg as [ks [<- _]].
      apply (coding_col_depends rI rmul M). intros f Hf. apply Hq. apply in_concat in Hc. destruct Hc as [cs [Hcs Hc]].
      destruct (Forall2_in_l _ _ _ HF _ Hcs) as [cat [Hcat' Hall]]. rewrite Forall_forall in Hall. apply Hsub. apply in_concat. exists cat. split; [exact Hcat'|]. now apply (Hall c Hc).
    + intros t g Ht Hbt Hg. apply Hspan. assert (Hti : In t (by_degree ts)) by (now apply Hts).
      unfold cats, model_space. rewrite <- cats_eqs. clear - Rth Hti Hg num_cols.
      assert (K : forall U ts', In t ts' -> exists Ys, Forall2 (depends_on nlev U) (map categoricals ts') Ys /\ forall rho, LG rho -> g rho = rsum rO radd (fun y => y rho) Ys).
      { intros U. induction ts' as [|t' ts' IH]; intros [].
        - subst t'. exists (g :: map (fun _ _ => rO) ts'). split.
          + cbn. constructor; [intros r1 r2 _ _; apply Hg|]. clear. induction ts'; cbn; constructor; [intros r1 r2 _ _ _; reflexivity|exact IHts'].
          + intros rho _. cbn. assert (Z : rsum rO radd (fun y : (factor -> nat) -> R => y rho) (map (fun _ _ => rO) ts') = rO).
            { clear - Rth. induction ts' as [|x l IH]; cbn; [reflexivity|]. rewrite IH. apply (Radd_0_l Rth). }
            rewrite Z. rewrite (Radd_comm Rth). symmetry. apply (Radd_0_l Rth).
        - destruct (IH H) as [Ys [A B]]. exists ((fun _ => rO) :: Ys). split; [constructor; [intros r1 r2 _ _ _; reflexivity|exact A]|]. intros rho Hrho. cbn. rewrite (Radd_0_l Rth). now apply B. }
      exact (K _ _ Hti).
  - destruct (Hcols (numerics t0)) as [Q1 Q2].
    + intros t Ht. apply Hts in Ht. destruct Ht as [Ht Hbt]. split; [intros f Hf; apply in_concat; exists t; now split|]. split; [exact (proj1 (Forall_forall _ _) Hnd t Ht)|]. split; [now apply (bof_perm b)|]. intros p f Hp Hf. apply (Hrows p Hp). now apply (Hcat t).
    + rewrite cats_eqs. exact HF.
    + exact HW.
    + split; [exact Q1|]. eapply Forall_impl; [|exact Q2]. cbv beta. intros id [c [s [H1 H2]]]. exists c, s. split; [now apply Hts|exact H2].
Qed.

(** * The whole matrix *)
Lemma all_blks l per : (forall x, In x l -> In x (buckets num_cols terms)) -> Forall2 (fun p r => infos_for_bucket num_cols code_cm hash (by_degree (snd p)) [] = Ok r) l per ->
  exists Bs, Forall2 (fun p B => blk_ok (fst p) B) l Bs /\ peq (map column (columns_of fis (concat per))) (flat_map blk_cols Bs) /\
    Forall (fun id => exists c s, In (fst (fst id)) terms /\ wf_coding c /\ incl (map fst c) (categoricals (fst (fst id))) /\ snd (fst id) = s /\ subterm_for num_cols code_cm (fst (fst id)) c = Ok s /\ In (snd id) (combos (counts_of fis s)))
        (columns_of fis (concat per)).
Proof.
  intros Hl H. induction H as [|[b ts] r l per Hr H IH]; [exists []; cbn; repeat split; constructor|]. cbn [snd] in Hr.
  destruct (IH (fun x Hx => Hl x (or_intror Hx))) as [Bs [A1 [A2 A3]]]. destruct (bucket_blk b ts r (Hl _ (or_introl eq_refl)) Hr) as [B [B1 [B2 B3]]].
  exists (B :: Bs). split; [now constructor|]. unfold columns_of in *. cbn [concat flat_map]. rewrite flat_map_app, map_app. split; [now apply peq_app|]. now apply Forall_app.
Qed.

Lemma factors_in_terms cs : make_subterm_infos num_cols code_cm hash terms = Ok cs -> forall id, In id (columns_of fis cs) -> incl (si_factors (snd (fst id))) (concat terms).
Proof.
  intros Hmk id Hid. destruct (make_inv num_cols code_cm hash terms cs Hmk) as [per [Hf [-> _]]].
  destruct (all_blks _ per (fun x Hx => Permutation_in _ (empty_first_perm _) Hx) Hf) as [_ [_ [_ H]]]. rewrite Forall_forall in H. destruct (H id Hid) as [c [s [H1 [H2 [H3 [H4 [H5 H6]]]]]]].
  rewrite H4. destruct (subterm_shape _ c s (proj1 (Forall_forall _ _) Hnd _ H1) H5) as [-> _]. intros f Hff. apply filter_In in Hff. apply in_concat. exists (fst (fst id)). split; [exact H1|apply Hff].
Qed.

Lemma combine_inj (N : list factor) : NoDup N -> forall ks ks' : list nat, length ks = length N -> length ks' = length N ->
  (forall q, In q (combine N ks) <-> In q (combine N ks')) -> ks = ks'.
Proof.
  induction 1 as [|f N Hf HN IH]; intros [|k ks] [|k' ks'] H1 H2 H; try discriminate; [reflexivity|]. cbn in H.
  assert (E : k = k').
  { destruct (proj1 (H (f, k)) (or_introl eq_refl)) as [E|E]; [now injection E|]. apply in_combine_l in E. contradiction. }
  subst k'. f_equal. apply IH; [cbn in *; lia..|]. intros q. split; intros Hq.
  - destruct (proj1 (H q) (or_intror Hq)) as [E|E]; [|exact E]. subst q. apply in_combine_l in Hq. contradiction.
  - destruct (proj2 (H q) (or_intror Hq)) as [E|E]; [|exact E]. subst q. apply in_combine_l in Hq. contradiction.
Qed.
Lemma combos_lengths ns ks : In ks (combos ns) -> length ks = length ns.
Proof. intros H. apply combos_spec in H. induction H; cbn; congruence. Qed.
Lemma combine_keys (N : list factor) : forall ks : list nat, length ks = length N -> forall f, In f N <-> exists k, In (f, k) (combine N ks).
Proof.
  induction N as [|g N IH]; intros [|k ks] Hl f; try discriminate; cbn; [split; [intros []|intros [k []]]|]. injection Hl as Hl. rewrite (IH ks Hl f). split.
  - intros [->|[k' H]]; [exists k; now left|exists k'; now right].
  - intros [k' [E|H]]; [injection E as -> _; now left|right; now exists k'].
Qed.
Definition choices (N : list factor) : list (list (factor * nat)) := map (combine N) (combos (map width N)).
Lemma choices_distinct N : NoDup N -> ForallOrdPairs (fun a b => ~ forall q, In q a <-> In q b) (choices N).
Proof.
  intros HN. unfold choices. pose proof (combos_nodup (map width N)) as H. assert (L : forall ks, In ks (combos (map width N)) -> length ks = length N) by (intros ks Hk; rewrite (combos_lengths _ _ Hk); apply map_length).
  induction H as [|ks l Hn H IH]; cbn [map]; constructor.
  - apply Forall_forall. intros b Hb E. apply in_map_iff in Hb. destruct Hb as [ks' [<- Hk]]. apply Hn. rewrite (combine_inj N HN ks ks'); [exact Hk|apply L; now left|apply L; now right|exact E].
  - apply IH. intros k Hk. apply L. now right.
Qed.
Lemma blks_distinct l Bs : ForallOrdPairs (fun x y => bucket_eqb (fst x) (fst y) = false) l -> Forall2 (fun (p : list factor * list term) B => blk_ok (fst p) B) l Bs ->
  ForallOrdPairs (fun a b => ~ forall q, In q a <-> In q b) (flat_map (fun B => choices (fst B)) Bs).
Proof.
  intros Hd H. revert Hd. induction H as [|p B l Bs Hp H IH]; intros Hd; cbn [flat_map]; [constructor|]. inversion Hd as [|x y Hd1 Hd2]; subst x y.
  destruct Hp as [[t [Ht [Hb Et]]] _]. apply FOP_app.
  - apply choices_distinct. rewrite Et. apply NoDup_filter. exact (proj1 (Forall_forall _ _) Hnd t Ht).
  - now apply IH.
  - intros a a' Ha Ha' E. apply in_flat_map in Ha'. destruct Ha' as [B' [HB' Ha']]. destruct (Forall2_in_r _ _ _ H B' HB') as [p' [Hp' Hok]]. destruct Hok as [[t' [Ht' [Hb' Et']]] _].
    rewrite Forall_forall in Hd1. specialize (Hd1 p' Hp'). unfold choices in Ha, Ha'. apply in_map_iff in Ha, Ha'. destruct Ha as [ks [<- Hk]], Ha' as [ks' [<- Hk']].
    apply combos_lengths in Hk, Hk'. rewrite map_length in Hk, Hk'. rewrite Et, numerics_bof in Hk. rewrite Et', numerics_bof in Hk'. rewrite Et, Et', !numerics_bof in E.
    assert (Hset : forall f, In f (bof t) <-> In f (bof t')).
    { intros f. rewrite (combine_keys _ _ Hk), (combine_keys _ _ Hk'). split; intros [k Hq]; exists k; now apply E. }
    apply beq_spec in Hb, Hb'. destruct Hb as [X1 X2], Hb' as [Y1 Y2]. assert (K : bucket_eqb (fst p) (fst p') = true) by (apply beq_spec; split; intros f Hf; [apply Y2, Hset, X1, Hf|apply X2, Hset, Y1, Hf]). congruence.
Qed.

Lemma in_monos t ks : chooses num t ks -> In (product (combine (numerics t) ks)) (monos (numerics t)).
Proof.
  intros H. unfold monos. apply in_map_iff. exists ks. split; [reflexivity|]. apply combos_spec. unfold chooses in H. induction H; cbn; constructor; assumption.
Qed.
Lemma monos_in t a : In a (monos (numerics t)) -> exists ks, chooses num t ks /\ a = product (combine (numerics t) ks).
Proof.
  intros H. unfold monos in H. apply in_map_iff in H. destruct H as [ks [<- H]]. exists ks. split; [|reflexivity]. apply combos_spec in H. unfold chooses. revert H. generalize (numerics t). revert ks.
  induction ks as [|k ks IH]; intros [|f l] H; inversion H; subst; constructor; [assumption|]. now apply IH.
Qed.

Lemma matrix_rank cs : make_subterm_infos num_cols code_cm hash terms = Ok cs ->
  let cols := map column (columns_of fis cs) in
  (rich rO rI radd rmul ok num level number nlev terms -> independent rO radd rmul ok cols) /\ forall Y, in_span rO radd rmul ok cols Y <-> in_model rO rI radd rmul ok num level number terms Y.
Proof.
  intros Hmk cols. destruct (make_inv num_cols code_cm hash terms cs Hmk) as [per [Hf [-> _]]].
  destruct (all_blks _ per (fun x Hx => Permutation_in _ (empty_first_perm _) Hx) Hf) as [Bs [HB [Hp Hids]]]. fold cols in Hp.
  split.
  - intros Hrich. apply (peq_independent rO rI radd rmul rsub ropp Rth ok (flat_map blk_cols Bs)); [now apply peq_sym|].
    set (items := flat_map (fun B : blk => map (fun a => (a, snd B)) (monos (fst B))) Bs).
    assert (E : peq (flat_map (item_cols rmul level) items) (flat_map blk_cols Bs)).
    { unfold items. clear. induction Bs as [|B Bs IH]; cbn [flat_map]; [constructor|]. rewrite flat_map_app. apply peq_app; [|exact IH]. apply peq_sym. unfold blk_cols. eapply pe_trans; [apply pairs_swap|].
      rewrite flat_map_map. apply peq_flat. intros a _. unfold item_cols. cbn [fst snd]. rewrite map_map. apply peq_refl. }
    apply (peq_independent rO rI radd rmul rsub ropp Rth ok _ _ E).
    apply (items_independent rO rI radd rmul rsub ropp Rth ok LG level (fun r r' => forall f, In f all -> r f = r' f)).
    + intros it Hit. apply in_flat_map in Hit. destruct Hit as [B [HBi Hit]]. apply in_map_iff in Hit. destruct Hit as [a [<- _]]. destruct (Forall2_in_r _ _ _ HB B HBi) as [p [_ [_ [K _]]]]. exact K.
    + intros it g q q' Hit Hg Hq. apply in_flat_map in Hit. destruct Hit as [B [HBi Hit]]. apply in_map_iff in Hit. destruct Hit as [a [<- _]]. destruct (Forall2_in_r _ _ _ HB B HBi) as [p [_ [_ [_ [K _]]]]]. now apply K.
    + intros rho Hrho. assert (Ef : map fst items = map product (flat_map (fun B : blk => choices (fst B)) Bs)).
      { unfold items. clear. induction Bs as [|B Bs IH]; cbn [flat_map map]; [reflexivity|]. rewrite !map_app, IH, map_map. cbn [fst]. rewrite map_id. f_equal. unfold monos, choices. now rewrite map_map. }
      rewrite Ef. apply (Hrich rho Hrho).
      * apply Forall_forall. intros a Ha. apply in_flat_map in Ha. destruct Ha as [B [HBi Ha]]. destruct (Forall2_in_r _ _ _ HB B HBi) as [p [_ [[t [Ht [_ Et]]] _]]]. unfold choices in Ha. apply in_map_iff in Ha. destruct Ha as [ks [<- Hks]].
        exists t, ks. split; [exact Ht|]. rewrite Et in *. split; [|reflexivity]. apply combos_spec in Hks. unfold chooses. revert Hks. generalize (numerics t). clear. revert ks.
        induction ks as [|k ks IH]; intros [|f l] H; inversion H; subst; constructor; [assumption|]. now apply IH.
      * apply (blks_distinct (empty_first (buckets num_cols terms))); [|exact HB]. apply FOP_intro. intros p x m y q El. apply (ef_distinct num_cols terms). exists p, m, q. exact El.
  - intros Y. split.
    + intros [co [Hlen HY]].
      assert (G : forall co cls, length co = length cls -> Forall (fun id => exists c s, In (fst (fst id)) terms /\ wf_coding c /\ incl (map fst c) (categoricals (fst (fst id))) /\ snd (fst id) = s /\ subterm_for num_cols code_cm (fst (fst id)) c = Ok s /\ In (snd id) (combos (counts_of fis s))) cls ->
        in_model rO rI radd rmul ok num level number terms (comb rO radd rmul co (map column cls))).
      { clear - Rth Hcm Hfis Hnd Hrows. intros co cls. revert co. induction cls as [|[[t s] ks] cls IH]; intros [|a co] Hl HF; try discriminate.
        - exists []. split; [constructor|]. intros p _. reflexivity.
        - inversion HF as [|x y Hx HF']; subst x y. destruct (IH co ltac:(now injection Hl) HF') as [gs [Hgs Egs]]. destruct Hx as [c [s' [H1 [H2 [H3 [H4 [H5 H6]]]]]]]. cbn [fst snd] in *. subst s'.
          assert (Hsc := subterm_cols t c s (fun f Hf => proj2 (in_concat _ _) (ex_intro _ t (conj H1 Hf))) (proj1 (Forall_forall _ _) Hnd t H1) H2 H3). destruct (peq_in ok _ _ (Hsc ltac:(intros p f Hp Hf; apply (Hrows p Hp); unfold all_categoricals; apply in_concat; exists (categoricals t); split; [now apply in_map|exact Hf]) H5) (column (t, s, ks))) as [h [Hh Eh]].
          { apply in_map_iff. exists ks. now split. }
          unfold RankMatLinProofs.pairs in Hh. apply in_flat_map in Hh. destruct Hh as [g [Hg Hh]]. apply in_map_iff in Hg. destruct Hg as [g0 [<- Hg0]]. apply in_map_iff in Hh. destruct Hh as [m [<- Hm]].
          destruct (monos_in t m Hm) as [ks' [Hch ->]]. exists ((t, ks', fun r => a * g0 r) :: gs). split.
          + constructor; [|exact Hgs]. split; [exact H1|]. split; [exact Hch|]. intros r r' Hr. f_equal. unfold RankSpec.coding_cols in Hg0. apply in_map_iff in Hg0. destruct Hg0 as [kk [<- _]]. apply (coding_col_depends rI rmul M). intros f Hf. apply Hr, H3, Hf.
          + intros p Hp'. cbn [rsum]. rewrite <- (Egs p Hp'). unfold comb. cbn [map combine rsum fst snd]. f_equal. rewrite (Eh p Hp'). unfold at_level. rewrite !(Rmul_assoc Rth). f_equal. apply (Rmul_comm Rth). }
      destruct (G co (columns_of fis (concat per))) as [gs [Hgs Egs]]; [unfold cols in Hlen; now rewrite map_length in Hlen|exact Hids|]. exists gs. split; [exact Hgs|]. intros p Hp'. rewrite (HY p Hp'). now apply Egs.
    + intros [gs [Hgs EY]]. apply (peq_span rO rI radd rmul rsub ropp Rth ok (flat_map blk_cols Bs)); [now apply peq_sym|].
      apply (span_ext rO radd rmul ok _ (fun p => rsum rO radd (fun x => (fun x p => let '(t, ks, g) := x in product (combine (numerics t) ks) p * g (level p)) x p) gs)); [|exact EY].
      apply (span_sum rO rI radd rmul rsub ropp Rth ok). intros [[t ks] g] Hx. rewrite Forall_forall in Hgs. destruct (Hgs _ Hx) as [Ht [Hch Hg]].
      destruct (bi_all _ _ _ (binv_buckets num_cols terms) t Ht) as [b [ts [Hin Eb]]]. apply (Permutation_in _ (Permutation_sym (empty_first_perm _))) in Hin.
      destruct (Forall2_in_l _ _ _ HB _ Hin) as [B [HBi [[t0 [Ht0 [Eb0 EN]]] [_ [_ Hsp]]]]]. cbn [fst] in *.
      destruct (Hsp t g Ht Eb Hg) as [co [Hlen HY]].
      assert (Hm : exists m, In m (monos (fst B)) /\ forall p, ok p -> product (combine (numerics t) ks) p = m p).
      { apply (peq_in ok (monos (numerics t))); [|now apply in_monos]. rewrite EN. eapply pe_trans; [apply monos_prod|]. eapply pe_trans; [|apply peq_sym, monos_prod]. apply (prodcols_perm rO rI radd rmul rsub ropp Rth ok). now apply (bof_perm b). }
      destruct Hm as [m [Hm Em]]. apply (span_flat rO rI radd rmul rsub ropp Rth ok blk_cols Bs B); [exact HBi|]. unfold blk_cols.
      apply (peq_span rO rI radd rmul rsub ropp Rth ok (flat_map (fun f => map (fun g p => f p * g p) (map at_level (snd B))) (monos (fst B)))); [apply peq_sym, pairs_swap|].
      apply (span_flat rO rI radd rmul rsub ropp Rth ok _ _ m); [exact Hm|]. exists co. split; [now rewrite !map_length|]. intros p Hp'. rewrite (Em p Hp'), (HY (level p) (Hrows p Hp')).
      rewrite map_map. unfold comb, at_level. clear - Rth. revert co. induction (snd B) as [|h G IH]; intros [|a co]; cbn [combine map rsum fst snd]; [ring..|]. rewrite <- IH. ring.
Qed.
End Mat.
