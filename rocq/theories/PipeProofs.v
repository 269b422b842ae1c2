(** Proofs about [design_matrix_builders]. *)
From Coq Require Import Permutation.
From Verif Require Import Base RankSpec UtilModel UtilProofs DescModel DescProofs FormulaModel BuildModel BuildSpec BuildProofs BuildSubtermProofs BuildInfoProofs BuildMatrixProofs BuildAllProofs BuildOrderProofs BuildSubsetProofs BuildDesignProofs
  MemorizeModel MemorizeSpec MemorizeProofs CategoricalModel CategoricalSpec CategoricalTypeProofs CategoricalProps MemorizeProps PipeModel PipeSpec.
Open Scope nat_scope.

Lemma list_max_incl l m : incl l m -> list_max l <= list_max m.
Proof.
  intros H. apply list_max_le, Forall_forall. intros x Hx. pose proof (proj1 (list_max_le m (list_max m)) (le_n _)) as G. rewrite Forall_forall in G. apply G, H, Hx.
Qed.
Lemma list_max_same l m : (forall x, In x l <-> In x m) -> list_max l = list_max m.
Proof. intros H. apply Nat.le_antisymm; apply list_max_incl; intros x Hx; now apply H. Qed.
Lemma mapM_numbered {A B} (g : nat * A -> result B) l : forall o ys, mapM g (combine (seq o (length l)) l) = Ok ys ->
  length ys = length l /\ forall i x, nth_error l i = Some x -> exists y, nth_error ys i = Some y /\ g (o + i, x) = Ok y.
Proof.
  induction l as [|a l IH]; intros o ys; cbn [length seq combine mapM].
  - intros [= <-]. split; [reflexivity|]. intros [|i] x; discriminate.
  - destruct (g (o, a)) as [y|] eqn:E; cbn [bind]; [|discriminate]. destruct (mapM g _) as [zs|] eqn:Ez; cbn [bind]; [|discriminate]. intros [= <-].
    destruct (IH _ _ Ez) as [H1 H2]. split; [cbn; now rewrite H1|]. intros [|i] x; cbn [nth_error].
    + intros [= <-]. exists y. rewrite Nat.add_0_r. now split.
    + intros H. destruct (H2 i x H) as [z [Hz1 Hz2]]. exists z. split; [exact Hz1|]. now replace (o + Datatypes.S i) with (Datatypes.S o + i) by lia.
Qed.
Lemma dget_nodup {K A} (eqb : K -> K -> bool) (d : list (K * A)) k v : (forall a b, eqb a b = true <-> a = b) -> NoDup (map fst d) -> In (k, v) d -> dget eqb k d = Some v.
Proof.
  intros He. induction d as [|[k' v'] d IH]; cbn [map fst dget]; [intros _ []|]. intros Hn [E|H]; inversion Hn; subst.
  - injection E as -> ->. now rewrite (proj2 (He k k) eq_refl).
  - destruct (eqb k' k) eqn:E; [|auto]. apply He in E. subst. exfalso. apply H2. apply in_map_iff. now exists (k, v).
Qed.
Lemma nth_error_ext {A} (l m : list A) : length l = length m -> (forall i x, nth_error m i = Some x -> nth_error l i = Some x) -> l = m.
Proof.
  revert m. induction l as [|a l IH]; intros [|b m]; cbn; try discriminate; [reflexivity|]. intros [= H] G. f_equal.
  - specialize (G 0 b eq_refl). cbn in G. now injection G.
  - apply IH; [exact H|]. intros i x. exact (G (Datatypes.S i) x).
Qed.

Lemma design_for_infos {V} num (cm : factor -> bool -> result (@ctr V)) hash fis tl d : design_for num cm hash fis tl = Ok d ->
  forall f fi, In (f, fi) (infos_of d) -> In f (concat tl) /\ dget String.eqb f fis = Some fi.
Proof.
  intros H f fi Hin. destruct (design_for_lemma num cm hash fis tl d H) as [Hc [Hm [_ Hd]]].
  destruct (constructed_facts d Hc) as [fis' [cs [E1 [E2 [Hck [Hk _]]]]]]. unfold infos_of in *. rewrite E1 in *. unfold codings_of in Hm. rewrite E2 in Hm.
  destruct (proj1 (ck_keys _ _ Hck f)) as [t [ss [Ht Hf]]]; [apply (in_map fst) in Hin; exact Hin|].
  assert (G : In f (concat tl)).
  { apply in_concat. exists t. split; [|exact Hf]. destruct (order_lemma num cm hash tl cs Hm) as [Hp _]. apply (Permutation_in _ Hp). apply (in_map fst) in Ht. exact Ht. }
  split; [exact G|]. rewrite <- (Hd f G). rewrite (dget_distinct String.eqb String.eqb_refl f fi fis' Hk Hin). reflexivity.
Qed.

Section Pipe.
Context {V I C S D : Type}.
Variable passes : factor -> result (S * Z).
Variable chunk : factor -> S -> nat -> D -> result S.
Variable finish : factor -> S -> nat -> result S.
Variable eval : factor -> S -> D -> result (@fobj V I C).
Variable origin_of : factor -> option origin.
Variable code_cm : list pval -> option C -> bool -> result (@ctr V).
Variable hash : list (bool * factor) -> Z.
Variable set_order : list factor -> list factor.
Variables order_mem order_exam : nat -> list factor -> list factor.
Variable addr : pval -> nat.
Variable hash_order : list pval -> list pval.
Hypothesis Hset : forall l, Permutation (set_order l) l.
Hypothesis Hmem : forall n l, Permutation (order_mem n l) l.
Hypothesis Hexam : forall n l, Permutation (order_exam n l) l.

Local Notation builders := (design_matrix_builders passes chunk finish eval origin_of code_cm hash set_order order_mem order_exam addr hash_order).
Local Notation learned := (learned passes chunk finish eval origin_of addr hash_order).

Lemma all_factors_in tls f : In f (all_factors set_order tls) <-> In f (factors_of tls).
Proof.
  unfold all_factors, factors_of. split; intros H.
  - apply (Permutation_in _ (Hset _)) in H. exact (proj1 (mk_term_same _ f) H).
  - apply (Permutation_in _ (Permutation_sym (Hset _))). exact (proj2 (mk_term_same _ f) H).
Qed.
Lemma all_factors_NoDup tls : NoDup (all_factors set_order tls).
Proof. apply (Permutation_NoDup (Permutation_sym (Hset _))). apply mk_term_NoDup. Qed.
Lemma bound_ok fs f s k : In f fs -> passes f = Ok (s, k) -> Z.to_nat k <= pass_bound passes fs.
Proof.
  intros H E. unfold pass_bound. pose proof (proj1 (list_max_le _ _) (le_n (list_max (map (fun f => match passes f with Ok (_, k) => Z.to_nat k | Err _ => 0 end) fs)))) as G.
  rewrite Forall_forall in G. apply G. apply in_map_iff. exists f. now rewrite E.
Qed.
Lemma max_factors tls : list_max (map (pass_count passes) (all_factors set_order tls)) = list_max (map (pass_count passes) (factors_of tls)).
Proof.
  apply list_max_same. intros x. rewrite !in_map_iff. split; intros [f [E H]]; exists f; (split; [exact E|]); now apply all_factors_in.
Qed.

Lemma type_of_ext (e1 e2 : factor -> D -> result (@value C)) na f chunks : (forall d, e1 f d = e2 f d) -> type_of e1 origin_of na f chunks = type_of e2 origin_of na f chunks.
Proof.
  intros H. assert (G : forall ch sn, look e1 origin_of na f ch sn = look e2 origin_of na f ch sn).
  { induction ch as [|d r IH]; intros sn; [reflexivity|]. cbn [look]. rewrite H. destruct (e2 f d) as [v|]; [|reflexivity]. cbn [bind].
    destruct (sniff na (origin_of f) sn v) as [[sn' []]|]; cbn [bind]; auto. }
  unfold type_of. destruct chunks as [|d r]; [reflexivity|]. rewrite H. destruct (e2 f d); [|reflexivity]. cbn [bind]. destruct (guess_categorical _); [|reflexivity]. now rewrite G.
Qed.

(** [design_matrix_builders] up to the FactorInfo objects and what they know. *)
Definition prepare (data : nat -> list D) (act : na_action) (tls : list (list term))
    : result (list (factor * nat) * list (factor * (list pval * option C)) * finfos * @known S) :=
  let factors := all_factors set_order tls in
  let* (states, log) := factors_memorize String.eqb passes chunk finish data order_mem (pass_bound passes factors) factors in
  let evalv (f : factor) (d : D) := let* s := lookup (dget String.eqb f states) in let* o := eval f s d in Ok (o_value o) in
  let* (num, cat) := examine_factor_types String.eqb evalv origin_of (na_what act) order_exam addr hash_order factors
                       (data (List.length (filter is_iteration log))) in
  let numbered := List.combine (seq 0 (List.length factors)) factors in
  let* infos := mapM (new_info num cat) numbered in
  let* kn := mapM (new_known states cat) numbered in
  Ok (num, cat, map (fun fi => (fi_factor fi, fi)) infos, kn).
Lemma builders_prepare data na tls : builders data na tls =
  let* act := get_action na in
  let* (num, cat, fis, kn) := prepare data act tls in
  let* dis := mapM (design_for num (contrast_for code_cm cat) hash fis) tls in
  Ok (map (fun d => mkDesign d kn) dis).
Proof.
  unfold design_matrix_builders, prepare. destruct (get_action na) as [act|]; cbn [bind]; [|reflexivity].
  destruct (factors_memorize _ _ _ _ _ _ _ _) as [[states log]|]; cbn [bind]; [|reflexivity].
  destruct (examine_factor_types _ _ _ _ _ _ _ _ _) as [[num cat]|]; cbn [bind]; [|reflexivity].
  destruct (mapM (new_info num cat) _) as [infos|]; cbn [bind]; [|reflexivity].
  destruct (mapM (new_known states cat) _) as [kn|]; cbn [bind]; reflexivity.
Qed.

(** The parts of a successful call. *)
Definition ready (data : nat -> list D) (act : na_action) (tls : list (list term)) (num : list (factor * nat)) (cat : list (factor * (list pval * option C))) (fis : finfos) (kn : @known S) : Prop :=
    (forall f g fi gi, dget String.eqb f fis = Some fi -> dget String.eqb g fis = Some gi -> fi_id fi = fi_id gi -> f = g /\ fi = gi) /\
    forall f, In f (factors_of tls) -> exists fi s k levels c, learned (na_what act) data (factors_of tls) f s k levels c /\
      dget String.eqb f fis = Some fi /\ fi_factor fi = f /\ fi_kind fi = k /\ dget Nat.eqb (fi_id fi) kn = Some (s, levels) /\
      dget String.eqb f num = (match k with FNum n => Some n | FCat _ => None end) /\
      dget String.eqb f cat = (match k with FNum _ => None | FCat _ => Some (levels, c) end).
Lemma prepare_inv data act tls num cat fis kn : prepare data act tls = Ok (num, cat, fis, kn) -> ready data act tls num cat fis kn.
Proof.
  unfold prepare, ready. set (fs := all_factors set_order tls). destruct (factors_memorize String.eqb passes chunk finish data order_mem (pass_bound passes fs) fs) as [[states log]|] eqn:Em; cbn [bind]; [|discriminate].
  set (evalv := fun (f : factor) (d : D) => let* s := lookup (dget String.eqb f states) in let* o := eval f s d in Ok (o_value o)). set (n := length (filter is_iteration log)).
  destruct (examine_factor_types String.eqb evalv origin_of (na_what act) order_exam addr hash_order fs (data n)) as [[num' cat']|] eqn:Ee; cbn [bind]; [|discriminate].
  destruct (mapM (new_info num' cat') _) as [infos|] eqn:Ei; cbn [bind]; [|discriminate].
  destruct (mapM (new_known states cat') _) as [kn'|] eqn:Ek; cbn [bind]; [|discriminate].
  intros [= <- <- <- <-]. rename num' into num, cat' into cat, kn' into kn. set (fis := map (fun fi => (fi_factor fi, fi)) infos).
  destruct (memorize_calls String.eqb String.eqb_eq passes chunk finish data order_mem Hmem _ fs states log (all_factors_NoDup tls) (fun f s k Hf E => bound_ok fs f s k Hf E) Em) as [k [Hk [_ Hit]]].
  pose proof (factor_types C string D String.eqb evalv origin_of (na_what act) order_exam addr hash_order fs (data n) String.eqb_eq Hexam (all_factors_NoDup tls)) as Ht. rewrite Ee in Ht.
  assert (Hn : data n = exam_chunks passes data (factors_of tls)).
  { unfold exam_chunks. f_equal. rewrite <- max_factors. fold fs. unfold n. change (filter is_iteration log) with (filter is_iter log). rewrite Hit, map_length, seq_length.
    f_equal. apply map_ext_in. intros f Hf. destruct (Hk f Hf) as [s [s' [E _]]]. unfold pass_count. now rewrite E. }
  apply mapM_numbered in Ei. apply mapM_numbered in Ek. destruct Ei as [Hl1 Hi]. destruct Ek as [Hl2 Hkn]. cbn [Nat.add] in Hi, Hkn.
  assert (Hinfo : forall i f fi, new_info num cat (i, f) = Ok fi -> fi_id fi = i /\ fi_factor fi = f).
  { intros i f fi. unfold new_info. cbn [fst snd]. destruct (dget String.eqb f num); [intros [= <-]; split; reflexivity|]. destruct (dget String.eqb f cat) as [[lv c]|]; [|discriminate]. intros [= <-]. split; reflexivity. }
  assert (Hk1 : map fst fis = fs).
  { apply nth_error_ext; [unfold fis; now rewrite !map_length|]. intros i f Hf. destruct (Hi i f Hf) as [fi [H1 H2]]. unfold fis. rewrite map_map. cbn [fst].
    rewrite (map_nth_error _ _ _ H1). f_equal. now apply (Hinfo i f). }
  assert (Hk2 : map fst kn = seq 0 (length fs)).
  { apply nth_error_ext; [now rewrite map_length, seq_length|]. intros i j Hj. assert (Hlt : i < length fs) by (rewrite <- (seq_length (length fs) 0); apply nth_error_Some; congruence).
    rewrite (nth_error_nth' _ 0) in Hj by (now rewrite seq_length). rewrite seq_nth in Hj by exact Hlt. injection Hj as <-.
    destruct (nth_error fs i) as [f|] eqn:Hf; [|apply nth_error_None in Hf; lia]. destruct (Hkn i f Hf) as [q [H1 H2]]. rewrite (map_nth_error _ _ _ H1). f_equal.
    unfold new_known in H2. cbn [fst snd] in H2. destruct (dget String.eqb f states); [|discriminate]. cbn in H2. injection H2 as <-. reflexivity. }
  split.
  - intros f g fi gi Hf Hg Hid. apply (dget_in String.eqb) in Hf. apply (dget_in String.eqb) in Hg. destruct Hf as [f' [Hf Ef]], Hg as [g' [Hg Eg]]. apply String.eqb_eq in Ef, Eg. subst f' g'.
    unfold fis in Hf, Hg. apply in_map_iff in Hf, Hg. destruct Hf as [fi' [[= E1 ->] Hf]], Hg as [gi' [[= E2 ->] Hg]].
    apply In_nth_error in Hf, Hg. destruct Hf as [i Hf], Hg as [j Hg].
    assert (Hfi : fi_id fi = i). { destruct (nth_error fs i) as [f0|] eqn:E0; [|apply nth_error_None in E0; rewrite <- Hl1 in E0; apply nth_error_None in E0; congruence]. destruct (Hi i f0 E0) as [x [X1 X2]]. rewrite Hf in X1. injection X1 as <-. now apply (Hinfo i f0). }
    assert (Hgi : fi_id gi = j). { destruct (nth_error fs j) as [f0|] eqn:E0; [|apply nth_error_None in E0; rewrite <- Hl1 in E0; apply nth_error_None in E0; congruence]. destruct (Hi j f0 E0) as [x [X1 X2]]. rewrite Hg in X1. injection X1 as <-. now apply (Hinfo j f0). }
    assert (E : fi = gi) by congruence. split; congruence.
  - intros f Hf. apply all_factors_in in Hf. fold fs in Hf. destruct (Hk f Hf) as [s0 [s [P1 [_ [P2 P3]]]]].
    destruct (In_nth_error _ _ Hf) as [i Hif]. destruct (Hi i f Hif) as [fi [Hfi1 Hfi2]]. destruct (Hkn i f Hif) as [q [Hq1 Hq2]].
    assert (Htr : trained passes chunk finish data f s) by (exists s0, (k f); now split).
    specialize (Ht f Hf). rewrite (type_of_ext evalv (value_with eval s) (na_what act) f) in Ht by (intros d; unfold evalv, value_with; now rewrite P3). rewrite Hn in Ht.
    destruct (Hinfo i f fi Hfi2) as [G1 G2].
    assert (Hdf : dget String.eqb f fis = Some fi).
    { apply dget_nodup; [apply String.eqb_eq|pose proof (all_factors_NoDup tls) as Nd; fold fs in Nd; rewrite <- Hk1 in Nd; exact Nd|]. unfold fis. apply in_map_iff. exists fi. split; [now rewrite G2|]. eapply nth_error_In, Hfi1. }
    assert (Hdk : dget Nat.eqb (fi_id fi) kn = Some (snd q)).
    { apply dget_nodup; [apply Nat.eqb_eq|rewrite Hk2; apply seq_NoDup|]. unfold new_known in Hq2. cbn [fst snd] in Hq2. rewrite P3 in Hq2. cbn in Hq2. injection Hq2 as <-. cbn [snd]. rewrite G1. eapply nth_error_In, Hq1. }
    unfold new_known in Hq2. cbn [fst snd] in Hq2. rewrite P3 in Hq2. cbn [lookup bind] in Hq2. injection Hq2 as <-. cbn [snd] in Hdk.
    unfold new_info in Hfi2. cbn [fst snd] in Hfi2.
    destruct (type_of _ _ _ f _) as [[[nc|sn]|]|] eqn:Ety.
    + destruct Ht as [T1 T2]. rewrite T1 in Hfi2. injection Hfi2 as <-. rewrite T2 in Hdk. eexists _, s, (FNum nc), [], None. split; [now constructor|]. split; [exact Hdf|]. split; [reflexivity|]. split; [reflexivity|]. split; [exact Hdk|]. now split.
    + destruct Ht as [T1 T2]. rewrite T1, T2 in Hfi2. destruct (levels_contrast addr hash_order sn) as [lv c] eqn:El. injection Hfi2 as <-. rewrite T2 in Hdk.
      eexists _, s, (FCat (length lv)), lv, c. split; [econstructor; eassumption|]. split; [exact Hdf|]. split; [reflexivity|]. split; [reflexivity|]. split; [exact Hdk|]. now split.
    + destruct Ht as [T1 T2]. rewrite T1, T2 in Hfi2. discriminate.
    + destruct Ht.
Qed.

Lemma builders_inv data na tls ds : builders data na tls = Ok ds ->
  exists act num cat fis kn dis, get_action na = Ok act /\ ds = map (fun d => mkDesign d kn) dis /\
    mapM (design_for num (contrast_for code_cm cat) hash fis) tls = Ok dis /\
    (forall f g fi gi, dget String.eqb f fis = Some fi -> dget String.eqb g fis = Some gi -> fi_id fi = fi_id gi -> f = g /\ fi = gi) /\
    forall f, In f (factors_of tls) -> exists fi s k levels c, learned (na_what act) data (factors_of tls) f s k levels c /\
      dget String.eqb f fis = Some fi /\ fi_factor fi = f /\ fi_kind fi = k /\ dget Nat.eqb (fi_id fi) kn = Some (s, levels) /\
      dget String.eqb f num = (match k with FNum n => Some n | FCat _ => None end) /\
      dget String.eqb f cat = (match k with FNum _ => None | FCat _ => Some (levels, c) end).
Proof.
  rewrite builders_prepare. destruct (get_action na) as [act|]; cbn [bind]; [|discriminate].
  destruct (prepare data act tls) as [[[[num cat] fis] kn]|] eqn:E; cbn [bind]; [|discriminate].
  destruct (mapM _ tls) as [dis|] eqn:Ed; cbn [bind]; [|discriminate]. intros [= <-]. exists act, num, cat, fis, kn, dis.
  split; [reflexivity|]. split; [reflexivity|]. split; [exact Ed|]. exact (prepare_inv data act tls num cat fis kn E).
Qed.
(** If everything can be learned, it is. *)
Lemma mapM_all_ok {A B} (g : A -> result B) l : (forall a, In a l -> exists b, g a = Ok b) -> exists bs, mapM g l = Ok bs.
Proof.
  induction l as [|a l IH]; intros H; [now exists []|]. destruct (H a (or_introl eq_refl)) as [b Hb]. destruct IH as [bs Hbs]; [intros x Hx; apply H; now right|].
  exists (b :: bs). cbn. now rewrite Hb, Hbs.
Qed.
Lemma prepare_ok data act tls : (forall f, In f (factors_of tls) -> exists s k levels c, learned (na_what act) data (factors_of tls) f s k levels c) ->
  exists p, prepare data act tls = Ok p.
Proof.
  intros H. unfold prepare. set (fs := all_factors set_order tls).
  assert (Hl : forall f, In f fs -> exists s t, trained passes chunk finish data f s /\ type_of (value_with eval s) origin_of (na_what act) f (exam_chunks passes data (factors_of tls)) = Ok (Some t)).
  { intros f Hf. apply all_factors_in in Hf. destruct (H f Hf) as [s [k [lv [c [s' n T Ty|s' sn lv' c' T Ty El]]]]]; eauto. }
  destruct (proj2 (memorize_succeeds_iff String.eqb String.eqb_eq passes chunk finish data order_mem Hmem (pass_bound passes fs) fs (all_factors_NoDup tls) (fun f s k Hf E => bound_ok fs f s k Hf E))) as [[states log] Em].
  { intros f Hf. destruct (Hl f Hf) as [s [t [[s0 [k [P R]]] _]]]. eauto. }
  rewrite Em. cbn [bind]. set (evalv := fun (f : factor) (d : D) => let* s := lookup (dget String.eqb f states) in let* o := eval f s d in Ok (o_value o)). set (n := length (filter is_iteration log)).
  destruct (memorize_calls String.eqb String.eqb_eq passes chunk finish data order_mem Hmem _ fs states log (all_factors_NoDup tls) (fun f s k Hf E => bound_ok fs f s k Hf E) Em) as [k [Hk [_ Hit]]].
  assert (Hn : data n = exam_chunks passes data (factors_of tls)).
  { unfold exam_chunks. f_equal. rewrite <- max_factors. fold fs. unfold n. change (filter is_iteration log) with (filter is_iter log). rewrite Hit, map_length, seq_length.
    f_equal. apply map_ext_in. intros f Hf. destruct (Hk f Hf) as [s [s' [E _]]]. unfold pass_count. now rewrite E. }
  assert (Ht : forall f, In f fs -> exists s t, dget String.eqb f states = Some s /\ type_of evalv origin_of (na_what act) f (data n) = Ok (Some t)).
  { intros f Hf. destruct (Hl f Hf) as [s [t [[s0 [kf [P R]]] Ty]]]. destruct (Hk f Hf) as [s1 [s' [P1 [_ [P2 P3]]]]].
    rewrite P in P1. injection P1 as -> ->. pose proof (eq_trans (eq_sym R) P2) as P4. injection P4 as <-. exists s, t. split; [exact P3|].
    rewrite (type_of_ext evalv (value_with eval s) (na_what act) f) by (intros d; unfold evalv, value_with; now rewrite P3). now rewrite Hn. }
  unfold factor in *. pose proof (factor_types C string D String.eqb evalv origin_of (na_what act) order_exam addr hash_order fs (data n) String.eqb_eq Hexam (all_factors_NoDup tls)) as Hty.
  destruct (examine_factor_types String.eqb evalv origin_of (na_what act) order_exam addr hash_order fs (data n)) as [[num cat]|].
  2: { destruct Hty as [f [e0 [Hf E]]]. destruct (Ht f Hf) as [s [t [_ E']]]. pose proof (eq_trans (eq_sym E') E); discriminate. }
  cbn [bind]. match goal with |- context [@mapM ?A ?B ?f ?l] => destruct (@mapM A B f l) as [infos|] eqn:Ei end; cbn [bind].
  2: { exfalso. destruct (mapM_all_ok (new_info num cat) (combine (seq 0 (length fs)) fs)) as [infos Ei'].
       - intros [i f] Hin. apply in_combine_r in Hin. specialize (Hty f Hin). destruct (Ht f Hin) as [s [t [_ E]]]. rewrite E in Hty. unfold new_info. cbn [fst snd].
         destruct t as [m|sn]; destruct Hty as [-> E2]; [eauto|]. rewrite E2. destruct (levels_contrast addr hash_order sn). eauto.
       - pose proof (eq_trans (eq_sym Ei') Ei). discriminate. }
  match goal with |- context [@mapM ?A ?B ?f ?l] => destruct (@mapM A B f l) as [kn|] eqn:Ek end; cbn [bind]; [eauto|].
  exfalso. destruct (mapM_all_ok (new_known states cat) (combine (seq 0 (length fs)) fs)) as [kn Ek'].
  - intros [i f] Hin. apply in_combine_r in Hin. destruct (Ht f Hin) as [s [t [E _]]]. unfold new_known. cbn [fst snd]. rewrite E. cbn. eauto.
  - pose proof (eq_trans (eq_sym Ek') Ek). discriminate.
Qed.

Lemma builders_good data na tls ds : builders data na tls = Ok ds ->
  length ds = length tls /\ Forall (fun d => constructed (ds_info d)) ds /\ identities (all_infos (map ds_info ds)) /\
  exists act, get_action na = Ok act /\
    (forall d, In d ds -> forall f fi, In (f, fi) (infos_of (ds_info d)) -> fi_factor fi = f /\ In f (factors_of tls) /\
      exists s levels c, learned (na_what act) data (factors_of tls) f s (fi_kind fi) levels c /\ forall d', In d' ds -> knows d' fi s levels).
Proof.
  intros H. destruct (builders_inv data na tls ds H) as [act [num [cat [fis [kn [dis [Ha [-> [Hd [Hid Hf]]]]]]]]]].
  rewrite map_length. split; [eapply mapM_ok_length, Hd|]. rewrite map_map. cbn [ds_info].
  apply mapM_ok_Forall2 in Hd.
  assert (Hdis : forall d, In d dis -> exists tl, In tl tls /\ design_for num (contrast_for code_cm cat) hash fis tl = Ok d).
  { clear -Hd. induction Hd as [|tl d tls dis E Hd IH]; [intros _ []|]. intros x [<-|Hx]; [exists tl; split; [now left|exact E]|]. destruct (IH x Hx) as [t [Ht E']]. exists t. split; [now right|exact E']. }
  assert (Hinf : forall d f fi, In d dis -> In (f, fi) (infos_of d) -> In f (factors_of tls) /\ dget String.eqb f fis = Some fi).
  { intros d f fi Hin Hfi. destruct (Hdis d Hin) as [tl [Ht E]]. destruct (design_for_infos _ _ _ _ _ _ E f fi Hfi) as [H1 H2]. split; [|exact H2].
    unfold factors_of. apply in_concat. exists (concat tl). split; [now apply in_map|exact H1]. }
  split; [|split].
  - apply Forall_forall. intros x Hx. apply in_map_iff in Hx. destruct Hx as [d [<- Hx]]. cbn. destruct (Hdis d Hx) as [tl [_ E]]. now destruct (design_for_lemma _ _ _ _ _ _ E).
  - rewrite map_id. intros a b Ha' Hb' E. unfold all_infos in *. apply in_flat_map in Ha', Hb'. destruct Ha' as [da [Hda Ha']], Hb' as [db [Hdb Hb']].
    apply in_map_iff in Ha', Hb'. destruct Ha' as [[fa a'] [Ea Ha']], Hb' as [[fb b'] [Eb Hb']]. cbn in Ea, Eb. subst a' b'.
    destruct (Hinf da fa a Hda Ha') as [_ G1]. destruct (Hinf db fb b Hdb Hb') as [_ G2]. now destruct (Hid fa fb a b G1 G2 E).
  - exists act. split; [exact Ha|]. intros d Hin f fi Hfi. apply in_map_iff in Hin. destruct Hin as [d0 [<- Hin]]. cbn [ds_info] in Hfi.
    destruct (Hinf d0 f fi Hin Hfi) as [G1 G2]. destruct (Hf f G1) as [fi' [s [k [lv [c [L1 [L2 [L3 [L4 [L5 _]]]]]]]]]]. rewrite G2 in L2. injection L2 as <-. subst k.
    split; [exact L3|]. split; [exact G1|]. exists s, lv, c. split; [exact L1|]. intros d' Hd'. apply in_map_iff in Hd'. destruct Hd' as [x [<- _]]. exact L5.
Qed.
End Pipe.
