(** Dictionaries, combinations of columns, names and values of one subterm. *)
From Verif Require Import Base RankSpec DescModel FormulaModel BuildModel BuildSpec.

(** * Dictionaries *)
Section DictFacts.
Context {K A : Type} (eqb : K -> K -> bool).
Hypothesis eqb_refl : forall a, eqb a a = true.
Hypothesis eqb_sym : forall a b, eqb a b = eqb b a.
Hypothesis eqb_trans : forall a b c, eqb a b = true -> eqb b c = true -> eqb a c = true.

Lemma eqb_congr a b c : eqb a b = true -> eqb a c = eqb b c.
Proof.
  intros H. destruct (eqb a c) eqn:E1, (eqb b c) eqn:E2; try reflexivity.
  - rewrite eqb_sym in H. rewrite (eqb_trans _ _ _ H E1) in E2. discriminate.
  - rewrite (eqb_trans _ _ _ H E2) in E1. discriminate.
Qed.

Lemma dget_dset k v k' (d : list (K * A)) : dget eqb k' (dset eqb k v d) = if eqb k k' then Some v else dget eqb k' d.
Proof.
  induction d as [|[a x] d IH]; cbn [dset dget]; [reflexivity|].
  destruct (eqb a k) eqn:E; cbn [dget].
  - rewrite (eqb_congr _ _ k' E). destruct (eqb k k'); reflexivity.
  - rewrite IH. destruct (eqb a k') eqn:E2; [|reflexivity].
    destruct (eqb k k') eqn:E3; [|reflexivity].
    rewrite eqb_sym in E3. rewrite (eqb_trans _ _ _ E2 E3) in E. discriminate.
Qed.

Lemma dget_in k (d : list (K * A)) v : dget eqb k d = Some v -> exists k', In (k', v) d /\ eqb k' k = true.
Proof.
  induction d as [|[a x] d IH]; cbn; [discriminate|]. destruct (eqb a k) eqn:E.
  - intros [= ->]. exists a. auto.
  - intros H. destruct (IH H) as [k' [H1 H2]]. exists k'. auto.
Qed.
Lemma dget_none k (d : list (K * A)) : dget eqb k d = None <-> forall p, In p d -> eqb (fst p) k = false.
Proof.
  induction d as [|[a x] d IH]; cbn; [intuition|]. destruct (eqb a k) eqn:E.
  - split; [discriminate|]. intros H. specialize (H (a, x) (or_introl eq_refl)). cbn in H. congruence.
  - rewrite IH. split; [intros H p [<-|Hp]; auto|auto].
Qed.
Lemma dget_distinct k v (d : list (K * A)) : distinct_keys eqb d -> In (k, v) d -> dget eqb k d = Some v.
Proof.
  induction d as [|[a x] d IH]; cbn; [easy|]. intros [H1 H2] [[= -> ->]|Hin].
  - now rewrite eqb_refl.
  - specialize (H1 _ Hin). cbn in H1. rewrite H1. auto.
Qed.
Lemma dset_new k v (d : list (K * A)) : dget eqb k d = None -> dset eqb k v d = d ++ [(k, v)].
Proof.
  induction d as [|[a x] d IH]; cbn; [reflexivity|]. destruct (eqb a k); [discriminate|].
  intros H. now rewrite IH.
Qed.
Lemma distinct_app (d e : list (K * A)) : distinct_keys eqb (d ++ e) <->
  distinct_keys eqb d /\ distinct_keys eqb e /\ forall p q, In p d -> In q e -> eqb (fst p) (fst q) = false.
Proof.
  induction d as [|[a x] d IH]; cbn; [intuition|]. rewrite IH. split.
  - intros [H1 [H2 [H3 H4]]]. split; [split; [|exact H2]; intros p Hp; apply H1; apply in_or_app; auto|].
    split; [exact H3|]. intros p q [<-|Hp] Hq; [apply H1; apply in_or_app; auto|auto].
  - intros [[H1 H2] [H3 H4]]. split; [|split; [exact H2|]; split; [exact H3|]; auto].
    intros p Hp. apply in_app_or in Hp. destruct Hp as [Hp|Hp]; [auto|]. apply (H4 (a, x) p); auto.
Qed.
Lemma dset_keys k v (d : list (K * A)) : map fst (dset eqb k v d) = if dmem eqb k d then map fst d else map fst d ++ [k].
Proof.
  unfold dmem. induction d as [|[a x] d IH]; cbn; [reflexivity|]. destruct (eqb a k); cbn; [reflexivity|].
  rewrite IH. destruct (dget eqb k d); reflexivity.
Qed.
Lemma dset_distinct k v (d : list (K * A)) : distinct_keys eqb d -> distinct_keys eqb (dset eqb k v d).
Proof.
  intros H. induction d as [|[a x] d IH]; cbn; [auto with *|]. { split; [intros p []|exact Logic.I]. }
  cbn in H. destruct H as [H1 H2]. destruct (eqb a k) eqn:E; cbn; [auto|].
  split; [|auto]. intros p Hp.
  assert (Hk : In (fst p) (map fst (dset eqb k v d))) by now apply in_map.
  rewrite dset_keys in Hk. destruct (dmem eqb k d).
  - apply in_map_iff in Hk. destruct Hk as [q [E2 Hq]]. rewrite <- E2. auto.
  - apply in_app_or in Hk. destruct Hk as [Hk|[<-|[]]]; [|exact E].
    apply in_map_iff in Hk. destruct Hk as [q [E2 Hq]]. rewrite <- E2. auto.
Qed.
Lemma dict_of_from (l : list (K * A)) : forall d,
  distinct_keys eqb (d ++ l) -> fold_left (fun d p => dset eqb (fst p) (snd p) d) l d = d ++ l.
Proof.
  induction l as [|[k v] l IH]; intros d H; cbn [fold_left]; [now rewrite app_nil_r|].
  cbn [fst snd]. pose proof H as H'. apply distinct_app in H. destruct H as [H1 [H2 H3]].
  rewrite dset_new. 2:{ apply dget_none. intros p Hp. apply (H3 p (k, v)); [exact Hp|now left]. }
  rewrite IH; [now rewrite <- app_assoc|]. rewrite <- app_assoc. exact H'.
Qed.
(** Building a dict from items with distinct keys changes nothing. *)
Lemma dict_of_distinct (l : list (K * A)) : distinct_keys eqb l -> dict_of eqb l = l.
Proof. intros H. unfold dict_of. now rewrite dict_of_from. Qed.
Lemma dict_of_is_distinct (l : list (K * A)) : distinct_keys eqb (dict_of eqb l).
Proof.
  unfold dict_of. assert (G : forall d, distinct_keys eqb d ->
    distinct_keys eqb (fold_left (fun d p => dset eqb (fst p) (snd p) d) l d)).
  { induction l as [|p l IH]; cbn; intros d H; [exact H|]. apply IH. now apply dset_distinct. }
  apply G. exact Logic.I.
Qed.
Lemma dset_length k v (d : list (K * A)) : length (dset eqb k v d) = if dmem eqb k d then length d else S (length d).
Proof.
  unfold dmem. induction d as [|[a x] d IH]; cbn; [reflexivity|]. destruct (eqb a k); cbn; [reflexivity|].
  rewrite IH. destruct (dget eqb k d); reflexivity.
Qed.
(** No dict is longer than the items; if it is as long the keys are distinct. *)
Lemma dict_of_len_from (l : list (K * A)) : forall d, distinct_keys eqb d ->
  length (fold_left (fun d p => dset eqb (fst p) (snd p) d) l d) <= length d + length l /\
  (length (fold_left (fun d p => dset eqb (fst p) (snd p) d) l d) = length d + length l -> distinct_keys eqb (d ++ l)).
Proof.
  induction l as [|[k v] l IH]; intros d Hd; cbn [fold_left fst snd length].
  - split; [lia|]. now rewrite app_nil_r.
  - destruct (IH (dset eqb k v d) (dset_distinct k v d Hd)) as [H1 H2].
    pose proof (dset_length k v d) as HL. unfold dmem in HL.
    destruct (dget eqb k d) eqn:E; [split; lia|]. split; [lia|]. intros H.
    rewrite dset_new in H2, H by exact E. rewrite app_length in H2. cbn [length] in H2.
    specialize (H2 ltac:(lia)). now rewrite <- app_assoc in H2.
Qed.
Lemma dict_of_length (l : list (K * A)) : length (dict_of eqb l) <= length l /\
  (length (dict_of eqb l) = length l -> distinct_keys eqb l).
Proof. exact (dict_of_len_from l [] Logic.I). Qed.
Lemma dget_dict_of k (l : list (K * A)) : dmem eqb k (dict_of eqb l) = existsb (fun p => eqb (fst p) k) l.
Proof.
  unfold dict_of. assert (G : forall d, dmem eqb k (fold_left (fun d p => dset eqb (fst p) (snd p) d) l d) =
    dmem eqb k d || existsb (fun p => eqb (fst p) k) l).
  { induction l as [|p l IH]; intros d; cbn [fold_left existsb]; [now rewrite orb_false_r|].
    rewrite IH. unfold dmem at 1. rewrite dget_dset.
    destruct (eqb (fst p) k); cbn; [now rewrite orb_true_r|]. reflexivity. }
  rewrite G. reflexivity.
Qed.
Lemma dmem_in k (d : list (K * A)) : dmem eqb k d = true <-> exists p, In p d /\ eqb (fst p) k = true.
Proof.
  unfold dmem. split.
  - destruct (dget eqb k d) eqn:E; [|discriminate]. intros _. apply dget_in in E.
    destruct E as [k' [H1 H2]]. exists (k', a). auto.
  - intros [p [H1 H2]]. destruct (dget eqb k d) eqn:E; [reflexivity|].
    rewrite dget_none in E. rewrite (E p H1) in H2. discriminate.
Qed.
End DictFacts.

Lemma seqb_sym a b : String.eqb a b = String.eqb b a.
Proof. apply String.eqb_sym. Qed.
Lemma seqb_trans a b c : String.eqb a b = true -> String.eqb b c = true -> String.eqb a c = true.
Proof. rewrite !String.eqb_eq. congruence. Qed.
Lemma distinct_NoDup {A} (d : list (string * A)) : distinct_keys String.eqb d <-> NoDup (map fst d).
Proof.
  induction d as [|[k v] d IH]; cbn; [split; constructor|]. rewrite IH. split.
  - intros [H1 H2]. constructor; [|exact H2]. intros H. apply in_map_iff in H. destruct H as [p [E Hp]].
    specialize (H1 p Hp). rewrite E, String.eqb_refl in H1. discriminate.
  - intros H. inversion H as [|? ? H1 H2]; subst. split; [|exact H2].
    intros p Hp. apply String.eqb_neq. intros ->. apply H1. now apply in_map.
Qed.

(** * Terms compare as sets *)
Lemma subset_eqb_spec a b : subset_eqb a b = true <-> incl a b.
Proof.
  unfold subset_eqb. rewrite forallb_forall. split; intros H x Hx.
  - specialize (H x Hx). apply existsb_exists in H. destruct H as [y [Hy E]]. apply String.eqb_eq in E. now subst.
  - apply existsb_exists. exists x. split; [auto|apply String.eqb_refl].
Qed.
Lemma term_eqb_spec a b : term_eqb a b = true <-> (incl a b /\ incl b a).
Proof. unfold term_eqb. rewrite andb_true_iff, !subset_eqb_spec. tauto. Qed.
Lemma teqb_refl a : term_eqb a a = true.
Proof. apply term_eqb_spec. split; apply incl_refl. Qed.
Lemma teqb_sym a b : term_eqb a b = term_eqb b a.
Proof. unfold term_eqb. apply andb_comm. Qed.
Lemma teqb_trans a b c : term_eqb a b = true -> term_eqb b c = true -> term_eqb a c = true.
Proof.
  rewrite !term_eqb_spec. intros [H1 H2] [H3 H4]. split; eapply incl_tran; eassumption.
Qed.

(** * Combinations *)
Lemma iproduct_snoc l x : iproduct (l ++ [x]) = flat_map (fun p => map (fun i => p ++ [i]) x) (iproduct l).
Proof.
  induction l as [|y l IH]; cbn [app iproduct].
  - cbn. rewrite app_nil_r. induction x as [|i x IHx]; cbn; [reflexivity|]. now rewrite IHx.
  - rewrite IH. clear IH. induction y as [|i y IHy]; cbn [flat_map]; [reflexivity|].
    rewrite IHy, flat_map_app. f_equal. clear. generalize (iproduct l). intros q.
    induction q as [|p q IH]; cbn [flat_map map]; [reflexivity|]. rewrite map_app, IH, map_map. reflexivity.
Qed.
Lemma column_combinations_combos counts : column_combinations counts = combos counts.
Proof.
  unfold column_combinations. induction counts as [|n ns IH]; [reflexivity|].
  cbn [rev map combos]. rewrite map_app. cbn [map]. rewrite iproduct_snoc. rewrite <- IH.
  generalize (iproduct (map (seq 0) (rev ns))). intros q.
  induction q as [|p q IHq]; cbn [flat_map map]; [reflexivity|].
  rewrite map_app, IHq, map_map. f_equal. apply map_ext. intros i. now rewrite rev_app_distr.
Qed.

Lemma combos_length counts : length (combos counts) = product_of counts.
Proof.
  induction counts as [|n ns IH]; cbn [combos product_of]; [reflexivity|]. rewrite <- IH.
  generalize (combos ns). intros l. induction l as [|r l IHl]; cbn [flat_map length]; [lia|].
  rewrite app_length, map_length, seq_length, IHl. lia.
Qed.
Lemma nth_flat_uniform {A B} (f : A -> list B) n l : (forall x, length (f x) = n) ->
  forall q i, i < n -> nth_error (flat_map f l) (i + n * q) =
    match nth_error l q with Some x => nth_error (f x) i | None => None end.
Proof.
  intros Hf. induction l as [|x l IH]; intros q i Hi; cbn [flat_map].
  - destruct q, (i + n * _); reflexivity.
  - destruct q as [|q].
    + rewrite nth_error_app1 by (rewrite Hf; lia). cbn. now replace (i + n * 0) with i by lia.
    + rewrite nth_error_app2 by (rewrite Hf; lia). rewrite Hf.
      replace (i + n * S q - n) with (i + n * q) by lia. now rewrite IH.
Qed.
Lemma combos_radix counts : forall c, in_range c counts -> nth_error (combos counts) (radix c counts) = Some c.
Proof.
  induction counts as [|n ns IH]; intros c H; inversion H as [|i n' c' ns' Hi Hc]; subst; [reflexivity|].
  cbn [combos radix]. rewrite (nth_flat_uniform _ n) by (try exact Hi; intros; now rewrite map_length, seq_length).
  rewrite IH by exact Hc. rewrite nth_error_map. rewrite nth_error_nth' with (d := 0) by (rewrite seq_length; lia).
  cbn. now rewrite seq_nth.
Qed.
Lemma combos_in_range counts : forall c, In c (combos counts) -> in_range c counts.
Proof.
  induction counts as [|n ns IH]; cbn [combos]; intros c H.
  - destruct H as [<-|[]]. constructor.
  - apply in_flat_map in H. destruct H as [r [Hr H]]. apply in_map_iff in H. destruct H as [k [<- Hk]].
    apply in_seq in Hk. constructor; [lia|]. now apply IH.
Qed.
Lemma radix_lt counts : forall c, in_range c counts -> radix c counts < product_of counts.
Proof.
  intros c H. rewrite <- combos_length. apply nth_error_Some. rewrite combos_radix by exact H. discriminate.
Qed.
Lemma radix_inj counts : forall c c', in_range c counts -> in_range c' counts -> radix c counts = radix c' counts -> c = c'.
Proof.
  intros c c' H H' E. apply combos_radix in H. apply combos_radix in H'. rewrite E in H. congruence.
Qed.
Lemma combos_NoDup counts : NoDup (combos counts).
Proof.
  induction counts as [|n ns IH]; cbn [combos]; [repeat constructor; auto|].
  revert IH. generalize (combos ns). intros l Hl. induction Hl as [|r l Hr Hl IHl]; cbn; [constructor|].
  assert (G : forall (a b : list (list nat)), NoDup a -> NoDup b -> (forall x, In x a -> ~ In x b) -> NoDup (a ++ b)).
  { clear. induction a as [|x a IH]; cbn; intros b Ha Hb Hd; [exact Hb|]. inversion Ha; subst.
    constructor; [|apply IH; auto]. intros H. apply in_app_or in H. destruct H; [auto|]. eapply Hd; eauto. }
  apply G; [|exact IHl|].
  - apply FinFun.Injective_map_NoDup; [intros a b [= E]; exact E|apply seq_NoDup].
  - intros x Hx H. apply in_map_iff in Hx. destruct Hx as [k [<- _]].
    apply in_flat_map in H. destruct H as [r' [Hr' H]]. apply in_map_iff in H. destruct H as [k' [[= E E'] _]]. subst. auto.
Qed.
Lemma combos_nth counts k c : nth_error (combos counts) k = Some c -> in_range c counts /\ radix c counts = k.
Proof.
  intros H. assert (Hr : in_range c counts) by (apply combos_in_range; eapply nth_error_In; eassumption).
  split; [exact Hr|]. pose proof (combos_radix counts c Hr) as H2.
  pose proof (proj1 (NoDup_nth_error (combos counts)) (combos_NoDup counts)) as HN.
  apply HN; [apply nth_error_Some; rewrite H2; discriminate|]. now rewrite H, H2.
Qed.
