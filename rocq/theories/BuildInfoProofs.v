(** DesignInfo: slices, names, lookups. *)
From Verif Require Import Base RankSpec DescModel FormulaModel BuildModel BuildSpec BuildProofs BuildSubtermProofs.

Lemma dict_of_values {K A} (eqb : K -> K -> bool) (l : list (K * A)) p : In p (dict_of eqb l) -> In (snd p) (map snd l).
Proof.
  unfold dict_of. assert (G : forall d, In p (fold_left (fun d p => dset eqb (fst p) (snd p) d) l d) ->
    In (snd p) (map snd d) \/ In (snd p) (map snd l)).
  { induction l as [|[k v] l IH]; cbn [fold_left]; intros d H; [left; now apply in_map|].
    apply IH in H. cbn [map]. destruct H as [H|H]; [|right; now right].
    assert (G : forall d, In (snd p) (map snd (dset eqb k v d)) -> In (snd p) (map snd d) \/ v = snd p).
    { clear. induction d as [|[a x] d IHd]; cbn; [intuition|]. destruct (eqb a k); cbn; intuition. }
    cbn [fst snd] in H. destruct (G _ H) as [H'|H']; [now left|right; now left]. }
  intros H. destruct (G [] H) as [[]|H']. exact H'.
Qed.

Lemma combine_fst {A B} (a : list A) (b : list B) : length a = length b -> map fst (combine a b) = a.
Proof. revert b. induction a as [|x a IH]; intros [|y b]; cbn; try discriminate; [reflexivity|]. intros [= H]. now rewrite IH. Qed.
Lemma combine_snd {A B} (a : list A) (b : list B) : length a = length b -> map snd (combine a b) = b.
Proof. revert b. induction a as [|x a IH]; intros [|y b]; cbn; try discriminate; [reflexivity|]. intros [= H]. now rewrite IH. Qed.

Lemma list_eqb_eq {A} (eqb : A -> A -> bool) : (forall a b, eqb a b = true <-> a = b) ->
  forall a b, list_eqb eqb a b = true <-> a = b.
Proof.
  intros He a. induction a as [|x a IH]; intros [|y b]; cbn; try (split; congruence).
  rewrite andb_true_iff, He, IH. split; [intros [-> ->]; reflexivity|intros [= -> ->]; auto].
Qed.
Lemma pslice_eqb_eq a b : pslice_eqb a b = true <-> a = b.
Proof.
  unfold pslice_eqb. rewrite andb_true_iff, !Nat.eqb_eq. destruct a, b; cbn. split; [intros [-> ->]; reflexivity|intros [= -> ->]; auto].
Qed.

Section Info.
Context {V : Type}.
Notation subterm_info := (@subterm_info V).
Notation design_info := (@design_info V).

Fixpoint consecutive (a : nat) (ss : list pslice) (b : nat) : Prop :=
  match ss with
  | [] => a = b
  | (x, y) :: r => x = a /\ a <= y /\ consecutive y r b
  end.
Lemma consecutive_le a ss b : consecutive a ss b -> a <= b.
Proof. revert a. induction ss as [|[x y] r IH]; cbn; intros a H; [lia|]. destruct H as [-> [H1 H2]]. apply IH in H2. lia. Qed.
Lemma consecutive_positions a ss b : consecutive a ss b -> flat_map positions_in ss = seq a (b - a).
Proof.
  revert a. induction ss as [|[x y] r IH]; cbn; intros a H; [now replace (b - a) with 0 by lia|].
  destruct H as [-> [H1 H2]]. rewrite (IH y) by exact H2. apply consecutive_le in H2.
  unfold positions_in. cbn [fst snd]. replace (b - a) with ((y - a) + (b - y)) by lia. rewrite seq_app. f_equal. f_equal. lia.
Qed.
Lemma consecutive_covers n a ss b : consecutive a ss b -> b <= n -> covers_from n a ss = Some b.
Proof.
  revert a. induction ss as [|[x y] r IH]; cbn; intros a H Hn; [congruence|].
  destruct H as [-> [H1 H2]]. pose proof (consecutive_le _ _ _ H2). rewrite Nat.min_l by lia. rewrite Nat.eqb_refl.
  rewrite Nat.min_l by lia. now apply IH.
Qed.
Lemma consecutive_app a s1 b s2 c : consecutive a s1 b -> consecutive b s2 c -> consecutive a (s1 ++ s2) c.
Proof.
  revert a. induction s1 as [|[x y] r IH]; cbn; intros a H1 H2; [now subst|].
  destruct H1 as [-> [H1 H3]]. auto.
Qed.

Lemma slices_from_spec (cs : list (term * list subterm_info)) : forall a sl b, slices_from a cs = (sl, b) ->
  map fst sl = map fst cs /\ consecutive a (map snd sl) b /\
  Forall2 (fun p q => snd (snd q) = fst (snd q) + term_columns (snd p)) cs sl.
Proof.
  induction cs as [|[t ss] cs IH]; cbn; intros a sl b H.
  - injection H as <- <-. split; [reflexivity|]. split; [reflexivity|constructor].
  - destruct (slices_from (a + term_columns ss) cs) as [rest fin] eqn:E. injection H as <- <-.
    destruct (IH _ _ _ E) as [H1 [H2 H3]]. cbn. split; [congruence|]. split; [split; [reflexivity|split; [lia|exact H2]]|].
    constructor; [reflexivity|exact H3].
Qed.

Lemma unit_slices_consecutive n : forall a, consecutive a (map (fun i => (i, i + 1)) (seq a n)) (a + n).
Proof.
  induction n as [|n IH]; intros a; cbn; [lia|]. split; [reflexivity|]. split; [lia|].
  replace (a + S n) with (a + 1 + n) by lia. replace (a + 1) with (S a) by lia. apply IH.
Qed.
Lemma covers_units n : forall ss a b, (forall p, In p ss -> snd p = fst p + 1 /\ fst p < n) -> a <= n ->
  covers_from n a ss = Some b -> b = a + length ss.
Proof.
  induction ss as [|[x y] r IH]; cbn; intros a b H Ha E; [injection E as <-; lia|].
  destruct (H (x, y) (or_introl eq_refl)) as [H1 H2]. cbn in H1, H2. subst y.
  destruct (Nat.eqb_spec (Nat.min x n) a) as [E1|]; [|discriminate].
  apply IH in E; [|intros; apply H; now right|lia]. lia.
Qed.

Lemma distinct_keys_fst {K A B} (eqb : K -> K -> bool) (d : list (K * A)) (e : list (K * B)) :
  map fst d = map fst e -> distinct_keys eqb d -> distinct_keys eqb e.
Proof.
  revert e. induction d as [|[k v] d IH]; intros [|[k' v'] e]; cbn; try discriminate; [auto|].
  intros [= -> E] [H1 H2]. split; [|eapply IH; eassumption]. intros p Hp.
  apply (in_map fst) in Hp. rewrite <- E in Hp. apply in_map_iff in Hp. destruct Hp as [q [<- Hq]]. auto.
Qed.

Lemma columns_dict names : NoDup names -> dict_of String.eqb (combine names (seq 0 (length names))) = combine names (seq 0 (length names)).
Proof.
  intros H. apply dict_of_distinct. apply distinct_NoDup. rewrite combine_fst; [exact H|now rewrite seq_length].
Qed.


(** Everything the constructor establishes. *)
Lemma mk_inv names infos codings (d : design_info) : dicts infos codings -> mk_design_info names infos codings = Ok d ->
  NoDup names /\ di_columns d = combine names (seq 0 (length names)) /\ di_infos d = infos /\ di_codings d = codings /\
  consecutive 0 (map snd (di_name_slices d)) (length names) /\ NoDup (map fst (di_name_slices d)) /\
  (forall s p i, In (s, p) (di_name_slices d) -> nth_error names i = Some s -> p = (i, i + 1)) /\
  match infos, codings with
  | Some fis, Some cs =>
      check_codings fis cs = Ok tt /\
      exists sl, slices_from 0 cs = (sl, length names) /\ di_term_slices d = Some sl /\
        di_name_slices d = map (fun p => (term_name (fst p), snd p)) sl
  | None, None => di_term_slices d = None /\ di_name_slices d = combine names (map (fun i => (i, i + 1)) (seq 0 (length names)))
  | _, _ => False
  end.
Proof.
  intros [Hdi Hdc] H. unfold mk_design_info in H.
  destruct (match infos, codings with None, None => Ok tt | Some fis, Some cs => check_codings fis cs | _, _ => _ end) as [[]|] eqn:Echk;
    cbn [bind] in H; [|discriminate].
  destruct (mk_slices names _ codings) as [[tsl nsl]|] eqn:Esl; cbn [bind] in H; [|discriminate].
  unfold assert in H. destruct (match tsl with Some _ => _ | None => _ end) eqn:Etsl; [|discriminate].
  destruct (covers_from (length names) 0 (map snd nsl)) as [cov|] eqn:Ecov; [|discriminate].
  destruct (Nat.eqb_spec cov (length names)) as [->|]; [|discriminate].
  unfold check in H at 1. destruct (forallb _ _) eqn:Ecol; [|discriminate]. injection H as <-.
  cbn [di_columns di_infos di_codings di_name_slices di_term_slices].
  set (columns := dict_of String.eqb (combine names (seq 0 (length names)))) in *.
  assert (Hlen : length (combine names (seq 0 (length names))) = length names)
    by (rewrite combine_length, seq_length; lia).
  pose proof (dict_of_length String.eqb (combine names (seq 0 (length names)))) as [Hcl1 Hcl2]. fold columns in Hcl1, Hcl2.
  rewrite Hlen in Hcl1, Hcl2.
  assert (Hcommon : consecutive 0 (map snd nsl) (length names) -> NoDup names -> distinct_keys String.eqb nsl ->
    NoDup names /\ columns = combine names (seq 0 (length names)) /\ infos = infos /\ codings = codings /\
    consecutive 0 (map snd nsl) (length names) /\ NoDup (map fst nsl) /\
    (forall s p i, In (s, p) nsl -> nth_error names i = Some s -> p = (i, i + 1))).
  { intros Hc Hnd Hdk. pose proof (columns_dict names Hnd) as Hcols. fold columns in Hcols.
    split; [exact Hnd|]. split; [exact Hcols|]. split; [reflexivity|]. split; [reflexivity|]. split; [exact Hc|].
    split; [now apply distinct_NoDup|]. intros s p i Hin Hi. rewrite forallb_forall in Ecol.
    specialize (Ecol (s, i)). rewrite Hcols in Ecol. cbn [fst snd] in Ecol.
    rewrite (dget_distinct String.eqb String.eqb_refl s p nsl Hdk Hin) in Ecol.
    symmetry. apply pslice_eqb_eq. rewrite <- Ecol; [unfold pslice_eqb; cbn; now rewrite (Nat.eqb_sym i), (Nat.eqb_sym (i + 1))|].
    assert (G : nth_error (combine names (seq 0 (length names))) i = Some (s, i)).
    { assert (Hi' : i < length names) by (apply nth_error_Some; congruence). clear -Hi Hi'.
      assert (G : forall o, nth_error (combine names (seq o (length names))) i = Some (s, o + i)).
      { revert i Hi Hi'. induction names as [|x names IH]; intros [|i] Hi Hl o; cbn in *; try discriminate.
        - injection Hi as ->. f_equal. f_equal. lia.
        - rewrite IH by (try assumption; lia). f_equal. f_equal. lia. }
      apply G. }
    eapply nth_error_In; eassumption. }
  destruct infos as [fis|], codings as [cs|]; try discriminate.
  - unfold mk_slices in Esl. destruct (slices_from 0 cs) as [sl idx] eqn:Es.
    unfold check in Esl. destruct (Nat.eqb_spec idx (length columns)) as [Eidx|]; [|discriminate].
    destruct (slices_from_spec _ _ _ _ Es) as [Hk [Hc Hsz]].
    cbn in Hdc. assert (Hds : distinct_keys term_eqb sl) by (eapply distinct_keys_fst; [symmetry; exact Hk|exact Hdc]).
    rewrite (dict_of_distinct _ sl Hds) in Esl. injection Esl as <- <-.
    apply (list_eqb_eq pslice_eqb pslice_eqb_eq) in Etsl.
    set (nl := map (fun p : term * pslice => (term_name (fst p), snd p)) sl) in *.
    assert (Hnl : distinct_keys String.eqb nl).
    { apply (dict_of_length String.eqb nl). unfold nl at 2. rewrite map_length, <- (map_length snd sl), Etsl, map_length. reflexivity. }
    rewrite (dict_of_distinct _ nl Hnl) in *.
    assert (Hsnd : map snd nl = map snd sl) by (unfold nl; rewrite map_map; reflexivity).
    rewrite Hsnd in *.
    rewrite (consecutive_covers _ _ _ _ Hc) in Ecov by lia. injection Ecov as Ecov.
    assert (Hnd : NoDup names).
    { specialize (Hcl2 ltac:(lia)). apply distinct_NoDup in Hcl2. rewrite combine_fst in Hcl2 by now rewrite seq_length. exact Hcl2. }
    assert (Hc' : consecutive 0 (map snd sl) (length names)) by (rewrite <- Ecov; exact Hc).
    destruct (Hcommon Hc' Hnd Hnl) as (G1 & G2 & _ & _ & G5 & G6 & G7).
    repeat (split; [assumption || reflexivity|]). exists sl. rewrite Ecov. auto.
  - cbn [mk_slices] in Esl. injection Esl as <- <-.
    set (nl := combine names (map (fun i => (i, i + 1)) (seq 0 (length names)))) in *.
    assert (Hnll : length nl = length names) by (unfold nl; rewrite combine_length, map_length, seq_length; lia).
    apply covers_units in Ecov; [|intros p Hp|lia].
    2:{ apply in_map_iff in Hp. destruct Hp as [q [<- Hq]]. apply dict_of_values in Hq. unfold nl in Hq.
        rewrite combine_snd in Hq by (now rewrite map_length, seq_length).
        apply in_map_iff in Hq. destruct Hq as [i [<- Hi]]. apply in_seq in Hi. cbn [fst snd]. lia. }
    rewrite map_length in Ecov.
    assert (Hnl : distinct_keys String.eqb nl).
    { apply (dict_of_length String.eqb nl). transitivity (length names); [symmetry; exact Ecov|symmetry; exact Hnll]. }
    rewrite (dict_of_distinct _ nl Hnl) in *.
    assert (Hnd : NoDup names).
    { apply distinct_NoDup in Hnl. unfold nl in Hnl. rewrite combine_fst in Hnl by (now rewrite map_length, seq_length). exact Hnl. }
    assert (Hc : consecutive 0 (map snd nl) (length names)).
    { unfold nl. rewrite combine_snd by (now rewrite map_length, seq_length). apply (unit_slices_consecutive (length names) 0). }
    destruct (Hcommon Hc Hnd Hnl) as (G1 & G2 & _ & _ & G5 & G6 & G7).
    repeat (split; [assumption || reflexivity|]). reflexivity.
Qed.

Lemma dget_columns names name i : NoDup names -> nth_error names i = Some name ->
  dget String.eqb name (combine names (seq 0 (length names))) = Some i.
Proof.
  intros Hnd Hi. apply dget_distinct; [apply String.eqb_refl| |].
  - apply distinct_NoDup. rewrite combine_fst; [exact Hnd|now rewrite seq_length].
  - assert (G : forall o, In (name, o + i) (combine names (seq o (length names)))).
    { clear Hnd. revert i Hi. induction names as [|x names IH]; intros [|i] Hi o; cbn in *; try discriminate.
      - injection Hi as ->. left. f_equal. lia.
      - right. replace (o + S i) with (S o + i) by lia. auto. }
    apply (G 0).
Qed.

Lemma slices_lemma names infos codings (d : design_info) : dicts infos codings -> mk_design_info names infos codings = Ok d ->
  column_names d = names /\ NoDup names /\
  flat_map positions_in (map snd (di_name_slices d)) = seq 0 (length names) /\
  NoDup (map fst (di_name_slices d)) /\
  (forall i name, nth_error names i = Some name -> di_slice d (CName name) = Ok (Z.of_nat i, Z.of_nat (i + 1))) /\
  (forall s p, In (s, p) (di_name_slices d) -> di_slice d (CName s) = Ok (zslice p)) /\
  match codings with
  | None => map fst (di_name_slices d) = names
  | Some cs =>
      exists sl, di_term_slices d = Some sl /\ map fst sl = map fst cs /\ map snd sl = map snd (di_name_slices d) /\
        map fst (di_name_slices d) = map (fun p => term_name (fst p)) cs /\
        Forall2 (fun p q => length (positions_in (snd q)) = term_columns (snd p)) cs sl /\
        forall t ss, In (t, ss) cs -> exists p, In (t, p) sl /\
          di_slice d (CTerm t) = Ok (zslice p) /\ di_slice d (CName (term_name t)) = Ok (zslice p)
  end.
Proof.
  intros Hd H. pose proof (mk_inv _ _ _ _ Hd H) as (Hnd & Hcol & Hinf & Hcod & Hc & Hnn & Hagree & Hrest).
  assert (HN : column_names d = names).
  { unfold column_names. rewrite Hcol. apply combine_fst. now rewrite seq_length. }
  assert (Hname : forall s p, In (s, p) (di_name_slices d) -> di_slice d (CName s) = Ok (zslice p)).
  { intros s p Hin. cbn. apply distinct_NoDup in Hnn.
    now rewrite (dget_distinct String.eqb String.eqb_refl _ _ _ Hnn Hin). }
  split; [exact HN|]. split; [exact Hnd|].
  split; [rewrite (consecutive_positions _ _ _ Hc); f_equal; lia|].
  split; [exact Hnn|]. split.
  { intros i name Hi. destruct (dget String.eqb name (di_name_slices d)) as [p|] eqn:E.
    - apply dget_in in E. destruct E as [k' [Hin E]]. apply String.eqb_eq in E. subst k'.
      rewrite (Hname _ _ Hin). rewrite (Hagree _ _ _ Hin Hi). reflexivity.
    - cbn. rewrite E, Hcol, (dget_columns _ _ _ Hnd Hi). reflexivity. }
  split; [exact Hname|]. destruct infos as [fis|], codings as [cs|]; try contradiction.
  - destruct Hrest as [_ [sl [Hs [Hts Hns]]]]. destruct (slices_from_spec _ _ _ _ Hs) as [Hk [_ Hsz]].
    exists sl. split; [exact Hts|]. split; [exact Hk|]. split; [rewrite Hns, map_map; reflexivity|].
    split.
    { rewrite Hns, map_map. cbn. rewrite <- (map_map fst term_name), Hk, map_map. reflexivity. }
    split.
    { clear -Hsz. induction Hsz as [|p q l r E]; constructor; [|assumption].
      unfold positions_in. rewrite seq_length. destruct q as [t [x y]]. cbn in *. lia. }
    intros t ss Hin. assert (Ht : In t (map fst sl)) by (rewrite Hk; apply (in_map fst) in Hin; exact Hin).
    apply in_map_iff in Ht. destruct Ht as [[t' p] [E Hp]]. cbn in E. subst t'. exists p. split; [exact Hp|].
    destruct Hd as [_ Hdc]. cbn in Hdc.
    assert (Hds : distinct_keys term_eqb sl) by (eapply distinct_keys_fst; [symmetry; exact Hk|exact Hdc]).
    split.
    + cbn. rewrite Hts. now rewrite (dget_distinct term_eqb teqb_refl _ _ _ Hds Hp).
    + apply Hname. rewrite Hns. apply in_map_iff. exists (t, p). auto.
  - destruct Hrest as [_ Hns]. rewrite Hns. apply combine_fst. now rewrite map_length, seq_length.
Qed.

Lemma minimal_slice_unknown (d : design_info) s :
  ~ In s (map fst (di_name_slices d)) -> ~ In s (column_names d) -> di_slice d (CName s) = Err (PatsyError "unknown column specified" None).
Proof.
  intros H1 H2. cbn. assert (G : forall A (l : list (string * A)), ~ In s (map fst l) -> dget String.eqb s l = None).
  { intros A l H. apply dget_none. intros p Hp. apply String.eqb_neq. intros E. apply H. rewrite <- E. now apply in_map. }
  rewrite (G _ _ H1), (G _ _ H2). reflexivity.
Qed.
End Info.
