(** One design matrix from the values of its factors. *)
From Verif Require Import Base RankSpec DescModel FormulaModel BuildModel BuildSpec BuildProofs BuildSubtermProofs BuildInfoProofs.

Lemma mapM_unit_ok {A} (f : A -> result unit) l us : mapM f l = Ok us -> forall x, In x l -> f x = Ok tt.
Proof.
  intros H. apply mapM_ok_Forall2 in H. induction H as [|x [] l r E]; intros z Hz; [easy|].
  destruct Hz as [<-|Hz]; auto.
Qed.

Lemma mapM_flat {A B C} (f : A -> result (list B)) (g : A -> list C) (R : C -> B -> Prop) l cols :
  (forall x ys, In x l -> (f x = Ok ys <-> Forall2 R (g x) ys)) ->
  ((exists yss, mapM f l = Ok yss /\ concat yss = cols) <-> Forall2 R (flat_map g l) cols).
Proof.
  revert cols. induction l as [|x l IH]; intros cols H; cbn [mapM flat_map].
  - split.
    + intros [yss [[= <-] <-]]. constructor.
    + intros E. inversion E. exists []. auto.
  - split.
    + intros [yss [E <-]]. destruct (f x) as [ys|] eqn:Ex; cbn [bind] in E; [|discriminate].
      destruct (mapM f l) as [zss|] eqn:El; cbn [bind] in E; [|discriminate]. injection E as <-. cbn [concat].
      apply Forall2_app; [now apply H; [left|]|]. apply IH; [intros; apply H; now right|]. eauto.
    + intros E. apply Forall2_app_inv_l in E. destruct E as [c1 [c2 [E1 [E2 ->]]]].
      apply H in E1; [|now left]. rewrite E1. cbn [bind].
      apply IH in E2; [|intros; apply H; now right]. destruct E2 as [yss [E2 <-]]. rewrite E2. cbn [bind].
      eexists. split; [reflexivity|]. reflexivity.
Qed.

Section Matrix.
Context {V : Type} (vone : V) (vmul : V -> V -> V).
Notation subterm_info := (@subterm_info V).
Notation fvalue := (@fvalue V).
Notation design_info := (@design_info V).

Lemma contrib_ext fis (s : subterm_info) val val' f i k : val f = val' f -> contrib fis s val f i k = contrib fis s val' f i k.
Proof. unfold contrib. now intros ->. Qed.
Lemma entry_ext fis (val val' : factor -> option fvalue) id k :
  (forall f, In f (si_factors (snd (fst id))) -> val f = val' f) -> entry vone vmul fis val id k = entry vone vmul fis val' id k.
Proof.
  destruct id as [[t s] c]. cbn [fst snd entry]. intros H. f_equal. apply map_ext_in. intros [f i] Hin.
  apply in_combine_l in Hin. now apply contrib_ext, H.
Qed.

(** * What the constructor checks *)
Record checked (fis : finfos) (cs : list (term * list subterm_info)) : Prop := {
  ck_subterm : forall t ss s, In (t, ss) cs -> In s ss -> subterm_ok fis s;
  ck_incl : forall t ss s, In (t, ss) cs -> In s ss -> incl (si_factors s) t;
  ck_keys : forall f, In f (map fst fis) <-> exists t ss, In (t, ss) cs /\ In f t;
  ck_factor : forall f fi, In (f, fi) fis -> fi_factor fi = f }.

Lemma check_codings_checked fis (cs : list (term * list subterm_info)) : check_codings fis cs = Ok tt -> checked fis cs.
Proof.
  unfold check_codings, check. 
  match goal with |- context [if ?b then _ else _] => destruct b eqn:E1; [|discriminate] end.
  match goal with |- context [if ?b then _ else _] => destruct b eqn:E2; [|discriminate] end.
  match goal with |- context [if ?b then _ else _] => destruct b eqn:E3; [|discriminate] end.
  match goal with |- context [bind ?b _] => destruct b as [us|] eqn:E4; cbn [bind]; [|discriminate] end. intros _.
  rewrite forallb_forall in E1, E3. unfold set_eqb in E2. apply andb_true_iff in E2. rewrite !subset_eqb_spec in E2.
  constructor.
  - intros t ss s Hin Hs. apply check_subterm_ok. apply mapM_ok_Forall2 in E4.
    assert (G : exists u, mapM (check_subterm fis) ss = Ok u).
    { clear -E4 Hin. induction E4 as [|p u l r E]; [easy|]. destruct Hin as [->|Hin]; [eauto|auto]. }
    destruct G as [u G]. eapply mapM_unit_ok; eassumption.
  - intros t ss s Hin Hs. specialize (E1 _ Hin). cbn in E1. rewrite forallb_forall in E1. now apply subset_eqb_spec, E1.
  - intros f. split.
    + intros Hf. apply E2 in Hf. apply in_concat in Hf. destruct Hf as [t [Ht Hf]]. apply in_map_iff in Ht.
      destruct Ht as [[t' ss] [E Ht]]. cbn in E. subst t'. eauto.
    + intros [t [ss [Hin Hf]]]. apply E2. apply in_concat. exists t. split; [|exact Hf]. apply (in_map fst) in Hin. exact Hin.
  - intros f fi Hin. specialize (E3 _ Hin). cbn in E3. apply String.eqb_eq in E3. congruence.
Qed.

Lemma term_columns_len fis (ss : list subterm_info) t : (forall s, In s ss -> subterm_ok fis s) ->
  length (columns_of_term fis (t, ss)) = term_columns ss.
Proof.
  intros H. unfold term_columns, columns_of_term. cbn [fst snd].
  assert (G : forall n, fold_left (fun n s => n + si_ncols s) ss n =
    n + length (flat_map (fun s => map (fun c => (t, s, c)) (combos (counts_of fis s))) ss)).
  { induction ss as [|s ss IH]; intros n; cbn [fold_left flat_map]; [cbn; lia|].
    rewrite IH by (intros; apply H; now right). rewrite app_length, map_length, combos_length.
    rewrite (proj2 (H s (or_introl eq_refl))). lia. }
  rewrite G. reflexivity.
Qed.
Lemma columns_of_length fis (cs : list (term * list subterm_info)) : (forall t ss s, In (t, ss) cs -> In s ss -> subterm_ok fis s) ->
  forall a sl b, slices_from a cs = (sl, b) -> b = a + length (columns_of fis cs).
Proof.
  induction cs as [|[t ss] cs IH]; cbn [slices_from]; intros H a sl b E.
  - injection E as <- <-. cbn. lia.
  - destruct (slices_from _ cs) as [rest fin] eqn:E2. injection E as <- <-.
    apply IH in E2; [|intros t' ss' s' H1 H2; apply (H t' ss' s'); [now right|exact H2]]. unfold columns_of in *. cbn [flat_map]. rewrite app_length.
    rewrite term_columns_len; [lia|]. intros s Hs. apply (H t ss); [now left|exact Hs].
Qed.

(** * One matrix *)
Section One.
Variable fis : finfos.
Variable cs : list (term * list subterm_info).
Variable ftv : list (finfo * fvalue).
Variable n : nat.
Hypothesis Hck : checked fis cs.
Hypothesis Hkeys : distinct_keys String.eqb fis.
Hypothesis Hnd : NoDup (map fst ftv).
Hypothesis Hid : identities (map fst ftv ++ map snd fis).
Hypothesis Hrows : forall p, In p ftv -> vrows (snd p) = n.
Hypothesis Hall : forall fi, In fi (map snd fis) -> exists v, In (fi, v) ftv /\ value_fits fi n v.

Definition val_in (f : factor) : option fvalue :=
  match dget String.eqb f fis with Some fi => dget fi_eqb fi ftv | None => None end.

Definition mine : list (finfo * fvalue) :=
  filter (fun p => match dget String.eqb (fi_factor (fst p)) fis with
                   | Some fi => Nat.eqb (fi_id fi) (fi_id (fst p))
                   | None => false
                   end) ftv.
Lemma dget_fis f fi : dget String.eqb f fis = Some fi -> In (f, fi) fis.
Proof. intros H. apply dget_in in H. destruct H as [k [H E]]. apply String.eqb_eq in E. now subst. Qed.
Lemma fis_dget f fi : In (f, fi) fis -> dget String.eqb f fis = Some fi.
Proof. intros H. apply dget_distinct; [apply String.eqb_refl|exact Hkeys|exact H]. Qed.

Lemma in_mine fi v : In (fi, v) mine <-> In (fi, v) ftv /\ dget String.eqb (fi_factor fi) fis = Some fi.
Proof.
  unfold mine. rewrite filter_In. cbn [fst]. split; intros [H1 H2]; (split; [exact H1|]).
  - destruct (dget String.eqb (fi_factor fi) fis) as [fi'|] eqn:E; [|discriminate]. apply Nat.eqb_eq in H2.
    f_equal. apply Hid; [| |exact H2].
    + apply in_or_app. right. apply dget_fis in E. apply (in_map snd) in E. exact E.
    + apply in_or_app. left. apply (in_map fst) in H1. exact H1.
  - rewrite H2. apply Nat.eqb_refl.
Qed.

Lemma dget_ftv fi v : In (fi, v) ftv -> dget fi_eqb fi ftv = Some v.
Proof.
  intros H. assert (Hsub : forall a b, In a (map fst ftv) -> In b (map fst ftv) -> fi_id a = fi_id b -> a = b).
  { intros a b Ha Hb. apply Hid; apply in_or_app; now left. }
  clear Hid Hrows Hall. revert H Hnd Hsub. induction ftv as [|[a x] l IH]; intros H HN Hs; [easy|]. cbn [dget].
  inversion HN as [|? ? HN1 HN2]; subst. destruct H as [[= -> ->]|H].
  - unfold fi_eqb. now rewrite Nat.eqb_refl.
  - unfold fi_eqb at 1. destruct (Nat.eqb_spec (fi_id a) (fi_id fi)) as [E|E].
    + exfalso. apply HN1. cbn. rewrite (Hs a fi (or_introl eq_refl) (or_intror (in_map fst _ _ H)) E). apply (in_map fst) in H. exact H.
    + apply IH; [exact H|exact HN2|]. intros b c Hb Hc. apply Hs; now right.
Qed.

Lemma mine_distinct : distinct_keys String.eqb (map (fun p => (fi_factor (fst p), snd p)) mine).
Proof.
  assert (G : forall l, (forall p, In p l -> In p mine) -> NoDup (map fst l) ->
    distinct_keys String.eqb (map (fun p => (fi_factor (fst p), snd p)) l)).
  { induction l as [|[fi v] l IH]; intros Hl HN; cbn; [exact Logic.I|]. inversion HN as [|? ? HN1 HN2]; subst.
    split; [|apply IH; [intros; apply Hl; now right|exact HN2]].
    intros q Hq. apply in_map_iff in Hq. destruct Hq as [[fi' v'] [<- Hq]]. cbn. apply String.eqb_neq. intros E.
    pose proof (Hl _ (or_introl eq_refl)) as A. pose proof (Hl _ (or_intror Hq)) as B.
    apply in_mine in A. apply in_mine in B. destruct A as [_ A], B as [_ B]. rewrite <- E in B. rewrite A in B. injection B as <-.
    apply HN1. cbn. apply (in_map fst) in Hq. exact Hq. }
  apply G; [auto|]. unfold mine. clear -Hnd. induction ftv as [|p l IH]; cbn; [constructor|].
  inversion Hnd as [|? ? H1 H2]; subst. destruct (match _ with Some _ => _ | None => _ end); cbn; [|auto].
  constructor; [|auto]. intros H. apply H1. apply in_map_iff in H. destruct H as [q [<- Hq]]. apply filter_In in Hq. now apply in_map.
Qed.

Lemma mine_values f : dget String.eqb f (dict_of String.eqb (map (fun p => (fi_factor (fst p), snd p)) mine)) = val_in f.
Proof.
  rewrite (dict_of_distinct _ _ mine_distinct). unfold val_in.
  destruct (dget String.eqb f fis) as [fi|] eqn:E.
  - pose proof (dget_fis _ _ E) as Hin. destruct (Hall fi) as [v [Hv _]]; [apply (in_map snd) in Hin; exact Hin|].
    rewrite (dget_ftv _ _ Hv). pose proof (ck_factor _ _ Hck _ _ Hin) as Ef. apply dget_distinct; [apply String.eqb_refl|apply mine_distinct|].
    apply in_map_iff. exists (fi, v). cbn [fst snd]. split; [now rewrite Ef|]. apply in_mine. split; [exact Hv|]. rewrite Ef. exact E.
  - apply dget_none. intros p Hp. apply in_map_iff in Hp. destruct Hp as [[fi v] [<- Hp]]. cbn.
    apply in_mine in Hp. destruct Hp as [_ Hp]. apply String.eqb_neq. intros Ef. rewrite Ef in Hp. congruence.
Qed.

Lemma fis_cases : fis = [] \/ exists f fi, In (f, fi) fis.
Proof. clear. destruct fis as [|[f fi] r]; [now left|right; exists f, fi; now left]. Qed.
Lemma mine_nil : mine = [] <-> fis = [].
Proof.
  split.
  - intros E. destruct fis_cases as [Ef|[f [fi Hin]]]; [exact Ef|]. exfalso.
    destruct (Hall fi) as [v [Hv _]]; [apply (in_map snd) in Hin; exact Hin|].
    assert (H : In (fi, v) mine).
    { apply in_mine. split; [exact Hv|].
      rewrite (ck_factor _ _ Hck _ _ Hin). apply fis_dget. exact Hin. }
    rewrite E in H. exact H.
  - intros E. unfold mine. rewrite E. cbn. clear. induction ftv as [|p l IH]; cbn; [reflexivity|exact IH].
Qed.

Lemma mine_num_rows : foldM (fun nr p => match nr with
      | None => Ok (Some (vrows (snd p)))
      | Some n => assert (Nat.eqb n (vrows (snd p))) (Ok nr)
      end) mine None = Ok (match fis with [] => None | _ => Some n end).
Proof.
  assert (Hm : forall p, In p mine -> vrows (snd p) = n) by (intros p Hp; apply filter_In in Hp; apply Hrows; tauto).
  assert (G : foldM (fun nr p => match nr with
      | None => Ok (Some (vrows (snd p)))
      | Some n => assert (Nat.eqb n (vrows (snd p))) (Ok nr)
      end) mine None = Ok (match mine with [] => None | _ => Some n end)).
  { revert Hm. generalize mine as l. intros l Hm. destruct l as [|p l]; [reflexivity|]. cbn [foldM bind].
    rewrite (Hm p) by now left. assert (Hl : forall p, In p l -> vrows (snd p) = n) by (intros; apply Hm; now right). clear Hm.
    induction l as [|q l IH]; cbn [foldM]; [reflexivity|]. unfold assert at 1. rewrite (Hl q) by now left. rewrite Nat.eqb_refl. cbn [bind].
    apply IH. intros; apply Hl; now right. }
  rewrite G. destruct mine_nil as [M1 M2]. destruct mine as [|p l]; [now rewrite M1|].
  destruct fis_cases as [Ef|[f [fi Hin]]]; [specialize (M2 Ef); discriminate|]. clear -Hin. destruct fis; [easy|reflexivity].
Qed.

Definition rows_here : nat := match fis with [] => 1 | _ => n end.

Lemma values_fit_here t ss s : In (t, ss) cs -> In s ss ->
  values_fit fis (dict_of String.eqb (map (fun p => (fi_factor (fst p), snd p)) mine)) rows_here (si_factors s).
Proof.
  intros Hin Hs f Hf. destruct (ck_subterm _ _ Hck _ _ _ Hin Hs) as [Hok _]. destruct (Hok f Hf) as [fi [Ef _]].
  pose proof (dget_fis _ _ Ef) as Hfi. destruct (Hall fi) as [v [Hv Hfit]]; [apply (in_map snd) in Hfi; exact Hfi|].
  exists fi, v. split; [exact Ef|]. split; [rewrite mine_values; unfold val_in; rewrite Ef; now apply dget_ftv|].
  unfold rows_here. destruct fis; [easy|exact Hfit].
Qed.

Lemma one_matrix_iff b m :
  build_design_matrix vone vmul fis cs (length (columns_of fis cs)) ftv = Ok (b, m) <->
  b = (match fis with [] => true | _ => false end) /\ m_rows m = rows_here /\
  Forall2 (fun id col => map Some col = map (entry vone vmul fis val_in id) (seq 0 rows_here)) (columns_of fis cs) (m_cols m).
Proof.
  unfold build_design_matrix. fold mine. rewrite mine_num_rows. cbn [bind].
  set (values := dict_of String.eqb (map (fun p => (fi_factor (fst p), snd p)) mine)).
  replace (match match fis with [] => None | _ => Some n end with None => 1 | Some n => n end) with rows_here
    by (unfold rows_here; destruct fis; reflexivity).
  assert (Hflat : forall cols, (exists colss, mapM (fun p : term * list subterm_info => mapM (fun s => build_subterm vone vmul fis s values rows_here) (snd p)) cs = Ok colss /\
      concat (map (@concat (list V)) colss) = cols) <->
    Forall2 (fun id col => map Some col = map (entry vone vmul fis val_in id) (seq 0 rows_here)) (columns_of fis cs) cols).
  { intros cols. unfold columns_of.
    set (R := fun (id : term * subterm_info * list nat) col => map Some col = map (entry vone vmul fis val_in id) (seq 0 rows_here)).
    change (Forall2 _ (flat_map (columns_of_term fis) cs) cols) with (Forall2 R (flat_map (columns_of_term fis) cs) cols).
    rewrite <- (mapM_flat (fun p : term * list subterm_info => let* css := mapM (fun s => build_subterm vone vmul fis s values rows_here) (snd p) in Ok (concat css))
        (columns_of_term fis) R cs).
    - assert (G : forall (l : list (term * list subterm_info)) yss, (mapM (fun p => let* css := mapM (fun s => build_subterm vone vmul fis s values rows_here) (snd p) in Ok (concat css)) l = Ok yss <->
        exists colss, mapM (fun p => mapM (fun s => build_subterm vone vmul fis s values rows_here) (snd p)) l = Ok colss /\ map (@concat (list V)) colss = yss)).
      { induction l as [|p l IH]; intros yss; cbn [mapM].
        - split; [intros [= <-]; exists []; auto|intros [colss [[= <-] <-]]; reflexivity].
        - destruct (mapM _ (snd p)) as [css|]; cbn [bind]; [|split; [discriminate|intros [? [? _]]; discriminate]].
          split.
          + destruct (mapM _ l) as [zss|] eqn:E; cbn [bind]; [|discriminate]. intros [= <-].
            destruct (proj1 (IH zss) eq_refl) as [colss [E1 E2]]. rewrite E1. cbn [bind]. exists (css :: colss). cbn. rewrite E2. auto.
          + intros [colss [E1 E2]]. destruct (mapM (fun p => mapM _ (snd p)) l) as [css'|] eqn:E; cbn [bind] in E1; [|discriminate].
            injection E1 as <-. cbn in E2. subst yss. rewrite (proj2 (IH (map (@concat (list V)) css'))); [reflexivity|]. eauto. }
      split.
      + intros [colss [E1 E2]]. exists (map (@concat (list V)) colss). split; [apply G; eauto|exact E2].
      + intros [yss [E1 E2]]. apply G in E1. destruct E1 as [colss [E1 <-]]. eauto.
    - intros [t ss] cols' Hin. cbn [snd]. unfold columns_of_term. cbn [fst snd].
      rewrite <- (mapM_flat (fun s => build_subterm vone vmul fis s values rows_here) (fun s => map (fun c => (t, s, c)) (combos (counts_of fis s))) R ss).
      + destruct (mapM _ ss) as [css|]; cbn [bind].
        * split; [intros [= <-]; eauto|intros [yss [[= <-] <-]]; reflexivity].
        * split; [discriminate|intros [? [? _]]; discriminate].
      + intros s ys Hs.
        rewrite (build_subterm_iff vone vmul fis s values rows_here t ys (ck_subterm _ _ Hck _ _ _ Hin Hs) (values_fit_here _ _ _ Hin Hs)).
        assert (He : forall c k, entry vone vmul fis (fun g => dget String.eqb g values) (t, s, c) k = entry vone vmul fis val_in (t, s, c) k).
        { intros c k. apply entry_ext. intros f _. unfold values. apply mine_values. }
        unfold R. clear -He. generalize (combos (counts_of fis s)) as l. intros l. split.
        * intros H. induction H as [|c col l r E]; cbn; constructor; [|assumption]. rewrite E. apply map_ext. intros; apply He.
        * revert ys. induction l as [|c l IH]; intros ys H; cbn in H; inversion H as [|? col ? r E Hr]; subst; constructor.
          -- rewrite E. apply map_ext. intros; symmetry; apply He.
          -- apply IH. assumption. }
  assert (Hb : (match match fis with [] => None | _ => Some n end with None => true | Some _ => false end) = match fis with [] => true | _ => false end)
    by (destruct fis; reflexivity). rewrite Hb.
  split.
  - destruct (mapM _ cs) as [colss|] eqn:E; cbn [bind]; [|discriminate]. unfold assert.
    destruct (Nat.eqb _ _) eqn:El; [|discriminate]. intros [= <- <-]. cbn [m_rows m_cols]. split; [reflexivity|]. split; [reflexivity|].
    apply Hflat. eauto.
  - intros [-> [Hr HF]]. pose proof HF as HF'. apply Hflat in HF'. destruct HF' as [colss [E1 E2]]. rewrite E1. cbn [bind]. rewrite E2.
    assert (El : length (m_cols m) = length (columns_of fis cs)) by (clear -HF; induction HF; cbn; congruence).
    unfold assert. rewrite El, Nat.eqb_refl. rewrite <- Hr. destruct m; reflexivity.
Qed.
End One.
End Matrix.
