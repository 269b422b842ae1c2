From Coq Require Import Ring_theory.
From Verif Require Import Base RedundancyModel RedundancySpec PickProofs RankSpec RankProofs.

Lemma FOP_app {X} (Q : X -> X -> Prop) a b : ForallOrdPairs Q a -> ForallOrdPairs Q b ->
  (forall x y, In x a -> In y b -> Q x y) -> ForallOrdPairs Q (a ++ b).
Proof.
  induction 1 as [|x a Hx Ha IH]; cbn; intros Hb Hd; [exact Hb|]. constructor.
  - apply Forall_app. split; [exact Hx|]. apply Forall_forall. auto.
  - auto.
Qed.
Lemma FOP_concat {X} (Q : X -> X -> Prop) css :
  (forall i cs, nth_error css i = Some cs -> ForallOrdPairs Q cs) ->
  (forall i j cs cs' x y, i < j -> nth_error css i = Some cs -> nth_error css j = Some cs' -> In x cs -> In y cs' -> Q x y) ->
  ForallOrdPairs Q (List.concat css).
Proof.
  induction css as [|cs css IH]; intros H1 H2; cbn; [constructor|]. apply FOP_app.
  - apply (H1 0). reflexivity.
  - apply IH.
    + intros i. apply (H1 (S i)).
    + intros i j c c' x y Hij. apply (H2 (S i) (S j)). lia.
  - intros x y Hx Hy. apply in_concat in Hy. destruct Hy as [cs' [Hc Hy]]. apply In_nth_error in Hc. destruct Hc as [j Hj].
    apply (H2 0 (S j) cs cs'); auto. lia.
Qed.
Lemma FOP_intro {X} (Q : X -> X -> Prop) l : (forall p x m y q, l = p ++ x :: m ++ y :: q -> Q x y) -> ForallOrdPairs Q l.
Proof.
  induction l as [|x l IH]; intros H; constructor.
  - apply Forall_forall. intros y Hy. apply in_split in Hy. destruct Hy as [m [q ->]]. now apply (H [] x m y q).
  - apply IH. intros p z m y q ->. now apply (H (x :: p) z m y q).
Qed.
Lemma exactly_one_pair {X} (P : X -> Prop) p x m y q : exactly_one P (p ++ x :: m ++ y :: q) -> P x -> P y -> False.
Proof.
  intros [p' [z [q' [E [Hz Hn]]]]] Hx Hy. rewrite Forall_forall in Hn. revert p' E Hn.
  induction p as [|a p IH]; intros [|b p'] E Hn; cbn in E; injection E as E1 E2.
  - subst z q'. apply (Hn y); [|exact Hy]. cbn. apply in_app_iff. right. now left.
  - subst b. apply (Hn x); [|exact Hx]. now left.
  - subst a q'. apply (Hn x); [|exact Hx]. cbn. apply in_app_iff. right. now left.
  - apply (IH p' E2). intros w Hw. apply Hn. now right.
Qed.

Section Top.
Context {F : Type} (feqb : F -> F -> bool).
Hypothesis feqb_spec : forall a b, feqb a b = true <-> a = b.
Variable is_numeric : F -> bool.
Definition cats (terms : list (list F)) : list (list F) := map (filter (fun f => negb (is_numeric f))) terms.

Lemma in_cat t f : In f (filter (fun f => negb (is_numeric f)) t) <-> In f t /\ is_numeric f = false.
Proof. rewrite filter_In, negb_true_iff. tauto. Qed.

(** Facts about the codings chosen, in the form the linear algebra needs. *)
Lemma pick_facts hash terms : collision_free hash (List.concat terms) -> Forall (@NoDup F) terms ->
  exists css, pick_all feqb hash terms is_numeric [] = Ok css /\
    Forall wf_coding (List.concat css) /\ seps (List.concat css) /\
    Forall2 (fun cs cat => Forall (fun c => incl (map fst c) cat) cs) css (cats terms) /\
    forall t S, In t terms -> incl S (filter (fun f => negb (is_numeric f)) t) -> exists c, In c (List.concat css) /\ covers c S.
Proof.
  intros Hh HN. destruct (pick_all_codings feqb hash is_numeric terms feqb_spec Hh HN) as [css [E [Hlen H]]].
  exists css. split; [exact E|]. split; [|split; [|split]].
  - apply Forall_forall. intros c Hc. apply in_concat in Hc. destruct Hc as [cs [H1 H2]]. apply In_nth_error in H1.
    destruct H1 as [i Hi]. destruct (H i cs Hi) as [A _]. rewrite Forall_forall in A. now apply A.
  - apply FOP_concat.
    + intros i cs Hi. apply FOP_intro. intros p x m y q -> [S [Cx Cy]]. destruct (H i _ Hi) as [_ B]. destruct (B S) as [B1 B2].
      apply (exactly_one_pair (fun c => covers c S) p x m y q); auto. apply B1. apply (B2 x); [|exact Cx].
      apply in_app_iff. right. now left.
    + intros i j cs cs' x y Hij Hi Hj Hx Hy [S [Cx Cy]]. destruct (H i cs Hi) as [_ B]. destruct (H j cs' Hj) as [_ B'].
      destruct (B S) as [_ B2]. destruct (B' S) as [_ B2']. destruct (B2 x Hx Cx) as [[t [Ht Hs]] _].
      destruct (B2' y Hy Cy) as [_ Hno]. apply (Hno i t Hij Ht Hs).
  - assert (G : forall i cs cat, nth_error css i = Some cs -> nth_error (cats terms) i = Some cat -> Forall (fun c => incl (map fst c) cat) cs).
    { intros i cs cat Hi Hc. destruct (H i cs Hi) as [A B]. apply Forall_forall. intros c Hci f Hf.
      destruct (B (map fst c)) as [_ B2]. rewrite Forall_forall in A.
      destruct (B2 c Hci (covers_self c (A c Hci))) as [[t [Ht Hs]] _]. unfold cats in Hc. rewrite nth_error_map, Ht in Hc. injection Hc as <-.
      apply in_cat. apply Hs. exact Hf. }
    assert (L : length css = length (cats terms)) by (unfold cats; now rewrite map_length).
    clear - G L. revert L G. generalize (cats terms). induction css as [|cs css IH]; intros [|cat l] L G; try discriminate; constructor.
    + now apply (G 0).
    + apply IH; [now injection L|]. intros i. apply (G (S i)).
  - intros t S Ht HS.
    assert (Sub : forall u, {sub_of is_numeric u S} + {~ sub_of is_numeric u S}).
    { intros u. destruct (Forall_dec (fun f => In f u /\ is_numeric f = false)) with (l := S) as [D|D].
      - intros f. destruct (in_dec (fdec feqb feqb_spec) f u); [|right; tauto]. destruct (is_numeric f); [right; intros [_ ?]; discriminate|left; auto].
      - left. intros f Hf. rewrite Forall_forall in D. auto.
      - right. intros K. apply D. apply Forall_forall. auto. }
    assert (N : exists i, new_at is_numeric terms i S /\ i < length terms).
    { assert (Hs : sub_of is_numeric t S) by (intros f Hf; apply in_cat; auto).
      clear - Ht Hs Sub. induction terms as [|u terms IH]; [destruct Ht|].
      destruct (Sub u) as [D|D].
      - exists 0. split; [split; [exists u; auto|intros j; lia]|cbn; lia].
      - destruct Ht as [->|Ht]; [contradiction|]. destruct (IH Ht) as [i [[[u' [H1 H2]] H3] Hi]].
        exists (Datatypes.S i). split; [split; [exists u'; auto|]|cbn; lia].
        intros [|j] w Hj Hw; cbn in Hw; [injection Hw as <-; exact D|]. apply (H3 j); [lia|exact Hw]. }
    destruct N as [i [N Hi]]. destruct (nth_error css i) as [cs|] eqn:Hcs; [|apply nth_error_None in Hcs; lia].
    destruct (H i cs Hcs) as [_ B]. destruct (B S) as [B1 _]. destruct (B1 N) as [p [c [q [Ecs [Hc _]]]]].
    exists c. split; [|exact Hc]. apply in_concat. exists cs. split; [eapply nth_error_In; eauto|]. subst cs. apply in_app_iff. right. now left.
Qed.
End Top.

Lemma full_rank_lemma {R} (rO rI : R) radd rmul rsub ropp {F} (feqb : F -> F -> bool) hash is_numeric terms nlev ncol M ok :
  ring_theory rO rI radd rmul rsub ropp (@eq R) ->
  (forall a b, feqb a b = true <-> a = b) -> collision_free hash (List.concat terms) -> Forall (@NoDup F) terms ->
  let cats := map (filter (fun f => negb (is_numeric f))) terms in
  let all := List.concat cats in
  (forall f, In f all -> good_coding rO rI radd rmul nlev ncol M f) -> complete_data nlev all ok ->
  exists css, pick_all feqb hash terms is_numeric [] = Ok css /\
    let cols := flat_map (coding_cols rI rmul ncol M) (List.concat css) in
    independent rO radd rmul ok cols /\ forall Y, in_span rO radd rmul ok cols Y <-> model_space rO radd nlev all cats ok Y.
Proof.
  intros Rth Hf Hh HN cats all HG [Hok1 Hok2].
  destruct (pick_facts feqb Hf is_numeric hash terms Hh HN) as [css [E [HW [HS [HF HC]]]]].
  exists css. split; [exact E|]. cbn zeta.
  set (U := nodup (fdec feqb Hf) all).
  assert (HU : forall f, In f U <-> In f all) by (intros f; apply nodup_In).
  assert (HUn : NoDup U) by apply NoDup_nodup.
  assert (HGU : Forall (good rO rI radd rmul nlev ncol M) U) by (apply Forall_forall; intros f Hfu; apply HG; now apply HU).
  assert (HI : Forall (fun c => incl (map fst c) U) (List.concat css)).
  { apply Forall_forall. intros c Hc f Hfc. apply HU. unfold all. apply in_concat. apply in_concat in Hc. destruct Hc as [cs [H1 H2]].
    fold cats in HF. unfold RankTopProofs.cats in HF. fold cats in HF. clear - HF H1 H2 Hfc. clearbody cats. induction HF as [|cs' cat css' cts Hx HF IH]; [destruct H1|]. destruct H1 as [->|H1].
    - exists cat. split; [now left|]. rewrite Forall_forall in Hx. exact (Hx c H2 f Hfc).
    - destruct (IH H1) as [k [Hk1 Hk2]]. exists k. split; [now right|exact Hk2]. }
  assert (HL : forall rho, legit nlev all rho <-> legit nlev U rho) by (intros rho; split; intros H f Hfu; apply H; now apply HU).
  split.
  - intros coeffs Hl Hz. apply (independent_cols rO rI radd rmul rsub ropp Rth feqb Hf nlev ncol M U (List.concat css) HUn HGU HW HI HS coeffs Hl).
    intros rho Hrho. apply HL in Hrho. destruct (Hok2 rho Hrho) as [r [Hr Hag]]. transitivity (comb rO radd rmul coeffs (flat_map (coding_cols rI rmul ncol M) (List.concat css)) r); [|exact (Hz r Hr)].
    unfold comb. assert (Hc : Forall (fun col : (F -> nat) -> R => col rho = col r) (flat_map (coding_cols rI rmul ncol M) (List.concat css))).
    { apply Forall_forall. intros col Hcol. apply in_flat_map in Hcol. destruct Hcol as [c [Hc Hcol]]. apply in_map_iff in Hcol.
      destruct Hcol as [ks [<- _]]. apply coding_col_depends. intros f Hfc. symmetry. apply Hag. apply HU. rewrite Forall_forall in HI. apply (HI c Hc f Hfc). }
    clear - Hc. revert coeffs. induction Hc as [|col cols Hx Hc IH]; intros [|w ws]; cbn; try reflexivity. now rewrite Hx, IH.
  - intros Y. split; [apply (span_in_model_space rO rI radd rmul rsub ropp Rth nlev ncol M ok all css cats HF)|].
    intros [Ys [HYs HY]]. eapply span_ext; [|exact HY].
    apply (span_sum rO rI radd rmul rsub ropp Rth ok _ (fun (y : (F -> nat) -> R) rho => y rho)).
    intros y Hy. 
    assert (exists t, In t terms /\ depends_on nlev all (filter (fun f => negb (is_numeric f)) t) y) as [t [Ht Hd]].
    { clear - HYs Hy. unfold cats in HYs. revert HYs. generalize all. revert Ys Hy. induction terms as [|t ts IH]; intros Ys Hy a H; inversion H; subst; [destruct Hy|].
      destruct Hy as [->|Hy]; [exists t; split; [now left|assumption]|]. destruct (IH _ Hy a) as [u [Hu1 Hu2]]; [assumption|].
      exists u. split; [now right|exact Hu2]. }
    assert (Htn : NoDup t) by (rewrite Forall_forall in HN; auto).
    apply (span_of_subsets rO rI radd rmul rsub ropp Rth feqb Hf nlev ncol M ok U (filter (fun f => negb (is_numeric f)) t) (List.concat css) y).
    + now apply NoDup_filter.
    + intros f Hft. apply HU. apply in_concat. exists (filter (fun f => negb (is_numeric f)) t). split; [|exact Hft]. unfold cats. apply in_map_iff. eauto.
    + exact HGU.
    + exact HW.
    + exact HI.
    + intros rho Hrho. apply HL. auto.
    + intros S HSi. apply (HC t S Ht HSi).
    + intros r1 r2 L1 L2. apply Hd; now apply HL.
Qed.
