(** C100: models that contain others, and equivalent models. *)
From Coq Require Import ZArith Permutation Ring_theory ZArithRing Sorted.
From Verif Require Import Base RedundancyModel RedundancySpec RankSpec DescModel FormulaModel BuildModel BuildSpec MemorizeModel MemorizeSpec MemorizeProofs CategoricalModel CategoricalSpec PipeModel PipeSpec PipeProofs
  FitModel FitSpec FitProofs FitProps EntryModel EntrySpec EntryProofs EntryFitProofs EntryProps RankMatSpec RankMatProofs RankPipeSpec RankPipeProofs RankMatProps SpaceSpec SpaceProofs.
Open Scope string_scope.
Open Scope list_scope.
Open Scope nat_scope.

(** C100.  Two designs, trained on any data: if every term of the first is covered by a term of the second (its
    numeric products are among those of that term, and its levels follow from those of that term), then all
    coefficients for the first can be turned into coefficients for the second which predict the same for every row
    of data, whichever data the matrices are built from. *)
Theorem nested_predictions : forall {V : Type} (rO rI : V) radd rmul rsub ropp tl1 num1 c1 rows1 tl2 num2 c2 rows2
    {P : Type} (ok : P -> Prop) (level1 level2 : P -> factor -> nat) (number1 number2 : P -> factor -> nat -> V),
  ring_theory rO rI radd rmul rsub ropp (@eq V) ->
  design_of rO rI radd rmul tl1 num1 c1 rows1 -> design_of rO rI radd rmul tl2 num2 c2 rows2 ->
  nested rI rmul ok num1 num2 level1 level2 number1 number2 tl1 tl2 ->
  forall co, length co = c1 -> exists co', length co' = c2 /\
    forall p m1 r1 m2 r2, ok p -> rows1 m1 r1 (level1 p) (number1 p) -> rows2 m2 r2 (level2 p) (number2 p) ->
      prediction rO radd rmul m1 co r1 = prediction rO radd rmul m2 co' r2.
Proof. intros. eapply nested_lemma; eassumption. Qed.
Print Assumptions nested_predictions.

(** C100.  For terms over the same factors: if every term of the first is a margin of a term of the second (the same
    numeric factors, and some of its categorical factors). *)
Theorem margin_predictions : forall {V : Type} (rO rI : V) radd rmul rsub ropp tl1 tl2 num c1 c2 rows1 rows2,
  ring_theory rO rI radd rmul rsub ropp (@eq V) ->
  design_of rO rI radd rmul tl1 num c1 rows1 -> design_of rO rI radd rmul tl2 num c2 rows2 ->
  margins num tl1 tl2 ->
  forall co, length co = c1 -> exists co', length co' = c2 /\
    forall lev nu m1 r1 m2 r2, rows1 m1 r1 lev nu -> rows2 m2 r2 lev nu ->
      prediction rO radd rmul m1 co r1 = prediction rO radd rmul m2 co' r2.
Proof.
  intros V rO rI radd rmul rsub ropp tl1 tl2 num c1 c2 rows1 rows2 Rth H1 H2 Hm co Hco.
  pose proof (proj1 (design_columns rO rI radd rmul rsub ropp _ _ _ _ Rth H1)) as N1. pose proof (proj1 (design_columns rO rI radd rmul rsub ropp _ _ _ _ Rth H2)) as N2.
  destruct (nested_lemma rO rI radd rmul rsub ropp tl1 num c1 rows1 tl2 num c2 rows2 (P := (factor -> nat) * (factor -> nat -> V)) (fun _ => True) fst fst snd snd Rth H1 H2
    (margins_nested rO rI radd rmul rsub ropp Rth _ _ _ _ _ _ N1 N2 Hm) co Hco) as [co' [Hl H]].
  exists co'. split; [exact Hl|]. intros lev nu m1 r1 m2 r2 A B. exact (H (lev, nu) m1 r1 m2 r2 Logic.I A B).
Qed.
Print Assumptions margin_predictions.

(** C100.  Ways of writing a model that change nothing: another order of the terms or of the factors in them; adding
    or leaving out a margin of another term; and more terms only add. *)
Theorem rewritten_models : forall num,
  (forall tl1 tl2, (forall t, In t tl1 -> exists u, In u tl2 /\ Permutation t u) -> margins num tl1 tl2) /\
  (forall a b t u, In u (a ++ b) -> margin_of num t u -> margins num (a ++ t :: b) (a ++ b) /\ margins num (a ++ b) (a ++ t :: b)) /\
  (forall tl1 tl2 tl3, margins num tl1 tl2 -> margins num tl2 tl3 -> margins num tl1 tl3).
Proof.
  intros num. assert (R : forall t, margin_of num t t) by (intros t; split; [reflexivity|apply incl_refl]). split; [|split].
  - intros tl1 tl2 H t Ht. destruct (H t Ht) as [u [Hu P]]. exists u. split; [exact Hu|]. split.
    + intros f. unfold numerics. rewrite !filter_In. split; intros [A B]; (split; [|exact B]); [now apply (Permutation_in _ P)|now apply (Permutation_in _ (Permutation_sym P))].
    + intros f. unfold categoricals. rewrite !filter_In. intros [A B]. split; [now apply (Permutation_in _ P)|exact B].
  - intros a b t u Hu M. split; intros v Hv.
    + apply in_app_or in Hv. destruct Hv as [Hv|[<-|Hv]]; [exists v; split; [apply in_or_app; now left|apply R]|exists u; now split|exists v; split; [apply in_or_app; now right|apply R]].
    + exists v. split; [|apply R]. apply in_app_or in Hv. apply in_or_app. destruct Hv; [now left|right; now right].
  - intros tl1 tl2 tl3 H1 H2 t Ht. destruct (H1 t Ht) as [u [Hu [A B]]]. destruct (H2 u Hu) as [v [Hv [A' B']]]. exists v. split; [exact Hv|]. split; [intros f; now rewrite A|]. now apply (incl_tran B).
Qed.
Print Assumptions rewritten_models.

(** * Example: [a * center(x)] and [0 + a + a:center(x)]. *)
Definition sterms : list term := [["a"]; ["a"; "center(x)"]].
Definition stls := [mterms; sterms].
Definition sdesigns := match mbuilders (fun _ => mchunks) (NAStr "drop") stls with Ok ds => ds | Err _ => [] end.
Definition smatrix : @dmat Z := mkMat 4 [[1; 0; 1; 0]; [0; 1; 0; 1]; [-2; 0; 0; 0]; [0; -1; 0; 3]]%Z.
Definition srows (j : nat) (tl : list term) := row_of 1%Z Z.mul (Z.eqb (-99)) (fun n => n) Nat.eqb (ef_eval ycode yorigin yobj) yorigin (fun _ => 0) (fun l => l) (fun _ : ydata => None) mvalue (na_what mact) mchunks
  sdesigns (nth j sdesigns (mkDesign (mkDI [] None None None []) [])) tl mnum mlevels (fun _ => None).
Example margins_ex : margins mnum mterms sterms /\ margins mnum sterms mterms.
Proof.
  split; intros t Ht; cbn in Ht.
  - destruct Ht as [<-|[<-|[<-|[<-|[]]]]]; [exists ["a"]|exists ["a"]|exists ["a"; "center(x)"]|exists ["a"; "center(x)"]]; (split; [cbn; auto|]); (split; [reflexivity|]); intros f Hf; cbn in *; tauto.
  - destruct Ht as [<-|[<-|[]]]; [exists ["a"]|exists ["a"; "center(x)"]]; (split; [cbn; auto|]); (split; [reflexivity|]); intros f Hf; exact Hf.
Qed.
Lemma sdescr tl : incl (concat tl) (concat mterms) ->
  describes (factor_value yorigin (fun _ => 0) (fun l => l) mvalue (na_what mact) mchunks (na_what mact) mdata) [0; 1; 3; 4] tl mnum mlevels (fun _ => None) mlevel mnumber.
Proof. intros Hi f Hf. exact (proj2 (proj2 (proj2 (proj2 rank_ex))) mact eq_refl f (Hi f Hf)). Qed.
Lemma svalue_fun : forall f g g', mvalue f g -> mvalue f g' -> forall d, g d = g' d.
Proof. intros f g g' H H' d. now rewrite H, H'. Qed.
(** Row 2 of the data is missing x, so rows 0, 1, 3 and 4 are used. *)
Lemma srows_used n ks : rows_used (Z.eqb (-99)) yorigin (fun _ => 0) (fun l => l) mvalue (na_what mact) mchunks (na_what mact) mdata None ["a"; "center(x)"] n ks -> ks = [0; 1; 3; 4].
Proof.
  intros [Hn [_ [Hs Hin]]].
  assert (En : n = 5).
  { destruct (Hn "a" (or_introl eq_refl)) as [lv [c [v [F <-]]]]. now rewrite (factor_value_fun _ _ _ _ svalue_fun _ _ _ _ _ _ _ _ F _ _ _ mvalue_a). }
  subst n. apply lt_sorted_unique; [exact Hs|repeat constructor; lia|]. intros k. rewrite Hin.
  assert (La : forall k, k < 5 -> ~ lacks (Z.eqb (-99)) yorigin (fun _ => 0) (fun l => l) mvalue (na_what mact) mchunks (na_what mact) mdata "a" k).
  { intros k0 Hk [lv c n rows row x F _ _ _ _|lv c codes F E].
    - pose proof (factor_value_fun _ _ _ _ svalue_fun _ _ _ _ _ _ _ _ F _ _ _ mvalue_a). discriminate.
    - pose proof (factor_value_fun _ _ _ _ svalue_fun _ _ _ _ _ _ _ _ F _ _ _ mvalue_a) as E'. injection E' as ->. destruct k0 as [|[|[|[|[|k0]]]]]; cbn in E; try discriminate. lia. }
  assert (Lx : forall k, k < 5 -> k <> 2 -> ~ lacks (Z.eqb (-99)) yorigin (fun _ => 0) (fun l => l) mvalue (na_what mact) mchunks (na_what mact) mdata "center(x)" k).
  { intros k0 Hk Hk2 [lv c n rows row x F E1 E2 _ E3|lv c codes F E].
    - pose proof (factor_value_fun _ _ _ _ svalue_fun _ _ _ _ _ _ _ _ F _ _ _ mvalue_x) as E'. injection E' as -> ->. destruct k0 as [|[|[|[|[|k0]]]]]; cbn in E1; try discriminate; [..|lia]; try (injection E1 as <-; destruct E2 as [<-|[]]; discriminate). now apply Hk2.
    - pose proof (factor_value_fun _ _ _ _ svalue_fun _ _ _ _ _ _ _ _ F _ _ _ mvalue_x). discriminate. }
  assert (L2 : lacks (Z.eqb (-99)) yorigin (fun _ => 0) (fun l => l) mvalue (na_what mact) mchunks (na_what mact) mdata "center(x)" 2).
  { eapply lk_num; [exact mvalue_x|reflexivity|now left|reflexivity|reflexivity]. }
  split.
  - intros [Hk H]. assert (k <> 2) by (intros ->; apply (H "center(x)"); [now right; left|exact L2]). cbn. lia.
  - intros Hk. assert (k < 5 /\ k <> 2) as [H1 H2] by (cbn in Hk; lia). split; [exact H1|]. intros f [<-|[<-|[]]]; [now apply La|now apply Lx].
Qed.
Lemma scalls f : In f (factors_of stls) -> NoDup (map fst (calls (ycode f))) /\ inner_first (ycode f) (ybins f).
Proof.
  intros Hf. apply (proj1 (proj2 (proj2 entries_ex))). cbn in *. intuition.
Qed.
Lemma sval f s : In f (factors_of stls) -> trained (ef_passes ycode ybins) (ef_chunk ycode ybins yorigin) (ef_finish ycode ybins) (fun _ => mchunks) f s -> mvalue f (ef_eval ycode yorigin yobj f s).
Proof.
  intros Hf Ht d. apply (trained_fit ycode ybins yorigin mchunks _ (fun _ => eq_refl)) in Ht. destruct (scalls f Hf) as [H1 H2]. destruct (fitted_factor_value (ycode f) (ybins f) mchunks H1 H2) as [_ H]. destruct (H s Ht) as [_ E].
  unfold ef_eval. rewrite E. now destruct (fitted_value mchunks (ycode f) d).
Qed.
Lemma slearned f : In f (concat mterms) ->
  let learned := learned (ef_passes ycode ybins) (ef_chunk ycode ybins yorigin) (ef_finish ycode ybins) (ef_eval ycode yorigin yobj) yorigin (fun _ => 0) (fun l => l) (na_what mact) (fun _ => mchunks) (factors_of stls) f in
  match mnum f with Some n => exists s lv c, learned s (FNum n) lv c | None => exists s, learned s (FCat (length (mlevels f))) (mlevels f) None end.
Proof.
  intros Hf. assert (Ef : f = "a" \/ f = "center(x)") by (cbn in Hf; intuition). destruct Ef as [->| ->]; cbn [mnum String.eqb Ascii.eqb Bool.eqb].
  - eexists. eapply (learned_cat _ _ _ _ _ _ _ _ _ _ "a"); [eexists _, _; split; vm_compute; reflexivity|vm_compute; reflexivity|vm_compute; reflexivity].
  - eexists _, _, _. eapply (learned_num _ _ _ _ _ _ _ _ _ _ "center(x)"); [eexists _, _; split; vm_compute; reflexivity|vm_compute; reflexivity].
Qed.
(** Both designs, and the four rows of both matrices. *)
Example designs_ex :
  design_of 0%Z 1%Z Z.add Z.mul mterms mnum 4 (srows 0 mterms) /\ design_of 0%Z 1%Z Z.add Z.mul sterms mnum 4 (srows 1 sterms) /\
  forall r, r < 4 -> srows 0 mterms mmatrix r (mlevel r) (mnumber r) /\ srows 1 sterms smatrix r (mlevel r) (mnumber r).
Proof.
  assert (D : forall j tl x, nth_error stls j = Some tl -> nth_error sdesigns j = Some x -> nth j sdesigns (mkDesign (mkDI [] None None None []) []) = x -> length (column_names (ds_info x)) = 4 ->
    Forall (@NoDup factor) tl -> incl (concat tl) (concat mterms) -> design_of 0%Z 1%Z Z.add Z.mul tl mnum 4 (srows j tl)).
  { intros j tl x H1 H2 H2' H3 H4 H5. rewrite <- H3. unfold srows. rewrite H2'.
    refine (design_of_intro 0%Z 1%Z Z.add Z.mul tl mnum nat unit _ ydata (Z.eqb (-99)) (fun n => n) Nat.eqb (ef_passes ycode ybins) (ef_chunk ycode ybins yorigin) (ef_finish ycode ybins) (ef_eval ycode yorigin yobj) yorigin ycm mhash
      (fun l => l) (fun _ l => l) (fun _ l => l) (fun _ => 0) (fun l => l) (fun _ : ydata => None) mvalue (fun _ => mchunks) (NAStr "drop") mact stls sdesigns j x mlevels (fun _ => None) Nat.eqb_eq _ _ _ _ svalue_fun sval _ eq_refl H1 H2 H4 _ _ _);
      try (intros; apply Permutation_refl).
    - exact (proj1 (proj2 (proj2 (proj2 entries_ex)))).
    - vm_compute. reflexivity.
    - intros a b Ha Hb. apply mhash_free; intros f Hf; apply H5; [now apply Ha|now apply Hb].
    - intros f Hf. apply slearned, H5, Hf.
    - intros cm f Hf. apply all_categoricals_in in Hf. destruct Hf as [Hf E]. apply H5 in Hf. assert (f = "a") as -> by (cbn in Hf; destruct Hf as [<-|[<-|[<-|[<-|[]]]]]; try reflexivity; discriminate). exact mgood. }
  split; [|split].
  - eapply D; try reflexivity; [repeat constructor; cbn; intuition discriminate|apply incl_refl].
  - eapply D; try reflexivity; [repeat constructor; cbn; intuition discriminate|intros f Hf; cbn in *; tauto].
  - intros r Hr.
    assert (G : forall j tl m, nth_error sdesigns j = Some (nth j sdesigns (mkDesign (mkDI [] None None None []) [])) -> nth_error [mmatrix; smatrix] j = Some m -> m_rows m = 4 -> incl (concat tl) (concat mterms) ->
      srows j tl m r (mlevel r) (mnumber r)).
    { intros j tl m H1 H2 H3 H4. eapply (row_of_intro _ _ _ _ _ _ _ _ _ _ _ _ _ _ _ _ _ _ _ _ _ _ _ sdesigns mdata (NAStr "drop") false [mmatrix; smatrix] None j mlevel mnumber).
      - apply incl_refl.
      - intros f g o _ Hg E. rewrite Hg in E. destruct (fitted_value mchunks (ycode f) mdata) as [[l|l]|]; [injection E as <-; exact Logic.I..|discriminate].
      - vm_compute. reflexivity.
      - exact H1.
      - exact H2.
      - now rewrite H3.
      - intros act' n ks E Hu. injection E as <-. assert (Ek : ks = [0; 1; 3; 4]).
        { apply (srows_used n). destruct Hu as [U1 [U2 [U3 U4]]]. split; [|split; [exact U2|split; [exact U3|]]].
          - intros f Hf. apply U1. vm_compute. vm_compute in Hf. tauto.
          - intros k. rewrite U4. split; intros [A B]; (split; [exact A|]); intros f Hf; apply B; vm_compute; vm_compute in Hf; tauto. }
        rewrite Ek. now apply sdescr.
      - reflexivity.
      - reflexivity. }
    split; apply G; try reflexivity; [apply incl_refl|intros f Hf; cbn in *; tauto].
Qed.
(** For instance: 5 + 7 [a = q] + 2 x + 3 x [a = q], with x centered. *)
Example predictions_ex : forall r, r < 4 -> prediction 0%Z Z.add Z.mul mmatrix [5; 7; 2; 3]%Z r = prediction 0%Z Z.add Z.mul smatrix [5; 12; 2; 5]%Z r.
Proof. intros [|[|[|[|r]]]] H; try reflexivity. lia. Qed.
