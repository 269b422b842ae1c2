(** C106: shifting, scaling and combining the numeric variables of a model. *)
From Coq Require Import ZArith Permutation Ring_theory ZArithRing Sorted.
From Verif Require Import Base RedundancyModel RedundancySpec RankSpec DescModel FormulaModel BuildModel BuildSpec MemorizeModel MemorizeSpec MemorizeProofs CategoricalModel CategoricalSpec PipeModel PipeSpec PipeProofs
  FitModel FitSpec FitProofs FitProps EntryModel EntrySpec EntryProofs EntryFitProofs EntryProps RankMatSpec RankMatProofs RankPipeSpec RankPipeProofs RankMatProps SpaceSpec SpaceProofs SpaceProps AffineSpec AffineProofs.
Open Scope string_scope.
Open Scope list_scope.
Open Scope nat_scope.

(** C106.  If the numeric factors of one design are combinations of those of another, up to constants that are added,
    and each of its terms, with any of the factors that something is added to left out, is in a term of the other,
    then the other can predict whatever the one can, on any data. *)
Theorem affine_predictions : forall {V : Type} (rO rI : V) radd rmul rsub ropp other scale shift tl1 num1 c1 rows1 tl2 num2 c2 rows2
    {P : Type} (ok : P -> Prop) (level1 level2 : P -> factor -> nat) (number1 number2 : P -> factor -> nat -> V),
  ring_theory rO rI radd rmul rsub ropp (@eq V) ->
  design_of rO rI radd rmul tl1 num1 c1 rows1 -> design_of rO rI radd rmul tl2 num2 c2 rows2 ->
  affine rO radd rmul other scale shift num1 num2 ok number1 number2 (concat tl1) -> contained other shift num1 num2 tl1 tl2 ->
  (forall p f, ok p -> In f (all_categoricals num1 tl1) -> level1 p f = level2 p f) ->
  forall co, length co = c1 -> exists co', length co' = c2 /\
    forall p m1 r1 m2 r2, ok p -> rows1 m1 r1 (level1 p) (number1 p) -> rows2 m2 r2 (level2 p) (number2 p) ->
      prediction rO radd rmul m1 co r1 = prediction rO radd rmul m2 co' r2.
Proof. intros. eapply affine_lemma; eassumption. Qed.
Print Assumptions affine_predictions.

(** C106.  For a hierarchical model, the same model over other variables predicts the same: neither can do more. *)
Theorem reparametrised : forall {V : Type} (rO rI : V) radd rmul rsub ropp other back scale unscale shift tl num1 c1 rows1 num2 c2 rows2
    {P : Type} (ok : P -> Prop) (level1 level2 : P -> factor -> nat) (number1 number2 : P -> factor -> nat -> V),
  ring_theory rO rI radd rmul rsub ropp (@eq V) ->
  design_of rO rI radd rmul tl num1 c1 rows1 -> design_of rO rI radd rmul (map (map other) tl) num2 c2 rows2 ->
  same_model_over rO rI radd rmul other back scale unscale shift num1 num2 ok level1 level2 number1 number2 tl ->
  hierarchical (fun f => shift f <> None) num1 tl ->
  (forall co, length co = c1 -> exists co', length co' = c2 /\
     forall p m1 r1 m2 r2, ok p -> rows1 m1 r1 (level1 p) (number1 p) -> rows2 m2 r2 (level2 p) (number2 p) -> prediction rO radd rmul m1 co r1 = prediction rO radd rmul m2 co' r2) /\
  (forall co', length co' = c2 -> exists co, length co = c1 /\
     forall p m1 r1 m2 r2, ok p -> rows1 m1 r1 (level1 p) (number1 p) -> rows2 m2 r2 (level2 p) (number2 p) -> prediction rO radd rmul m1 co r1 = prediction rO radd rmul m2 co' r2).
Proof. intros. eapply equivalent_lemma; eassumption. Qed.
Print Assumptions reparametrised.

(** C106.  In particular where nothing is added, or where there are only terms of single factors and an intercept,
    every model is hierarchical; and so is one with all the products of some factors. *)
Theorem hierarchical_models : forall shifted num,
  (forall tl, (forall f, In f (concat tl) -> ~ shifted f) -> hierarchical shifted num tl) /\
  (forall tl, In [] tl -> (forall t, In t tl -> length t <= 1) -> hierarchical shifted num tl) /\
  (forall tl, (forall t f a b, In t tl -> t = a ++ f :: b -> exists u, In u tl /\ Permutation (a ++ b) u) -> hierarchical shifted num tl).
Proof.
  intros shifted num.
  assert (I : forall t f a b, numerics num t = a ++ f :: b -> In f t /\ is_numeric num f = true).
  { intros t f a b E. apply filter_In. fold (numerics num t). rewrite E. apply in_or_app. right. now left. }
  split; [|split].
  - intros tl H t f a b Ht Hf E. exfalso. apply (H f); [|exact Hf]. apply in_concat. exists t. split; [exact Ht|]. apply (I t f a b E).
  - intros tl H0 H t f a b Ht _ E. specialize (H t Ht). destruct t as [|g [|h t]]; [destruct a; discriminate| |cbn in H; lia]. exists []. split; [exact H0|].
    unfold numerics, categoricals in *. cbn [filter] in *. destruct (is_numeric num g); cbn [negb]; [|destruct a; discriminate]. destruct a as [|x [|y a]]; [injection E as <- <-|discriminate..]. split; [constructor|apply incl_refl].
  - intros tl H t f a b Ht _ E.
    destruct (I t f a b E) as [Hf Nf].
    assert (S : forall l a b, numerics num l = a ++ f :: b -> exists a' b', l = a' ++ f :: b' /\ numerics num a' = a /\ numerics num b' = b).
    { induction l as [|g l IH]; intros a0 b0 E0; [destruct a0; discriminate|]. unfold numerics in E0. cbn [filter] in E0. destruct (is_numeric num g) eqn:Ng.
      - destruct a0 as [|x a0]; cbn in E0.
        + injection E0 as -> <-. exists [], l. repeat split.
        + injection E0 as -> E0. destruct (IH a0 b0 E0) as [a' [b' [-> [<- <-]]]]. exists (x :: a'), b'. unfold numerics. cbn [filter]. rewrite Ng. repeat split.
      - destruct (IH a0 b0 E0) as [a' [b' [-> [<- <-]]]]. exists (g :: a'), b'. unfold numerics. cbn [filter]. rewrite Ng. repeat split. }
    destruct (S t a b E) as [a' [b' [-> [<- <-]]]]. destruct (H _ f a' b' Ht eq_refl) as [u [Hu P]]. exists u. split; [exact Hu|].
    assert (F : forall (q : factor -> bool) l l', Permutation l l' -> Permutation (filter q l) (filter q l')).
    { intros q. induction 1 as [|x l l' P' IH|x y l|l l' l'' P1 IH1 P2 IH2]; cbn [filter]; [constructor|destruct (q x); [now constructor|exact IH]|destruct (q x), (q y); try constructor; apply Permutation_refl|now transitivity (filter q l')]. }
    split.
    + unfold numerics. rewrite <- filter_app. now apply F.
    + intros g Hg. apply filter_In in Hg. destruct Hg as [Hg N]. apply filter_In. split; [|exact N]. apply (Permutation_in _ P). apply in_app_or in Hg. apply in_or_app. destruct Hg as [Hg|[->|Hg]]; [now left| |now right].
      rewrite Nf in N. discriminate.
Qed.
Print Assumptions hierarchical_models.

(** * Example: [a * x] and [a * center(x)]. *)
Definition acode (f : factor) : @texpr yval ydata (Z * Z) := if String.eqb f "x" then TLeaf (fun d => Ok (inr (map snd d))) else ycode f.
Definition ahash (l : list (bool * factor)) : Z := (mhas "a" l 1 + mhas "center(x)" l 2 + mhas "x" l 4)%Z.
Definition axterms : list term := [[]; ["a"]; ["x"]; ["a"; "x"]].
Definition atls := [axterms; mterms].
Definition adesigns := match design_matrix_builders (ef_passes acode ybins) (ef_chunk acode ybins yorigin) (ef_finish acode ybins) (ef_eval acode yorigin yobj) yorigin ycm
  ahash (fun l => l) (fun _ l => l) (fun _ l => l) (fun _ => 0) (fun l => l) (fun _ => mchunks) (NAStr "drop") atls with Ok ds => ds | Err _ => [] end.
Definition anum (f : factor) : option nat := if String.eqb f "a" then None else Some 1.
Definition anumber (r : nat) (f : factor) (i : nat) : Z := if String.eqb f "x" then nth r [1; 2; 3; 6]%Z 0%Z else nth r [-2; -1; 0; 3]%Z 0%Z.
Definition amatrix : @dmat Z := mkMat 4 [[1; 1; 1; 1]; [0; 1; 0; 1]; [1; 2; 3; 6]; [0; 2; 0; 6]]%Z.
Definition avalue f (g : ydata -> result (@fobj Z nat unit)) := forall d, g d = match fitted_value mchunks (acode f) d with Ok v => Ok (yobj v) | Err _ => Err (PatsyError "Error evaluating factor" (yorigin f)) end.
Definition arows (j : nat) (tl : list term) := row_of 1%Z Z.mul (Z.eqb (-99)) (fun n => n) Nat.eqb (ef_eval acode yorigin yobj) yorigin (fun _ => 0) (fun l => l) (fun _ : ydata => None) avalue (na_what mact) mchunks
  adesigns (nth j adesigns (mkDesign (mkDI [] None None None []) [])) tl anum mlevels (fun _ => None).
Definition aother (f : factor) : factor := if String.eqb f "x" then "center(x)" else f.
Definition aback (f : factor) : factor := if String.eqb f "center(x)" then "x" else f.
Definition ashift (f : factor) : option (nat -> Z) := if String.eqb f "x" then Some (fun _ => 3%Z) else None.

Lemma avalue_fun : forall f g g', avalue f g -> avalue f g' -> forall d, g d = g' d.
Proof. intros f g g' H H' d. now rewrite H, H'. Qed.
Lemma avalue_a : factor_value yorigin (fun _ => 0) (fun l => l) avalue (na_what mact) mchunks (na_what mact) mdata "a" (mlevels "a") None (VCat [0; 1; 0; 0; 1]%Z).
Proof.
  eapply fv_cat with (g := fun d => match fitted_value mchunks (acode "a") d with Ok v => Ok (yobj v) | Err _ => Err (PatsyError "Error evaluating factor" (yorigin "a")) end).
  * intros d. reflexivity.
  * vm_compute. reflexivity.
  * vm_compute. reflexivity.
  * vm_compute. reflexivity.
  * cbn [o_value]. eapply ca_values with (d := DSeq false [VStr "p"; VStr "q"; VStr "p"; VStr "p"; VStr "q"]); [left; split; [reflexivity|intros [c [z E]]; discriminate]|constructor|].
    assert (N : forall s, nan_text s = false -> ~ missing {| nan_is_na := true; none_is_na := true |} (VStr s)) by (intros s E [[_ [[i H]|[s' [H H']]]]|[_ H]]; [discriminate|injection H as <-; congruence|discriminate]).
    assert (Kp : CategoricalSpec.coded {| nan_is_na := true; none_is_na := true |} [VStr "p"; VStr "q"] (VStr "p") 0%Z) by (right; split; [now apply N|]; exists [], (VStr "p"), [VStr "q"]; repeat split; [intros x [<-|[]] H; discriminate]).
    assert (Kq : CategoricalSpec.coded {| nan_is_na := true; none_is_na := true |} [VStr "p"; VStr "q"] (VStr "q") 1%Z) by (right; split; [now apply N|]; exists [VStr "p"], (VStr "q"), []; repeat split; [intros x []]).
    repeat (apply Forall2_cons; [assumption|]); apply Forall2_nil.
Qed.
Lemma avalue_c : factor_value yorigin (fun _ => 0) (fun l => l) avalue (na_what mact) mchunks (na_what mact) mdata "center(x)" [] None (VNum 1 [[-2]; [-1]; [-99]; [0]; [3]]%Z).
Proof.
  eapply (fv_num _ _ _ _ _ _ _ _ _ (fun d => match fitted_value mchunks (acode "center(x)") d with Ok v => Ok (yobj v) | Err _ => Err (PatsyError "Error evaluating factor" (yorigin "center(x)")) end) 1
    (yobj (inr [-2; -1; -99; 0; 3]%Z))); try reflexivity; [|cbn; lia]. intros d. reflexivity.
Qed.
Lemma avalue_x : factor_value yorigin (fun _ => 0) (fun l => l) avalue (na_what mact) mchunks (na_what mact) mdata "x" [] None (VNum 1 [[1]; [2]; [-99]; [3]; [6]]%Z).
Proof.
  eapply (fv_num _ _ _ _ _ _ _ _ _ (fun d => match fitted_value mchunks (acode "x") d with Ok v => Ok (yobj v) | Err _ => Err (PatsyError "Error evaluating factor" (yorigin "x")) end) 1
    (yobj (inr [1; 2; -99; 3; 6]%Z))); try reflexivity; [|cbn; lia]. intros d. reflexivity.
Qed.

Lemma ahash_free tl : incl (concat tl) ["a"; "x"; "center(x)"] -> collision_free ahash (concat tl).
Proof.
  intros Ht a b Ha Hb _ _. unfold ahash. rewrite !mhas_in.
  assert (K : forall l, incl l (concat tl) -> forall f, In f l -> f = "a" \/ f = "x" \/ f = "center(x)") by (intros l Hl f Hf; apply Hl, Ht in Hf; cbn in Hf; intuition).
  destruct (in_dec string_dec "a" a), (in_dec string_dec "center(x)" a), (in_dec string_dec "x" a), (in_dec string_dec "a" b), (in_dec string_dec "center(x)" b), (in_dec string_dec "x" b); split; intros H; try discriminate; try reflexivity;
    try (intros f; split; intros Hf; [destruct (K a Ha f Hf) as [->|[->| ->]]|destruct (K b Hb f Hf) as [->|[->| ->]]]; tauto);
    exfalso; pose proof (H "a"); pose proof (H "center(x)"); pose proof (H "x"); tauto.
Qed.
Lemma adescr tl : incl (concat tl) ["a"; "x"; "center(x)"] ->
  describes (factor_value yorigin (fun _ => 0) (fun l => l) avalue (na_what mact) mchunks (na_what mact) mdata) [0; 1; 3; 4] tl anum mlevels (fun _ => None) mlevel anumber.
Proof.
  intros Hi f Hf. apply Hi in Hf. destruct Hf as [<-|[<-|[<-|[]]]]; cbn [anum String.eqb Ascii.eqb Bool.eqb].
  - exists [0; 1; 0; 0; 1]%Z. split; [exact avalue_a|]. intros [|[|[|[|r]]]] k H; cbn in H; try (injection H as <-; vm_compute; split; [reflexivity|lia]). destruct r; discriminate.
  - exists [[1]; [2]; [-99]; [3]; [6]]%Z. split; [exact avalue_x|]. intros [|[|[|[|r]]]] k row i v H1 H2 H3; cbn in H1; try (injection H1 as <-; cbn in H2; injection H2 as <-; destruct i as [|[|i]]; [injection H3 as <-; reflexivity|discriminate..]). destruct r; discriminate.
  - exists [[-2]; [-1]; [-99]; [0]; [3]]%Z. split; [exact avalue_c|]. intros [|[|[|[|r]]]] k row i v H1 H2 H3; cbn in H1; try (injection H1 as <-; cbn in H2; injection H2 as <-; destruct i as [|[|i]]; [injection H3 as <-; reflexivity|discriminate..]). destruct r; discriminate.
Qed.
Lemma arows_used n ks : rows_used (Z.eqb (-99)) yorigin (fun _ => 0) (fun l => l) avalue (na_what mact) mchunks (na_what mact) mdata None ["a"; "x"; "center(x)"] n ks -> ks = [0; 1; 3; 4].
Proof.
  intros [Hn [_ [Hs Hin]]].
  assert (En : n = 5).
  { destruct (Hn "a" (or_introl eq_refl)) as [lv [c [v [F <-]]]]. now rewrite (factor_value_fun _ _ _ _ avalue_fun _ _ _ _ _ _ _ _ F _ _ _ avalue_a). }
  subst n. apply lt_sorted_unique; [exact Hs|repeat constructor; lia|]. intros k. rewrite Hin.
  assert (L : forall f k, In f ["a"; "x"; "center(x)"] -> k < 5 -> k <> 2 -> ~ lacks (Z.eqb (-99)) yorigin (fun _ => 0) (fun l => l) avalue (na_what mact) mchunks (na_what mact) mdata f k).
  { intros f k0 Hf Hk Hk2 [lv c n rows row x F E1 E2 _ E3|lv c codes F E]; destruct Hf as [<-|[<-|[<-|[]]]].
    - pose proof (factor_value_fun _ _ _ _ avalue_fun _ _ _ _ _ _ _ _ F _ _ _ avalue_a). discriminate.
    - pose proof (factor_value_fun _ _ _ _ avalue_fun _ _ _ _ _ _ _ _ F _ _ _ avalue_x) as E'. injection E' as -> ->. destruct k0 as [|[|[|[|[|k0]]]]]; cbn in E1; try discriminate; [..|lia]; try (injection E1 as <-; destruct E2 as [<-|[]]; discriminate). now apply Hk2.
    - pose proof (factor_value_fun _ _ _ _ avalue_fun _ _ _ _ _ _ _ _ F _ _ _ avalue_c) as E'. injection E' as -> ->. destruct k0 as [|[|[|[|[|k0]]]]]; cbn in E1; try discriminate; [..|lia]; try (injection E1 as <-; destruct E2 as [<-|[]]; discriminate). now apply Hk2.
    - pose proof (factor_value_fun _ _ _ _ avalue_fun _ _ _ _ _ _ _ _ F _ _ _ avalue_a) as E'. injection E' as ->. destruct k0 as [|[|[|[|[|k0]]]]]; cbn in E; try discriminate. lia.
    - pose proof (factor_value_fun _ _ _ _ avalue_fun _ _ _ _ _ _ _ _ F _ _ _ avalue_x). discriminate.
    - pose proof (factor_value_fun _ _ _ _ avalue_fun _ _ _ _ _ _ _ _ F _ _ _ avalue_c). discriminate. }
  assert (L2 : lacks (Z.eqb (-99)) yorigin (fun _ => 0) (fun l => l) avalue (na_what mact) mchunks (na_what mact) mdata "center(x)" 2).
  { eapply lk_num; [exact avalue_c|reflexivity|now left|reflexivity|reflexivity]. }
  split.
  - intros [Hk H]. assert (k <> 2) by (intros ->; apply (H "center(x)"); [now right; right; left|exact L2]). cbn. lia.
  - intros Hk. assert (k < 5 /\ k <> 2) as [H1 H2] by (cbn in Hk; lia). split; [exact H1|]. intros f Hf. now apply L.
Qed.
Lemma acalls f : In f ["a"; "x"; "center(x)"] -> NoDup (map fst (calls (acode f))) /\ inner_first (acode f) (ybins f).
Proof.
  intros Hf. destruct Hf as [<-|[<-|[<-|[]]]]; (split; [cbn; repeat constructor; intros []|]); (split; [cbn; apply Permutation_refl|]); intros o c' args o' p q bin bin' Hc Ho; cbn in Hc; [destruct Hc|destruct Hc|destruct Hc as [Hc|[]]; injection Hc as <- <- <-; destruct Ho].
Qed.
Lemma afactors f : In f (factors_of atls) -> In f ["a"; "x"; "center(x)"].
Proof. intros Hf. cbn in *. intuition. Qed.
Lemma aval f s : In f (factors_of atls) -> trained (ef_passes acode ybins) (ef_chunk acode ybins yorigin) (ef_finish acode ybins) (fun _ => mchunks) f s -> avalue f (ef_eval acode yorigin yobj f s).
Proof.
  intros Hf Ht d. apply (trained_fit acode ybins yorigin mchunks _ (fun _ => eq_refl)) in Ht. destruct (acalls f (afactors f Hf)) as [H1 H2]. destruct (fitted_factor_value (acode f) (ybins f) mchunks H1 H2) as [_ H]. destruct (H s Ht) as [_ E].
  unfold ef_eval. rewrite E. now destruct (fitted_value mchunks (acode f) d).
Qed.
Lemma alearned f : In f ["a"; "x"; "center(x)"] ->
  let learned := learned (ef_passes acode ybins) (ef_chunk acode ybins yorigin) (ef_finish acode ybins) (ef_eval acode yorigin yobj) yorigin (fun _ => 0) (fun l => l) (na_what mact) (fun _ => mchunks) (factors_of atls) f in
  match anum f with Some n => exists s lv c, learned s (FNum n) lv c | None => exists s, learned s (FCat (length (mlevels f))) (mlevels f) None end.
Proof.
  intros [<-|[<-|[<-|[]]]]; cbn [anum String.eqb Ascii.eqb Bool.eqb].
  - eexists. eapply (learned_cat _ _ _ _ _ _ _ _ _ _ "a"); [eexists _, _; split; vm_compute; reflexivity|vm_compute; reflexivity|vm_compute; reflexivity].
  - eexists _, _, _. eapply (learned_num _ _ _ _ _ _ _ _ _ _ "x"); [eexists _, _; split; vm_compute; reflexivity|vm_compute; reflexivity].
  - eexists _, _, _. eapply (learned_num _ _ _ _ _ _ _ _ _ _ "center(x)"); [eexists _, _; split; vm_compute; reflexivity|vm_compute; reflexivity].
Qed.
(** The designs, the rows of their matrices, and the relation between x and center(x): the mean of x is 3. *)
Example reparametrised_hyps :
  design_of 0%Z 1%Z Z.add Z.mul axterms anum 4 (arows 0 axterms) /\ design_of 0%Z 1%Z Z.add Z.mul (map (map aother) axterms) anum 4 (arows 1 mterms) /\
  same_model_over 0%Z 1%Z Z.add Z.mul aother aback (fun _ _ _ => 1%Z) (fun _ _ _ => 1%Z) ashift anum anum (fun r => r < 4) mlevel mlevel anumber anumber axterms /\
  hierarchical (fun f => ashift f <> None) anum axterms /\
  forall r, r < 4 -> arows 0 axterms amatrix r (mlevel r) (anumber r) /\ arows 1 mterms mmatrix r (mlevel r) (anumber r).
Proof.
  assert (D : forall j tl x, nth_error atls j = Some tl -> nth_error adesigns j = Some x -> nth j adesigns (mkDesign (mkDI [] None None None []) []) = x -> length (column_names (ds_info x)) = 4 ->
    Forall (@NoDup factor) tl -> incl (concat tl) ["a"; "x"; "center(x)"] -> design_of 0%Z 1%Z Z.add Z.mul tl anum 4 (arows j tl)).
  { intros j tl x H1 H2 H2' H3 H4 H5. rewrite <- H3. unfold arows. rewrite H2'.
    refine (design_of_intro 0%Z 1%Z Z.add Z.mul tl anum nat unit _ ydata (Z.eqb (-99)) (fun n => n) Nat.eqb (ef_passes acode ybins) (ef_chunk acode ybins yorigin) (ef_finish acode ybins) (ef_eval acode yorigin yobj) yorigin ycm ahash
      (fun l => l) (fun _ l => l) (fun _ l => l) (fun _ => 0) (fun l => l) (fun _ : ydata => None) avalue (fun _ => mchunks) (NAStr "drop") mact atls adesigns j x mlevels (fun _ => None) Nat.eqb_eq _ _ _ _ avalue_fun aval _ eq_refl H1 H2 H4 _ _ _);
      try (intros; apply Permutation_refl).
    - intros f s d o i. unfold ef_eval. destruct (wrap_exc _ _ _) as [[l|l]|]; cbn; [intros [= <-]; discriminate..|discriminate].
    - vm_compute. reflexivity.
    - now apply ahash_free.
    - intros f Hf. apply alearned, H5, Hf.
    - intros cm f Hf. apply all_categoricals_in in Hf. destruct Hf as [Hf E]. apply H5 in Hf. assert (f = "a") as -> by (cbn in Hf; destruct Hf as [<-|[<-|[<-|[]]]]; try reflexivity; discriminate). exact mgood. }
  split; [|split; [|split; [|split]]].
  - eapply D; try reflexivity; [repeat constructor; cbn; intuition discriminate|intros f Hf; cbn in *; tauto].
  - change (map (map aother) axterms) with mterms. eapply D; try reflexivity; [repeat constructor; cbn; intuition discriminate|intros f Hf; cbn in *; tauto].
  - intros f Hf. assert (Ef : f = "a" \/ f = "x") by (cbn in Hf; intuition). destruct Ef as [->| ->]; (split; [reflexivity|]); (split; [reflexivity|]); cbn [anum String.eqb Ascii.eqb Bool.eqb].
    + split; reflexivity.
    + split; [split; intros [|i] [|j] Hi Hj; try lia; reflexivity|]. intros [|[|[|[|r]]]] [|k] Hr Hk; try lia; reflexivity.
  - apply (proj2 (proj2 (hierarchical_models (fun f => ashift f <> None) anum))). intros t f a b Ht E. cbn in Ht. destruct Ht as [<-|[<-|[<-|[<-|[]]]]]; destruct a as [|y [|z a]]; cbn in E; try discriminate; try (destruct a; discriminate); injection E; intros; subst.
    + exists []. split; [now left|constructor].
    + exists []. split; [now left|constructor].
    + exists ["x"]. split; [cbn; tauto|apply Permutation_refl].
    + exists ["a"]. split; [cbn; tauto|apply Permutation_refl].
  - intros r Hr.
    assert (G : forall j tl m, nth_error adesigns j = Some (nth j adesigns (mkDesign (mkDI [] None None None []) [])) -> nth_error [amatrix; mmatrix] j = Some m -> m_rows m = 4 -> incl (concat tl) ["a"; "x"; "center(x)"] ->
      arows j tl m r (mlevel r) (anumber r)).
    { intros j tl m H1 H2 H3 H4. eapply (row_of_intro _ _ _ _ _ _ _ _ _ _ _ _ _ _ _ _ _ _ _ _ _ _ _ adesigns mdata (NAStr "drop") false [amatrix; mmatrix] None j mlevel anumber).
      - apply incl_refl.
      - intros f g o _ Hg E. rewrite Hg in E. destruct (fitted_value mchunks (acode f) mdata) as [[l|l]|]; [injection E as <-; exact Logic.I..|discriminate].
      - vm_compute. reflexivity.
      - exact H1.
      - exact H2.
      - now rewrite H3.
      - intros act' n ks E Hu. injection E as <-. assert (Ek : ks = [0; 1; 3; 4]).
        { apply (arows_used n). destruct Hu as [U1 [U2 [U3 U4]]]. split; [|split; [exact U2|split; [exact U3|]]].
          - intros f Hf. apply U1. vm_compute. vm_compute in Hf. tauto.
          - intros k. rewrite U4. split; intros [A B]; (split; [exact A|]); intros f Hf; apply B; vm_compute; vm_compute in Hf; tauto. }
        rewrite Ek. now apply adescr.
      - reflexivity.
      - reflexivity. }
    split; apply G; try reflexivity; intros f Hf; cbn in *; tauto.
Qed.
(** 5 + 7 [a = q] + 2 x + 3 x [a = q] is 11 + 16 [a = q] + 2 center(x) + 3 center(x) [a = q]; and back. *)
Example reparametrised_ex : forall r, r < 4 -> prediction 0%Z Z.add Z.mul amatrix [5; 7; 2; 3]%Z r = prediction 0%Z Z.add Z.mul mmatrix [11; 16; 2; 3]%Z r.
Proof. intros [|[|[|[|r]]]] H; try reflexivity. lia. Qed.
(** Without the intercept it is not so: [0 + x] is not a multiple of center(x). *)
Example not_hierarchical_ex : ~ hierarchical (fun f => ashift f <> None) anum [["x"]] /\
  ~ exists c, forall r, r < 4 -> prediction 0%Z Z.add Z.mul (mkMat 4 [[1; 2; 3; 6]]%Z) [1]%Z r = prediction 0%Z Z.add Z.mul (mkMat 4 [[-2; -1; 0; 3]]%Z) [c] r.
Proof.
  split.
  - intros H. destruct (H ["x"] "x" [] []) as [u [[<-|[]] [P _]]]; [now left|discriminate|reflexivity|]. apply Permutation_nil in P. discriminate.
  - intros [c H]. specialize (H 2). unfold prediction in H. cbn in H. rewrite Z.mul_0_r in H. discriminate H. lia.
Qed.
