(** Proofs about shifted and scaled variables (C106). *)
From Coq Require Import ZArith Permutation Ring_theory Ring.
From Verif Require Import Base RedundancySpec RankSpec RankProofs DescModel BuildModel BuildSpec PipeSpec EntrySpec RankMatSpec RankMatProofs RankPipeSpec SpaceSpec SpaceProofs AffineSpec.
Open Scope list_scope.
Open Scope nat_scope.

Section Models.
Context {R : Type} (rO rI : R) (radd rmul rsub : R -> R -> R) (ropp : R -> R).
Hypothesis Rth : ring_theory rO rI radd rmul rsub ropp (@eq R).
Add Ring Rr : Rth.
Variables (other : factor -> factor) (scale : factor -> nat -> nat -> R) (shift : factor -> option (nat -> R)).
Variables (num1 num2 : factor -> option nat).
Context {P : Type}.
Notation prod := (product rI rmul).
Notation aff := (affine rO radd rmul other scale shift num1 num2).

Lemma expand (ok : P -> Prop) number1 number2 fs : aff ok number1 number2 fs -> forall ks, Forall2 (fun k f => k < width num1 f) ks fs ->
  exists cs : list (R * (list factor * list nat)),
    Forall (fun x => left_out shift fs (fst (snd x)) /\ Forall2 (fun j g => j < width num2 g) (snd (snd x)) (map other (fst (snd x)))) cs /\
    forall p, ok p -> prod number1 (combine fs ks) p = rsum rO radd (fun x => rmul (fst x) (prod number2 (combine (map other (fst (snd x))) (snd (snd x))) p)) cs.
Proof.
  induction fs as [|f fs IH]; intros Ha ks Hks.
  - inversion Hks; subst. exists [(rI, ([], []))]. split; [repeat constructor|]. intros p _. unfold product. cbn. ring.
  - inversion Hks as [|k f0 ks0 fs0 Hk Hks0]; subst.
    destruct (IH (fun g n Hg => Ha g n (or_intror Hg)) ks0 Hks0) as [cs [Hcs E]].
    unfold width in Hk. destruct (num1 f) as [n|] eqn:En; [|lia].
    destruct (Ha f n (or_introl eq_refl) En) as [n' [En' Ef]].
    set (keep := flat_map (fun j => map (fun x : R * (list factor * list nat) => (rmul (scale f k j) (fst x), (f :: fst (snd x), j :: snd (snd x)))) cs) (seq 0 n')).
    set (leave := match shift f with Some b => map (fun x : R * (list factor * list nat) => (rmul (b k) (fst x), snd x)) cs | None => [] end).
    exists (keep ++ leave). rewrite Forall_forall in Hcs. split.
    + apply Forall_app. split; apply Forall_forall; intros x Hx.
      * apply in_flat_map in Hx. destruct Hx as [j [Hj Hx]]. apply in_map_iff in Hx. destruct Hx as [y [<- Hy]]. destruct (Hcs y Hy) as [A B]. cbn. split; [now constructor|]. constructor; [|exact B].
        unfold width. rewrite En'. apply in_seq in Hj. lia.
      * unfold leave in Hx. destruct (shift f) as [b|] eqn:Eb; [|destruct Hx]. apply in_map_iff in Hx. destruct Hx as [y [<- Hy]]. destruct (Hcs y Hy) as [A B]. cbn. split; [|exact B]. constructor; [congruence|exact A].
    + intros p Hp. rewrite (rsum_app rO rI radd rmul rsub ropp Rth). unfold keep. rewrite (rsum_flat rO rI radd rmul rsub ropp Rth).
      assert (E1 : rsum rO radd (fun j => rsum rO radd (fun x => rmul (fst x) (prod number2 (combine (map other (fst (snd x))) (snd (snd x))) p))
          (map (fun x : R * (list factor * list nat) => (rmul (scale f k j) (fst x), (f :: fst (snd x), j :: snd (snd x)))) cs)) (seq 0 n') =
        rmul (rsum rO radd (fun j => rmul (scale f k j) (number2 p (other f) j)) (seq 0 n')) (prod number1 (combine fs ks0) p)).
      { rewrite (E p Hp), <- (rsum_scale_r rO rI radd rmul rsub ropp Rth). apply (rsum_ext rO radd). intros j _. rewrite (rsum_map rO radd), <- (rsum_scale rO rI radd rmul rsub ropp Rth).
        apply (rsum_ext rO radd). intros x _. unfold product. cbn. ring. }
      assert (E2 : rsum rO radd (fun x => rmul (fst x) (prod number2 (combine (map other (fst (snd x))) (snd (snd x))) p)) leave = rmul (shift_by rO shift f k) (prod number1 (combine fs ks0) p)).
      { unfold leave, shift_by. destruct (shift f) as [b|]; [|cbn; ring]. rewrite (E p Hp), <- (rsum_scale rO rI radd rmul rsub ropp Rth), (rsum_map rO radd). apply (rsum_ext rO radd). intros x _. cbn. ring. }
      rewrite E1, E2. unfold product at 1. cbn [combine rprod fst snd]. rewrite (Ef p k Hp Hk). unfold product. ring.
Qed.

Lemma affine_model (ok : P -> Prop) level1 level2 number1 number2 tl1 tl2 Y :
  aff ok number1 number2 (concat tl1) -> contained other shift num1 num2 tl1 tl2 ->
  (forall p f, ok p -> In f (all_categoricals num1 tl1) -> level1 p f = level2 p f) ->
  in_model rO rI radd rmul ok num1 level1 number1 tl1 Y -> in_model rO rI radd rmul ok num2 level2 number2 tl2 Y.
Proof.
  intros Ha Hc Hlev [gs [Hgs HY]].
  assert (G : exists gs' : list (term * list nat * ((factor -> nat) -> R)),
    Forall (fun x => let '(t, ks, g) := x in In t tl2 /\ chooses num2 t ks /\ forall r r', (forall f, In f (categoricals num2 t) -> r f = r' f) -> g r = g r') gs' /\
    forall p, ok p -> rsum rO radd (fun x => let '(t, ks, g) := x in rmul (prod number1 (combine (numerics num1 t) ks) p) (g (level1 p))) gs =
      rsum rO radd (fun x => let '(t, ks, g) := x in rmul (prod number2 (combine (numerics num2 t) ks) p) (g (level2 p))) gs').
  { clear HY. induction Hgs as [|[[t ks] g] gs [Ht [Hk Hg]] Hgs IH].
    - exists []. split; [constructor|]. reflexivity.
    - destruct IH as [gs' [Hgs' E]].
      assert (Ha' : aff ok number1 number2 (numerics num1 t)).
      { intros f n Hf. apply Ha. apply in_concat. exists t. split; [exact Ht|]. now apply filter_In in Hf. }
      destruct (expand ok number1 number2 _ Ha' ks Hk) as [cs [Hcs Ecs]].
      assert (H1 : exists gs1 : list (term * list nat * ((factor -> nat) -> R)),
        Forall (fun x => let '(t, ks, g) := x in In t tl2 /\ chooses num2 t ks /\ forall r r', (forall f, In f (categoricals num2 t) -> r f = r' f) -> g r = g r') gs1 /\
        forall p, ok p -> rmul (rsum rO radd (fun x => rmul (fst x) (prod number2 (combine (map other (fst (snd x))) (snd (snd x))) p)) cs) (g (level1 p)) =
          rsum rO radd (fun x => let '(t, ks, g) := x in rmul (prod number2 (combine (numerics num2 t) ks) p) (g (level2 p))) gs1).
      { clear Ecs. induction Hcs as [|[c [s js]] cs [A B] Hcs IHc].
        - exists []. split; [constructor|]. intros p _. cbn. ring.
        - destruct IHc as [gs1 [G1 G2]]. cbn [fst snd] in A, B. destruct (Hc t s Ht A) as [u [Hu [Pu Cu]]].
          destruct (perm_choices (width num2) _ _ Pu js B) as [js' [B' Q]].
          exists ((u, js', fun r => rmul c (g r)) :: gs1). split.
          + constructor; [|exact G1]. split; [exact Hu|]. split; [exact B'|]. intros r r' Hr. f_equal. apply Hg. intros f Hf. apply Hr, Cu, Hf.
          + intros p Hp. cbn [rsum fst snd]. rewrite <- (G2 p Hp).
            assert (Eg : g (level1 p) = g (level2 p)).
            { apply Hg. intros f Hf. apply Hlev; [exact Hp|]. unfold all_categoricals. apply in_concat. exists (categoricals num1 t). split; [now apply in_map|exact Hf]. }
            rewrite <- Eg. assert (Ep : prod number2 (combine (map other s) js) p = prod number2 (combine (numerics num2 u) js') p) by (unfold product; now apply (SpaceProofs.rprod_perm rO rI radd rmul rsub ropp Rth)).
            rewrite Ep. ring. }
      destruct H1 as [gs1 [G1 G2]]. exists (gs1 ++ gs'). split; [now apply Forall_app|]. intros p Hp. cbn [rsum]. rewrite (rsum_app rO rI radd rmul rsub ropp Rth), (E p Hp), <- (G2 p Hp), (Ecs p Hp). reflexivity. }
  destruct G as [gs' [Hgs' E]]. exists gs'. split; [exact Hgs'|]. intros p Hp. rewrite (HY p Hp). now apply E.
Qed.
End Models.

(** From models to the designs made for them. *)
Lemma models_lemma {V : Type} (rO rI : V) (radd rmul rsub : V -> V -> V) (ropp : V -> V) tl1 num1 c1 rows1 tl2 num2 c2 rows2 {P : Type} (ok : P -> Prop) level1 level2 number1 number2 :
  ring_theory rO rI radd rmul rsub ropp (@eq V) -> design_of rO rI radd rmul tl1 num1 c1 rows1 -> design_of rO rI radd rmul tl2 num2 c2 rows2 ->
  (forall (ok' : P -> Prop) Y, (forall p, ok' p -> ok p) -> in_model rO rI radd rmul ok' num1 level1 number1 tl1 Y -> in_model rO rI radd rmul ok' num2 level2 number2 tl2 Y) ->
  forall co, length co = c1 -> exists co', length co' = c2 /\
    forall p m1 r1 m2 r2, ok p -> rows1 m1 r1 (level1 p) (number1 p) -> rows2 m2 r2 (level2 p) (number2 p) ->
      prediction rO radd rmul m1 co r1 = prediction rO radd rmul m2 co' r2.
Proof.
  intros Rth H1 H2 Hn co Hco.
  destruct (design_columns rO rI radd rmul rsub ropp tl1 num1 c1 rows1 Rth H1) as [_ [ids1 [nlev1 [E1 [S1 R1]]]]].
  destruct (design_columns rO rI radd rmul rsub ropp tl2 num2 c2 rows2 Rth H2) as [_ [ids2 [nlev2 [E2 [S2 R2]]]]].
  set (ok' := fun p => ok p /\ legit nlev1 (all_categoricals num1 tl1) (level1 p) /\ legit nlev2 (all_categoricals num2 tl2) (level2 p)).
  assert (Hs : in_span rO radd rmul ok' (map (column rO rI rmul level1 number1) ids1) (comb rO radd rmul co (map (column rO rI rmul level1 number1) ids1))).
  { exists co. split; [now rewrite map_length, E1|reflexivity]. }
  apply (S1 P ok' level1 number1) in Hs; [|intros p Hp; apply Hp].
  apply (Hn ok') in Hs; [|intros p Hp; apply Hp].
  apply (S2 P ok' level2 number2) in Hs; [|intros p Hp; apply Hp]. destruct Hs as [co' [Hl Hco']]. exists co'. split; [now rewrite Hl, map_length|].
  intros p m1 r1 m2 r2 Hp A B. destruct (R1 m1 r1 _ _ A) as [L1 Q1]. destruct (R2 m2 r2 _ _ B) as [L2 Q2].
  rewrite (Q1 P level1 number1 p co (fun _ => eq_refl) (fun _ _ => eq_refl)), (Q2 P level2 number2 p co' (fun _ => eq_refl) (fun _ _ => eq_refl)). apply Hco'. repeat split; assumption.
Qed.

Lemma affine_lemma {V : Type} (rO rI : V) (radd rmul rsub : V -> V -> V) (ropp : V -> V) other scale shift tl1 num1 c1 rows1 tl2 num2 c2 rows2 {P : Type} (ok : P -> Prop) level1 level2 number1 number2 :
  ring_theory rO rI radd rmul rsub ropp (@eq V) -> design_of rO rI radd rmul tl1 num1 c1 rows1 -> design_of rO rI radd rmul tl2 num2 c2 rows2 ->
  affine rO radd rmul other scale shift num1 num2 ok number1 number2 (concat tl1) -> contained other shift num1 num2 tl1 tl2 ->
  (forall p f, ok p -> In f (all_categoricals num1 tl1) -> level1 p f = level2 p f) ->
  forall co, length co = c1 -> exists co', length co' = c2 /\
    forall p m1 r1 m2 r2, ok p -> rows1 m1 r1 (level1 p) (number1 p) -> rows2 m2 r2 (level2 p) (number2 p) ->
      prediction rO radd rmul m1 co r1 = prediction rO radd rmul m2 co' r2.
Proof.
  intros Rth H1 H2 Ha Hc Hlev. apply (models_lemma rO rI radd rmul rsub ropp tl1 num1 c1 rows1 tl2 num2 c2 rows2 ok level1 level2 number1 number2 Rth H1 H2).
  intros ok' Y Hok. apply (affine_model rO rI radd rmul rsub ropp Rth other scale shift); [|exact Hc|intros p f Hp; apply Hlev; now apply Hok].
  intros f n Hf En. destruct (Ha f n Hf En) as [n' [A B]]. exists n'. split; [exact A|]. intros p k Hp. apply B. now apply Hok.
Qed.

(** * Hierarchical models *)
Section Hier.
Variables (R : Type) (other : factor -> factor) (shift : factor -> option (nat -> R)).
Lemma left_out_perm l l' : Permutation l l' -> forall s, left_out shift l s -> exists s', left_out shift l' s' /\ Permutation s s'.
Proof.
  induction 1 as [|x l l' H IH|x y l|l l' l'' H1 IH1 H2 IH2]; intros s Hs.
  - exists s. split; [exact Hs|apply Permutation_refl].
  - inversion Hs as [|? ? s0 H0|? ? ? Hx H0]; subst; destruct (IH _ H0) as [s' [A B]].
    + exists (x :: s'). split; [now constructor|now constructor].
    + exists s'. split; [now constructor|exact B].
  - inversion Hs as [|? ? s0 H0|? ? ? Hx H0]; subst; inversion H0 as [|? ? s1 H1|? ? ? Hy H1]; subst.
    + exists (x :: y :: s1). split; [now repeat constructor|constructor].
    + exists (y :: s0). split; [constructor; [exact Hy|now constructor]|apply Permutation_refl].
    + exists (x :: s1). split; [constructor; now constructor|apply Permutation_refl].
    + exists s. split; [constructor; [assumption|now constructor]|apply Permutation_refl].
  - destruct (IH1 s Hs) as [s1 [A B]]. destruct (IH2 s1 A) as [s2 [A2 B2]]. exists s2. split; [exact A2|]. now transitivity s1.
Qed.
Lemma left_out_inv l s : left_out shift l s -> s = l \/ exists a f b, l = a ++ f :: b /\ shift f <> None /\ left_out shift (a ++ b) s.
Proof.
  induction 1 as [|f l s H IH|f l s Hf H IH]; [now left| |].
  - destruct IH as [->|[a [g [b [-> [Hg Hl]]]]]]; [now left|]. right. exists (f :: a), g, b. split; [reflexivity|]. split; [exact Hg|]. cbn. now constructor.
  - right. exists [], f, l. split; [reflexivity|]. split; [exact Hf|exact H].
Qed.
Lemma hierarchical_left_out num tl : hierarchical (fun f => shift f <> None) num tl -> forall n t s, length (numerics num t) = n -> In t tl -> left_out shift (numerics num t) s ->
  exists u, In u tl /\ Permutation s (numerics num u) /\ incl (categoricals num t) (categoricals num u).
Proof.
  intros Hh. induction n as [n IH] using lt_wf_ind. intros t s En Ht Hs. destruct (left_out_inv _ _ Hs) as [->|[a [f [b [E [Hf Hl]]]]]].
  - exists t. split; [exact Ht|]. split; [apply Permutation_refl|apply incl_refl].
  - destruct (Hh t f a b Ht Hf E) as [u [Hu [Pu Cu]]]. destruct (left_out_perm _ _ Pu s Hl) as [s' [A B]].
    assert (Hlt : length (numerics num u) < n). { rewrite <- (Permutation_length Pu), <- En, E, !app_length. cbn. lia. }
    destruct (IH _ Hlt u s' eq_refl Hu A) as [v [Hv [Pv Cv]]]. exists v. split; [exact Hv|]. split; [now transitivity s'|]. now apply (incl_tran Cu).
Qed.
Lemma renamed num1 num2 t : (forall f, In f t -> num2 (other f) = num1 f /\ (num1 f = None -> other f = f)) ->
  numerics num2 (map other t) = map other (numerics num1 t) /\ categoricals num2 (map other t) = categoricals num1 t.
Proof.
  unfold numerics, categoricals, is_numeric. induction t as [|f t IH]; intros H; [now split|]. destruct (IH (fun g Hg => H g (or_intror Hg))) as [A B]. destruct (H f (or_introl eq_refl)) as [E N]. cbn [map filter]. rewrite E. destruct (num1 f); cbn [negb map]; [now rewrite A, B|]. rewrite A, B, (N eq_refl). now split.
Qed.
Lemma hierarchical_contained num1 num2 tl : (forall f, In f (concat tl) -> num2 (other f) = num1 f /\ (num1 f = None -> other f = f)) ->
  hierarchical (fun f => shift f <> None) num1 tl -> contained other shift num1 num2 tl (map (map other) tl).
Proof.
  intros Hr Hh t s Ht Hs. destruct (hierarchical_left_out num1 tl Hh _ t s eq_refl Ht Hs) as [u [Hu [Pu Cu]]]. exists (map other u). split; [now apply in_map|].
  destruct (renamed num1 num2 u) as [A B]; [intros f Hf; apply Hr, in_concat; now exists u|]. rewrite A, B. split; [now apply Permutation_map|exact Cu].
Qed.
End Hier.

Section Equiv.
Context {V : Type} (rO rI : V) (radd rmul rsub : V -> V -> V) (ropp : V -> V).
Hypothesis Rth : ring_theory rO rI radd rmul rsub ropp (@eq V).
Add Ring Rv : Rth.
Variables (other back : factor -> factor) (scale unscale : factor -> nat -> nat -> V) (shift : factor -> option (nat -> V)).
Notation sum := (rsum rO radd).
Definition unshift (num1 : factor -> option nat) (g : factor) : option (nat -> V) :=
  match shift (back g) with
  | Some b => Some (fun k => ropp (sum (fun j => rmul (unscale (back g) k j) (b j)) (seq 0 (width num1 (back g)))))
  | None => None
  end.

Lemma unscaled n (A B : nat -> nat -> V) (x y s : nat -> V) k : is_inverse rO rI radd rmul n A B -> k < n ->
  (forall j, j < n -> x j = radd (sum (fun i => rmul (A j i) (y i)) (seq 0 n)) (s j)) ->
  y k = radd (sum (fun j => rmul (B k j) (x j)) (seq 0 n)) (ropp (sum (fun j => rmul (B k j) (s j)) (seq 0 n))).
Proof.
  intros [_ HB] Hk Hx.
  assert (E : sum (fun j => rmul (B k j) (x j)) (seq 0 n) = radd (sum (fun j => sum (fun i => rmul (rmul (B k j) (A j i)) (y i)) (seq 0 n)) (seq 0 n)) (sum (fun j => rmul (B k j) (s j)) (seq 0 n))).
  { rewrite <- (rsum_add rO rI radd rmul rsub ropp Rth). apply (rsum_ext rO radd). intros j Hj. apply in_seq in Hj. rewrite (Hx j) by lia.
    assert (E1 : rmul (B k j) (sum (fun i => rmul (A j i) (y i)) (seq 0 n)) = sum (fun i => rmul (rmul (B k j) (A j i)) (y i)) (seq 0 n)).
    { rewrite <- (rsum_scale rO rI radd rmul rsub ropp Rth). apply (rsum_ext rO radd). intros i _. ring. }
    rewrite <- E1. ring. }
  rewrite E, (rsum_swap rO rI radd rmul rsub ropp Rth).
  assert (E2 : sum (fun i => sum (fun j => rmul (rmul (B k j) (A j i)) (y i)) (seq 0 n)) (seq 0 n) = y k).
  { rewrite <- (rsum_kron rO rI radd rmul rsub ropp Rth y n k Hk). apply (rsum_ext rO radd). intros i Hi. apply in_seq in Hi. rewrite (rsum_scale_r rO rI radd rmul rsub ropp Rth), HB by lia.
    replace (kron rO rI i k) with (kron rO rI k i) by (unfold kron; now rewrite Nat.eqb_sym). ring. }
  rewrite E2. ring.
Qed.

Lemma equivalent_lemma tl num1 c1 rows1 num2 c2 rows2 {P : Type} (ok : P -> Prop) level1 level2 number1 number2 :
  design_of rO rI radd rmul tl num1 c1 rows1 -> design_of rO rI radd rmul (map (map other) tl) num2 c2 rows2 ->
  same_model_over rO rI radd rmul other back scale unscale shift num1 num2 ok level1 level2 number1 number2 tl ->
  hierarchical (fun f => shift f <> None) num1 tl ->
  (forall co, length co = c1 -> exists co', length co' = c2 /\
     forall p m1 r1 m2 r2, ok p -> rows1 m1 r1 (level1 p) (number1 p) -> rows2 m2 r2 (level2 p) (number2 p) -> prediction rO radd rmul m1 co r1 = prediction rO radd rmul m2 co' r2) /\
  (forall co', length co' = c2 -> exists co, length co = c1 /\
     forall p m1 r1 m2 r2, ok p -> rows1 m1 r1 (level1 p) (number1 p) -> rows2 m2 r2 (level2 p) (number2 p) -> prediction rO radd rmul m1 co r1 = prediction rO radd rmul m2 co' r2).
Proof.
  intros H1 H2 Hs Hh.
  assert (Hr : forall f, In f (concat tl) -> num2 (other f) = num1 f /\ (num1 f = None -> other f = f)).
  { intros f Hf. destruct (Hs f Hf) as [A [_ C]]. split; [exact A|]. intros E. rewrite E in C. apply C. }
  assert (Hi : forall f t, In f t -> In t tl -> In f (concat tl)) by (intros f t Hf Ht; apply in_concat; now exists t).
  assert (Hcat : forall f, In f (all_categoricals num1 tl) -> In f (concat tl) /\ num1 f = None).
  { intros f Hf. unfold all_categoricals in Hf. apply in_concat in Hf. destruct Hf as [c [Hc Hf]]. apply in_map_iff in Hc. destruct Hc as [t [<- Ht]]. apply filter_In in Hf. destruct Hf as [Hf E]. split; [now apply (Hi f t)|]. unfold is_numeric in E. now destruct (num1 f). }
  split.
  - apply (affine_lemma rO rI radd rmul rsub ropp other scale shift tl num1 c1 rows1 _ num2 c2 rows2 ok level1 level2 number1 number2 Rth H1 H2).
    + intros f n Hf E. destruct (Hs f Hf) as [A [_ C]]. rewrite E in A, C. exists n. split; [exact A|]. apply C.
    + now apply hierarchical_contained.
    + intros p f Hp Hf. destruct (Hcat f Hf) as [Hf' E]. destruct (Hs f Hf') as [_ [_ C]]. rewrite E in C. now apply C.
  - assert (Eback : map (map back) (map (map other) tl) = tl).
    { rewrite map_map, <- (map_id tl) at 1. rewrite map_id. transitivity (map (fun t => t) tl); [|apply map_id]. apply map_ext_in. intros t Ht. rewrite map_map. transitivity (map (fun f => f) t); [|apply map_id]. apply map_ext_in. intros f Hf. apply (Hs f). now apply (Hi f t). }
    assert (Hin : forall g, In g (concat (map (map other) tl)) -> exists f, g = other f /\ In f (concat tl)).
    { intros g Hg. rewrite <- concat_map in Hg. apply in_map_iff in Hg. destruct Hg as [f [<- Hf]]. now exists f. }
    intros co' Hco'.
    destruct (affine_lemma rO rI radd rmul rsub ropp back (fun g => unscale (back g)) (unshift num1) (map (map other) tl) num2 c2 rows2 tl num1 c1 rows1 ok level2 level1 number2 number1 Rth H2 H1) with (co := co') as [co [Hl Hp]]; [| | |exact Hco'|].
    + intros g n Hg E. destruct (Hin g Hg) as [f [-> Hf]]. destruct (Hs f Hf) as [A [Bk C]]. rewrite Bk. rewrite E in A. rewrite <- A in C. exists n. split; [now symmetry|].
      intros p k Hp Hk. destruct C as [Ci Cv]. rewrite (unscaled n (scale f) (unscale f) (number1 p f) (number2 p (other f)) (shift_by rO shift f) k Ci Hk (fun j Hj => Cv p j Hp Hj)).
      f_equal. unfold shift_by at 2, unshift. rewrite Bk. unfold width. rewrite <- A. unfold shift_by. destruct (shift f); [reflexivity|].
      transitivity (ropp rO); [f_equal|ring]. apply (rsum_zero rO rI radd rmul rsub ropp Rth). intros j _. ring.
    + rewrite <- Eback at 2. apply hierarchical_contained.
      * intros g Hg. destruct (Hin g Hg) as [f [-> Hf]]. destruct (Hs f Hf) as [A [Bk C]]. rewrite Bk, A. split; [reflexivity|]. intros E. rewrite E in C. symmetry. apply C.
      * intros t2 g a b Ht2 Hg E. apply in_map_iff in Ht2. destruct Ht2 as [t [<- Ht]]. destruct (renamed other num1 num2 t) as [A B]; [intros f Hf; apply Hr; now apply (Hi f t)|]. rewrite A in E.
        apply map_eq_app in E. destruct E as [a' [r [Et [<- Er]]]]. apply map_eq_cons in Er. destruct Er as [f [b' [-> [<- <-]]]].
        assert (Hf : In f (concat tl)). { apply (Hi f t); [|exact Ht]. assert (X : In f (numerics num1 t)) by (rewrite Et; apply in_or_app; right; now left). now apply filter_In in X. }
        assert (Hsf : shift f <> None). { intros X. apply Hg. unfold unshift. destruct (Hs f Hf) as [_ [-> _]]. now rewrite X. }
        destruct (Hh t f a' b' Ht Hsf Et) as [u [Hu [Pu Cu]]]. exists (map other u). split; [now apply in_map|].
        destruct (renamed other num1 num2 u) as [A' B']; [intros f' Hf'; apply Hr; now apply (Hi f' u)|]. rewrite A', B', B, <- map_app. split; [now apply Permutation_map|exact Cu].
    + intros p g Hp Hg.
      assert (X : In g (all_categoricals num1 tl)).
      { unfold all_categoricals in *. rewrite map_map in Hg. erewrite map_ext_in in Hg; [exact Hg|]. intros t Ht. apply renamed. intros f Hf. apply Hr. now apply (Hi f t). }
      destruct (Hcat g X) as [Hf' E]. destruct (Hs g Hf') as [_ [_ C]]. rewrite E in C. symmetry. now apply C.
    + exists co. split; [exact Hl|]. intros p m1 r1 m2 r2 Hok R1 R2. symmetry. now apply (Hp p m2 r2 m1 r1).
Qed.
End Equiv.
