(** Proofs about Poly. *)
From Coq Require Import Field_theory Field Ring.
From Verif Require Import Base RankSpec RankProofs QrProofs PolySpec PolyModel.
Open Scope nat_scope.

Section Euclid.
Context {K : Type} {kO kI : K} {kadd kmul ksub : K -> K -> K} {kopp : K -> K} {kdiv : K -> K -> K} {kinv : K -> K}
  {keqb : K -> K -> bool} {sqrt sgn : K -> K}.
Hypothesis E : euclidean kO kI kadd kmul ksub kopp kdiv kinv keqb sqrt sgn.
Let Kft : field_theory kO kI kadd kmul ksub kopp kdiv kinv (@eq K). Proof. apply E. Qed.
Add Field Kfield2 : Kft.
Local Notation "x + y" := (kadd x y).
Local Notation "x * y" := (kmul x y).
Local Notation "x - y" := (ksub x y).
Local Notation "x / y" := (kdiv x y).
Local Notation "0" := kO.
Local Notation "1" := kI.
Local Notation sum := (rsum kO kadd).
Local Notation delta := (kron kO kI).
Local Notation polynomial := (@polynomial K kadd kmul).
Let Krt := F_R Kft.
Local Notation s_ext := (rsum_ext kO kadd).
Local Notation s_add := (rsum_add kO kI kadd kmul ksub kopp Krt).
Local Notation s_scale := (rsum_scale kO kI kadd kmul ksub kopp Krt).
Local Notation s_scale_r := (rsum_scale_r kO kI kadd kmul ksub kopp Krt).
Local Notation s_zero := (rsum_zero kO kI kadd kmul ksub kopp Krt).
Local Notation s_swap := (rsum_swap kO kI kadd kmul ksub kopp Krt).
Local Notation s_kron := (rsum_kron kO kI kadd kmul ksub kopp Krt).
Local Notation s_app := (rsum_app kO kI kadd kmul ksub kopp Krt).

(** * Order *)
Definition pos (x : K) : Prop := sgn x = 1.
Lemma one_nz : 1 <> 0. Proof. apply (F_1_neq_0 Kft). Qed.
Lemma mul_nz x y : x <> 0 -> y <> 0 -> x * y <> 0.
Proof. intros Hx Hy H. apply Hy. transitivity (x * y / x); [field; auto|]. rewrite H. field. auto. Qed.
Lemma zero_dec (x : K) : {x = 0} + {x <> 0}.
Proof. destruct (keqb x 0) eqn:Z; [left; now apply E|right]. intros H. apply (proj2 (e_eqb _ _ _ _ _ _ _ _ _ _ _ E x 0)) in H. congruence. Qed.
Lemma mul_zero x y : x * y = 0 -> x = 0 \/ y = 0.
Proof. intros H. destruct (zero_dec x) as [Z|N]; [now left|right]. transitivity (x * y / x); [field; auto|]. rewrite H. field. auto. Qed.
Lemma pos_nz x : pos x -> x <> 0.
Proof. intros H ->. unfold pos in H. rewrite (e_sgn0 _ _ _ _ _ _ _ _ _ _ _ E) in H. now apply one_nz. Qed.
Lemma opp_one_nz : kopp 1 <> 0.
Proof. intros H. apply one_nz. transitivity (kopp (kopp 1)); [ring|]. rewrite H. ring. Qed.
Lemma sgn_nz x : x <> 0 -> sgn x * sgn x = 1.
Proof. intros H. destruct (e_sgn _ _ _ _ _ _ _ _ _ _ _ E x H) as [-> | ->]; ring. Qed.
Lemma pos_sq x : x <> 0 -> pos (x * x).
Proof. intros H. unfold pos. rewrite (e_sgn_mul _ _ _ _ _ _ _ _ _ _ _ E). now apply sgn_nz. Qed.
Lemma pos_one : pos 1.
Proof. replace 1 with (1 * 1) by ring. apply pos_sq, one_nz. Qed.
Lemma two_nz : 1 + 1 <> 0.
Proof. apply pos_nz, (e_sgn_add _ _ _ _ _ _ _ _ _ _ _ E); apply pos_one. Qed.
Lemma pos_opp x : pos x -> pos (kopp x) -> False.
Proof.
  unfold pos. rewrite (e_sgn_opp _ _ _ _ _ _ _ _ _ _ _ E). intros -> H. apply two_nz. transitivity (kopp 1 + 1); [rewrite H; reflexivity|ring].
Qed.
Lemma pos_sgn_mul x : x <> 0 -> pos (sgn x * x).
Proof.
  intros H. unfold pos. destruct (e_sgn _ _ _ _ _ _ _ _ _ _ _ E x H) as [D|D]; rewrite D.
  - replace (1 * x) with x by ring. exact D.
  - replace (kopp 1 * x) with (kopp x) by ring. rewrite (e_sgn_opp _ _ _ _ _ _ _ _ _ _ _ E), D. ring.
Qed.
Lemma pos_mul x y : pos x -> pos y -> pos (x * y).
Proof. unfold pos. intros H1 H2. rewrite (e_sgn_mul _ _ _ _ _ _ _ _ _ _ _ E), H1, H2. ring. Qed.
Lemma pos_inv x : pos x -> pos (1 / x).
Proof.
  intros H. pose proof (pos_nz x H) as N. unfold pos in *. assert (M : sgn (x * (1 / x)) = 1) by (replace (x * (1 / x)) with 1 by (field; auto); apply pos_one).
  rewrite (e_sgn_mul _ _ _ _ _ _ _ _ _ _ _ E), H in M. etransitivity; [|exact M]. ring.
Qed.
Lemma pos_add0 x y : pos x -> (pos y \/ y = 0) -> pos (x + y).
Proof. intros H [H2| ->]; [now apply (e_sgn_add _ _ _ _ _ _ _ _ _ _ _ E)|]. now replace (x + 0) with x by ring. Qed.
Lemma sum_squares {X} (h : X -> K) l : pos (sum (fun x => h x * h x) l) \/ (sum (fun x => h x * h x) l = 0 /\ forall x, In x l -> h x = 0).
Proof.
  induction l as [|y l IH]; cbn [rsum]; [right; split; [reflexivity|intros x []]|]. destruct (zero_dec (h y)) as [Z|Z].
  - rewrite Z. replace (0 * 0 + sum (fun x => h x * h x) l) with (sum (fun x => h x * h x) l) by ring. destruct IH as [IH|[IH1 IH2]]; [now left|right]. split; auto.
    intros x [<-|Hx]; auto.
  - left. apply pos_add0; [now apply pos_sq|]. tauto.
Qed.
Lemma squares {X} (h : X -> K) l : sum (fun x => h x * h x) l = 0 -> forall x, In x l -> h x = 0.
Proof. intros H. destruct (sum_squares h l) as [P|[_ P]]; [|exact P]. destruct (pos_nz _ P H). Qed.
Lemma sum_ones m : m <> O -> pos (sum (fun _ : nat => 1) (seq O m)).
Proof.
  intros H. destruct (sum_squares (fun _ : nat => 1) (seq O m)) as [P|[_ P]].
  - replace (sum (fun _ : nat => 1) (seq O m)) with (sum (fun _ : nat => 1 * 1) (seq O m)); [exact P|]. apply s_ext. intros. ring.
  - destruct m; [easy|]. destruct (one_nz (P O (or_introl eq_refl))).
Qed.
Lemma char0 m : sum (fun _ : nat => 1) (seq O m) = 0 -> m = O.
Proof. intros H. destruct m; [reflexivity|]. destruct (pos_nz _ (sum_ones (Datatypes.S m) ltac:(discriminate)) H). Qed.
Lemma sqrt_one : sqrt 1 = 1.
Proof.
  assert (H : sgn 1 <> kopp 1) by (rewrite pos_one; intros D; apply two_nz; transitivity (kopp 1 + 1); [rewrite <- D; reflexivity|ring]).
  destruct (e_sqrt _ _ _ _ _ _ _ _ _ _ _ E 1 H) as [S1 S2].
  assert (F : (sqrt 1 - 1) * (sqrt 1 + 1) = 0) by (transitivity (sqrt 1 * sqrt 1 - 1); [ring|rewrite S1; ring]).
  destruct (mul_zero _ _ F) as [G|G].
  - transitivity (sqrt 1 - 1 + 1); [ring|]. rewrite G. ring.
  - exfalso. apply S2. replace (sqrt 1) with (kopp 1) by (transitivity (sqrt 1 + 1 - 1 + kopp 0); [rewrite G; ring|ring]). rewrite (e_sgn_opp _ _ _ _ _ _ _ _ _ _ _ E), pos_one. reflexivity.
Qed.

Lemma scores_change : exists l, NoDup l /\ length l = 2%nat /\ scores_after kO kI kadd ksub kdiv true l <> l.
Proof.
  exists [0; 1]. split; [|split; [reflexivity|]].
  - constructor; [intros [H|[]]; now apply one_nz|]. constructor; [intros []|constructor].
  - cbn. intros H. injection H as H _. pose proof two_nz as T. apply one_nz. transitivity (kopp ((1 + 1) * (0 - (0 + (1 + 0)) / (0 + 1 + 1)))); [field; auto|]. rewrite H. ring.
Qed.

(** * Polynomials *)
Lemma poly_ext j c f g : polynomial j c f -> (forall x, f x = g x) -> polynomial j c g.
Proof. intros H Hx. destruct H as [c f H|j c a f h H F]; [constructor; intros; now rewrite <- Hx|econstructor; [exact H|]]. intros. now rewrite <- Hx. Qed.
Lemma poly_scale j c f b : polynomial j c f -> polynomial j (b * c) (fun x => b * f x).
Proof.
  intros H. induction H as [c f H|j c a f g H IH F].
  - constructor. intros. now rewrite H.
  - apply (poly_step kadd kmul j (b * c) (b * a) _ (fun x => b * g x) IH). intros. rewrite F. ring.
Qed.
Lemma poly_add j c f d g : polynomial j c f -> polynomial j d g -> polynomial j (c + d) (fun x => f x + g x).
Proof.
  intros H. revert d g. induction H as [c f H|j c a f h H IH F]; intros d g Hg; inversion Hg; subst.
  - constructor. intros. now rewrite H, H0.
  - apply (poly_step kadd kmul j (c + d) (a + a0) _ (fun x => h x + g0 x)); [apply IH; auto|]. intros. rewrite F, H2. ring.
Qed.
(** A zero leading coefficient may be dropped. *)
Definition lower (j : nat) (f : K -> K) : Prop := forall c, polynomial j c (fun x => f x).
Lemma poly_raise j c f : polynomial j c f -> polynomial (Datatypes.S j) 0 f.
Proof.
  intros H. induction H as [c f H|j c a f g H IH F].
  - apply (poly_step kadd kmul O 0 c _ (fun _ => 0)); [now constructor|]. intros. rewrite H. ring.
  - apply (poly_step kadd kmul (Datatypes.S j) 0 a _ g IH). exact F.
Qed.
Lemma poly_drop j f : polynomial (Datatypes.S j) 0 f -> exists c, polynomial j c f.
Proof.
  revert f. induction j as [|j IH]; intros f H; inversion H; subst.
  - inversion H1; subst. exists a. constructor. intros. rewrite H2, H0. ring.
  - destruct (IH g H1) as [c Hc]. exists c. econstructor; eauto.
Qed.
Lemma poly_zero j : polynomial j 0 (fun _ => 0).
Proof. induction j as [|j IH]; [now constructor|]. apply (poly_step kadd kmul j 0 0 _ (fun _ => 0) IH). intros. ring. Qed.
Lemma poly_times_x j c f b a : polynomial j c f -> polynomial (Datatypes.S j) (b * c) (fun x => (b * x + a) * f x).
Proof.
  intros H. replace (b * c) with (b * c + 0) by ring. apply (poly_ext _ _ (fun x => x * (b * f x) + a * f x)); [|intros; ring]. apply poly_add.
  - apply (poly_step kadd kmul j (b * c) 0 _ (fun x => b * f x)); [now apply poly_scale|]. intros. ring.
  - apply (poly_raise j (a * c)). now apply poly_scale.
Qed.
Lemma poly_compose j c f b a : polynomial j c f -> polynomial j (kpow kI kmul b j * c) (fun x => f (b * x + a)).
Proof.
  intros H. induction H as [c f H|j c d f g H IH F].
  - constructor. intros. rewrite H. cbn. ring.
  - apply (poly_ext _ _ (fun x => (b * x + a) * g (b * x + a) + d)); [|intros; rewrite F; ring].
    replace (kpow kI kmul b (Datatypes.S j) * c) with (b * (kpow kI kmul b j * c) + 0) by (cbn; ring). apply poly_add; [now apply (poly_times_x j _ (fun x => g (b * x + a)))|].
    assert (G : forall j, polynomial (Datatypes.S j) 0 (fun _ => d)); [|apply G]. clear j H IH. intros j. induction j as [|j IH].
    + apply (poly_raise O d (fun _ => d)). now constructor.
    + apply (poly_raise _ 0 _ IH).
Qed.
Lemma poly_pow j : polynomial j 1 (fun x => kpow kI kmul x j).
Proof.
  induction j as [|j IH]; [now constructor|]. pose proof (poly_times_x j 1 _ 1 0 IH) as H. replace (1 * 1) with 1 in H by ring.
  apply (poly_ext _ _ _ _ H). intros. cbn [kpow]. ring.
Qed.
(** Dividing by [x - r]. *)
Lemma poly_factor j c f r : polynomial (Datatypes.S j) c f -> exists g, polynomial j c g /\ forall x, f x - f r = (x - r) * g x.
Proof.
  revert f. induction j as [|j IH]; intros f H; inversion H; subst.
  - inversion H1; subst. exists (fun _ => c). split; [now constructor|]. intros x. rewrite !H2, !H0. ring.
  - destruct (IH g H1) as [h [Hh Fh]]. exists (fun x => g r + x * h x). split; [apply (poly_step kadd kmul j c (g r) _ h Hh); reflexivity|].
    intros x. rewrite !H2. transitivity (x * (g x - g r) + (x - r) * g r); [ring|]. rewrite Fh. ring.
Qed.
Lemma poly_roots j c f xs : polynomial j c f -> c <> 0 -> NoDup xs -> (forall x, In x xs -> f x = 0) -> length xs <= j.
Proof.
  revert f xs. induction j as [|j IH]; intros f xs H Hc N R.
  - destruct xs as [|x xs]; [cbn; lia|]. inversion H; subst. destruct Hc. rewrite <- (H0 x). apply R. now left.
  - destruct xs as [|r xs]; [cbn; lia|]. destruct (poly_factor j c f r H) as [g [Hg Fg]]. inversion N; subst. cbn [length]. apply le_n_S.
    apply (IH g xs Hg Hc H3). intros x Hx. assert (D : (x - r) * g x = 0) by (rewrite <- Fg, (R x (or_intror Hx)), (R r (or_introl eq_refl)); ring).
    destruct (mul_zero _ _ D) as [G|G]; [|exact G]. destruct H2. replace r with x; [exact Hx|]. transitivity (x - r + r); [ring|]. rewrite G. ring.
Qed.

(** * Orthogonal polynomials are unique *)
Section Unique.
Variables (n : nat) (s : nat -> K).
Local Notation ip := (ip kO kadd kmul n).
(** What is orthogonal to polynomials of degrees 0, ..., j-1 is so to every polynomial of degree below j. *)
Lemma below_orth (m : nat -> nat -> K) v j : (forall k, k < j -> exists c f, polynomial k c f /\ c <> 0 /\ forall i, i < n -> m i k = f (s i)) ->
  (forall k, k < j -> sum (fun i => v i * m i k) (seq O n) = 0) -> forall k c f, k < j -> polynomial k c f -> sum (fun i => v i * f (s i)) (seq O n) = 0.
Proof.
  intros M Or k. induction k as [|k IH]; intros c f Hk Hf; destruct (M _ Hk) as [b [g [Hg [Nb Fg]]]].
  - inversion Hf; subst. inversion Hg; subst. rewrite (s_ext _ (fun i => (c / b) * (v i * m i 0%nat))).
    + rewrite s_scale, Or by auto. ring.
    + intros i Hi. apply in_seq in Hi. rewrite H, Fg, H0 by lia. field. exact Nb.
  - assert (P : polynomial (Datatypes.S k) 0 (fun x => f x + kopp (c / b) * g x)).
    { replace 0 with (c + kopp (c / b) * b) by (field; exact Nb). apply poly_add; [exact Hf|]. now apply poly_scale. }
    destruct (poly_drop _ _ P) as [d Hd]. specialize (IH d _ ltac:(lia) Hd). cbn beta in IH.
    rewrite (s_ext _ (fun i => v i * (f (s i) + kopp (c / b) * g (s i)) + (c / b) * (v i * m i (Datatypes.S k)))).
    + rewrite s_add, IH, s_scale, Or by auto. ring.
    + intros i Hi. apply in_seq in Hi. rewrite Fg by lia. ring.
Qed.
Lemma all_degrees (m : nat -> nat -> K) : orthogonal_polynomials kO kI kadd kmul sgn n s m ->
  forall k, k < n -> exists c f, polynomial k c f /\ pos c /\ forall i, i < n -> m i k = f (s i).
Proof.
  intros (M0 & M1 & _ & _) k Hk. destruct k as [|k]; [|apply M1; lia]. exists 1, (fun _ => 1). split; [now constructor|]. split; [apply pos_one|]. exact M0.
Qed.
Lemma orth_unique (m1 m2 : nat -> nat -> K) : orthogonal_polynomials kO kI kadd kmul sgn n s m1 -> orthogonal_polynomials kO kI kadd kmul sgn n s m2 ->
  forall i j, i < n -> j < n -> m1 i j = m2 i j.
Proof.
  intros H1 H2 i j Hi Hj. pose proof (all_degrees m1 H1) as D1. pose proof (all_degrees m2 H2) as D2.
  destruct j as [|j]; [destruct H1 as [H1 _], H2 as [H2 _]; now rewrite H1, H2|].
  destruct (D1 _ Hj) as [c1 [f1 [P1 [C1 F1]]]], (D2 _ Hj) as [c2 [f2 [P2 [C2 F2]]]].
  assert (P : polynomial (Datatypes.S j) 0 (fun x => c2 * f1 x + kopp c1 * f2 x)).
  { replace 0 with (c2 * c1 + kopp c1 * c2) by ring. apply poly_add; now apply poly_scale. }
  destruct (poly_drop _ _ P) as [d Hd].
  assert (O1 : sum (fun i => m1 i (Datatypes.S j) * (c2 * f1 (s i) + kopp c1 * f2 (s i))) (seq O n) = 0).
  { apply (below_orth m1 (fun i => m1 i (Datatypes.S j)) (Datatypes.S j)) with (k := j) (c := d) (f := fun x => c2 * f1 x + kopp c1 * f2 x); auto.
    - intros k Hk. destruct (D1 k ltac:(lia)) as [c [f [A [B C]]]]. exists c, f. split; auto. split; auto. now apply pos_nz.
    - intros k Hk. apply H1; lia. }
  assert (O2 : sum (fun i => m2 i (Datatypes.S j) * (c2 * f1 (s i) + kopp c1 * f2 (s i))) (seq O n) = 0).
  { apply (below_orth m2 (fun i => m2 i (Datatypes.S j)) (Datatypes.S j)) with (k := j) (c := d) (f := fun x => c2 * f1 x + kopp c1 * f2 x); auto.
    - intros k Hk. destruct (D2 k ltac:(lia)) as [c [f [A [B C]]]]. exists c, f. split; auto. split; auto. now apply pos_nz.
    - intros k Hk. apply H2; lia. }
  set (w := fun i => c2 * m1 i (Datatypes.S j) + kopp c1 * m2 i (Datatypes.S j)).
  assert (W : forall i, i < n -> w i = 0).
  { intros k Hk. apply (squares w (seq O n)); [|apply in_seq; lia].
    rewrite (s_ext _ (fun i => c2 * (m1 i (Datatypes.S j) * (c2 * f1 (s i) + kopp c1 * f2 (s i))) + kopp c1 * (m2 i (Datatypes.S j) * (c2 * f1 (s i) + kopp c1 * f2 (s i))))).
    - rewrite s_add, !s_scale, O1, O2. ring.
    - intros l Hl. apply in_seq in Hl. unfold w. rewrite F1, F2 by lia. ring. }
  assert (N : c2 * c2 = c1 * c1).
  { destruct H1 as (_ & _ & _ & N1), H2 as (_ & _ & _ & N2). specialize (N1 (Datatypes.S j) ltac:(lia)). specialize (N2 (Datatypes.S j) ltac:(lia)).
    transitivity (sum (fun i => (c2 * c2) * (m1 i (Datatypes.S j) * m1 i (Datatypes.S j))) (seq O n)); [rewrite s_scale, N1; ring|].
    transitivity (sum (fun i => (c1 * c1) * (m2 i (Datatypes.S j) * m2 i (Datatypes.S j))) (seq O n)); [|rewrite s_scale, N2; ring].
    apply s_ext. intros l Hl. apply in_seq in Hl. specialize (W l ltac:(lia)). unfold w in W.
    assert (Q : c2 * m1 l (Datatypes.S j) = c1 * m2 l (Datatypes.S j)) by (transitivity (c2 * m1 l (Datatypes.S j) + kopp c1 * m2 l (Datatypes.S j) + c1 * m2 l (Datatypes.S j)); [ring|rewrite W; ring]).
    transitivity ((c2 * m1 l (Datatypes.S j)) * (c2 * m1 l (Datatypes.S j))); [ring|]. rewrite Q. ring. }
  assert (C : c2 = c1).
  { assert (Z : (c2 - c1) * (c2 + c1) = 0) by (transitivity (c2 * c2 - c1 * c1); [ring|rewrite N; ring]). destruct (mul_zero _ _ Z) as [G|G].
    - transitivity (c2 - c1 + c1); [ring|]. rewrite G. ring.
    - destruct (pos_nz (c2 + c1)); auto. now apply (e_sgn_add _ _ _ _ _ _ _ _ _ _ _ E). }
  specialize (W i Hi). unfold w in W. rewrite C in W. pose proof (pos_nz _ C1) as Nc.
  transitivity ((c1 * m1 i (Datatypes.S j) + kopp c1 * m2 i (Datatypes.S j)) / c1 + m2 i (Datatypes.S j)); [field; auto|]. rewrite W. field. auto.
Qed.
(** Scores on another scale. *)
Lemma orth_affine (m : nat -> nat -> K) s' a b : pos b -> (forall i, i < n -> s i = b * s' i + a) ->
  orthogonal_polynomials kO kI kadd kmul sgn n s m -> orthogonal_polynomials kO kI kadd kmul sgn n s' m.
Proof.
  intros Hb Hs (M0 & M1 & M2 & M3). split; [exact M0|]. split; [|split; assumption]. intros j Hj. destruct (M1 j Hj) as [c [f [Pf [Pc Fc]]]].
  exists (kpow kI kmul b j * c), (fun x => f (b * x + a)). split; [now apply poly_compose|]. split.
  - apply pos_mul; auto. clear - Hb E Kft Krt. induction j as [|j IH]; [apply pos_one|now apply pos_mul].
  - intros i Hi. rewrite <- Hs by auto. auto.
Qed.
(** The matrix is invertible. *)
Lemma orth_invertible (m : nat -> nat -> K) : n <> O -> orthogonal_polynomials kO kI kadd kmul sgn n s m -> invertible kO kI kadd kmul n m.
Proof.
  intros Hn (M0 & M1 & M2 & M3).
  assert (Or : orthogonal kO kadd kmul n n (fun u l => m l u)).
  { split.
    - intros i j Hi Hj D. unfold QrProofs.ip. destruct (Nat.lt_ge_cases i j) as [L|L].
      + rewrite (s_ext _ (fun l => m l j * m l i)) by (intros; ring). now apply M2.
      + apply M2; lia.
    - intros j Hj. unfold QrProofs.ip. destruct j as [|j].
      + rewrite (s_ext _ (fun _ => 1)) by (intros l Hl; apply in_seq in Hl; rewrite M0 by lia; ring). apply pos_nz. now apply sum_ones.
      + rewrite M3 by lia. apply one_nz. }
  exists (fun j i => m i j / ip (fun l => m l j) (fun l => m l j)). split.
  - intros i j Hi Hj. rewrite <- (complete_rows kO kI kadd kmul ksub kopp kdiv kinv Kft squares n (fun u l => m l u) i j Or Hi Hj). apply s_ext.
    intros k Hk. apply in_seq in Hk. cbn beta. field. apply Or. lia.
  - intros i j Hi Hj. rewrite (s_ext _ (fun k => (1 / ip (fun l => m l i) (fun l => m l i)) * (m k i * m k j))).
    + rewrite s_scale. unfold kron. destruct (Nat.eqb_spec i j) as [->|D].
      * fold (ip (fun l => m l j) (fun l => m l j)). field. apply (proj2 Or j Hj).
      * change (sum (fun x => m x i * m x j) (seq O n)) with (ip (fun l => m l i) (fun l => m l j)). rewrite (proj1 Or i j Hi Hj D). ring.
    + intros k _. cbn beta. field. apply (proj2 Or i Hi).
Qed.
(** Coefficients. *)
Lemma orth_coefficients (m : nat -> nat -> K) mu beta : orthogonal_polynomials kO kI kadd kmul sgn n s m ->
  (forall i, i < n -> mu i = sum (fun j => m i j * beta j) (seq 0%nat n)) ->
  kn kO kI kadd n * beta 0%nat = sum mu (seq 0%nat n) /\ forall j, (0 < j < n)%nat -> beta j = sum (fun i => m i j * mu i) (seq 0%nat n).
Proof.
  intros (M0 & M1 & M2 & M3) F.
  assert (G : forall j, j < n -> sum (fun i => m i j * mu i) (seq 0%nat n) = sum (fun i => m i j * m i j) (seq 0%nat n) * beta j).
  { intros j Hj. rewrite (s_ext _ (fun i => sum (fun k => beta k * (m i j * m i k)) (seq 0%nat n))).
    - rewrite s_swap. rewrite (s_ext _ (fun k => (sum (fun i => m i j * m i j) (seq 0%nat n) * beta j) * delta k j)).
      + now rewrite (s_kron (fun _ => sum (fun i => m i j * m i j) (seq 0%nat n) * beta j)).
      + intros k Hk. apply in_seq in Hk. rewrite s_scale. unfold kron. destruct (Nat.eqb_spec k j) as [->|D]; [ring|].
        destruct (Nat.lt_ge_cases k j) as [L|L].
        * rewrite M2 by lia. ring.
        * rewrite (s_ext _ (fun i => m i k * m i j)) by (intros; ring). rewrite M2 by lia. ring.
    - intros i Hi. apply in_seq in Hi. rewrite F by lia. rewrite <- s_scale. apply s_ext. intros. ring. }
  split.
  - destruct n as [|n']; [cbn; ring|]. specialize (G 0%nat ltac:(lia)).
    rewrite (s_ext (fun i => m i 0%nat * mu i) mu) in G by (intros i Hi; apply in_seq in Hi; rewrite M0 by lia; ring).
    rewrite (s_ext (fun i => m i 0%nat * m i 0%nat) (fun _ => 1)) in G by (intros i Hi; apply in_seq in Hi; rewrite M0 by lia; ring).
    rewrite G. f_equal. assert (H : forall k, kn kO kI kadd k = sum (fun _ : nat => 1) (seq 0%nat k)); [|apply H].
    intros k. induction k as [|k IH]; [reflexivity|]. rewrite seq_S, s_app. cbn [kn rsum]. rewrite IH. ring.
  - intros j Hj. rewrite G by lia. rewrite M3 by lia. ring.
Qed.
End Unique.
End Euclid.
