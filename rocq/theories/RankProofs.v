From Coq Require Import Permutation Ring Ring_theory.
From Verif Require Import Base RedundancySpec RankSpec.

Section Rank.
Context {R : Type} (rO rI : R) (radd rmul rsub : R -> R -> R) (ropp : R -> R).
Hypothesis Rth : ring_theory rO rI radd rmul rsub ropp (@eq R).
Add Ring Rring : Rth.
Notation "x + y" := (radd x y).
Notation "x * y" := (rmul x y).
Notation rsum := (rsum rO radd).
Notation rprod := (rprod rI rmul).
Notation kron := (kron rO rI).

Lemma rsum_ext {X} (h g : X -> R) l : (forall x, In x l -> h x = g x) -> rsum h l = rsum g l.
Proof. induction l; cbn; intros H; [reflexivity|]. rewrite H, IHl; auto. Qed.
Lemma rprod_ext {X} (h g : X -> R) l : (forall x, In x l -> h x = g x) -> rprod h l = rprod g l.
Proof. induction l; cbn; intros H; [reflexivity|]. rewrite H, IHl; auto. Qed.
Lemma rsum_app {X} (h : X -> R) a b : rsum h (a ++ b) = rsum h a + rsum h b.
Proof. induction a; cbn; [ring|]. rewrite IHa. ring. Qed.
Lemma rsum_add {X} (h g : X -> R) l : rsum (fun x => h x + g x) l = rsum h l + rsum g l.
Proof. induction l; cbn; [ring|]. rewrite IHl. ring. Qed.
Lemma rsum_scale {X} c (h : X -> R) l : rsum (fun x => c * h x) l = c * rsum h l.
Proof. induction l; cbn; [ring|]. rewrite IHl. ring. Qed.
Lemma rsum_scale_r {X} c (h : X -> R) l : rsum (fun x => h x * c) l = rsum h l * c.
Proof. induction l; cbn; [ring|]. rewrite IHl. ring. Qed.
Lemma rsum_zero {X} (h : X -> R) l : (forall x, In x l -> h x = rO) -> rsum h l = rO.
Proof. induction l; cbn; intros H; [reflexivity|]. rewrite H, IHl; auto; ring. Qed.
Lemma rsum_map {X Y} (f : X -> Y) (h : Y -> R) l : rsum h (map f l) = rsum (fun x => h (f x)) l.
Proof. induction l; cbn; [reflexivity|]. now rewrite IHl. Qed.
Lemma rsum_flat {X Y} (f : X -> list Y) (h : Y -> R) l : rsum h (flat_map f l) = rsum (fun x => rsum h (f x)) l.
Proof. induction l; cbn; [reflexivity|]. rewrite rsum_app. now rewrite IHl. Qed.
Lemma rsum_swap {X Y} (h : X -> Y -> R) l m : rsum (fun x => rsum (h x) m) l = rsum (fun y => rsum (fun x => h x y) l) m.
Proof.
  induction l; cbn; [symmetry; now apply rsum_zero|]. rewrite IHl, <- rsum_add. reflexivity.
Qed.
Lemma rprod_one {X} (h : X -> R) l : (forall x, In x l -> h x = rI) -> rprod h l = rI.
Proof. induction l; cbn; intros H; [reflexivity|]. rewrite H, IHl; auto; ring. Qed.
Lemma rprod_zero {X} (h : X -> R) l x : In x l -> h x = rO -> rprod h l = rO.
Proof. induction l as [|y l IH]; cbn; [intros []|]. intros [->|Hi] E; [rewrite E; ring|]. rewrite IH by assumption. ring. Qed.
Lemma rprod_mul {X} (h g : X -> R) l : rprod (fun x => h x * g x) l = rprod h l * rprod g l.
Proof. induction l; cbn; [ring|]. rewrite IHl. ring. Qed.

Lemma kron_same i : kron i i = rI.
Proof. unfold RankSpec.kron. now rewrite Nat.eqb_refl. Qed.
Lemma kron_diff i j : i <> j -> kron i j = rO.
Proof. unfold RankSpec.kron. intros H. apply Nat.eqb_neq in H. now rewrite H. Qed.
Lemma rsum_seq_shift (h : nat -> R) a n : rsum h (seq (S a) n) = rsum (fun k => h (S k)) (seq a n).
Proof. rewrite <- seq_shift, rsum_map. reflexivity. Qed.
Lemma rsum_kron (h : nat -> R) n j : j < n -> rsum (fun k => h k * kron k j) (seq 0 n) = h j.
Proof.
  intros Hj. replace n with (Nat.add j (S (n - j - 1)))%nat by lia. rewrite seq_app, rsum_app. cbn [seq RankSpec.rsum].
  rewrite (rsum_zero _ (seq 0 j)), (rsum_zero _ (seq (S _) _)).
  - cbn. rewrite kron_same. ring.
  - intros k Hk. apply in_seq in Hk. rewrite kron_diff by lia. ring.
  - intros k Hk. apply in_seq in Hk. rewrite kron_diff by lia. ring.
Qed.

Lemma nodup_split_unique {X} (p q : list X) x : NoDup (p ++ x :: q) -> ~ In x (p ++ q).
Proof. apply NoDup_remove_2. Qed.

(** * Independence from a dual family *)
Section Dual.
Context {P X : Type} (ok : P -> Prop) (colf : X -> P -> R).

Definition apply_ws (ws : list (R * P)) (Y : P -> R) : R := rsum (fun wp => fst wp * Y (snd wp)) ws.

Lemma dual_independent Lb : NoDup Lb ->
  (forall x, In x Lb -> exists ws, Forall (fun wp => ok (snd wp)) ws /\ apply_ws ws (colf x) = rI /\
     forall y, In y Lb -> y <> x -> apply_ws ws (colf y) = rO) ->
  independent rO radd rmul ok (map colf Lb).
Proof.
  intros Hn Hd coeffs Hl Hz. rewrite map_length in Hl. apply Forall_forall. intros c Hc.
  apply in_split in Hc. destruct Hc as [cp [cq ->]].
  set (n := length cp). assert (Hlt : n < length Lb) by (rewrite <- Hl, app_length; cbn; lia).
  assert (EL : exists p x q, Lb = p ++ x :: q /\ length p = length cp).
  { destruct (nth_error Lb n) as [x|] eqn:E; [|apply nth_error_None in E; lia].
    apply nth_error_split in E. destruct E as [p [q [-> Hp]]]. now exists p, x, q. }
  destruct EL as [p [x [q [-> Hp]]]].
  destruct (Hd x) as [ws [Hok [H1 H0]]]; [apply in_app_iff; right; now left|].
  assert (Z : apply_ws ws (comb rO radd rmul (cp ++ c :: cq) (map colf (p ++ x :: q))) = rO).
  { unfold apply_ws. apply rsum_zero. intros [w pt] Hw. rewrite Forall_forall in Hok. specialize (Hok _ Hw). cbn in *.
    rewrite Hz by exact Hok. ring. }
  assert (Lin : forall cs ls, apply_ws ws (comb rO radd rmul cs (map colf ls)) =
            rsum (fun u => fst u * apply_ws ws (colf (snd u))) (List.combine cs ls)).
  { clear - Rth. intros cs ls. unfold apply_ws, comb. 
    rewrite (rsum_ext _ (fun wp => rsum (fun u => fst u * (fst wp * colf (snd u) (snd wp))) (List.combine cs ls))).
    - rewrite rsum_swap. apply rsum_ext. intros u _. now rewrite rsum_scale.
    - intros wp _. rewrite <- rsum_scale. revert ls. induction cs as [|c cs IH]; intros [|y ls]; cbn; try reflexivity.
      rewrite IH. f_equal. ring. }
  rewrite Lin in Z. pose proof (nodup_split_unique _ _ _ Hn) as Hx.
  assert (Ec : List.combine (cp ++ c :: cq) (p ++ x :: q) = List.combine cp p ++ (c, x) :: List.combine cq q).
  { clear - Hp. revert p Hp. induction cp as [|y cp IH]; intros [|z p] Hp; try discriminate; [reflexivity|]. cbn.
    rewrite IH; [reflexivity|]. now injection Hp. }
  rewrite Ec, rsum_app in Z. cbn in Z. rewrite H1 in Z.
  rewrite (rsum_zero _ (List.combine cp p)), (rsum_zero _ (List.combine cq q)) in Z.
  - rewrite <- Z. ring.
  - intros [d y] Hy. apply in_combine_r in Hy. cbn. rewrite H0; [ring| |].
    + apply in_app_iff. right. now right.
    + intros ->. apply Hx. apply in_app_iff. now right.
  - intros [d y] Hy. apply in_combine_r in Hy. cbn. rewrite H0; [ring| |].
    + apply in_app_iff. now left.
    + intros ->. apply Hx. apply in_app_iff. now left.
Qed.
End Dual.

(** * Span *)
Section SpanFacts.
Context {P : Type} (ok : P -> Prop).
Notation in_span := (in_span rO radd rmul ok).
Notation comb := (@RankSpec.comb R rO radd rmul P).

Lemma span_ext cols Y Z : in_span cols Y -> (forall p, ok p -> Z p = Y p) -> in_span cols Z.
Proof. intros [c [Hl H]] E. exists c. split; [exact Hl|]. intros p Hp. rewrite E by exact Hp. auto. Qed.
Lemma comb_zero cols p : comb (map (fun _ => rO) cols) cols p = rO.
Proof. unfold RankSpec.comb. induction cols; cbn; [reflexivity|]. rewrite IHcols. ring. Qed.
Lemma span_zero cols : in_span cols (fun _ => rO).
Proof. exists (map (fun _ => rO) cols). split; [apply map_length|]. intros p _. symmetry. apply comb_zero. Qed.
Lemma span_add cols Y Z : in_span cols Y -> in_span cols Z -> in_span cols (fun p => Y p + Z p).
Proof.
  intros [c [Hl H]] [d [Hl' H']]. exists (map (fun x => fst x + snd x) (List.combine c d)).
  split; [rewrite map_length, combine_length; lia|]. intros p Hp. rewrite H, H' by exact Hp.
  unfold RankSpec.comb. clear - Rth Hl Hl'. revert c d Hl Hl'. induction cols as [|x cols IH]; intros [|a c] [|b d] Hl Hl'; try discriminate; cbn; [ring|].
  rewrite <- IH by (cbn in *; lia). ring.
Qed.
Lemma span_scale cols a Y : in_span cols Y -> in_span cols (fun p => a * Y p).
Proof.
  intros [c [Hl H]]. exists (map (fun x => a * x) c). split; [now rewrite map_length|]. intros p Hp. rewrite H by exact Hp.
  unfold RankSpec.comb. clear - Rth. revert c. induction cols as [|x cols IH]; intros [|b c]; cbn; try ring.
  rewrite <- IH. ring.
Qed.
Lemma span_sum {X} cols (h : X -> P -> R) l : (forall x, In x l -> in_span cols (h x)) -> in_span cols (fun p => rsum (fun x => h x p) l).
Proof.
  induction l as [|x l IH]; cbn; intros H; [apply span_zero|]. apply span_add; [apply H; now left|]. apply IH. auto.
Qed.
Lemma span_app_l a b Y : in_span a Y -> in_span (a ++ b) Y.
Proof.
  intros [c [Hl H]]. exists (c ++ map (fun _ => rO) b). split; [rewrite !app_length, map_length; lia|].
  intros p Hp. rewrite H by exact Hp. unfold RankSpec.comb.
  assert (E : List.combine (c ++ map (fun _ => rO) b) (a ++ b) = List.combine c a ++ List.combine (map (fun _ => rO) b) b).
  { clear - Hl. revert a Hl. induction c as [|x c IH]; intros [|y a] Hl; try discriminate; cbn; [reflexivity|]. f_equal. apply IH. cbn in Hl. lia. }
  rewrite E, rsum_app. pose proof (comb_zero b p) as Z. unfold RankSpec.comb in Z. rewrite Z. ring.
Qed.
Lemma span_app_r a b Y : in_span b Y -> in_span (a ++ b) Y.
Proof.
  intros [c [Hl H]]. exists (map (fun _ => rO) a ++ c). split; [rewrite !app_length, map_length; lia|].
  intros p Hp. rewrite H by exact Hp. unfold RankSpec.comb.
  assert (E : List.combine (map (fun _ => rO) a ++ c) (a ++ b) = List.combine (map (fun _ => rO) a) a ++ List.combine c b).
  { clear. induction a as [|y a IH]; cbn; [reflexivity|]. f_equal. exact IH. }
  rewrite E, rsum_app. pose proof (comb_zero a p) as Z. unfold RankSpec.comb in Z. rewrite Z. ring.
Qed.
Lemma span_col cols x : In x cols -> in_span cols x.
Proof.
  induction cols as [|y cols IH]; intros []; [subst y|].
  - change (x :: cols) with ([x] ++ cols). apply span_app_l. exists [rI]. split; [reflexivity|]. intros p _. cbn. ring.
  - change (y :: cols) with ([y] ++ cols). apply span_app_r. auto.
Qed.
Lemma span_flat {X} (f : X -> list (P -> R)) l x Y : In x l -> in_span (f x) Y -> in_span (flat_map f l) Y.
Proof.
  induction l as [|y l IH]; intros []; cbn; intros H0; [subst; now apply span_app_l|apply span_app_r; auto].
Qed.
Lemma span_comb cols : forall c, length c = length cols -> forall p, comb c cols p =
  rsum (fun i => nth i c rO * nth i cols (fun _ => rO) p) (seq 0 (length cols)).
Proof.
  unfold RankSpec.comb. induction cols as [|x cols IH]; intros [|a c] Hl p; try discriminate; cbn; [reflexivity|].
  rewrite rsum_seq_shift. cbn. rewrite IH by (cbn in Hl; lia). reflexivity.
Qed.
Lemma span_app_inv a b Y : in_span (a ++ b) Y -> exists Ya Yb, in_span a Ya /\ in_span b Yb /\ forall p, ok p -> Y p = Ya p + Yb p.
Proof.
  intros [c [Hl H]]. rewrite app_length in Hl.
  exists (comb (firstn (length a) c) a), (comb (skipn (length a) c) b). split; [|split].
  - exists (firstn (length a) c). split; [rewrite firstn_length; lia|auto].
  - exists (skipn (length a) c). split; [rewrite skipn_length; lia|auto].
  - intros p Hp. rewrite H by exact Hp. unfold RankSpec.comb. rewrite <- rsum_app. f_equal.
    clear H Hp. revert c Hl. induction a as [|x a IH]; intros c Hl; cbn; [reflexivity|].
    destruct c as [|y c]; [cbn in Hl; lia|]. cbn. f_equal. apply IH. cbn in Hl. lia.
Qed.
Lemma span_map {X} (h : X -> P -> R) l (beta : X -> R) : in_span (map h l) (fun p => rsum (fun x => beta x * h x p) l).
Proof.
  apply span_sum. intros x Hx. apply (span_scale _ (beta x) (h x)). apply span_col. now apply in_map.
Qed.
End SpanFacts.

(** * Product columns *)
Section Cols.
Context {F : Type} (feqb : F -> F -> bool).
Hypothesis feqb_spec : forall a b, feqb a b = true <-> a = b.
Variable nlev : F -> nat.
Variable ncol : F -> bool -> nat.
Variable M : F -> bool -> nat -> nat -> R.
Notation coding_col := (coding_col rI rmul M).
Notation coding_cols := (coding_cols rI rmul ncol M).
Notation with_const := (with_const rI).

Lemma feqb_refl a : feqb a a = true.
Proof. now apply feqb_spec. Qed.
Lemma feqb_neq a b : a <> b -> feqb a b = false.
Proof. intros H. destruct (feqb a b) eqn:E; [apply feqb_spec in E; contradiction|reflexivity]. Qed.

Definition upd (rho : F -> nat) (f : F) (l : nat) : F -> nat := fun g => if feqb g f then l else rho g.
Fixpoint all_assign (U : list F) : list (F -> nat) :=
  match U with
  | [] => [fun _ => 0]
  | f :: U => flat_map (fun rho => map (upd rho f) (seq 0 (nlev f))) (all_assign U)
  end.

Lemma all_assign_legit U : forall rho, In rho (all_assign U) -> legit nlev U rho.
Proof.
  induction U as [|f U IH]; cbn; intros rho H g Hg; [destruct Hg|].
  apply in_flat_map in H. destruct H as [r0 [H0 H]]. apply in_map_iff in H. destruct H as [l [<- Hl]]. apply in_seq in Hl.
  unfold upd. destruct (feqb g f) eqn:E; [apply feqb_spec in E; subst; lia|].
  destruct Hg as [->|Hg]; [rewrite feqb_refl in E; discriminate|]. now apply IH.
Qed.

Lemma fubini (g : F -> nat -> R) U : NoDup U ->
  rsum (fun rho => rprod (fun f => g f (rho f)) U) (all_assign U) = rprod (fun f => rsum (g f) (seq 0 (nlev f))) U.
Proof.
  induction 1 as [|f U Hf HU IH]; cbn; [ring|]. rewrite rsum_flat.
  rewrite (rsum_ext _ (fun rho => rsum (g f) (seq 0 (nlev f)) * rprod (fun h => g h (rho h)) U)).
  - rewrite rsum_scale, IH. reflexivity.
  - intros rho _. rewrite rsum_map, <- rsum_scale_r. apply rsum_ext. intros l _. unfold upd at 1. rewrite feqb_refl. f_equal.
    apply rprod_ext. intros h Hh. unfold upd. rewrite feqb_neq; [reflexivity|]. intros ->. contradiction.
Qed.

(** The one-factor functions whose product a column is. *)
Fixpoint entry (c : list (F * bool)) (ks : list nat) (f : F) : option (bool * nat) :=
  match c, ks with
  | (g, b) :: c, k :: ks => if feqb f g then Some (b, k) else entry c ks f
  | _, _ => None
  end.
Definition onef (c : list (F * bool)) (ks : list nat) (f : F) (l : nat) : R :=
  match entry c ks f with Some (b, k) => M f b l k | None => rI end.

Lemma entry_none c ks f : ~ In f (map fst c) -> entry c ks f = None.
Proof.
  revert ks. induction c as [|[g b] c IH]; intros [|k ks] H; cbn in *; try reflexivity.
  rewrite feqb_neq by (intros ->; apply H; now left). apply IH. tauto.
Qed.
Lemma prod_replace (h : F -> R) a A U : NoDup U -> In a U -> h a = rI ->
  rprod (fun f => if feqb f a then A else h f) U = A * rprod h U.
Proof.
  induction 1 as [|f U Hf HU IH]; cbn; [intros []|]. intros [->|Ha] Hh.
  - rewrite feqb_refl, Hh. rewrite (rprod_ext _ h); [ring|]. intros x Hx. rewrite feqb_neq; [reflexivity|].
    intros ->. contradiction.
  - rewrite feqb_neq by (intros ->; contradiction). rewrite IH by assumption. ring.
Qed.
Lemma coding_col_prod c : forall ks U rho, NoDup U -> NoDup (map fst c) -> incl (map fst c) U ->
  coding_col c ks rho = rprod (fun f => onef c ks f (rho f)) U.
Proof.
  induction c as [|[g b] c IH]; intros ks U rho HU Hc Hi.
  - cbn. symmetry. apply rprod_one. reflexivity.
  - destruct ks as [|k ks]; [cbn; symmetry; apply rprod_one; reflexivity|].
    cbn [RankSpec.coding_col]. cbn in Hc, Hi. inversion Hc; subst.
    rewrite (IH ks U rho HU) by (auto; intros x Hx; apply Hi; now right).
    rewrite <- (prod_replace (fun f => onef c ks f (rho f)) g (M g b (rho g) k) U HU).
    + apply rprod_ext. intros f _. unfold onef. cbn. destruct (feqb f g) eqn:E; [|reflexivity].
      apply feqb_spec in E. now subst.
    + apply Hi. now left.
    + unfold onef. now rewrite entry_none.
Qed.

(** Index lists *)
Lemma combos_spec ns : forall ks, In ks (combos ns) <-> Forall2 lt ks ns.
Proof.
  induction ns as [|n ns IH]; intros ks; cbn.
  - split; [intros [<-|[]]; constructor|]. inversion 1. now left.
  - rewrite in_flat_map. split.
    + intros [r [Hr Hk]]. apply in_map_iff in Hk. destruct Hk as [k [<- Hk]]. apply in_seq in Hk. constructor; [lia|now apply IH].
    + intros H. inversion H; subst. exists l. split; [now apply IH|]. apply in_map_iff. exists x. split; [reflexivity|]. apply in_seq. lia.
Qed.
Lemma combos_nodup ns : NoDup (combos ns).
Proof.
  induction ns as [|n ns IH]; cbn; [repeat constructor; intros []|].
  induction IH as [|r L Hr HL IHL]; cbn; [constructor|].
  assert (A : forall (a b : list (list nat)), NoDup a -> NoDup b -> (forall x, In x a -> ~ In x b) -> NoDup (a ++ b)).
  { clear. induction 1 as [|x a Hx Ha IH]; cbn; intros Hb Hd; [exact Hb|]. constructor.
    - rewrite in_app_iff. intros [H|H]; [contradiction|]. apply (Hd x); auto.
    - apply IH; auto. }
  apply A; [|exact IHL|].
  - apply FinFun.Injective_map_NoDup; [intros x y [= ->]; reflexivity|apply seq_NoDup].
  - intros x Hx Hx2. apply in_map_iff in Hx. destruct Hx as [k [<- _]]. apply in_flat_map in Hx2.
    destruct Hx2 as [r' [Hr' Hx2]]. apply in_map_iff in Hx2. destruct Hx2 as [k' [[= -> ->] _]]. contradiction.
Qed.

(** Product of sums. *)
Lemma prod_sums {X} (w : X -> nat) (h : X -> nat -> R) c :
  rprod (fun x => rsum (h x) (seq 0 (w x))) c =
  rsum (fun ks => rprod (fun p => h (fst p) (snd p)) (List.combine c ks)) (combos (map w c)).
Proof.
  induction c as [|x c IH]; cbn; [ring|]. rewrite rsum_flat.
  rewrite (rsum_ext _ (fun r => rsum (h x) (seq 0 (w x)) * rprod (fun p => h (fst p) (snd p)) (List.combine c r))).
  - rewrite rsum_scale, <- IH. ring.
  - intros r _. rewrite rsum_map, <- rsum_scale_r. apply rsum_ext. intros k _. reflexivity.
Qed.

(** Contract consequences: dual functionals. *)
Definition good (f : F) := good_coding rO rI radd rmul nlev ncol M f.
(** [phi f o]: the functional for "absent", "contrast column k", "full column k". *)
Definition pairing (phi x : nat -> R) (n : nat) : R := rsum (fun l => phi l * x l) (seq 0 n).

Definition is_dual (f : F) (phi : option (bool * nat) -> nat -> R) : Prop :=
  pairing (phi None) (fun _ => rI) (nlev f) = rI /\
  (forall k, k < ncol f false -> pairing (phi None) (fun l => M f false l k) (nlev f) = rO) /\
  (forall j, j < ncol f false -> pairing (phi (Some (false, j))) (fun _ => rI) (nlev f) = rO) /\
  (forall j k, j < ncol f false -> k < ncol f false ->
     pairing (phi (Some (false, j))) (fun l => M f false l k) (nlev f) = kron j k) /\
  (forall j k, j < ncol f true -> k < ncol f true ->
     pairing (phi (Some (true, j))) (fun l => M f true l k) (nlev f) = kron j k).
Lemma good_dual f : good f -> exists phi, is_dual f phi.
Proof.
  intros [E1 [E2 [[B [_ HB]] [D [_ HD]]]]].
  exists (fun o => match o with None => B 0 | Some (false, j) => B (S j) | Some (true, j) => D j end).
  unfold is_dual, pairing. split; [|split; [|split; [|split]]].
  - transitivity (kron 0 0); [|apply kron_same]. rewrite <- HB by lia. reflexivity.
  - intros k Hk. transitivity (kron 0 (S k)); [|apply kron_diff; lia]. rewrite <- HB by lia. reflexivity.
  - intros j Hj. transitivity (kron (S j) 0); [|apply kron_diff; lia]. rewrite <- HB by lia. reflexivity.
  - intros j k Hj Hk. change (kron j k) with (kron (S j) (S k)). rewrite <- HB by lia. reflexivity.
  - intros j k Hj Hk. rewrite <- HD by lia. reflexivity.
Qed.

(** Choose duals for all the factors of a list (no choice principle needed). *)
Lemma choose_duals U : NoDup U -> Forall good U -> exists phi, forall f, In f U -> is_dual f (phi f).
Proof.
  induction 1 as [|f U Hf HU IH]; intros HG; [exists (fun _ _ _ => rO); intros f []|].
  inversion HG; subst. destruct (IH H2) as [phi Hphi]. destruct (good_dual f H1) as [d Hd].
  exists (fun g => if feqb g f then d else phi g). intros g [<-|Hg].
  - now rewrite feqb_refl.
  - rewrite feqb_neq by (intros ->; contradiction). auto.
Qed.

Definition wf_coding (c : list (F * bool)) : Prop := NoDup (map fst c).
(** Two codings that share no sub-interaction. *)
Definition separated (c c' : list (F * bool)) : Prop := ~ exists S, covers c S /\ covers c' S.

Lemma in_keys_dec (c : list (F * bool)) f : {In f (map fst c)} + {~ In f (map fst c)}.
Proof.
  apply in_dec. intros a b. destruct (feqb a b) eqn:E; [left; now apply feqb_spec|right; intros ->; rewrite feqb_refl in E; discriminate].
Qed.
Lemma separated_witness c c' : separated c c' ->
  exists f, (In (f, false) c /\ ~ In f (map fst c')) \/ (In (f, false) c' /\ ~ In f (map fst c)).
Proof.
  intros H.
  set (bad := fun (d d' : list (F * bool)) (p : F * bool) => snd p = false /\ ~ In (fst p) (map fst d')).
  assert (Dec : forall d d' p, {bad d d' p} + {~ bad d d' p}).
  { intros d d' [f b]. unfold bad. cbn. destruct b; [right; intros [? _]; discriminate|].
    destruct (in_keys_dec d' f); [right; tauto|left; auto]. }
  destruct (Exists_dec (bad c c') c (Dec c c')) as [E|E].
  { apply Exists_exists in E. destruct E as [[f b] [Hi [Hb Hn]]]. cbn in *. subst. eauto. }
  destruct (Exists_dec (bad c' c) c' (Dec c' c)) as [E'|E'].
  { apply Exists_exists in E'. destruct E' as [[f b] [Hi [Hb Hn]]]. cbn in *. subst. eauto. }
  exfalso. apply H.
  set (reds := fun d : list (F * bool) => map fst (filter (fun p => negb (snd p)) d)).
  assert (Rd : forall d f, In f (reds d) <-> In (f, false) d).
  { intros d f. unfold reds. rewrite in_map_iff. split.
    - intros [[g b] [<- Hp]]. apply filter_In in Hp. destruct Hp as [Hp Hb]. destruct b; [discriminate|exact Hp].
    - intros Hp. exists (f, false). split; [reflexivity|]. apply filter_In. auto. }
  assert (K : forall (d : list (F * bool)) f, In f (map fst d) -> exists b, In (f, b) d).
  { intros d f Hf. apply in_map_iff in Hf. destruct Hf as [[g b] [<- Hp]]. eauto. }
  assert (Q : forall d d', ~ Exists (bad d d') d -> forall f, In (f, false) d -> In f (map fst d')).
  { intros d d' He f Hf. destruct (in_keys_dec d' f); [assumption|]. exfalso. apply He. apply Exists_exists.
    exists (f, false). split; [exact Hf|]. split; [reflexivity|assumption]. }
  exists (reds c ++ reds c'). split; split.
  - intros f Hf. apply in_app_iff in Hf. rewrite !Rd in Hf. destruct Hf as [Hf|Hf]; [eauto|]. apply K. eapply Q; eauto.
  - intros f Hf. apply in_app_iff. left. now apply Rd.
  - intros f Hf. apply in_app_iff in Hf. rewrite !Rd in Hf. destruct Hf as [Hf|Hf]; [|eauto]. apply K. eapply Q; eauto.
  - intros f Hf. apply in_app_iff. right. now apply Rd.
Qed.

Lemma entry_in c : forall ks f, Forall2 lt ks (map (fun p => ncol (fst p) (snd p)) c) ->
  match entry c ks f with
  | Some (b, k) => In (f, b) c /\ k < ncol f b
  | None => ~ In f (map fst c)
  end.
Proof.
  induction c as [|[g b] c IH]; intros ks f H; cbn in H; inversion H; subst; cbn; [auto|].
  destruct (feqb f g) eqn:E.
  - apply feqb_spec in E. subst g. split; [now left|assumption].
  - specialize (IH l f H4). destruct (entry c l f) as [[b' k]|].
    + destruct IH. auto.
    + intros [->|Hf]; [rewrite feqb_refl in E; discriminate|contradiction].
Qed.
Lemma entry_diff c : forall ks ks', NoDup (map fst c) ->
  Forall2 lt ks (map (fun p => ncol (fst p) (snd p)) c) -> Forall2 lt ks' (map (fun p => ncol (fst p) (snd p)) c) ->
  ks <> ks' -> exists f b k k', In (f, b) c /\ entry c ks f = Some (b, k) /\ entry c ks' f = Some (b, k') /\ k <> k' /\
    k < ncol f b /\ k' < ncol f b.
Proof.
  induction c as [|[g b] c IH]; intros ks ks' Hn H H' Hd; cbn in H, H'; inversion H; subst; inversion H'; subst; [congruence|].
  cbn in Hn. inversion Hn; subst. destruct (Nat.eq_dec x x0) as [->|Hx].
  - destruct (IH l l0) as [f [b' [k [k' [Hi [E1 [E2 [Hk [L1 L2]]]]]]]]]; auto; [congruence|].
    exists f, b', k, k'. cbn. rewrite feqb_neq; [tauto|]. intros ->. apply H2. change g with (fst (g, b')). now apply in_map.
  - exists g, b, x, x0. cbn. rewrite feqb_refl. tauto.
Qed.

(** Labels of the columns of a list of codings. *)
Definition labels (cs : list (list (F * bool))) : list (list (F * bool) * list nat) :=
  flat_map (fun c => map (pair c) (combos (map (fun p => ncol (fst p) (snd p)) c))) cs.
Lemma labels_cols cs : flat_map coding_cols cs = map (fun x => coding_col (fst x) (snd x)) (labels cs).
Proof.
  induction cs as [|c cs IH]; cbn; [reflexivity|]. rewrite map_app, map_map, IH. reflexivity.
Qed.
Lemma in_labels cs c ks : In (c, ks) (labels cs) <-> In c cs /\ Forall2 lt ks (map (fun p => ncol (fst p) (snd p)) c).
Proof.
  unfold labels. rewrite in_flat_map. split.
  - intros [x [Hx H]]. apply in_map_iff in H. destruct H as [k [[= <- <-] Hk]]. split; [exact Hx|now apply combos_spec].
  - intros [Hc Hk]. exists c. split; [exact Hc|]. apply in_map. now apply combos_spec.
Qed.
Lemma labels_nodup cs : NoDup cs -> NoDup (labels cs).
Proof.
  induction 1 as [|c cs Hc Hcs IH]; cbn; [constructor|].
  assert (A : forall (a b : list (list (F * bool) * list nat)), NoDup a -> NoDup b -> (forall x, In x a -> ~ In x b) -> NoDup (a ++ b)).
  { clear. induction 1 as [|x a Hx Ha IH]; cbn; intros Hb Hd; [exact Hb|]. constructor.
    - rewrite in_app_iff. intros [H|H]; [contradiction|]. apply (Hd x); auto.
    - apply IH; auto. }
  apply A; [|exact IH|].
  - apply FinFun.Injective_map_NoDup; [intros x y [= ->]; reflexivity|apply combos_nodup].
  - intros [c' ks] H1 H2. apply in_map_iff in H1. destruct H1 as [k [[= <- <-] _]]. apply in_labels in H2. apply Hc. apply H2.
Qed.

Definition seps (cs : list (list (F * bool))) : Prop := ForallOrdPairs separated cs.
Lemma covers_self c : wf_coding c -> covers c (map fst c).
Proof.
  intros H. split.
  - intros f Hf. apply in_map_iff in Hf. destruct Hf as [[g b] [<- Hp]]. eauto.
  - intros f Hf. change f with (fst (f, false)). now apply in_map.
Qed.
Lemma separated_sym c c' : separated c c' -> separated c' c.
Proof. intros H [S [A B]]. apply H. exists S. auto. Qed.
Lemma seps_nodup cs : Forall wf_coding cs -> seps cs -> NoDup cs.
Proof.
  intros Hw H. induction H as [|c cs Hc Hcs IH]; [constructor|]. inversion Hw; subst. constructor; auto.
  intros Hi. rewrite Forall_forall in Hc. apply (Hc c Hi). exists (map fst c). split; now apply covers_self.
Qed.
Lemma seps_in cs c c' : seps cs -> In c cs -> In c' cs -> c <> c' -> separated c c'.
Proof.
  induction 1 as [|x cs Hx Hcs IH]; [intros []|]. intros [E1|H1] [E2|H2] Hne; subst; try congruence.
  - rewrite Forall_forall in Hx. auto.
  - rewrite Forall_forall in Hx. apply separated_sym. auto.
  - auto.
Qed.

Lemma independent_cols U cs : NoDup U -> Forall good U -> Forall wf_coding cs ->
  Forall (fun c => incl (map fst c) U) cs -> seps cs ->
  independent rO radd rmul (legit nlev U) (flat_map coding_cols cs).
Proof.
  intros HU HG HW HI HS. rewrite labels_cols. apply dual_independent; [apply labels_nodup; now apply seps_nodup|].
  destruct (choose_duals U HU HG) as [phi Hphi].
  intros [c0 k0] Hx. apply in_labels in Hx. destruct Hx as [Hc0 Hk0].
  rewrite Forall_forall in HW, HI.
  set (w := fun rho : F -> nat => rprod (fun f => phi f (entry c0 k0 f) (rho f)) U).
  exists (map (fun rho => (w rho, rho)) (all_assign U)). split.
  { apply Forall_forall. intros [a rho] H. apply in_map_iff in H. destruct H as [r [[= _ <-] Hr]]. cbn. now apply all_assign_legit. }
  assert (Ev : forall c ks, In c cs -> apply_ws (map (fun rho => (w rho, rho)) (all_assign U)) (coding_col c ks) =
    rprod (fun f => pairing (phi f (entry c0 k0 f)) (onef c ks f) (nlev f)) U).
  { intros c ks Hc. unfold apply_ws. rewrite rsum_map. cbn.
    rewrite (rsum_ext _ (fun rho => rprod (fun f => phi f (entry c0 k0 f) (rho f) * onef c ks f (rho f)) U)).
    - apply (fubini (fun f l => phi f (entry c0 k0 f) l * onef c ks f l) U HU).
    - intros rho _. rewrite (coding_col_prod c ks U rho HU (HW c Hc) (HI c Hc)). unfold w. now rewrite <- rprod_mul. }
  cbn [fst snd]. split.
  - rewrite Ev by exact Hc0. apply rprod_one. intros f Hf. destruct (Hphi f Hf) as [D1 [D2 [D3 [D4 D5]]]].
    unfold onef. pose proof (entry_in c0 k0 f Hk0) as En. destruct (entry c0 k0 f) as [[[|] k]|].
    + destruct En as [_ En]. now rewrite D5, kron_same.
    + destruct En as [_ En]. now rewrite D4, kron_same.
    + exact D1.
  - intros [c ks] Hy Hne. apply in_labels in Hy. destruct Hy as [Hc Hks]. cbn [fst snd]. rewrite Ev by exact Hc.
    assert (Wit : exists f, In f U /\ pairing (phi f (entry c0 k0 f)) (onef c ks f) (nlev f) = rO).
    { assert (Dc : {c = c0} + {c <> c0}).
      { apply list_eq_dec. intros [f b] [g b']. destruct (feqb f g) eqn:E.
        - apply feqb_spec in E. subst g. destruct (Bool.bool_dec b b'); [left; now subst|right; congruence].
        - right. intros [= -> _]. rewrite feqb_refl in E. discriminate. }
      destruct Dc as [->|Dc].
      - destruct (entry_diff c0 k0 ks (HW c0 Hc0) Hk0 Hks) as [f [b [k [k' [Hi [E1 [E2 [Hkk [L1 L2]]]]]]]]]; [congruence|].
        assert (Hf : In f U) by (apply (HI c0 Hc0); change f with (fst (f, b)); now apply in_map).
        exists f. split; [exact Hf|]. destruct (Hphi f Hf) as [D1 [D2 [D3 [D4 D5]]]].
        unfold onef. rewrite E1, E2. destruct b; [rewrite D5 by assumption|rewrite D4 by assumption]; now apply kron_diff.
      - destruct (separated_witness c0 c) as [f Hf]; [apply (seps_in cs); auto|].
        exists f. destruct Hf as [[Hi Hn]|[Hi Hn]].
        + assert (Hf : In f U) by (apply (HI c0 Hc0); change f with (fst (f, false)); now apply in_map).
          split; [exact Hf|]. destruct (Hphi f Hf) as [D1 [D2 [D3 [D4 D5]]]].
          unfold onef. rewrite (entry_none c ks f Hn). pose proof (entry_in c0 k0 f Hk0) as En.
          destruct (entry c0 k0 f) as [[b k]|].
          * destruct En as [En1 En2]. assert (b = false).
            { specialize (HW c0 Hc0). clear - HW Hi En1. unfold wf_coding in HW. induction c0 as [|[g b'] c0 IH]; [destruct Hi|].
              cbn in HW. inversion HW; subst. destruct Hi as [Hi|Hi], En1 as [En1|En1].
              - congruence.
              - injection Hi as -> ->. exfalso. apply H1. now apply (in_map fst) in En1.
              - injection En1 as -> ->. exfalso. apply H1. now apply (in_map fst) in Hi.
              - auto. }
            subst b. now apply D3.
          * exfalso. apply En. change f with (fst (f, false)). now apply in_map.
        + assert (Hf : In f U) by (apply (HI c Hc); change f with (fst (f, false)); now apply in_map).
          split; [exact Hf|]. destruct (Hphi f Hf) as [D1 [D2 [D3 [D4 D5]]]].
          unfold onef. rewrite (entry_none c0 k0 f Hn). pose proof (entry_in c ks f Hks) as En.
          destruct (entry c ks f) as [[b k]|].
          * destruct En as [En1 En2]. assert (b = false).
            { specialize (HW c Hc). clear - HW Hi En1. unfold wf_coding in HW. induction c as [|[g b'] c IH]; [destruct Hi|].
              cbn in HW. inversion HW; subst. destruct Hi as [Hi|Hi], En1 as [En1|En1].
              - congruence.
              - injection Hi as -> ->. exfalso. apply H1. now apply (in_map fst) in En1.
              - injection En1 as -> ->. exfalso. apply H1. now apply (in_map fst) in Hi.
              - auto. }
            subst b. now apply D2.
          * exfalso. apply En. change f with (fst (f, false)). now apply in_map. }
    destruct Wit as [f [Hf E]]. now apply (rprod_zero _ _ f).
Qed.

(** * Spanning *)
Lemma all_assign_outside U : forall rho, In rho (all_assign U) -> forall g, ~ In g U -> rho g = 0.
Proof.
  induction U as [|f U IH]; cbn; intros rho H g Hg; [destruct H as [<-|[]]; reflexivity|].
  apply in_flat_map in H. destruct H as [r0 [H0 H]]. apply in_map_iff in H. destruct H as [l [<- Hl]].
  unfold upd. rewrite feqb_neq by (intros ->; apply Hg; now left). apply IH; [exact H0|tauto].
Qed.

Lemma indicator_sum V rho : NoDup V -> legit nlev V rho -> exists a, In a (all_assign V) /\ (forall f, In f V -> a f = rho f) /\
  forall h, rsum (fun b => h b * rprod (fun f => kron (b f) (rho f)) V) (all_assign V) = h a.
Proof.
  induction 1 as [|f V Hf HV IH]; intros HL.
  - exists (fun _ => 0). split; [now left|]. split; [intros f []|]. intros h. cbn. ring.
  - destruct IH as [a [Ha [Hag Hs]]]; [intros g Hg; apply HL; now right|].
    exists (upd a f (rho f)). split; [|split].
    + cbn. apply in_flat_map. exists a. split; [exact Ha|]. apply in_map_iff. exists (rho f). split; [reflexivity|].
      apply in_seq. specialize (HL f (or_introl eq_refl)). lia.
    + intros g [<-|Hg]; unfold upd; [now rewrite feqb_refl|]. rewrite feqb_neq by (intros ->; contradiction). auto.
    + intros h. cbn [all_assign]. rewrite rsum_flat.
      rewrite (rsum_ext _ (fun r => h (upd r f (rho f)) * rprod (fun g => kron (r g) (rho g)) V)).
      { apply (Hs (fun r => h (upd r f (rho f)))). }
      intros r _. rewrite rsum_map.
      rewrite (rsum_ext _ (fun l => (h (upd r f l) * rprod (fun g => kron (r g) (rho g)) V) * kron l (rho f))).
      { rewrite (rsum_kron (fun l => h (upd r f l) * rprod (fun g => kron (r g) (rho g)) V)); [reflexivity|]. apply HL. now left. }
      intros l _. cbn. unfold upd at 2. rewrite feqb_refl.
      rewrite (rprod_ext (fun f0 => kron (upd r f l f0) (rho f0)) (fun g => kron (r g) (rho g))); [ring|].
      intros g Hg. unfold upd. rewrite feqb_neq by (intros ->; contradiction). reflexivity.
Qed.

Lemma rprod_perm {X} (h : X -> R) a b : Permutation a b -> rprod h a = rprod h b.
Proof. induction 1; cbn; [reflexivity|now rewrite IHPermutation|ring|congruence]. Qed.
Lemma fdec (a b : F) : {a = b} + {a <> b}.
Proof. destruct (feqb a b) eqn:E; [left; now apply feqb_spec|right; intros ->; rewrite feqb_refl in E; discriminate]. Qed.
Lemma rprod_filter {X} (h : X -> R) (p : X -> bool) l : (forall x, In x l -> p x = false -> h x = rI) -> rprod h l = rprod h (filter p l).
Proof.
  induction l as [|x l IH]; cbn; intros H; [reflexivity|]. rewrite IH by (intros; apply H; auto).
  destruct (p x) eqn:E; [reflexivity|]. rewrite H by auto. ring.
Qed.
Lemma prod_support (h : F -> R) V W : NoDup V -> NoDup W ->
  (forall f, In f V -> ~ In f W -> h f = rI) -> (forall f, In f W -> ~ In f V -> h f = rI) -> rprod h V = rprod h W.
Proof.
  intros HV HW H1 H2.
  rewrite (rprod_filter h (fun f => if in_dec fdec f W then true else false) V)
    by (intros f Hf E; destruct (in_dec fdec f W); [discriminate|auto]).
  rewrite (rprod_filter h (fun f => if in_dec fdec f V then true else false) W)
    by (intros f Hf E; destruct (in_dec fdec f V); [discriminate|auto]).
  apply rprod_perm. apply NoDup_Permutation; try (now apply NoDup_filter).
  intros f. rewrite !filter_In. destruct (in_dec fdec f V), (in_dec fdec f W); intuition discriminate.
Qed.

Lemma finite_choice {X} (Q : F -> X -> Prop) (d : X) U : (forall f, In f U -> exists x, Q f x) -> exists g, forall f, In f U -> Q f (g f).
Proof.
  induction U as [|f U IH]; intros H; [exists (fun _ => d); intros f []|].
  destruct IH as [g Hg]; [intros; apply H; now right|]. destruct (H f (or_introl eq_refl)) as [x Hx].
  exists (fun h => if feqb h f then x else g h). intros h Hh. destruct (feqb h f) eqn:E.
  - apply feqb_spec in E. now subst.
  - destruct Hh as [->|Hh]; [rewrite feqb_refl in E; discriminate|]. auto.
Qed.

(** A product of one-factor functions, each a combination of the coding's columns. *)
Lemma product_in_span (ok : (F -> nat) -> Prop) c (y : F -> nat -> R) : NoDup (map fst c) ->
  (forall f b, In (f, b) c -> exists gam, forall l, l < nlev f -> y f l = rsum (fun k => M f b l k * gam k) (seq 0 (ncol f b))) ->
  (forall rho, ok rho -> legit nlev (map fst c) rho) ->
  in_span rO radd rmul ok (coding_cols c) (fun rho => rprod (fun f => y f (rho f)) (map fst c)).
Proof.
  intros Hn Hy HL.
  assert (exists gam : F -> nat -> R, forall f b, In (f, b) c -> forall l, l < nlev f ->
            y f l = rsum (fun k => M f b l k * gam f k) (seq 0 (ncol f b))) as [gam Hg].
  { destruct (finite_choice (fun f (g : nat -> R) => forall b, In (f, b) c -> forall l, l < nlev f ->
       y f l = rsum (fun k => M f b l k * g k) (seq 0 (ncol f b))) (fun _ => rO) (map fst c)) as [g Hg].
    - intros f Hf. apply in_map_iff in Hf. destruct Hf as [[f' b] [<- Hp]]. destruct (Hy f' b Hp) as [g Hg]. exists g.
      intros b' Hb'. cbn in *. assert (b' = b).
      { clear - Hn Hp Hb'. induction c as [|[g' x] c IH]; [destruct Hp|]. cbn in Hn. inversion Hn; subst.
        destruct Hp as [Hp|Hp], Hb' as [Hb'|Hb'].
        - congruence.
        - injection Hp as -> ->. exfalso. apply H1. now apply (in_map fst) in Hb'.
        - injection Hb' as -> ->. exfalso. apply H1. now apply (in_map fst) in Hp.
        - auto. }
      subst b'. exact Hg.
    - exists g. intros f b Hb. apply Hg; [|exact Hb]. now apply (in_map fst) in Hb. }
  eapply span_ext; [apply (span_map _ (coding_col c) (combos (map (fun p => ncol (fst p) (snd p)) c))
      (fun ks => rprod (fun p => gam (fst (fst p)) (snd p)) (List.combine c ks)))|].
  intros rho Hrho. cbn beta. specialize (HL rho Hrho). clear Hy Hn.
  transitivity (rprod (fun p => rsum (fun k => M (fst p) (snd p) (rho (fst p)) k * gam (fst p) k) (seq 0 (ncol (fst p) (snd p)))) c).
  - clear - Hg HL. induction c as [|[f b] c IH]; cbn; [reflexivity|]. f_equal.
    + apply Hg; [now left|]. apply HL. now left.
    + apply IH; [intros g Hgi; apply HL; now right|]. intros; apply Hg; [now right|assumption].
  - rewrite (prod_sums (fun p : F * bool => ncol (fst p) (snd p)) (fun p k => M (fst p) (snd p) (rho (fst p)) k * gam (fst p) k) c).
    apply rsum_ext. intros ks Hks. apply combos_spec in Hks. clear - Rth Hks.
    revert ks Hks. induction c as [|[f b] c IH]; intros ks Hks; cbn in Hks; inversion Hks; subst; cbn; [ring|].
    rewrite IH by assumption. ring.
Qed.

Lemma span_of_subsets (ok : (F -> nat) -> Prop) U V cs Y :
  NoDup V -> incl V U -> Forall good U -> Forall wf_coding cs -> Forall (fun c => incl (map fst c) U) cs ->
  (forall rho, ok rho -> legit nlev U rho) ->
  (forall S, incl S V -> exists c, In c cs /\ covers c S) ->
  depends_on nlev U V Y ->
  in_span rO radd rmul ok (flat_map coding_cols cs) Y.
Proof.
  intros HV HVU HG HW HI HL HC HY. rewrite Forall_forall in HG, HW, HI.
  destruct (finite_choice (fun f B => is_inverse rO rI radd rmul (nlev f) (with_const (M f false)) B) (fun _ _ => rO) U) as [B HB].
  { intros f Hf. destruct (HG f Hf) as [_ [_ [H _]]]. exact H. }
  assert (Pos : forall f, In f U -> 0 < nlev f) by (intros f Hf; destruct (HG f Hf) as [_ [H _]]; lia).
  set (Z := fun (kap : F -> nat) (rho : F -> nat) => rprod (fun f => with_const (M f false) (rho f) (kap f)) V).
  eapply span_ext with (Y := fun rho => rsum (fun a => rsum (fun kap => (Y a * rprod (fun f => B f (kap f) (a f)) V) * Z kap rho) (all_assign V)) (all_assign V)).
  2:{ intros rho Hrho. specialize (HL rho Hrho).
      destruct (indicator_sum V rho HV) as [a [Ha [Hag Hs]]]; [intros f Hf; apply HL; auto|].
      transitivity (Y a).
      { apply HY; [exact HL| |intros f Hf; symmetry; auto]. intros f Hf. destruct (in_dec fdec f V).
        - rewrite Hag by assumption. auto.
        - rewrite (all_assign_outside V a Ha f) by assumption. auto. }
      rewrite <- (Hs Y). apply rsum_ext. intros b Hb.
      rewrite (rsum_ext _ (fun kap => Y b * rprod (fun f => with_const (M f false) (rho f) (kap f) * B f (kap f) (b f)) V)).
      - rewrite rsum_scale. f_equal. rewrite (fubini (fun f k => with_const (M f false) (rho f) k * B f k (b f)) V HV).
        apply rprod_ext. intros f Hf. destruct (HB f (HVU f Hf)) as [H1 _]. rewrite H1.
        + unfold RankSpec.kron. now rewrite Nat.eqb_sym.
        + apply HL. auto.
        + apply (all_assign_legit V b Hb). exact Hf.
      - intros kap _. unfold Z. rewrite rprod_mul. ring. }
  apply span_sum. intros a _. apply (span_sum _ _ (fun kap rho => (Y a * rprod (fun f => B f (kap f) (a f)) V) * Z kap rho)).
  intros kap Hkap. apply (span_scale _ _ _ (Z kap)).
  set (Sset := filter (fun f => negb (Nat.eqb (kap f) 0)) V).
  assert (HS : forall f, In f Sset <-> In f V /\ kap f <> 0).
  { intros f. unfold Sset. rewrite filter_In, negb_true_iff, Nat.eqb_neq. tauto. }
  destruct (HC Sset) as [c [Hc [C1 C2]]]; [intros f Hf; now apply HS in Hf|].
  apply (span_flat _ coding_cols cs c); [exact Hc|].
  eapply span_ext; [apply (product_in_span ok c (fun f l => with_const (M f false) l (kap f)) (HW c Hc))|].
  - intros f b Hb. assert (Hf : In f U) by (apply (HI c Hc); now apply (in_map fst) in Hb).
    destruct (HG f Hf) as [E1 [E2 [_ [D [HD _]]]]]. destruct b.
    + exists (fun k => rsum (fun l' => D k l' * with_const (M f false) l' (kap f)) (seq 0 (nlev f))).
      intros l Hl. rewrite E1.
      rewrite (rsum_ext _ (fun k => rsum (fun l' => with_const (M f false) l' (kap f) * (M f true l k * D k l')) (seq 0 (nlev f)))).
      * rewrite rsum_swap. rewrite (rsum_ext _ (fun l' => with_const (M f false) l' (kap f) * kron l' l)).
        -- rewrite (rsum_kron (fun l' => with_const (M f false) l' (kap f))) by exact Hl. reflexivity.
        -- intros l' Hl'. apply in_seq in Hl'. rewrite rsum_scale, HD by lia. unfold RankSpec.kron. now rewrite Nat.eqb_sym.
      * intros k _. rewrite <- rsum_scale. apply rsum_ext. intros l' _. ring.
    + assert (Hk : In f Sset) by auto. apply HS in Hk. destruct Hk as [Hk1 Hk2].
      assert (Hlt : kap f < nlev f) by (apply (all_assign_legit V kap Hkap); exact Hk1).
      destruct (kap f) as [|k0] eqn:Ek; [congruence|].
      exists (fun k => kron k k0). intros l Hl. cbn. symmetry. apply (rsum_kron (fun k => M f false l k)). lia.
  - intros rho Hrho f Hf. apply (HL rho Hrho). apply (HI c Hc). exact Hf.
  - intros rho Hrho. unfold Z. apply prod_support; [exact HV|apply (HW c Hc)| |].
    + intros f Hf Hn. destruct (Nat.eq_dec (kap f) 0) as [->|Hk]; [reflexivity|]. exfalso. apply Hn.
      destruct (C1 f) as [b Hb]; [now apply HS|]. now apply (in_map fst) in Hb.
    + intros f Hf Hn. rewrite (all_assign_outside V kap Hkap f Hn). reflexivity.
Qed.

(** Columns only look at the factors of their coding. *)
Lemma coding_col_depends c : forall ks r1 r2, (forall f, In f (map fst c) -> r1 f = r2 f) -> coding_col c ks r1 = coding_col c ks r2.
Proof.
  induction c as [|[f b] c IH]; intros [|k ks] r1 r2 H; cbn; try reflexivity.
  rewrite (H f) by (now left). rewrite (IH ks r1 r2); [reflexivity|]. intros g Hg. apply H. now right.
Qed.

Lemma comb_app (c1 c2 : list R) a b (p : F -> nat) : length c1 = length a ->
  comb rO radd rmul (c1 ++ c2) (a ++ b) p = comb rO radd rmul c1 a p + comb rO radd rmul c2 b p.
Proof.
  intros H. unfold RankSpec.comb. rewrite <- rsum_app. f_equal.
  revert a H. induction c1 as [|x c1 IH]; intros [|y a] H; try discriminate; cbn; [reflexivity|]. f_equal. apply IH. cbn in H. lia.
Qed.

Lemma span_in_model_space (ok : (F -> nat) -> Prop) U : forall css cats,
  Forall2 (fun cs cat => Forall (fun c => incl (map fst c) cat) cs) css cats ->
  forall Y, in_span rO radd rmul ok (flat_map coding_cols (List.concat css)) Y -> model_space rO radd nlev U cats ok Y.
Proof.
  intros css cats HF Y [co [Hl H]]. 
  assert (G : exists Ys, Forall2 (depends_on nlev U) cats Ys /\ 
     forall rho, comb rO radd rmul co (flat_map coding_cols (List.concat css)) rho = rsum (fun y => y rho) Ys).
  { clear H Y. revert co Hl. induction HF as [|cs cat css cats Hc HF IH]; intros co Hl.
    - exists []. split; [constructor|]. intros rho. cbn in *. unfold RankSpec.comb. destruct co; reflexivity.
    - cbn in Hl |- *. rewrite flat_map_app in *. rewrite app_length in Hl. set (n := length (flat_map coding_cols cs)) in *.
      destruct (IH (skipn n co)) as [Ys [H1 H2]]; [rewrite skipn_length; lia|].
      exists (comb rO radd rmul (firstn n co) (flat_map coding_cols cs) :: Ys). split.
      + constructor; [|exact H1]. intros r1 r2 _ _ Hag. unfold RankSpec.comb. apply rsum_ext. intros [w col] Hw.
        apply in_combine_r in Hw. cbn. f_equal. apply in_flat_map in Hw. destruct Hw as [c [Hci Hw]]. apply in_map_iff in Hw.
        destruct Hw as [ks [<- _]]. apply coding_col_depends. intros f Hf. apply Hag. rewrite Forall_forall in Hc. apply (Hc c Hci). exact Hf.
      + intros rho. cbn. rewrite <- H2. rewrite <- comb_app; [|rewrite firstn_length; lia]. now rewrite firstn_skipn. }
  destruct G as [Ys [H1 H2]]. exists Ys. split; [exact H1|]. intros rho Hrho. rewrite H by exact Hrho. apply H2.
Qed.
End Cols.
End Rank.
