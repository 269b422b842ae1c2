(** Linear algebra for whole design matrices: products of blocks of columns. *)
From Coq Require Import Permutation Ring Ring_theory.
From Verif Require Import Base RankSpec RankProofs.
Open Scope list_scope.

Section Lin.
Context {R : Type} (rO rI : R) (radd rmul rsub : R -> R -> R) (ropp : R -> R).
Hypothesis Rth : ring_theory rO rI radd rmul rsub ropp (@eq R).
Add Ring Rring : Rth.
Notation "x + y" := (radd x y).
Notation "x * y" := (rmul x y).
Notation rsum := (rsum rO radd).
Notation rprod := (rprod rI rmul).

Section Cols.
Context {P : Type} (ok : P -> Prop).
Notation col := (P -> R).
Notation comb := (@RankSpec.comb R rO radd rmul P).
Notation independent := (@RankSpec.independent R rO radd rmul P).
Notation in_span := (@RankSpec.in_span R rO radd rmul P).

(** Equal on all rows, up to the order of the columns. *)
Inductive peq : list col -> list col -> Prop :=
| pe_nil : peq [] []
| pe_cons f g l m : (forall p, ok p -> f p = g p) -> peq l m -> peq (f :: l) (g :: m)
| pe_swap f g l : peq (f :: g :: l) (g :: f :: l)
| pe_trans l m n : peq l m -> peq m n -> peq l n.

Lemma peq_refl l : peq l l.
Proof. induction l; constructor; auto. Qed.
Lemma peq_sym l m : peq l m -> peq m l.
Proof. induction 1 as [|f g l m H _ IH|f g l|l m n _ IH1 _ IH2]; [constructor|constructor; [intros p Hp; symmetry; auto|exact IH]|apply pe_swap|eapply pe_trans; eassumption]. Qed.
Lemma peq_app a b c d : peq a b -> peq c d -> peq (a ++ c) (b ++ d).
Proof.
  intros H K. induction H as [|f g l m H _ IH|f g l|l m n _ IH1 H2 IH2]; cbn; [exact K|now constructor| |].
  - eapply pe_trans; [apply pe_swap|]. constructor; [auto|]. constructor; [auto|]. induction l; cbn; [exact K|now constructor].
  - eapply pe_trans; [exact IH1|]. eapply pe_trans; [|exact IH2]. clear - K. induction m as [|x m IHm]; cbn; [apply peq_sym; exact K|constructor; auto].
Qed.
Lemma peq_perm l m : Permutation l m -> peq l m.
Proof. induction 1; [constructor|constructor; auto|apply pe_swap|eapply pe_trans; eassumption]. Qed.
Lemma peq_map {X} (f g : X -> col) l : (forall x p, In x l -> ok p -> f x p = g x p) -> peq (map f l) (map g l).
Proof. induction l as [|x l IH]; cbn; intros H; constructor; auto. Qed.
Lemma peq_flat {X} (f g : X -> list col) l : (forall x, In x l -> peq (f x) (g x)) -> peq (flat_map f l) (flat_map g l).
Proof. induction l as [|x l IH]; cbn; intros H; [constructor|]. apply peq_app; auto. Qed.
Lemma peq_flat_perm {X} (f : X -> list col) l m : Permutation l m -> peq (flat_map f l) (flat_map f m).
Proof. intros H. apply peq_perm. now apply Permutation_flat_map. Qed.
Lemma peq_flat_app {X} (f g : X -> list col) l : peq (flat_map (fun x => f x ++ g x) l) (flat_map f l ++ flat_map g l).
Proof.
  induction l as [|x l IH]; cbn; [constructor|]. eapply pe_trans; [apply peq_app; [apply peq_refl|exact IH]|]. apply peq_perm. rewrite <- !app_assoc. apply Permutation_app_head.
  rewrite !app_assoc. apply Permutation_app_tail, Permutation_app_comm.
Qed.
Lemma peq_flat_swap {X Y} (f : X -> Y -> col) l m : peq (flat_map (fun x => map (f x) m) l) (flat_map (fun y => map (fun x => f x y) l) m).
Proof.
  induction l as [|x l IH]; cbn.
  - induction m; cbn; [constructor|exact IHm].
  - eapply pe_trans; [apply peq_app; [apply peq_refl|exact IH]|]. apply peq_sym.
    change (fun y => f x y :: map (fun x => f x y) l) with (fun y => [f x y] ++ map (fun x => f x y) l). eapply pe_trans; [apply peq_flat_app|]. apply peq_app; [|apply peq_refl].
    clear. induction m; cbn; [constructor|constructor; auto].
Qed.
Lemma peq_in l m : peq l m -> forall f, In f l -> exists g, In g m /\ forall p, ok p -> f p = g p.
Proof.
  induction 1 as [|f g l m H _ IH|f g l|l m n _ IH1 _ IH2]; intros h Hh.
  - destruct Hh.
  - destruct Hh as [<-|Hh]; [exists g; split; [now left|exact H]|]. destruct (IH h Hh) as [k [K1 K2]]. exists k. split; [now right|exact K2].
  - exists h. split; [|auto]. destruct Hh as [<-|[<-|Hh]]; cbn; auto.
  - destruct (IH1 h Hh) as [k [K1 K2]]. destruct (IH2 k K1) as [j [J1 J2]]. exists j. split; [exact J1|]. intros p Hp. rewrite K2 by exact Hp. auto.
Qed.

(** Independence and span only depend on the columns up to [peq]. *)
Lemma peq_comb l m : peq l m -> forall c, length c = length l -> exists c', length c' = length m /\ Permutation c c' /\ forall p, ok p -> comb c l p = comb c' m p.
Proof.
  induction 1 as [|f g l m H _ IH|f g l|l m n _ IH1 _ IH2]; intros c Hc.
  - exists c. auto.
  - destruct c as [|a c]; [discriminate|]. destruct (IH c) as [c' [L [Hp E]]]; [now injection Hc|]. exists (a :: c'). split; [cbn; now rewrite L|]. split; [now constructor|].
    intros p Hok. unfold RankSpec.comb in *. cbn. rewrite H, E by exact Hok. reflexivity.
  - destruct c as [|a [|b c]]; try discriminate. exists (b :: a :: c). split; [exact Hc|]. split; [constructor|]. intros p _. unfold RankSpec.comb. cbn. ring.
  - destruct (IH1 c Hc) as [c1 [L1 [P1 E1]]]. destruct (IH2 c1 L1) as [c2 [L2 [P2 E2]]]. exists c2. split; [exact L2|]. split; [eapply Permutation_trans; eassumption|].
    intros p Hp. rewrite E1 by exact Hp. auto.
Qed.
Lemma peq_independent l m : peq l m -> independent ok l -> independent ok m.
Proof.
  intros H Hi c Hl Hz. destruct (peq_comb m l (peq_sym _ _ H) c Hl) as [c' [L [Hp E]]].
  assert (Z : Forall (fun x => x = rO) c') by (apply Hi; [exact L|]; intros p Hok; rewrite <- E by exact Hok; auto).
  eapply Permutation_Forall; [symmetry; exact Hp|exact Z].
Qed.
Lemma peq_span l m Y : peq l m -> in_span ok l Y -> in_span ok m Y.
Proof. intros H [c [Hl Hc]]. destruct (peq_comb l m H c Hl) as [c' [L [_ E]]]. exists c'. split; [exact L|]. intros p Hp. rewrite Hc by exact Hp. auto. Qed.

(** * Products of blocks *)
Definition pairs (a b : list col) : list col := flat_map (fun g => map (fun f p => f p * g p) a) b.
Lemma pairs_swap a b : peq (pairs a b) (flat_map (fun f => map (fun g p => f p * g p) b) a).
Proof. unfold pairs. apply (peq_flat_swap (fun g f p => f p * g p)). Qed.
Lemma pairs_peq_l a a' b : peq a a' -> peq (pairs a b) (pairs a' b).
Proof.
  intros H. unfold pairs. apply peq_flat. intros g _. induction H as [|f f' l m H _ IH|f f' l|l m n _ IH1 _ IH2]; cbn; [constructor|constructor; [intros p Hp; now rewrite H|exact IH]|apply pe_swap|eapply pe_trans; eassumption].
Qed.
Lemma pairs_comm a b : peq (pairs a b) (pairs b a).
Proof. eapply pe_trans; [apply pairs_swap|]. unfold pairs. apply peq_flat. intros f _. apply peq_map. intros g p _ _. ring. Qed.
Lemma pairs_peq a a' b b' : peq a a' -> peq b b' -> peq (pairs a b) (pairs a' b').
Proof.
  intros H K. eapply pe_trans; [apply pairs_peq_l; exact H|]. eapply pe_trans; [apply pairs_comm|]. eapply pe_trans; [apply pairs_peq_l; exact K|]. apply pairs_comm.
Qed.
Lemma pairs_map_l {X} (h : X -> col) xs b : pairs (map h xs) b = flat_map (fun g => map (fun x p => h x p * g p) xs) b.
Proof. unfold pairs. apply flat_map_ext. intros g. now rewrite map_map. Qed.
Lemma pairs_assoc a b c : peq (pairs a (pairs b c)) (pairs (pairs a b) c).
Proof.
  unfold pairs at 1. unfold pairs at 1. unfold pairs at 1.
  induction c as [|h c IH]; cbn; [constructor|]. rewrite flat_map_app. apply peq_app; [|exact IH]. clear IH.
  unfold pairs. induction b as [|g b IH]; cbn; [constructor|]. rewrite map_app. apply peq_app; [|exact IH]. rewrite map_map. apply peq_map. intros f p _ _. ring.
Qed.
Lemma pairs_app_r a b c : pairs a (b ++ c) = pairs a b ++ pairs a c.
Proof. apply flat_map_app. Qed.
Lemma pairs_flat {X} a (f : X -> list col) l : pairs a (flat_map f l) = flat_map (fun x => pairs a (f x)) l.
Proof. unfold pairs. induction l as [|x l IH]; cbn; [reflexivity|]. now rewrite flat_map_app, IH. Qed.

Section Prods.
Context {X : Type} (E : X -> list col).
Fixpoint prodcols (xs : list X) : list col :=
  match xs with [] => [fun _ => rI] | x :: r => pairs (E x) (prodcols r) end.
Lemma prodcols_perm xs ys : Permutation xs ys -> peq (prodcols xs) (prodcols ys).
Proof.
  induction 1 as [|x xs ys _ IH|x y xs|xs ys zs _ IH1 _ IH2]; cbn [prodcols]; [apply peq_refl|apply pairs_peq; [apply peq_refl|exact IH]| |eapply pe_trans; eassumption].
  eapply pe_trans; [apply pairs_assoc|]. eapply pe_trans; [apply pairs_peq_l, pairs_comm|]. apply peq_sym, pairs_assoc.
Qed.
Lemma prodcols_app xs ys : peq (prodcols (xs ++ ys)) (pairs (prodcols xs) (prodcols ys)).
Proof.
  induction xs as [|x xs IH]; cbn [prodcols app].
  - unfold pairs. cbn. assert (G : forall l : list col, peq l (flat_map (fun g => [fun p => rI * g p]) l)) by (induction l; cbn; constructor; [intros p _; ring|exact IHl]). apply G.
  - eapply pe_trans; [apply pairs_peq; [apply peq_refl|exact IH]|]. apply pairs_assoc.
Qed.
End Prods.
Lemma prodcols_ext {X} (E E' : X -> list col) xs : (forall x, In x xs -> peq (E x) (E' x)) -> peq (prodcols E xs) (prodcols E' xs).
Proof. induction xs as [|x xs IH]; cbn [prodcols]; intros H; [apply peq_refl|]. apply pairs_peq; [apply H; now left|apply IH; intros y Hy; apply H; now right]. Qed.
Lemma map_flat {A B C} (f : B -> C) (g : A -> list B) l : map f (flat_map g l) = flat_map (fun x => map f (g x)) l.
Proof. induction l as [|x l IH]; cbn; [reflexivity|]. now rewrite map_app, IH. Qed.
Lemma flat_map_map {A B C} (f : B -> list C) (g : A -> B) l : flat_map f (map g l) = flat_map (fun x => f (g x)) l.
Proof. induction l as [|x l IH]; cbn; [reflexivity|]. now rewrite IH. Qed.
(** Columns numbered by [combos]. *)
Lemma prodcols_combos {X} (e : X -> nat -> col) (n : X -> nat) xs :
  peq (map (fun ks p => rprod (fun q => e (fst q) (snd q) p) (List.combine xs ks)) (combos (map n xs))) (prodcols (fun x => map (e x) (seq 0 (n x))) xs).
Proof.
  induction xs as [|x xs IH]; cbn [map combos prodcols].
  - cbn. constructor; [auto|constructor].
  - rewrite map_flat. eapply pe_trans; [|apply pairs_peq; [apply peq_refl|exact IH]]. rewrite pairs_map_l, flat_map_map. apply peq_flat. intros r _. rewrite map_map. apply peq_map. reflexivity.
Qed.
End Cols.

(** * Blocks: products of columns of two kinds *)
Section Blocks.
Context {P Q : Type} (ok : P -> Prop) (legit : Q -> Prop) (cell : P -> Q) (same : Q -> Q -> Prop).
Notation item := ((P -> R) * list (Q -> R))%type.
Definition item_cols (it : item) : list (P -> R) := map (fun g p => fst it p * g (cell p)) (snd it).

Lemma comb_app' {T} (c1 c2 : list R) a b (p : T) : length c1 = length a -> comb rO radd rmul (c1 ++ c2) (a ++ b) p = comb rO radd rmul c1 a p + comb rO radd rmul c2 b p.
Proof.
  unfold comb. revert a. induction c1 as [|x c1 IH]; intros [|y a] H; try discriminate; cbn; [ring|]. rewrite IH by (now injection H). ring.
Qed.
Lemma split_coeffs items : forall c, length c = length (flat_map item_cols items) ->
  exists chunks, Forall2 (fun ch it => length ch = length (snd it)) chunks items /\ c = concat chunks /\
    forall p, comb rO radd rmul c (flat_map item_cols items) p =
      comb rO radd rmul (map (fun x => comb rO radd rmul (fst x) (snd (snd x)) (cell p)) (List.combine chunks items)) (map fst items) p.
Proof.
  induction items as [|[a gs] items IH]; cbn [flat_map]; intros c Hc.
  - destruct c; [|discriminate]. exists []. repeat split; constructor.
  - rewrite app_length in Hc. unfold item_cols at 1 in Hc. cbn [snd] in Hc. rewrite map_length in Hc.
    destruct (IH (skipn (length gs) c)) as [chunks [F [E H]]]; [rewrite skipn_length; lia|].
    exists (firstn (length gs) c :: chunks). split; [constructor; [cbn; rewrite firstn_length; lia|exact F]|]. split; [cbn; rewrite <- E; now rewrite firstn_skipn|].
    intros p. rewrite <- (firstn_skipn (length gs) c) at 1. rewrite comb_app' by (unfold item_cols; rewrite map_length, firstn_length; cbn; lia). rewrite H.
    assert (G : comb rO radd rmul (firstn (length gs) c) (item_cols (a, gs)) p = comb rO radd rmul (firstn (length gs) c) gs (cell p) * a p).
    { unfold item_cols, comb. cbn [fst snd]. generalize (firstn (length gs) c). clear - Rth. induction gs as [|g gs IH]; intros [|b l]; cbn; try ring. rewrite IH. ring. }
    rewrite G. unfold comb. reflexivity.
Qed.
(** If the second kinds of columns are independent over the legitimate cells, and the first kinds within
    each cell, then the products are. *)
Lemma items_independent items :
  (forall it, In it items -> independent rO radd rmul legit (snd it)) ->
  (forall it g q q', In it items -> In g (snd it) -> same q q' -> g q = g q') ->
  (forall q, legit q -> independent rO radd rmul (fun p => ok p /\ same (cell p) q) (map fst items)) ->
  independent rO radd rmul ok (flat_map item_cols items).
Proof.
  intros H1 H2 H3 c Hc Hz. destruct (split_coeffs items c Hc) as [chunks [F [-> E]]].
  assert (Z : forall q, legit q -> Forall (fun x => x = rO) (map (fun x => comb rO radd rmul (fst x) (snd (snd x)) q) (List.combine chunks items))).
  { intros q Hq. apply (H3 q Hq). 
    - rewrite !map_length, combine_length. assert (L : length chunks = length items) by (clear - F; induction F; cbn; congruence). lia.
    - intros p [Hp Hs]. transitivity (comb rO radd rmul (concat chunks) (flat_map item_cols items) p); [|exact (Hz p Hp)]. rewrite E. f_equal. apply map_ext_in. intros [ch it] Hin. cbn [fst snd].
      apply in_combine_r in Hin. unfold comb. apply rsum_ext. intros [b g] Hbg. apply in_combine_r in Hbg. cbn. f_equal. symmetry. now apply (H2 it). }
  clear - F Z H1. induction F as [|ch it chunks items Hl F IH]; cbn [concat]; [constructor|]. apply Forall_app. split.
  - apply (H1 it (or_introl eq_refl) ch Hl). intros q Hq. specialize (Z q Hq). cbn in Z. now inversion Z.
  - apply IH; [intros; apply H1; now right|]. intros q Hq. specialize (Z q Hq). cbn in Z. now inversion Z.
Qed.
End Blocks.
End Lin.
