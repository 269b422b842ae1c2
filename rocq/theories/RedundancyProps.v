(** C18, C19, C20 (column counts per bucket), C22: contrast selection. *)
From Coq Require Import Sorted Permutation.
From Verif Require Import Base RedundancyModel RedundancySpec SubsetsProofs RedundancyProofs PickProofs
  RankTopProofs SimplifyProofs.

(** A hash that depends on the set only and has no collisions, to instantiate the
    hypothesis of the theorems below: one bit per efactor. *)
Definition bithash (s : list (bool * nat)) : Z :=
  fold_right (fun (e : bool * nat) h => Z.setbit h (Z.of_nat (2 * snd e + (if fst e then 1 else 0)))) 0%Z s.
Lemma bithash_bit a : forall n, (0 <= n)%Z ->
  (Z.testbit (bithash (map (fun f => (false, f)) a)) n = true <-> exists f, In f a /\ n = Z.of_nat (2 * f)).
Proof.
  induction a as [|f a IH]; intros n Hn; [cbn [map bithash fold_right]; rewrite Z.testbit_0_l; split; [discriminate|intros [f [[] _]]]|].
  change (bithash (map (fun f => (false, f)) (f :: a))) with
    (Z.setbit (bithash (map (fun f => (false, f)) a)) (Z.of_nat (2 * f + 0))).
  rewrite Z.setbit_eqb by lia. rewrite orb_true_iff, Z.eqb_eq, IH by lia. split.
  - intros [E|[g [Hg E]]]; [exists f|exists g]; split; try lia; [now left|now right].
  - intros [g [[->|Hg] E]]; [left; lia|right; eauto].
Qed.
Lemma bithash_collision_free fs : collision_free bithash fs.
Proof.
  intros a b _ _ _ _. split.
  - intros E f. pose proof (bithash_bit a (Z.of_nat (2 * f)) ltac:(lia)) as Ha.
    pose proof (bithash_bit b (Z.of_nat (2 * f)) ltac:(lia)) as Hb. rewrite E in Ha.
    assert (K : forall c, (exists g, In g c /\ Z.of_nat (2 * f) = Z.of_nat (2 * g)) <-> In f c).
    { intros c. split; [intros [g [Hg H]]; replace f with g by lia; exact Hg|intros H; exists f; auto]. }
    rewrite K in Ha, Hb. tauto.
  - intros H. apply Z.bits_inj'. intros n Hn. apply Bool.eq_iff_eq_true. rewrite !bithash_bit by exact Hn.
    split; intros [f [Hf E]]; exists f; split; auto; now apply H.
Qed.

(** C18: for terms processed in order, every set of categorical factors that some term
    contains is coded exactly once, by the first term that contains it, and nothing
    else is coded. *)
Theorem contrast_selection_codes_each_subset_once : forall (F : Type) (feqb : F -> F -> bool) hash is_numeric terms,
  (forall a b, feqb a b = true <-> a = b) -> collision_free hash (List.concat terms) -> Forall (@NoDup F) terms ->
  exists css, pick_all feqb hash terms is_numeric [] = Ok css /\ length css = length terms /\
    forall i cs, nth_error css i = Some cs ->
      Forall (fun c => NoDup (map fst c)) cs /\
      forall S, (new_at is_numeric terms i S -> exactly_one (fun c => covers c S) cs) /\
                (forall c, In c cs -> covers c S -> new_at is_numeric terms i S).
Proof. exact @pick_all_codings. Qed.
Print Assumptions contrast_selection_codes_each_subset_once.

(* 1 + a + b + a:b, 0 + a:b, and 0 + a + a:b:x with x numeric *)
Example pick_ex1 : pick_all Nat.eqb bithash [[]; [0]; [1]; [0; 1]] (fun _ => false) [] =
  Ok [[[]]; [[(0, false)]]; [[(1, false)]]; [[(0, false); (1, false)]]].
Proof. vm_compute. reflexivity. Qed.
Example pick_ex2 : pick_all Nat.eqb bithash [[0; 1]] (fun _ => false) [] = Ok [[[(0, true); (1, true)]]].
Proof. vm_compute. reflexivity. Qed.
Example pick_ex3 : pick_all Nat.eqb bithash [[0; 2]; [0; 1; 2]] (fun f => f =? 2) [] =
  Ok [[[(0, true)]]; [[(1, false); (0, true)]]].
Proof. vm_compute. reflexivity. Qed.
Example pick_ex_hyp : collision_free bithash (List.concat [[0; 2]; [0; 1; 2]]) /\ Forall (@NoDup nat) [[0; 2]; [0; 1; 2]] /\
  new_at (fun f => f =? 2) [[0; 2]; [0; 1; 2]] 1 [1].
Proof.
  split; [apply bithash_collision_free|]. split.
  - repeat constructor; cbn; intuition discriminate.
  - split.
    + exists [0; 1; 2]. split; [reflexivity|]. intros f [<-|[]]. cbn. auto.
    + intros [|[|]] t Hj E; [|lia..]. injection E as <-. intros H. destruct (H 1); cbn in *; intuition discriminate.
Qed.

(** Membership in [used_subterms] is decided by hashes alone (redundancy.py:106 compares
    a subterm with itself), so C18 needs [collision_free]: with a colliding hash a term
    loses its columns. *)
Theorem contrast_selection_hash_collision_refuted : exists hash : list (bool * nat) -> Z,
  exists terms css, Forall (@NoDup nat) terms /\ (forall a b, Permutation a b -> hash a = hash b) /\
    pick_all Nat.eqb hash terms (fun _ => false) [] = Ok css /\
    exists i cs S, nth_error css i = Some cs /\ new_at (fun _ => false) terms i S /\ ~ exists c, In c cs /\ covers c S.
Proof.
  exists (fun _ => 0%Z), [[]; [0]], [[[]]; []]. split; [repeat constructor; cbn; intuition|].
  split; [reflexivity|]. split; [vm_compute; reflexivity|]. exists 1, [], [0]. split; [reflexivity|]. split.
  - split.
    + exists [0]. split; [reflexivity|]. intros f Hf. auto.
    + intros [|[|]] t Hj E; [|lia..]. injection E as <-. intros H. destruct (H 0) as [[] _]. now left.
  - intros [c [[] _]].
Qed.
Print Assumptions contrast_selection_hash_collision_refuted.

(** C19: simplification of any list of subterms ends; each step merges a subterm with a
    later one extending it, so the list gets one shorter; the result has no pair left to
    merge.  The only other outcome is the assertion at redundancy.py:97, when a subterm
    is followed by itself plus a full-rank factor. *)
Theorem simplification_terminates_irreducible : forall (F : Type) (feqb : F -> F -> bool),
  (forall a b, feqb a b = true <-> a = b) -> forall sts, Forall proper sts ->
  match simplify feqb sts with
  | Ok l => (exists n, merges n sts l /\ length sts = n + length l) /\ Forall proper l /\ forall b, ~ has_pair b l
  | Err e => e = AssertionError /\ exists n l, merges n sts l /\ has_pair true l
  end.
Proof. exact @simplify_lemma. Qed.
Print Assumptions simplification_terminates_irreducible.

(** C19: from subterms that stand for disjoint collections of factor sets, the assertion
    cannot fail, and what is stood for is unchanged and still disjoint. *)
Theorem simplification_preserves_meaning : forall (F : Type) (feqb : F -> F -> bool),
  (forall a b, feqb a b = true <-> a = b) -> forall sts, Forall proper sts -> disjoint sts ->
  exists l, simplify feqb sts = Ok l /\ disjoint l /\ (forall b, ~ has_pair b l) /\
    forall S, (exists s, In s l /\ stands_for s S) <-> (exists s, In s sts /\ stands_for s S).
Proof. exact @simplify_disjoint_lemma. Qed.
Print Assumptions simplification_preserves_meaning.

Example simplify_ex : simplify Nat.eqb [[]; [(false, 0)]; [(false, 1)]; [(false, 0); (false, 1)]] = Ok [[(true, 0); (true, 1)]].
Proof. vm_compute. reflexivity. Qed.
Example simplify_ex_err : simplify Nat.eqb [[]; [(true, 0)]] = Err AssertionError.
Proof. vm_compute. reflexivity. Qed.
Example simplify_ex_hyp : Forall proper [[]; [(false, 0)]; [(false, 1)]] /\ disjoint [[]; [(false, 0)]; [(false, 1)]].
Proof.
  split; [repeat constructor; cbn; intuition|].
  repeat constructor; cbn; intros [S [[A1 A2] [B1 B2]]]; cbn in *.
  - destruct (A1 0 (B2 0 (or_introl eq_refl))) as [b []].
  - destruct (A1 1 (B2 1 (or_introl eq_refl))) as [b []].
  - destruct (A1 1 (B2 1 (or_introl eq_refl))) as [b [[=]|[]]].
Qed.

(** C20 (counting): with [red f] contrast columns and [red f + 1] full-rank columns, the
    columns of all codings number the sum, over the distinct sets of categorical factors
    contained in some term, of the product of [red]. *)
Theorem contrast_selection_column_count : forall (F : Type) (feqb : F -> F -> bool) hash is_numeric terms css (full red : F -> nat) Ss,
  (forall a b, feqb a b = true <-> a = b) -> collision_free hash (List.concat terms) -> Forall (@NoDup F) terms ->
  (forall f, full f = red f + 1) ->
  pick_all feqb hash terms is_numeric [] = Ok css -> lists_subsets is_numeric terms Ss ->
  sumn (sumn (fun c => prodn (fun p : F * bool => if snd p then full (fst p) else red (fst p)) c)) css = sumn (prodn red) Ss.
Proof. exact @pick_all_columns. Qed.
Print Assumptions contrast_selection_column_count.

Example lists_subsets_ex : lists_subsets (fun _ => false) [[0; 1]] [[]; [0]; [1]; [0; 1]].
Proof.
  split; [repeat constructor; cbn; intuition discriminate|]. split.
  - intros i j a b Hi Hj Hs. pose proof (Hs 0) as H0. pose proof (Hs 1) as H1.
    destruct i as [|[|[|[|i]]]], j as [|[|[|[|j]]]]; cbn in Hi, Hj; try reflexivity;
      try (destruct i; discriminate); try (destruct j; discriminate);
      injection Hi as <-; injection Hj as <-; cbn in H0, H1; exfalso; intuition discriminate.
  - intros S. split.
    + intros [S' [HS E]]. exists [0; 1]. split; [now left|]. intros f Hf. split; [|reflexivity]. apply E in Hf.
      cbn in HS. destruct HS as [<-|[<-|[<-|[<-|[]]]]]; cbn in *; tauto.
    + intros [t [[<-|[]] Hs]].
      exists ((if in_dec Nat.eq_dec 0 S then [0] else []) ++ (if in_dec Nat.eq_dec 1 S then [1] else [])). split.
      * destruct (in_dec Nat.eq_dec 0 S), (in_dec Nat.eq_dec 1 S); cbn; auto.
      * intros f. split.
        -- intros Hf. destruct (Hs f Hf) as [[<-|[<-|[]]] _]; apply in_app_iff;
             [left; destruct (in_dec Nat.eq_dec 0 S)|right; destruct (in_dec Nat.eq_dec 1 S)]; cbn; auto.
        -- intros Hf. apply in_app_iff in Hf. destruct (in_dec Nat.eq_dec 0 S), (in_dec Nat.eq_dec 1 S); cbn in Hf;
             destruct Hf as [Hf|Hf]; try contradiction; destruct Hf as [<-|[]]; assumption.
Qed.

(** C22: every subset of the factors is enumerated once, shorter ones first and
    lexicographically by position within a length. *)
Theorem subsets_complete_sorted : forall (A : Type) (l : list A), exists ps,
  Forall2 (pick_at l) ps (subsets_sorted l) /\ (forall s, In s ps <-> positions (length l) s) /\
  StronglySorted shortlex ps /\ NoDup ps.
Proof. exact @subsets_sorted_lemma. Qed.
Print Assumptions subsets_complete_sorted.

Example subsets_ex : subsets_sorted ["a"; "b"; "c"]%string =
  ([[]; ["a"]; ["b"]; ["c"]; ["a"; "b"]; ["a"; "c"]; ["b"; "c"]; ["a"; "b"; "c"]])%string.
Proof. vm_compute. reflexivity. Qed.
