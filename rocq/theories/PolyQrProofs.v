(** Proofs about Poly: from a QR decomposition to orthogonal polynomials. *)
From Coq Require Import Field_theory Field Ring.
From Verif Require Import Base RankSpec RankProofs QrProofs PolySpec PolyModel PolyProofs.
Open Scope nat_scope.
Open Scope list_scope.

Lemma ksum_map {K X} (kO : K) kadd (f : X -> K) l : ksum kO kadd (map f l) = rsum kO kadd f l.
Proof. induction l as [|x l IH]; [reflexivity|]. cbn. unfold ksum in IH. now rewrite IH. Qed.
Lemma entry_tabulate {K} (kO : K) n p f i j : i < n -> j < p -> entry kO (tabulate n p f) i j = f i j.
Proof.
  intros Hi Hj. unfold entry, tabulate. rewrite (nth_indep _ [] (map (f 0) (seq 0 p))) by (rewrite map_length, seq_length; lia).
  rewrite (map_nth (fun i => map (f i) (seq 0 p))), seq_nth by lia. rewrite (nth_indep _ kO (f (0 + i) 0)) by (rewrite map_length, seq_length; lia).
  rewrite map_nth, seq_nth by lia. reflexivity.
Qed.
Lemma shaped_tabulate {K} n p (f : nat -> nat -> K) : shaped n p (tabulate n p f).
Proof. unfold shaped, tabulate. rewrite map_length, seq_length. split; [reflexivity|]. apply Forall_map, Forall_forall. intros. now rewrite map_length, seq_length. Qed.
Lemma shaped_eq {K} (kO : K) n p m1 m2 : shaped n p m1 -> shaped n p m2 -> (forall i j, i < n -> j < p -> entry kO m1 i j = entry kO m2 i j) -> m1 = m2.
Proof.
  intros [L1 F1] [L2 F2] H. rewrite Forall_forall in F1, F2. apply (nth_ext _ _ [] []); [congruence|]. intros i Hi. rewrite L1 in Hi.
  assert (A1 := F1 (nth i m1 []) ltac:(apply nth_In; lia)). assert (A2 := F2 (nth i m2 []) ltac:(apply nth_In; lia)).
  apply (nth_ext _ _ kO kO); [congruence|]. intros j Hj. apply H; lia.
Qed.

Section Euclid.
Context {K : Type} {kO kI : K} {kadd kmul ksub : K -> K -> K} {kopp : K -> K} {kdiv : K -> K -> K} {kinv : K -> K}
  {keqb : K -> K -> bool} {sqrt sgn : K -> K}.
Hypothesis E : euclidean kO kI kadd kmul ksub kopp kdiv kinv keqb sqrt sgn.
Let Kft : field_theory kO kI kadd kmul ksub kopp kdiv kinv (@eq K). Proof. apply E. Qed.
Add Field Kfield3 : Kft.
Local Notation "x + y" := (kadd x y).
Local Notation "x * y" := (kmul x y).
Local Notation "x - y" := (ksub x y).
Local Notation "x / y" := (kdiv x y).
Local Notation "0" := kO.
Local Notation "1" := kI.
Local Notation sum := (rsum kO kadd).
Local Notation delta := (kron kO kI).
Local Notation polynomial := (@polynomial K kadd kmul).
Local Notation pos := (@pos K kI sgn).
Local Notation entry := (entry kO).
Local Notation unit_qr := (unit_qr kO kI kadd kmul).
Local Notation orthogonal_polynomials := (orthogonal_polynomials kO kI kadd kmul sgn).
Let Krt := F_R Kft.
Local Notation s_ext := (rsum_ext kO kadd).
Local Notation s_add := (rsum_add kO kI kadd kmul ksub kopp Krt).
Local Notation s_scale := (rsum_scale kO kI kadd kmul ksub kopp Krt).
Local Notation s_zero := (rsum_zero kO kI kadd kmul ksub kopp Krt).
Local Notation s_app := (rsum_app kO kI kadd kmul ksub kopp Krt).

Section Vandermonde.
Variables (n : nat) (x : nat -> K) (q r : nat -> nat -> K).
Hypothesis X : forall i j, i < n -> j < n -> x i = x j -> i = j.
Hypothesis Q : unit_qr n (fun i j => kpow kI kmul (x i) j) q r.

Lemma lower_sum j t : t <= j -> (forall l, l < j -> exists c f, polynomial l c f /\ forall i, i < n -> q i l = f (x i)) ->
  exists h, polynomial t 0 h /\ forall i, i < n -> sum (fun l => q i l * r l j) (seq 0%nat t) = h (x i).
Proof.
  intros Ht L. induction t as [|t IH]; [exists (fun _ => 0); split; [now constructor|reflexivity]|].
  destruct (IH ltac:(lia)) as [h [Hh Fh]], (L t ltac:(lia)) as [c [f [Hf Ff]]]. exists (fun y => h y + r t j * f y). split.
  - apply (poly_raise E t (0 + r t j * c)). apply (poly_add E); [exact Hh|]. now apply (poly_scale E).
  - intros i Hi. rewrite seq_S, s_app. cbn [rsum Nat.add]. rewrite Fh, Ff by auto. ring.
Qed.
Lemma nodup_points : NoDup (map x (seq 0%nat n)).
Proof.
  assert (G : forall l, NoDup l -> (forall i, In i l -> i < n) -> NoDup (map x l)); [|apply G; [apply seq_NoDup|intros i Hi; apply in_seq in Hi; lia]].
  intros l N. induction N as [|i l Hi N IH]; intros B; [constructor|]. cbn [map]. constructor.
  - intros H. apply in_map_iff in H. destruct H as [j [Hj Hin]]. apply Hi. rewrite <- (X j i); auto; [apply B; now right|apply B; now left].
  - apply IH. intros; apply B. now right.
Qed.
Lemma columns j : j < n -> r j j <> 0 /\ exists f, polynomial j (1 / r j j) f /\ forall i, i < n -> q i j = f (x i).
Proof.
  induction j as [j IH] using lt_wf_ind. intros Hj. destruct Q as (QO & QR & QA).
  assert (L : forall l, l < j -> exists c f, polynomial l c f /\ forall i, i < n -> q i l = f (x i)).
  { intros l Hl. destruct (IH l Hl ltac:(lia)) as [_ [f [Pf Ff]]]. eauto. }
  destruct (lower_sum j j (Nat.le_refl j) L) as [h [Hh Fh]]. set (g := fun y => kpow kI kmul y j + kopp 1 * h y).
  assert (Pg : polynomial j 1 g).
  { unfold g. replace 1 with (1 + kopp 1 * 0) at 1 by ring. apply (poly_add E); [apply (poly_pow E)|now apply (poly_scale E)]. }
  assert (Fg : forall i, i < n -> g (x i) = q i j * r j j).
  { intros i Hi. unfold g. rewrite QA by auto.
    assert (S1 : seq 0%nat n = seq 0%nat j ++ j :: seq (Datatypes.S j) (Nat.sub n (Datatypes.S j))).
    { replace n with (j + Datatypes.S (Nat.sub n (Datatypes.S j)))%nat at 1 by lia. rewrite seq_app. reflexivity. }
    rewrite S1, s_app. cbn [rsum]. rewrite Fh by auto. rewrite (s_zero (fun l => q i l * r l j) (seq (Datatypes.S j) _)); [ring|].
    intros l Hl. apply in_seq in Hl. rewrite QR by lia. ring. }
  assert (R : r j j <> 0).
  { intros Z. assert (B : length (map x (seq 0%nat n)) <= j).
    { apply (poly_roots E j 1 g); [exact Pg|apply (one_nz E)|apply nodup_points|]. intros y Hy. apply in_map_iff in Hy. destruct Hy as [i [<- Hi]]. apply in_seq in Hi.
      rewrite Fg, Z by lia. ring. }
    rewrite map_length, seq_length in B. lia. }
  split; [exact R|]. exists (fun y => (1 / r j j) * g y). split.
  - pose proof (poly_scale E j 1 g (1 / r j j) Pg) as P. replace (1 / r j j * 1) with (1 / r j j) in P by (field; exact R). exact P.
  - intros i Hi. rewrite Fg by auto. field. exact R.
Qed.
Definition signed (i j : nat) : K := q i j * sgn (r j j).
Lemma signed_columns j : j < n -> exists c f, polynomial j c f /\ pos c /\ forall i, i < n -> signed i j = f (x i).
Proof.
  intros Hj. destruct (columns j Hj) as [R [f [Pf Ff]]]. exists (sgn (r j j) * (1 / r j j)), (fun y => sgn (r j j) * f y). split; [now apply (poly_scale E)|]. split.
  - replace (sgn (r j j) * (1 / r j j)) with (sgn (r j j) * r j j * ((1 / r j j) * (1 / r j j))) by (field; exact R). apply (pos_mul E); [now apply (pos_sgn_mul E)|].
    apply (pos_sq E). intros Z. apply (one_nz E). transitivity (1 / r j j * r j j); [field; exact R|]. rewrite Z. ring.
  - intros i Hi. unfold signed. rewrite Ff by auto. ring.
Qed.
Lemma signed_orthonormal i j : i < n -> j < n -> sum (fun l => signed l i * signed l j) (seq 0%nat n) = delta i j.
Proof.
  intros Hi Hj. unfold signed. rewrite (s_ext _ (fun l => (sgn (r i i) * sgn (r j j)) * (q l i * q l j))) by (intros; ring). rewrite s_scale.
  destruct Q as (QO & _ & _). rewrite QO by auto. unfold kron. destruct (Nat.eqb_spec i j) as [->|D]; [|ring]. rewrite (sgn_nz E) by (now apply columns). ring.
Qed.
Lemma signed_rows i j : i < n -> j < n -> sum (fun l => signed i l * signed j l) (seq 0%nat n) = delta i j.
Proof.
  intros Hi Hj. assert (Or : orthogonal kO kadd kmul n n (fun u l => signed l u)).
  { split; [intros s u Hs Hu D|intros s Hs]; unfold ip; rewrite signed_orthonormal by auto; unfold kron.
    - now destruct (Nat.eqb_spec s u).
    - rewrite Nat.eqb_refl. apply (one_nz E). }
  rewrite <- (complete_rows kO kI kadd kmul ksub kopp kdiv kinv Kft (squares E) n (fun u l => signed l u) i j Or Hi Hj). apply s_ext. intros l Hl. apply in_seq in Hl.
  unfold ip. rewrite signed_orthonormal by lia. unfold kron. rewrite Nat.eqb_refl. field. apply (one_nz E).
Qed.
Definition unit_column (i j : nat) : K := match j with O => 1 | _ => signed i j end.
Lemma unit_column_orth : orthogonal_polynomials n x unit_column.
Proof.
  assert (SO : forall j k, j < n -> k < j -> sum (fun i => signed i j * signed i k) (seq 0%nat n) = 0).
  { intros j k Hj Hk. rewrite signed_orthonormal by lia. unfold kron. destruct (Nat.eqb_spec j k); [lia|reflexivity]. }
  split; [reflexivity|]. split; [|split].
  - intros j Hj. destruct j as [|j]; [lia|]. apply signed_columns. lia.
  - intros j k Hj Hk. destruct j as [|j]; [lia|]. destruct k as [|k]; [|now apply SO]. cbn [unit_column].
    destruct (signed_columns 0%nat ltac:(lia)) as [c [f [Pf [Pc Ff]]]]. inversion Pf; subst. specialize (SO (Datatypes.S j) 0%nat Hj Hk).
    rewrite (s_ext _ (fun i => (1 / c) * (signed i (Datatypes.S j) * signed i 0%nat))).
    + rewrite s_scale, SO. ring.
    + intros i Hi. apply in_seq in Hi. rewrite (Ff i), H by lia. field. now apply (pos_nz E).
  - intros j Hj. destruct j as [|j]; [lia|]. cbn [unit_column]. rewrite signed_orthonormal by lia. unfold kron. now rewrite Nat.eqb_refl.
Qed.
End Vandermonde.

(** * The code *)
Section Code.
Variable qr : list (list K) -> result (list (list K) * list (list K)).
Hypothesis qr_ok : forall n a, shaped n n a -> forall q r, qr a = Ok (q, r) -> unit_qr n (entry a) (entry q) (entry r).
Hypothesis qr_total : forall n a, shaped n n a -> exists q r, qr a = Ok (q, r).
Local Notation poly_code := (poly_code kO kI kadd kmul ksub kdiv keqb sqrt sgn qr).
Local Notation raw_poly := (raw_poly kO kI kadd kmul ksub kdiv).
Local Notation center_scores := (center_scores kO kI kadd ksub kdiv).

Definition score (s : list K) (i : nat) : K := nth i s 0.
Definition mean (s : list K) : K := ksum kO kadd s / kn kO kI kadd (length s).
Lemma center_nth s i : i < length s -> nth i (center_scores s) 0 = score s i - mean s.
Proof.
  intros Hi. unfold PolyModel.center_scores, score. fold (mean s). rewrite (nth_indep _ 0 (0 - mean s)) by (now rewrite map_length). exact (map_nth (fun v => v - mean s) s 0 i).
Qed.
Lemma center_inj s i j : NoDup s -> i < length s -> j < length s -> nth i (center_scores s) 0 = nth j (center_scores s) 0 -> i = j.
Proof.
  intros N Hi Hj. rewrite !center_nth by auto. intros H. apply (proj1 (NoDup_nth s 0) N); auto. fold (score s i) (score s j).
  transitivity (score s i - mean s + mean s); [ring|]. rewrite H. ring.
Qed.
Lemma is_one (b : K) : b = 1 -> keqb b 0 = false.
Proof. intros ->. destruct (keqb 1 0) eqn:Z; [|reflexivity]. apply E in Z. destruct (one_nz E Z). Qed.
Lemma poly_code_ok s b n : length s = n -> n <> O -> NoDup s ->
  exists m, shaped n n m /\ orthogonal_polynomials n (score s) (entry m) /\
    poly_code (Some s) b n = Ok (if b then (m, poly_names n) else (map (skipn 1) m, skipn 1 (poly_names n))).
Proof.
  intros L Hn N. unfold PolyModel.poly_code. rewrite L, Nat.eqb_refl. cbn [negb]. destruct (Nat.eqb_spec n 0) as [|_]; [contradiction|].
  assert (SR : shaped n n (raw_poly n s)) by apply shaped_tabulate. destruct (qr_total n _ SR) as [q [r QR]]. pose proof (qr_ok n _ SR q r QR) as U.
  rewrite QR. cbn [bind fst snd].
  set (x := fun i => nth i (center_scores s) 0).
  assert (X : forall i j, i < n -> j < n -> x i = x j -> i = j) by (intros i j Hi Hj; apply center_inj; auto; lia).
  assert (Q : unit_qr n (fun i j => kpow kI kmul (x i) j) (entry q) (entry r)).
  { destruct U as (U1 & U2 & U3). split; [exact U1|]. split; [exact U2|]. intros i j Hi Hj. rewrite <- U3 by auto. unfold PolyModel.raw_poly. now rewrite entry_tabulate. }
  assert (RN : forall i, i < n -> row_norm kO kadd kmul sqrt n (fix_signs kO kmul sgn n q r) i = 1).
  { intros i Hi. unfold row_norm. rewrite ksum_map. rewrite <- (sqrt_one E). f_equal.
    transitivity (delta i i); [|unfold kron; now rewrite Nat.eqb_refl]. rewrite <- (signed_rows n x (entry q) (entry r) X Q i i Hi Hi). apply s_ext. intros j Hj. apply in_seq in Hj.
    unfold fix_signs. rewrite entry_tabulate by lia. reflexivity. }
  unfold normalize. destruct (existsb _ (seq 0%nat n)) eqn:EX.
  { apply existsb_exists in EX. destruct EX as [i [Hi Z]]. apply in_seq in Hi. rewrite is_one in Z by (apply RN; lia). discriminate. }
  cbn [bind]. match goal with |- context [ones_column ?a ?c ?d ?e] => set (m := ones_column a c d e) end. exists m. split; [apply shaped_tabulate|]. split; [|destruct b; reflexivity].
  assert (M : forall i j, i < n -> j < n -> entry m i j = unit_column (entry q) (entry r) i j).
  { intros i j Hi Hj. unfold m, ones_column. rewrite entry_tabulate by auto. destruct j as [|j]; [reflexivity|]. rewrite entry_tabulate, RN by auto. unfold fix_signs. rewrite entry_tabulate by auto.
    unfold unit_column, signed. field. apply (one_nz E). }
  assert (O1 : orthogonal_polynomials n x (entry m)).
  { destruct (unit_column_orth n x _ _ X Q) as (O1 & O2 & O3 & O4). split; [|split; [|split]].
    - intros i Hi. rewrite M by lia. now apply O1.
    - intros j Hj. destruct (O2 j Hj) as [c [f [Pf [Pc Ff]]]]. exists c, f. split; auto. split; auto. intros i Hi. rewrite M by lia. auto.
    - intros j k Hj Hk. etransitivity; [|exact (O3 j k Hj Hk)]. apply s_ext. intros i Hi. apply in_seq in Hi. rewrite !M by lia. reflexivity.
    - intros j Hj. etransitivity; [|exact (O4 j Hj)]. apply s_ext. intros i Hi. apply in_seq in Hi. rewrite !M by lia. reflexivity. }
  apply (orth_affine E n x (entry m) (score s) (kopp (mean s)) 1); [apply (pos_one E)| |exact O1]. intros i Hi. unfold x. rewrite center_nth by lia. ring.
Qed.
(** Any other matrix of orthogonal polynomials is the same. *)
Lemma poly_code_unique s b n m : length s = n -> n <> O -> NoDup s -> shaped n n m -> orthogonal_polynomials n (score s) (entry m) ->
  poly_code (Some s) b n = Ok (if b then (m, poly_names n) else (map (skipn 1) m, skipn 1 (poly_names n))).
Proof.
  intros L Hn N Sm Om. destruct (poly_code_ok s b n L Hn N) as [m' [Sm' [Om' ->]]]. rewrite (shaped_eq 0 n n m' m); auto. intros i j Hi Hj. now apply (orth_unique E n (score s)).
Qed.
Lemma poly_code_affine s b n c d : length s = n -> n <> O -> NoDup s -> pos c -> poly_code (Some (map (fun v => c * v + d) s)) b n = poly_code (Some s) b n.
Proof.
  intros L Hn N Hc. destruct (poly_code_ok s b n L Hn N) as [m [Sm [Om ->]]]. pose proof (pos_nz E c Hc) as Nc.
  apply poly_code_unique; auto; [now rewrite map_length| |].
  - apply FinFun.Injective_map_NoDup; [|exact N]. intros u v H. transitivity ((c * u + d - d) / c); [field; auto|]. rewrite H. field. auto.
  - apply (orth_affine E n (score s) (entry m) _ (kopp d / c) (1 / c)); [now apply (pos_inv E)| |exact Om]. intros i Hi. unfold score.
    rewrite (nth_indep (map (fun v => c * v + d) s) 0 (c * 0 + d)) by (rewrite map_length; lia). rewrite (map_nth (fun v => c * v + d)). field. auto.
Qed.
Lemma center_affine s : center_scores s = map (fun v => 1 * v + kopp (mean s)) s.
Proof. apply map_ext. intros v. unfold mean. ring. Qed.
Lemma kn_sum m : kn kO kI kadd m = sum (fun _ : nat => 1) (seq 0%nat m).
Proof. induction m as [|m IH]; [reflexivity|]. rewrite seq_S, s_app. cbn [kn rsum]. rewrite IH. ring. Qed.
Lemma kn_add a b : kn kO kI kadd (a + b)%nat = kn kO kI kadd a + kn kO kI kadd b.
Proof. induction a as [|a IH]; cbn [Nat.add kn]; [ring|]. rewrite IH. ring. Qed.
Lemma kn_inj a b : kn kO kI kadd a = kn kO kI kadd b -> a = b.
Proof.
  assert (G : forall a c, kn kO kI kadd a = kn kO kI kadd (a + c)%nat -> c = O).
  { intros a0 c H. rewrite kn_add in H. apply (char0 E). rewrite <- kn_sum. transitivity (kn kO kI kadd a0 + kn kO kI kadd c - kn kO kI kadd a0); [ring|]. rewrite <- H. ring. }
  intros H. destruct (Nat.le_ge_cases a b) as [L|L].
  - assert (D : Nat.sub b a = O); [|lia]. apply (G a). rewrite H. f_equal. lia.
  - assert (D : Nat.sub a b = O); [|lia]. apply (G b). rewrite <- H. f_equal. lia.
Qed.
Lemma default_nodup n : NoDup (map (kn kO kI kadd) (seq 0%nat n)).
Proof. apply FinFun.Injective_map_NoDup; [intros a b; apply kn_inj|apply seq_NoDup]. Qed.
Lemma poly_code_default b n : poly_code None b n = poly_code (Some (map (kn kO kI kadd) (seq 0%nat n))) b n.
Proof. reflexivity. Qed.
End Code.

(** * Decompositions exist *)
Definition unit_factors (n : nat) (a : nat -> nat -> K) : (nat -> nat -> K) * (nat -> nat -> K) :=
  let dec := zero_dec E in
  let q := qr_q kO kI kadd kmul ksub kdiv dec n (fun j i => a i j) in
  let len j := sqrt (ip kO kadd kmul n (q j) (q j)) in
  (fun i j => q j i / len j, fun j k => len j * qr_r kO kI kadd kmul ksub kdiv dec n (fun j i => a i j) j k).
Lemma sqrt_pos v : pos v -> sqrt v * sqrt v = v /\ sqrt v <> 0.
Proof.
  intros P. destruct (e_sqrt _ _ _ _ _ _ _ _ _ _ _ E v) as [S1 S2].
  - intros D. rewrite P in D. apply (two_nz E). transitivity (kopp 1 + 1); [rewrite <- D; reflexivity|ring].
  - split; [exact S1|]. intros Z. rewrite Z in S1. apply (pos_nz E v P). rewrite <- S1. ring.
Qed.
Lemma unit_factors_ok n a : unit_qr n a (fst (unit_factors n a)) (snd (unit_factors n a)).
Proof.
  unfold unit_factors. cbn [fst snd].
  destruct (qr_factors kO kI kadd kmul ksub kopp kdiv kinv Kft (zero_dec E) (squares E) (char0 E) n (fun j i => a i j)) as [[O1 O2] [T F]].
  set (q := qr_q _ _ _ _ _ _ _ _ _) in *. set (r := qr_r _ _ _ _ _ _ _ _ _) in *.
  assert (P : forall j, j < n -> pos (ip kO kadd kmul n (q j) (q j))).
  { intros j Hj. destruct (sum_squares E (q j) (seq 0%nat n)) as [P|[P _]]; [exact P|]. destruct (O2 j Hj P). }
  split; [|split].
  - intros i j Hi Hj. destruct (sqrt_pos _ (P i Hi)) as [S1 S2], (sqrt_pos _ (P j Hj)) as [S3 S4].
    rewrite (s_ext _ (fun l => (1 / (sqrt (ip kO kadd kmul n (q i) (q i)) * sqrt (ip kO kadd kmul n (q j) (q j)))) * (q i l * q j l))) by (intros; field; auto).
    rewrite s_scale. change (sum (fun l => q i l * q j l) (seq 0%nat n)) with (ip kO kadd kmul n (q i) (q j)). unfold kron. destruct (Nat.eqb_spec i j) as [->|D].
    + rewrite S1. field. now apply O2.
    + rewrite (O1 i j Hi Hj D). field. auto.
  - intros i j Hi Hj. rewrite T by auto. ring.
  - intros i j Hi Hj. rewrite (F j i Hi). apply s_ext. intros l Hl. apply in_seq in Hl. destruct (sqrt_pos _ (P l ltac:(lia))) as [S1 S2]. field. exact S2.
Qed.
Definition gram_schmidt (a : list (list K)) : result (list (list K) * list (list K)) :=
  let n := length a in
  let f := unit_factors n (entry a) in
  Ok (tabulate n n (fst f), tabulate n n (snd f)).
Lemma gram_schmidt_ok n a : shaped n n a -> forall q r, gram_schmidt a = Ok (q, r) -> unit_qr n (entry a) (entry q) (entry r).
Proof.
  intros [L _] q r H. injection H as <- <-. rewrite L. destruct (unit_factors_ok n (entry a)) as (U1 & U2 & U3). split; [|split].
  - intros i j Hi Hj. etransitivity; [|exact (U1 i j Hi Hj)]. apply s_ext. intros l Hl. apply in_seq in Hl. rewrite !entry_tabulate by lia. reflexivity.
  - intros i j Hi Hj. rewrite entry_tabulate by lia. now apply U2.
  - intros i j Hi Hj. rewrite (U3 i j Hi Hj). apply s_ext. intros l Hl. apply in_seq in Hl. rewrite !entry_tabulate by lia. reflexivity.
Qed.

(** * Scores that repeat *)
Lemma repeated_zero qr c : (forall n a, shaped n n a -> forall q r, qr a = Ok (q, r) -> unit_qr n (entry a) (entry q) (entry r)) ->
  (forall n a, shaped n n a -> exists q r, qr a = Ok (q, r)) ->
  poly_code kO kI kadd kmul ksub kdiv keqb sqrt sgn qr (Some [c; c]) true 2 = Ok ([[1; 0]; [1; 0]], poly_names 2).
Proof.
  intros qr_ok qr_total. unfold poly_code. cbn [length Nat.eqb negb].
  assert (SR : shaped 2 2 (raw_poly kO kI kadd kmul ksub kdiv 2 [c; c])) by apply shaped_tabulate.
  destruct (qr_total 2 _ SR) as [q [r QR]]. destruct (qr_ok 2 _ SR q r QR) as (U1 & U2 & U3). rewrite QR. cbn [bind fst snd].
  assert (Z : c - (c + (c + 0)) / (0 + 1 + 1) = 0) by (field; apply (two_nz E)).
  pose proof (U1 0%nat 0%nat ltac:(lia) ltac:(lia)) as A00. pose proof (U1 0%nat 1%nat ltac:(lia) ltac:(lia)) as A01. pose proof (U1 1%nat 1%nat ltac:(lia) ltac:(lia)) as A11.
  pose proof (U2 1%nat 0%nat ltac:(lia) ltac:(lia)) as R10.
  pose proof (U3 0%nat 0%nat ltac:(lia) ltac:(lia)) as B00. pose proof (U3 1%nat 0%nat ltac:(lia) ltac:(lia)) as B10.
  pose proof (U3 0%nat 1%nat ltac:(lia) ltac:(lia)) as B01. pose proof (U3 1%nat 1%nat ltac:(lia) ltac:(lia)) as B11.
  cbn [rsum seq kron Nat.eqb] in A00, A01, A11, B00, B10, B01, B11.
  unfold raw_poly in B00, B10, B01, B11. rewrite entry_tabulate in B00, B10, B01, B11 by lia.
  cbn [center_scores length kn ksum fold_right map nth kpow] in B00, B10, B01, B11. rewrite Z in B01, B11.
  set (q00 := entry q 0 0) in *. set (q01 := entry q 0 1) in *. set (q10 := entry q 1 0) in *. set (q11 := entry q 1 1) in *.
  set (r00 := entry r 0 0) in *. set (r01 := entry r 0 1) in *. set (r10 := entry r 1 0) in *. set (r11 := entry r 1 1) in *.
  assert (R11 : r11 = 0).
  { transitivity (q01 * (q00 * r01 + (q01 * r11 + 0)) + q11 * (q10 * r01 + (q11 * r11 + 0))).
    - transitivity ((q01 * q01 + (q11 * q11 + 0)) * r11 + (q00 * q01 + (q10 * q11 + 0)) * r01); [rewrite A11, A01; ring|ring].
    - rewrite <- B01, <- B11. ring. }
  assert (N0 : q00 <> 0) by (intros D; apply (one_nz E); rewrite B00, D, R10; ring).
  assert (N1 : q10 <> 0) by (intros D; apply (one_nz E); rewrite B10, D, R10; ring).
  assert (R00 : r00 <> 0) by (intros D; apply (one_nz E); rewrite B00, D, R10; ring).
  assert (RN : forall i, i < 2 -> row_norm kO kadd kmul sqrt 2 (fix_signs kO kmul sgn 2 q r) i <> 0).
  { intros i Hi. unfold row_norm. rewrite ksum_map. cbn [seq rsum]. unfold fix_signs. rewrite !entry_tabulate by lia. fold r00 r11. rewrite R11, (e_sgn0 _ _ _ _ _ _ _ _ _ _ _ E).
    apply sqrt_pos. replace (_ + _) with ((entry q i 0 * sgn r00) * (entry q i 0 * sgn r00)) by ring. apply (pos_sq E). apply (mul_nz E).
    - destruct i as [|[|i]]; [exact N0|exact N1|lia].
    - intros D. apply (one_nz E). rewrite <- (sgn_nz E r00 R00), D. ring. }
  unfold normalize. destruct (existsb _ (seq 0%nat 2)) eqn:EX.
  { apply existsb_exists in EX. destruct EX as [i [Hi D]]. apply in_seq in Hi. apply E in D. destruct (RN i); auto. lia. }
  cbn [bind]. f_equal. f_equal. unfold ones_column, tabulate at 1. cbn [map seq]. rewrite !entry_tabulate by lia. unfold fix_signs. rewrite !entry_tabulate by lia.
  fold r11. rewrite R11, (e_sgn0 _ _ _ _ _ _ _ _ _ _ _ E). fold (fix_signs kO kmul sgn 2 q r). pose proof (RN 1%nat ltac:(lia)) as R1.
  repeat f_equal; field; exact R1.
Qed.
End Euclid.
