From Coq Require Import Sorted Permutation Field.
From Verif Require Import Base NumModel ContrastModel RankSpec RankProofs ContrastSpec.
Open Scope nat_scope.

Notation Qth := (Qcrt).
Notation qsum_ext := (rsum_ext 0%Qc Qcplus).
Notation qsum_app := (rsum_app 0%Qc 1%Qc Qcplus Qcmult Qcminus Qcopp Qcrt).
Notation qsum_add := (rsum_add 0%Qc 1%Qc Qcplus Qcmult Qcminus Qcopp Qcrt).
Notation qsum_scale := (rsum_scale 0%Qc 1%Qc Qcplus Qcmult Qcminus Qcopp Qcrt).
Notation qsum_scale_r := (rsum_scale_r 0%Qc 1%Qc Qcplus Qcmult Qcminus Qcopp Qcrt).
Notation qsum_zero := (rsum_zero 0%Qc 1%Qc Qcplus Qcmult Qcminus Qcopp Qcrt).
Notation qsum_swap := (rsum_swap 0%Qc 1%Qc Qcplus Qcmult Qcminus Qcopp Qcrt).
Notation qsum_shift := (rsum_seq_shift 0%Qc Qcplus).
Notation qsum_kron := (rsum_kron 0%Qc 1%Qc Qcplus Qcmult Qcminus Qcopp Qcrt).
Notation qkron := (kron 0%Qc 1%Qc).

(** * Numbers *)
Lemma qz_add a b : qz (a + b) = (qz a + qz b)%Qc.
Proof. unfold qz. apply Qc_is_canon. cbn [this Q2Qc Qcplus]. rewrite !Qred_correct. now rewrite inject_Z_plus. Qed.
Lemma qz_mul a b : qz (a * b) = (qz a * qz b)%Qc.
Proof. unfold qz. apply Qc_is_canon. cbn [this Q2Qc Qcmult]. rewrite !Qred_correct. now rewrite inject_Z_mult. Qed.
Lemma qz_opp a : qz (- a) = (- qz a)%Qc.
Proof. unfold qz. apply Qc_is_canon. cbn [this Q2Qc Qcopp]. rewrite !Qred_correct. now rewrite inject_Z_opp. Qed.
Lemma qz_sub a b : qz (a - b) = (qz a - qz b)%Qc.
Proof. unfold Z.sub, Qcminus. now rewrite qz_add, qz_opp. Qed.
Lemma qz_0 : qz 0 = 0%Qc. Proof. reflexivity. Qed.
Lemma qz_1 : qz 1 = 1%Qc. Proof. reflexivity. Qed.
Lemma qz_inj a b : qz a = qz b -> a = b.
Proof.
  unfold qz. intros H. apply Q2Qc_eq_iff in H. unfold inject_Z, Qeq in H. cbn in H. lia.
Qed.
Lemma qn_S n : qn (S n) = (qn n + 1)%Qc.
Proof. unfold qn. rewrite Nat2Z.inj_succ, <- Z.add_1_r, qz_add. reflexivity. Qed.
Lemma qn_0 : qn 0 = 0%Qc. Proof. reflexivity. Qed.
Lemma qn_1 : qn 1 = 1%Qc. Proof. reflexivity. Qed.
Lemma qn_add a b : qn (a + b) = (qn a + qn b)%Qc.
Proof. unfold qn. now rewrite Nat2Z.inj_add, qz_add. Qed.
Lemma qn_mul a b : qn (a * b) = (qn a * qn b)%Qc.
Proof. unfold qn. now rewrite Nat2Z.inj_mul, qz_mul. Qed.
Lemma qn_nz n : n <> 0 -> qn n <> 0%Qc.
Proof. intros H E. apply H. rewrite <- qz_0 in E. apply qz_inj in E. lia. Qed.
Lemma qsum_const {X} c (l : list X) : qsum (fun _ => c) l = (qn (length l) * c)%Qc.
Proof. induction l as [|x l IH]; cbn [rsum length]; [rewrite qn_0; ring|]. rewrite IH, qn_S. ring. Qed.
Lemma kron_sym i j : qkron i j = qkron j i.
Proof. unfold kron. now rewrite Nat.eqb_sym. Qed.
Lemma qsum_kron' (h : nat -> Qc) n j : j < n -> qsum (fun k => (qkron k j * h k)%Qc) (seq 0 n) = h j.
Proof. intros H. rewrite <- (qsum_kron h n j H). apply qsum_ext. intros k _. ring. Qed.
Lemma qsum_sub {X} (h g : X -> Qc) l : qsum (fun x => h x - g x)%Qc l = (qsum h l - qsum g l)%Qc.
Proof. induction l as [|x l IH]; cbn; [ring|]. rewrite IH. ring. Qed.
Lemma qsum_opp {X} (h : X -> Qc) l : qsum (fun x => - h x)%Qc l = (- qsum h l)%Qc.
Proof. induction l as [|x l IH]; cbn; [ring|]. rewrite IH. ring. Qed.

(** Summing over the levels other than [r]. *)
Lemma qsum_other h n r : r < n -> qsum (fun k => h (other r k)) (seq 0 (n - 1)) = (qsum h (seq 0 n) - h r)%Qc.
Proof.
  intros Hr. replace (n - 1) with (r + (n - 1 - r)) by lia. rewrite seq_app, qsum_app.
  assert (E : seq 0 n = seq 0 r ++ r :: seq (S r) (n - 1 - r)).
  { replace n with (r + S (n - 1 - r)) at 1 by lia. rewrite seq_app. reflexivity. }
  rewrite E, qsum_app. cbn [rsum plus].
  rewrite (qsum_ext _ h (seq 0 r)).
  2:{ intros k Hk. apply in_seq in Hk. unfold other. destruct (Nat.ltb_spec k r); [reflexivity|lia]. }
  rewrite (qsum_shift h). rewrite (qsum_ext (fun k => h (other r k)) (fun k => h (S k))).
  { cbn. ring. }
  intros k Hk. apply in_seq in Hk. unfold other. destruct (Nat.ltb_spec k r); [lia|reflexivity].
Qed.
Lemma other_neq r k : other r k <> r.
Proof. unfold other. destruct (Nat.ltb_spec k r); lia. Qed.
Lemma other_inj r k l : other r k = other r l -> k = l.
Proof. unfold other. destruct (Nat.ltb_spec k r), (Nat.ltb_spec l r); lia. Qed.
Lemma other_lt r k n : r < n -> k < n - 1 -> other r k < n.
Proof. unfold other. destruct (Nat.ltb_spec k r); lia. Qed.
Lemma other_onto r i n : i < n -> r < n -> i <> r -> exists k, k < n - 1 /\ i = other r k.
Proof.
  intros Hi Hr Hn. destruct (Nat.lt_ge_cases i r).
  - exists i. unfold other. destruct (Nat.ltb_spec i r); lia.
  - exists (i - 1). unfold other. destruct (Nat.ltb_spec (i - 1) r); lia.
Qed.

(** * Inverses of [1 | C] *)
Definition inv_of (B0 : nat -> Qc) (B : nat -> nat -> Qc) (i j : nat) : Qc := match i with 0 => B0 j | S k => B k j end.

Lemma inverse_intro n (C : nat -> nat -> Qc) B0 B : 0 < n ->
  (forall i j, i < n -> j < n -> (B0 j + qsum (fun k => C i k * B k j) (seq 0 (n - 1)))%Qc = qkron i j) ->
  qsum B0 (seq 0 n) = 1%Qc ->
  (forall l, l < n - 1 -> qsum (fun j => B0 j * C j l)%Qc (seq 0 n) = 0%Qc) ->
  (forall k, k < n - 1 -> qsum (fun j => B k j) (seq 0 n) = 0%Qc) ->
  (forall k l, k < n - 1 -> l < n - 1 -> qsum (fun j => B k j * C j l)%Qc (seq 0 n) = qkron k l) ->
  is_inverse 0%Qc 1%Qc Qcplus Qcmult n (with_const 1%Qc C) (inv_of B0 B).
Proof.
  intros Hn H H00 H0 H1 H2. split.
  - intros i j Hi Hj. assert (En : seq 0 n = 0 :: seq 1 (n - 1)) by (destruct n; [lia|cbn; now rewrite Nat.sub_0_r]).
    rewrite En. cbn [rsum]. rewrite qsum_shift. cbn [with_const inv_of]. rewrite <- H by assumption. ring.
  - intros [|i] [|j] Hi Hj; cbn [with_const inv_of].
    + transitivity (qsum B0 (seq 0 n)); [|rewrite H00; reflexivity]. apply qsum_ext. intros k _. ring.
    + rewrite H0 by lia. reflexivity.
    + transitivity (qsum (fun j => B i j) (seq 0 n)); [|rewrite H1 by lia; reflexivity]. apply qsum_ext. intros k _. ring.
    + rewrite H2 by lia. reflexivity.
Qed.

(** Coefficients are read off from the inverse. *)
Lemma fits_iff n (C : nat -> nat -> Qc) B0 B mu b0 b : 0 < n ->
  is_inverse 0%Qc 1%Qc Qcplus Qcmult n (with_const 1%Qc C) (inv_of B0 B) ->
  (fits n C mu b0 b <-> b0 = qsum (fun j => B0 j * mu j)%Qc (seq 0 n) /\
     forall k, k < n - 1 -> b k = qsum (fun j => B k j * mu j)%Qc (seq 0 n)).
Proof.
  intros Hn [HAB HBA]. set (bb := fun i => match i with 0 => b0 | S k => b k end).
  assert (Fi : fits n C mu b0 b <-> forall i, i < n -> mu i = qsum (fun k => with_const 1%Qc C i k * bb k)%Qc (seq 0 n)).
  { assert (E : forall i, qsum (fun k => with_const 1%Qc C i k * bb k)%Qc (seq 0 n) = (b0 + qsum (fun k => C i k * b k) (seq 0 (n - 1)))%Qc).
    { intros i. assert (En : seq 0 n = 0 :: seq 1 (n - 1)) by (destruct n; [lia|cbn; now rewrite Nat.sub_0_r]).
      rewrite En. cbn [rsum]. rewrite qsum_shift. cbn [with_const bb]. ring. }
    unfold fits. split; intros H i Hi; rewrite (H i Hi); [symmetry|]; apply E. }
  rewrite Fi. split.
  - intros H. 
    assert (G : forall i, i < n -> qsum (fun j => inv_of B0 B i j * mu j)%Qc (seq 0 n) = bb i).
    { intros i Hi. rewrite (qsum_ext _ (fun j => qsum (fun k => bb k * (inv_of B0 B i j * with_const 1%Qc C j k))%Qc (seq 0 n))).
      - rewrite qsum_swap. rewrite (qsum_ext _ (fun k => bb k * qkron k i)%Qc); [now apply qsum_kron|].
        intros k Hk. apply in_seq in Hk. rewrite qsum_scale, HBA, kron_sym by lia. reflexivity.
      - intros j Hj. apply in_seq in Hj. rewrite H by lia. rewrite <- qsum_scale. apply qsum_ext. intros k _. ring. }
    split; [symmetry; apply (G 0 Hn)|]. intros k Hk. symmetry. apply (G (S k)). lia.
  - intros [H0 H1] i Hi.
    assert (G : forall i, i < n -> bb i = qsum (fun j => inv_of B0 B i j * mu j)%Qc (seq 0 n)).
    { intros [|k] Hk; [exact H0|]. apply H1. lia. }
    rewrite (qsum_ext _ (fun k => qsum (fun j => mu j * (with_const 1%Qc C i k * inv_of B0 B k j))%Qc (seq 0 n))).
    + rewrite qsum_swap. rewrite (qsum_ext _ (fun j => mu j * qkron j i)%Qc); [symmetry; now apply qsum_kron|].
      intros j Hj. apply in_seq in Hj. rewrite qsum_scale, HAB, kron_sym by lia. reflexivity.
    + intros k Hk. apply in_seq in Hk. rewrite G by lia. rewrite <- qsum_scale. apply qsum_ext. intros j _. ring.
Qed.

(** ** Treatment *)
Definition treat_B (r k j : nat) : Qc := (qkron j (other r k) - qkron j r)%Qc.
Lemma treatment_entry_kron r i k : treatment_entry r i k = qkron i (other r k).
Proof. reflexivity. Qed.
Lemma kron_mul_other r i n (h : nat -> Qc) : i < n -> r < n ->
  qsum (fun k => qkron i (other r k) * h (other r k))%Qc (seq 0 (n - 1)) = (if i =? r then 0 else h i)%Qc.
Proof.
  intros Hi Hr. rewrite (qsum_other (fun j => qkron i j * h j)%Qc n r Hr).
  rewrite (qsum_ext _ (fun k => h k * qkron k i)%Qc) by (intros k _; rewrite kron_sym; ring).
  rewrite qsum_kron by exact Hi. unfold kron. destruct (i =? r) eqn:E; [apply Nat.eqb_eq in E; subst; ring|ring].
Qed.
Lemma treatment_inverse n r : r < n ->
  is_inverse 0%Qc 1%Qc Qcplus Qcmult n (with_const 1%Qc (treatment_entry r)) (inv_of (fun j => qkron j r) (treat_B r)).
Proof.
  intros Hr. apply inverse_intro; [lia| | | | |].
  - intros i j Hi Hj. unfold treat_B.
    rewrite (qsum_ext _ (fun k => qkron i (other r k) * (fun o => qkron j o - qkron j r) (other r k))%Qc) by (intros k _; rewrite treatment_entry_kron; ring).
    rewrite (kron_mul_other r i n (fun o => qkron j o - qkron j r)%Qc Hi Hr).
    destruct (Nat.eqb_spec i r) as [->|]; rewrite (kron_sym j); [ring|]. rewrite (kron_sym j i). ring.
  - rewrite (qsum_ext _ (fun j => 1 * qkron j r)%Qc) by (intros; ring). now rewrite (qsum_kron (fun _ => 1%Qc)).
  - intros l Hl. rewrite (qsum_ext _ (fun j => treatment_entry r j l * qkron j r)%Qc) by (intros; ring).
    rewrite (qsum_kron (fun j => treatment_entry r j l)) by exact Hr. unfold treatment_entry.
    destruct (Nat.eqb_spec r (other r l)) as [E|]; [exfalso; symmetry in E; now apply other_neq in E|reflexivity].
  - intros k Hk. unfold treat_B. rewrite qsum_sub.
    rewrite (qsum_ext _ (fun j => 1 * qkron j (other r k))%Qc) by (intros; ring).
    rewrite (qsum_ext (fun j => qkron j r) (fun j => 1 * qkron j r)%Qc) by (intros; ring).
    rewrite !(qsum_kron (fun _ => 1%Qc)); [ring|exact Hr|now apply other_lt].
  - intros k l Hk Hl. unfold treat_B.
    rewrite (qsum_ext _ (fun j => treatment_entry r j l * qkron j (other r k) - treatment_entry r j l * qkron j r)%Qc) by (intros; ring).
    rewrite qsum_sub, !(qsum_kron (fun j => treatment_entry r j l)); [|exact Hr|now apply other_lt].
    unfold treatment_entry, kron. destruct (Nat.eqb_spec r (other r l)) as [E|]; [exfalso; symmetry in E; now apply other_neq in E|].
    destruct (Nat.eqb_spec (other r k) (other r l)) as [E|E], (Nat.eqb_spec k l) as [E'|E']; try ring.
    + now apply other_inj in E.
    + now subst.
Qed.

(** ** Sum *)
Definition sum_B (n r k j : nat) : Qc := (qkron j (other r k) - / qn n)%Qc.
Lemma sum_entry_kron r i k : sum_entry r i k = (qkron i (other r k) - qkron i r)%Qc.
Proof.
  unfold sum_entry, kron. destruct (Nat.eqb_spec i r) as [->|].
  - destruct (Nat.eqb_spec r (other r k)) as [E|]; [exfalso; symmetry in E; now apply other_neq in E|ring].
  - destruct (i =? other r k); ring.
Qed.
Lemma sum_columns n r : r < n -> columns_sum_to_zero n (sum_entry r).
Proof.
  intros Hr k Hk. rewrite (qsum_ext _ (fun i => 1 * qkron i (other r k) - 1 * qkron i r)%Qc) by (intros; rewrite sum_entry_kron; ring).
  rewrite qsum_sub, !(qsum_kron (fun _ => 1%Qc)); [ring|exact Hr|now apply other_lt].
Qed.
Lemma sum_inverse n r : r < n ->
  is_inverse 0%Qc 1%Qc Qcplus Qcmult n (with_const 1%Qc (sum_entry r)) (inv_of (fun _ => / qn n)%Qc (sum_B n r)).
Proof.
  intros Hr. assert (Hnz : qn n <> 0%Qc) by (apply qn_nz; lia). apply inverse_intro; [lia| | | | |].
  - intros i j Hi Hj. unfold sum_B.
    rewrite (qsum_ext _ (fun k => qkron i (other r k) * (fun o => qkron j o - / qn n) (other r k) - qkron i r * (qkron j (other r k) - / qn n))%Qc)
      by (intros k _; rewrite sum_entry_kron; ring).
    rewrite qsum_sub, (kron_mul_other r i n (fun o => qkron j o - / qn n)%Qc Hi Hr).
    rewrite qsum_scale. rewrite (qsum_other (fun o => qkron j o - / qn n)%Qc n r Hr).
    rewrite qsum_sub, qsum_const, seq_length. rewrite (qsum_ext (qkron j) (fun k => 1 * qkron k j)%Qc) by (intros; rewrite kron_sym; ring).
    rewrite (qsum_kron (fun _ => 1%Qc)) by exact Hj. unfold kron.
    destruct (Nat.eqb_spec i r) as [->|]; [rewrite (Nat.eqb_sym r j)|rewrite (Nat.eqb_sym j i)]; [destruct (j =? r)|destruct (i =? j)]; field; exact Hnz.
  - rewrite qsum_const, seq_length. field. exact Hnz.
  - intros l Hl. rewrite qsum_scale, (sum_columns n r Hr l Hl). ring.
  - intros k Hk. unfold sum_B. rewrite qsum_sub, qsum_const, seq_length.
    rewrite (qsum_ext _ (fun j => 1 * qkron j (other r k))%Qc) by (intros; ring).
    rewrite (qsum_kron (fun _ => 1%Qc)) by (now apply other_lt). field. exact Hnz.
  - intros k l Hk Hl. unfold sum_B.
    rewrite (qsum_ext _ (fun j => sum_entry r j l * qkron j (other r k) - / qn n * sum_entry r j l)%Qc) by (intros; ring).
    rewrite qsum_sub, qsum_scale, (sum_columns n r Hr l Hl), (qsum_kron (fun j => sum_entry r j l)) by (now apply other_lt).
    rewrite sum_entry_kron. unfold kron.
    destruct (Nat.eqb_spec (other r k) r) as [E|]; [now apply other_neq in E|].
    destruct (Nat.eqb_spec (other r k) (other r l)) as [E|E], (Nat.eqb_spec k l) as [E'|E']; try ring.
    + now apply other_inj in E.
    + now subst.
Qed.

(** ** Diff *)
Definition diff_B (k j : nat) : Qc := (qkron j (S k) - qkron j k)%Qc.
Lemma diff_entry_val n i k : 0 < n -> diff_entry n i k = (qn (S k) / qn n - (if i <=? k then 1 else 0))%Qc.
Proof.
  intros Hn. assert (Hnz : qn n <> 0%Qc) by (apply qn_nz; lia). unfold diff_entry. rewrite qz_sub. fold (qn n) (qn (S k)).
  destruct (i <=? k); field; exact Hnz.
Qed.
Lemma sum_leb n k : k < n -> qsum (fun i => if i <=? k then 1 else 0)%Qc (seq 0 n) = qn (S k).
Proof.
  intros Hk. replace n with (S k + (n - S k)) by lia. rewrite seq_app, qsum_app.
  rewrite (qsum_ext _ (fun _ => 1%Qc) (seq 0 (S k))), qsum_const, seq_length.
  - rewrite qsum_zero; [ring|]. intros i Hi. apply in_seq in Hi. destruct (Nat.leb_spec i k); [lia|reflexivity].
  - intros i Hi. apply in_seq in Hi. destruct (Nat.leb_spec i k); [reflexivity|lia].
Qed.
Lemma diff_columns n : 0 < n -> columns_sum_to_zero n (diff_entry n).
Proof.
  intros Hn k Hk. assert (Hnz : qn n <> 0%Qc) by (apply qn_nz; lia).
  rewrite (qsum_ext _ (fun i => qn (S k) / qn n - (if i <=? k then 1 else 0))%Qc) by (intros; now apply diff_entry_val).
  rewrite qsum_sub, qsum_const, seq_length, sum_leb by lia. field. exact Hnz.
Qed.
Lemma diff_inverse n : 0 < n ->
  is_inverse 0%Qc 1%Qc Qcplus Qcmult n (with_const 1%Qc (diff_entry n)) (inv_of (fun _ => / qn n)%Qc diff_B).
Proof.
  intros Hn. assert (Hnz : qn n <> 0%Qc) by (apply qn_nz; lia). apply inverse_intro; [lia| | | | |].
  - intros i j Hi Hj. unfold diff_B.
    set (c := fun k => diff_entry n i k).
    rewrite (qsum_ext _ (fun k => c k * qkron (S k) j - c k * qkron k j)%Qc) by (intros k _; unfold c; rewrite (kron_sym j), (kron_sym j k); ring).
    rewrite qsum_sub.
    assert (E1 : qsum (fun k => c k * qkron (S k) j)%Qc (seq 0 (n - 1)) = (if j =? 0 then 0 else c (j - 1)%nat)%Qc).
    { destruct j as [|j]; cbn [Nat.eqb].
      - apply qsum_zero. intros k _. unfold kron. cbn. ring.
      - replace (S j - 1) with j by lia. rewrite <- (qsum_kron c (n - 1) j) by lia. reflexivity. }
    assert (E2 : qsum (fun k => c k * qkron k j)%Qc (seq 0 (n - 1)) = (if j =? n - 1 then 0 else c j)%Qc).
    { destruct (Nat.eqb_spec j (n - 1)) as [->|].
      - apply qsum_zero. intros k Hk. apply in_seq in Hk. unfold kron. destruct (Nat.eqb_spec k (n - 1)); [lia|ring].
      - apply qsum_kron. lia. }
    rewrite E1, E2. unfold c. rewrite !diff_entry_val by exact Hn. unfold kron.
    destruct (Nat.eqb_spec j 0) as [->|Hj0], (Nat.eqb_spec 0 (n - 1)) as [En|En]; try (destruct (Nat.eqb_spec j (n - 1)) as [En'|En']).
    + replace n with 1 in * by lia. replace i with 0 by lia. cbn. rewrite qn_1. field. intros E; discriminate E.
    + destruct (Nat.leb_spec i 0), (Nat.eqb_spec i 0); try lia; rewrite ?qn_S, ?qn_0; field; exact Hnz.
    + lia.
    + lia.
    + subst j. replace (S (n - 1 - 1)) with (n - 1) by lia.
      assert (En1 : qn n = (qn (n - 1) + 1)%Qc) by (rewrite <- qn_S; f_equal; lia).
      destruct (Nat.leb_spec i (n - 1 - 1)), (Nat.eqb_spec i (n - 1)); try lia; replace (qn (n - 1)) with (qn n - 1)%Qc by (rewrite En1; ring); field; exact Hnz.
    + replace (S (j - 1)) with j by lia. rewrite qn_S.
      destruct (Nat.leb_spec i (j - 1)), (Nat.leb_spec i j), (Nat.eqb_spec i j); try lia; field; exact Hnz.
  - rewrite qsum_const, seq_length. field. exact Hnz.
  - intros l Hl. rewrite qsum_scale, (diff_columns n Hn l Hl). ring.
  - intros k Hk. unfold diff_B. rewrite qsum_sub.
    rewrite (qsum_ext _ (fun j => 1 * qkron j (S k))%Qc) by (intros; ring).
    rewrite (qsum_ext (fun j => qkron j k) (fun j => 1 * qkron j k)%Qc) by (intros; ring).
    rewrite !(qsum_kron (fun _ => 1%Qc)) by lia. ring.
  - intros k l Hk Hl. unfold diff_B.
    rewrite (qsum_ext _ (fun j => diff_entry n j l * qkron j (S k) - diff_entry n j l * qkron j k)%Qc) by (intros; ring).
    rewrite qsum_sub, !(qsum_kron (fun j => diff_entry n j l)) by lia. rewrite !diff_entry_val by exact Hn.
    unfold kron. destruct (Nat.leb_spec (S k) l), (Nat.leb_spec k l), (Nat.eqb_spec k l); try lia; ring.
Qed.

(** ** Helmert *)
Definition helmert_B (k j : nat) : Qc := (helmert_entry j k / (qn (S k) * qn (S (S k))))%Qc.
(** The sum of column [k], weighted by a function constant on rows below [k]. *)
Lemma helmert_col (h : nat -> Qc) n k : S k < n ->
  qsum (fun j => helmert_entry j k * h j)%Qc (seq 0 n) = (qn (S k) * h (S k) - qsum h (seq 0 (S k)))%Qc.
Proof.
  intros Hk. assert (E : seq 0 n = seq 0 (S k) ++ S k :: seq (S (S k)) (n - S (S k))).
  { replace n with (S k + S (n - S (S k))) at 1 by lia. rewrite seq_app. reflexivity. }
  rewrite E, qsum_app. set (l := seq 0 (S k)). cbn [rsum].
  rewrite (qsum_ext _ (fun j => - h j)%Qc l), (qsum_zero _ (seq (S (S k)) _)).
  - rewrite qsum_opp. unfold helmert_entry. destruct (Nat.leb_spec (S k) k); [lia|]. rewrite Nat.eqb_refl. ring.
  - intros j Hj. apply in_seq in Hj. unfold helmert_entry. destruct (Nat.leb_spec j k); [lia|]. destruct (Nat.eqb_spec j (S k)); [lia|ring].
  - intros j Hj. apply in_seq in Hj. unfold helmert_entry. destruct (Nat.leb_spec j k); [ring|lia].
Qed.
Lemma helmert_columns n : columns_sum_to_zero n helmert_entry.
Proof.
  intros k Hk. rewrite (qsum_ext _ (fun j => helmert_entry j k * 1)%Qc) by (intros; ring).
  rewrite helmert_col by lia. rewrite qsum_const, seq_length. ring.
Qed.
(** Telescoping. *)
Lemma helmert_tail n : forall m, m < n ->
  qsum (fun k => 1 / (qn (S k) * qn (S (S k))))%Qc (seq m (n - 1 - m)) = (/ qn (S m) - / qn n)%Qc.
Proof.
  intros m Hm. remember (n - 1 - m) as d eqn:Ed. revert m Hm Ed. induction d as [|d IH]; intros m Hm Ed.
  - cbn. replace n with (S m) by lia. ring.
  - cbn [seq rsum]. rewrite IH by lia.
    assert (qn (S m) <> 0%Qc) by (apply qn_nz; lia). assert (qn (S (S m)) <> 0%Qc) by (apply qn_nz; lia).
    assert (qn n <> 0%Qc) by (apply qn_nz; lia).
    assert (E : qn (S (S m)) = (qn (S m) + 1)%Qc) by apply qn_S. 
    assert (E2 : (1 / (qn (S m) * qn (S (S m))) = / qn (S m) - / qn (S (S m)))%Qc).
    { rewrite E in *. field. split; assumption. }
    rewrite E2. ring.
Qed.
Lemma helmert_AB n i j : i <= j -> j < n ->
  qsum (fun k => helmert_entry i k * helmert_B k j)%Qc (seq 0 (n - 1)) = (qkron i j - / qn n)%Qc.
Proof.
  intros Hij Hj. unfold helmert_B.
  assert (Hnz : qn n <> 0%Qc) by (apply qn_nz; lia).
  replace (n - 1) with (j + (n - 1 - j)) by lia. rewrite seq_app, qsum_app. cbn [plus].
  rewrite (qsum_ext _ (fun k => 1 / (qn (S k) * qn (S (S k))))%Qc (seq j _)).
  2:{ intros k Hk. apply in_seq in Hk. unfold helmert_entry. destruct (Nat.leb_spec i k); [|lia]. destruct (Nat.leb_spec j k); [|lia].
      assert (qn (S k) <> 0%Qc) by (apply qn_nz; lia). assert (qn (S (S k)) <> 0%Qc) by (apply qn_nz; lia). field. split; assumption. }
  rewrite helmert_tail by lia. destruct j as [|j].
  - cbn [seq rsum]. replace i with 0 by lia. unfold kron. cbn [Nat.eqb]. rewrite qn_1. field. split; [exact Hnz|]. intros E; discriminate E.
  - rewrite seq_S, qsum_app. rewrite qsum_zero.
    2:{ intros k Hk. apply in_seq in Hk. unfold helmert_entry at 2. destruct (Nat.leb_spec (S j) k); [lia|]. destruct (Nat.eqb_spec (S j) (S k)); [lia|].
        unfold Qcdiv. ring. }
    cbn [plus rsum]. unfold helmert_entry. destruct (Nat.leb_spec (S j) j); [lia|]. rewrite Nat.eqb_refl.
    assert (H1 : qn (S j) <> 0%Qc) by (apply qn_nz; lia). assert (H2 : qn (S (S j)) <> 0%Qc) by (apply qn_nz; lia).
    assert (E : qn (S (S j)) = (qn (S j) + 1)%Qc) by apply qn_S. unfold kron.
    destruct (Nat.leb_spec i j), (Nat.eqb_spec i (S j)); try lia.
    + rewrite E in *. field. repeat split; assumption.
    + rewrite E in *. field. repeat split; assumption.
Qed.
Lemma helmert_inverse n : 0 < n ->
  is_inverse 0%Qc 1%Qc Qcplus Qcmult n (with_const 1%Qc helmert_entry) (inv_of (fun _ => / qn n)%Qc helmert_B).
Proof.
  intros Hn. assert (Hnz : qn n <> 0%Qc) by (apply qn_nz; lia). apply inverse_intro; [lia| | | | |].
  - intros i j Hi Hj. destruct (Nat.le_gt_cases i j).
    + rewrite helmert_AB by assumption. ring.
    + rewrite (qsum_ext _ (fun k => helmert_entry j k * helmert_B k i)%Qc).
      * rewrite helmert_AB by lia. rewrite kron_sym. ring.
      * intros k _. unfold helmert_B, Qcdiv. ring.
  - rewrite qsum_const, seq_length. field. exact Hnz.
  - intros l Hl. rewrite qsum_scale, (helmert_columns n l Hl). ring.
  - intros k Hk. unfold helmert_B, Qcdiv. rewrite qsum_scale_r, (helmert_columns n k Hk). ring.
  - intros k l Hk Hl. unfold helmert_B.
    rewrite (qsum_ext _ (fun j => / (qn (S k) * qn (S (S k))) * (helmert_entry j k * helmert_entry j l))%Qc) by (intros; unfold Qcdiv; ring).
    rewrite qsum_scale.
    assert (D1 : qn (S k) <> 0%Qc) by (apply qn_nz; lia). assert (D2 : qn (S (S k)) <> 0%Qc) by (apply qn_nz; lia).
    assert (G : forall a b, S a < n -> a < b -> qsum (fun j => helmert_entry j a * helmert_entry j b)%Qc (seq 0 n) = 0%Qc).
    { intros a b Ha Hab. rewrite (helmert_col (fun j => helmert_entry j b) n a Ha).
      rewrite (qsum_ext _ (fun _ => Qcopp 1)%Qc).
      - rewrite qsum_const, seq_length. unfold helmert_entry. destruct (Nat.leb_spec (S a) b); [ring|lia].
      - intros j Hj. apply in_seq in Hj. unfold helmert_entry. destruct (Nat.leb_spec j b); [reflexivity|lia]. }
    destruct (Nat.lt_trichotomy k l) as [Hkl|[->|Hkl]].
    + rewrite G by lia. unfold kron. destruct (Nat.eqb_spec k l); [lia|ring].
    + rewrite (helmert_col (fun j => helmert_entry j l) n l) by lia.
      rewrite (qsum_ext _ (fun _ => Qcopp 1)%Qc).
      * rewrite qsum_const, seq_length. unfold helmert_entry. destruct (Nat.leb_spec (S l) l); [lia|]. rewrite Nat.eqb_refl.
        unfold kron. rewrite Nat.eqb_refl. assert (E : qn (S (S l)) = (qn (S l) + 1)%Qc) by apply qn_S. rewrite E in *. field. split; assumption.
      * intros j Hj. apply in_seq in Hj. unfold helmert_entry. destruct (Nat.leb_spec j l); [reflexivity|lia].
    + rewrite (qsum_ext _ (fun j => helmert_entry j l * helmert_entry j k)%Qc) by (intros; ring). rewrite G by lia.
      unfold kron. destruct (Nat.eqb_spec k l); [lia|ring].
Qed.
