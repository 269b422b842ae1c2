(** Orthogonal vectors over an ordered field: projections, and that every matrix is a product of one with
    orthogonal columns and a triangular one (Gram and Schmidt). *)
From Coq Require Import Field_theory Field Ring.
From Verif Require Import Base RankSpec RankProofs.
Open Scope nat_scope.

Section Orth.
Context {K : Type} (kO kI : K) (kadd kmul ksub : K -> K -> K) (kopp : K -> K) (kdiv : K -> K -> K) (kinv : K -> K).
Hypothesis Kft : field_theory kO kI kadd kmul ksub kopp kdiv kinv (@eq K).
Add Field Kfield : Kft.
Variable zero_dec : forall x : K, {x = kO} + {x <> kO}.
Local Notation "x + y" := (kadd x y).
Local Notation "x * y" := (kmul x y).
Local Notation "x - y" := (ksub x y).
Local Notation "x / y" := (kdiv x y).
Local Notation sum := (rsum kO kadd).
Local Notation delta := (kron kO kI).
Let Krt := F_R Kft.
Local Notation s_ext := (rsum_ext kO kadd).
Local Notation s_add := (rsum_add kO kI kadd kmul ksub kopp Krt).
Local Notation s_scale := (rsum_scale kO kI kadd kmul ksub kopp Krt).
Local Notation s_scale_r := (rsum_scale_r kO kI kadd kmul ksub kopp Krt).
Local Notation s_zero := (rsum_zero kO kI kadd kmul ksub kopp Krt).
Local Notation s_swap := (rsum_swap kO kI kadd kmul ksub kopp Krt).
Local Notation s_kron := (rsum_kron kO kI kadd kmul ksub kopp Krt).
Local Notation s_app := (rsum_app kO kI kadd kmul ksub kopp Krt).
Hypothesis squares : forall (h : nat * nat -> K) l, sum (fun x => h x * h x) l = kO -> forall x, In x l -> h x = kO.
Hypothesis char0 : forall n, sum (fun _ => kI) (seq 0 n) = kO -> n = 0.

Lemma s_sub {X} (h g : X -> K) l : sum (fun x => h x - g x) l = sum h l - sum g l.
Proof. induction l as [|x l IH]; cbn [rsum]; [ring|rewrite IH; ring]. Qed.

Variable n : nat.
Definition ip (u v : nat -> K) : K := sum (fun l => u l * v l) (seq 0 n).
Definition unit (i l : nat) : K := delta l i.
Lemma ip_comm u v : ip u v = ip v u.
Proof. apply s_ext. intros. ring. Qed.
Lemma ip_ext u v u' v' : (forall l, l < n -> u l = u' l) -> (forall l, l < n -> v l = v' l) -> ip u v = ip u' v'.
Proof. intros H1 H2. apply s_ext. intros l Hl. apply in_seq in Hl. rewrite H1, H2 by lia. reflexivity. Qed.
Lemma ip_sub u v w : ip u (fun l => v l - w l) = ip u v - ip u w.
Proof. unfold ip. rewrite <- s_sub. apply s_ext. intros. ring. Qed.
Lemma ip_unit u i : i < n -> ip u (unit i) = u i.
Proof. intros H. unfold ip, unit. now apply s_kron. Qed.

(** [t] vectors [q 0], [q 1], ... are orthogonal and not zero. *)
Definition orthogonal (t : nat) (q : nat -> nat -> K) : Prop :=
  (forall s u, s < t -> u < t -> s <> u -> ip (q s) (q u) = kO) /\ forall s, s < t -> ip (q s) (q s) <> kO.
Definition coef (q : nat -> nat -> K) (v : nat -> K) (s : nat) : K := ip (q s) v / ip (q s) (q s).
Definition proj (t : nat) (q : nat -> nat -> K) (v : nat -> K) (l : nat) : K := sum (fun s => coef q v s * q s l) (seq 0 t).
Definition res (t : nat) (q : nat -> nat -> K) (v : nat -> K) (l : nat) : K := v l - proj t q v l.

Lemma ip_proj t q v u : ip u (proj t q v) = sum (fun s => coef q v s * ip u (q s)) (seq 0 t).
Proof.
  unfold ip, proj. rewrite (s_ext _ (fun l => sum (fun s => coef q v s * (u l * q s l)) (seq 0 t))).
  - rewrite s_swap. apply s_ext. intros s _. now rewrite s_scale.
  - intros l _. rewrite <- s_scale. apply s_ext. intros. ring.
Qed.
Lemma proj_ip t q v s : orthogonal t q -> s < t -> ip (q s) (proj t q v) = ip (q s) v.
Proof.
  intros [O N] Hs. rewrite ip_proj. rewrite (s_ext _ (fun u => ip (q s) v * delta u s)).
  - now rewrite (s_kron (fun _ => ip (q s) v)).
  - intros u Hu. apply in_seq in Hu. unfold kron. destruct (Nat.eqb_spec u s) as [->|H].
    + unfold coef. field. now apply N.
    + rewrite O by lia. ring.
Qed.
Lemma res_orth t q v s : orthogonal t q -> s < t -> ip (q s) (res t q v) = kO.
Proof. intros O Hs. unfold res. rewrite ip_sub, proj_ip by auto. ring. Qed.
Lemma res_self t q v : orthogonal t q -> ip (res t q v) (res t q v) = ip v (res t q v).
Proof.
  intros O. unfold res at 2. rewrite ip_sub, ip_proj. rewrite (s_zero (fun s => coef q v s * ip (res t q v) (q s))); [rewrite ip_comm; ring|].
  intros s Hs. apply in_seq in Hs. rewrite ip_comm, res_orth by (auto; lia). ring.
Qed.
(** The remainders of the unit vectors are as many as are missing to [n] vectors. *)
Lemma res_units t q : orthogonal t q ->
  sum (fun i => ip (res t q (unit i)) (res t q (unit i))) (seq 0 n) = sum (fun _ => kI) (seq 0 n) - sum (fun _ => kI) (seq 0 t).
Proof.
  intros O. rewrite (s_ext _ (fun i => kI - sum (fun s => q s i * q s i / ip (q s) (q s)) (seq 0 t))).
  - rewrite s_sub. f_equal. rewrite s_swap. apply s_ext. intros s Hs. apply in_seq in Hs.
    rewrite (s_ext _ (fun i => (kI / ip (q s) (q s)) * (q s i * q s i))); [|intros i _; field; apply O; lia]. rewrite s_scale. fold (ip (q s) (q s)). field. apply O. lia.
  - intros i Hi. apply in_seq in Hi. rewrite res_self by auto. rewrite ip_comm, ip_unit by lia. unfold res, proj. f_equal.
    + unfold unit, kron. now rewrite Nat.eqb_refl.
    + apply s_ext. intros s Hs. apply in_seq in Hs. unfold coef. rewrite ip_unit by lia. field. apply O. lia.
Qed.
Lemma sum_ones_le t : t <= n -> sum (fun _ => kI) (seq 0 n) - sum (fun _ => kI) (seq 0 t) = sum (fun _ => kI) (seq 0 (n - t)).
Proof.
  intros H. replace n with (t + (n - t))%nat at 1 by lia. rewrite seq_app, s_app. cbn [Nat.add].
  assert (E : forall a m, sum (fun _ => kI) (seq a m) = sum (fun _ => kI) (seq 0 m)).
  { intros a m. revert a. induction m as [|m IH]; intros a; [reflexivity|]. cbn [seq rsum]. now rewrite (IH (Datatypes.S a)), (IH 1). }
  rewrite (E t). ring.
Qed.
Lemma units_zero (w : nat -> nat -> K) : sum (fun i => ip (w i) (w i)) (seq 0 n) = kO -> forall i l, i < n -> l < n -> w i l = kO.
Proof.
  intros H i l Hi Hl. apply (squares (fun x => w (fst x) (snd x)) (flat_map (fun i => map (pair i) (seq 0 n)) (seq 0 n))) with (x := (i, l)).
  - rewrite (rsum_flat kO kI kadd kmul ksub kopp Krt). etransitivity; [|exact H]. apply s_ext. intros j _. rewrite (rsum_map kO kadd). reflexivity.
  - apply in_flat_map. exists i. split; [apply in_seq; lia|]. apply in_map, in_seq. lia.
Qed.
Lemma ip_zero u : ip u u = kO -> forall l, l < n -> u l = kO.
Proof.
  intros H l Hl. apply (squares (fun x => u (snd x)) (map (pair 0) (seq 0 n))) with (x := (0, l)); [|apply in_map, in_seq; lia].
  rewrite (rsum_map kO kadd). exact H.
Qed.
(** [n] orthogonal vectors span everything. *)
Lemma complete q : orthogonal n q -> forall v l, l < n -> v l = proj n q v l.
Proof.
  intros O.
  assert (U : forall i l, i < n -> l < n -> res n q (unit i) l = kO) by (intros i l; apply (units_zero (fun i => res n q (unit i))); rewrite res_units by auto; ring).
  intros v l Hl. transitivity (sum (fun i => v i * unit i l) (seq 0 n)).
  - unfold unit. rewrite (s_ext _ (fun i => v i * delta i l)); [symmetry; now apply s_kron|]. intros i _. unfold kron. now rewrite Nat.eqb_sym.
  - rewrite (s_ext _ (fun i => v i * proj n q (unit i) l)).
    + unfold proj. rewrite (s_ext _ (fun i => sum (fun s => v i * (coef q (unit i) s * q s l)) (seq 0 n))) by (intros; now rewrite s_scale).
      rewrite s_swap. apply s_ext. intros s Hs. apply in_seq in Hs. unfold coef. rewrite (s_ext _ (fun i => (q s i * v i) * (q s l / ip (q s) (q s)))).
      * rewrite s_scale_r. fold (ip (q s) v). field. apply O. lia.
      * intros i Hi. apply in_seq in Hi. rewrite ip_unit by lia. field. apply O. lia.
    + intros i Hi. apply in_seq in Hi. f_equal. specialize (U i l ltac:(lia) Hl). unfold res in U. transitivity (unit i l - proj n q (unit i) l + proj n q (unit i) l); [ring|rewrite U; ring].
Qed.
Lemma complete_rows q i j : orthogonal n q -> i < n -> j < n -> sum (fun s => q s i * q s j / ip (q s) (q s)) (seq 0 n) = delta i j.
Proof.
  intros O Hi Hj. change (delta i j) with (unit j i). rewrite (complete q O (unit j) i Hi). apply s_ext. intros s Hs. apply in_seq in Hs. unfold coef.
  rewrite ip_unit by lia. field. apply O. lia.
Qed.

(** Gram and Schmidt: the next vector is what remains of the next column, or of a unit vector. *)
Definition zero_upto (v : nat -> K) : bool := forallb (fun l => if zero_dec (v l) then true else false) (seq 0 n).
Lemma zero_upto_true v : zero_upto v = true -> forall l, l < n -> v l = kO.
Proof. unfold zero_upto. rewrite forallb_forall. intros H l Hl. specialize (H l ltac:(apply in_seq; lia)). now destruct (zero_dec (v l)). Qed.
Lemma zero_upto_false v : zero_upto v = false -> ip v v <> kO.
Proof.
  intros H E. assert (T : zero_upto v = true); [|congruence]. unfold zero_upto. rewrite forallb_forall. intros l Hl. apply in_seq in Hl. destruct (zero_dec (v l)) as [|N]; auto.
  destruct N. apply ip_zero; auto. lia.
Qed.
Variable a : nat -> nat -> K.
Definition next (t : nat) (q : nat -> nat -> K) : nat -> K :=
  if zero_upto (res t q (a t))
  then match find (fun i => negb (zero_upto (res t q (unit i)))) (seq 0 n) with Some i => res t q (unit i) | None => unit 0 end
  else res t q (a t).
Fixpoint gram (t : nat) : nat -> nat -> K :=
  match t with
  | 0 => fun _ => unit 0
  | Datatypes.S t => fun s => if Nat.eqb s t then next t (gram t) else gram t s
  end.
Lemma proj_ext t q q' v l : (forall s, s < t -> q s = q' s) -> proj t q v l = proj t q' v l.
Proof. intros H. apply s_ext. intros s Hs. apply in_seq in Hs. unfold coef. now rewrite H by lia. Qed.
Lemma gram_orthogonal t : t <= n -> orthogonal t (gram t) /\ forall s, s < t -> forall l, l < n -> a s l = proj (Datatypes.S s) (gram t) (a s) l.
Proof.
  induction t as [|t IH]; intros Ht; [split; [split; intros; lia|intros; lia]|]. destruct (IH ltac:(lia)) as [O A].
  assert (N : ip (next t (gram t)) (next t (gram t)) <> kO /\ forall s, s < t -> ip (gram t s) (next t (gram t)) = kO).
  { unfold next. destruct (zero_upto (res t (gram t) (a t))) eqn:Z; [|split; [now apply zero_upto_false|intros; now apply res_orth]].
    destruct (find _ (seq 0 n)) as [i|] eqn:F.
    - apply find_some in F. destruct F as [_ F]. apply negb_true_iff in F. split; [now apply zero_upto_false|intros; now apply res_orth].
    - exfalso. assert (E : Nat.sub n t = 0); [|lia]. apply char0. rewrite <- sum_ones_le, <- (res_units t (gram t)) by (auto; lia). apply s_zero. intros i Hi.
      pose proof (find_none _ _ F i Hi) as Fi. apply negb_false_iff in Fi. apply s_zero. intros l Hl. apply in_seq in Hl. rewrite (zero_upto_true _ Fi) by lia. ring. }
  destruct N as [N1 N2]. set (g := gram t) in *. cbn [gram]. fold g.
  assert (G : forall s, s < t -> (if Nat.eqb s t then next t g else g s) = g s) by (intros s Hs; destruct (Nat.eqb_spec s t); [lia|reflexivity]).
  assert (T : (if Nat.eqb t t then next t g else g t) = next t g) by now rewrite Nat.eqb_refl.
  split; [split|].
  - intros s u Hs Hu D. destruct (Nat.eqb_spec s t) as [->|E1], (Nat.eqb_spec u t) as [->|E2]; try lia.
    + rewrite ip_comm. apply N2. lia.
    + apply N2. lia.
    + apply O; lia.
  - intros s Hs. destruct (Nat.eqb_spec s t) as [->|E1]; [exact N1|apply O; lia].
  - intros s Hs l Hl. destruct (Nat.lt_ge_cases s t) as [H|H].
    + rewrite (A s H l Hl). apply proj_ext. intros u Hu. symmetry. apply G. lia.
    + assert (s = t) by lia. subst s. unfold proj. rewrite seq_S, s_app. cbn [rsum Nat.add].
      rewrite (s_ext _ (fun s => coef g (a t) s * g s l)) by (intros s Hin; apply in_seq in Hin; unfold coef; rewrite !G by lia; reflexivity). fold (proj t g (a t) l).
      unfold coef. rewrite T. unfold next at 1 2 3 4.
      destruct (zero_upto (res t g (a t))) eqn:Z.
      * assert (R : res t g (a t) l = kO) by (now apply zero_upto_true). fold (next t g).
        assert (C : ip (match find (fun i => negb (zero_upto (res t g (unit i)))) (seq 0 n) with Some i => res t g (unit i) | None => unit 0 end) (a t) = kO).
        { assert (E : next t g = match find (fun i => negb (zero_upto (res t g (unit i)))) (seq 0 n) with Some i => res t g (unit i) | None => unit 0 end) by (unfold next; now rewrite Z).
          rewrite <- E. rewrite (ip_ext _ (a t) (next t g) (fun l => proj t g (a t) l)); auto.
          - rewrite ip_proj. apply s_zero. intros s Hin. apply in_seq in Hin. rewrite ip_comm, N2 by lia. ring.
          - intros k Hk. pose proof (zero_upto_true _ Z k Hk) as Rk. unfold res in Rk. transitivity (a t k - proj t g (a t) k + proj t g (a t) k); [ring|rewrite Rk; ring]. }
        rewrite C. unfold res in R. unfold next in N1. rewrite Z in N1. transitivity (a t l - proj t g (a t) l + proj t g (a t) l); [ring|]. rewrite R. field. exact N1.
      * unfold next in N1. rewrite Z in N1. rewrite <- (ip_comm (a t)). rewrite <- res_self by auto. unfold res at 5. field. exact N1.
Qed.
(** The factors: [qr_q u] is column [u] of the first, [qr_r u s] the entry in row [u] and column [s] of the second. *)
Definition qr_q : nat -> nat -> K := gram n.
Definition qr_r (u s : nat) : K := if Nat.leb u s then coef qr_q (a s) u else kO.
Lemma qr_factors : orthogonal n qr_q /\ (forall u s, s < u -> qr_r u s = kO) /\ forall s l, l < n -> a s l = sum (fun u => qr_q u l * qr_r u s) (seq 0 n).
Proof.
  destruct (gram_orthogonal n (Nat.le_refl n)) as [O A]. split; [exact O|]. split.
  - intros u s H. unfold qr_r. destruct (Nat.leb_spec u s); [lia|reflexivity].
  - intros s l Hl. destruct (Nat.lt_ge_cases s n) as [Hs|Hs].
    + rewrite (A s Hs l Hl). fold qr_q. unfold proj.
      assert (E : seq 0 n = seq 0 (Datatypes.S s) ++ seq (Datatypes.S s) (Nat.sub n (Datatypes.S s))).
      { rewrite <- (seq_app (Datatypes.S s) _ 0). f_equal. lia. }
      transitivity (sum (fun u => qr_q u l * qr_r u s) (seq 0 (Datatypes.S s) ++ seq (Datatypes.S s) (Nat.sub n (Datatypes.S s)))); [|now rewrite <- E].
      rewrite s_app. rewrite (s_zero (fun u => qr_q u l * qr_r u s) (seq (Datatypes.S s) _)).
      * rewrite (s_ext _ (fun u => qr_q u l * qr_r u s)); [ring|]. intros u Hu. apply in_seq in Hu. unfold qr_r. destruct (Nat.leb_spec u s); [ring|lia].
      * intros u Hu. apply in_seq in Hu. unfold qr_r. destruct (Nat.leb_spec u s); [lia|ring].
    + rewrite (complete qr_q O (a s) l Hl). apply s_ext. intros u Hu. apply in_seq in Hu. unfold qr_r. destruct (Nat.leb_spec u s); [ring|lia].
Qed.
End Orth.
