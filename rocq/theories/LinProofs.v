From Verif Require Import Base NumModel RankSpec ContrastSpec ContrastProofs StateProofs BuildProofs LinModel SplineNumProofs.
Open Scope nat_scope.
Open Scope list_scope.

Lemma Qc_eqb_spec a b : Qc_eq_bool a b = true <-> a = b.
Proof.
  split; [apply Qc_eq_bool_correct|]. intros ->. unfold Qc_eq_bool. destruct (Qc_eq_dec b b); congruence.
Qed.
Lemma dot_nil_r r : dot r [] = 0%Qc. Proof. destruct r; reflexivity. Qed.
Lemma dot_zeros r n : dot r (repeat 0%Qc n) = 0%Qc.
Proof. revert n. induction r as [|a r IH]; intros [|n]; cbn; auto. rewrite IH. ring. Qed.
Lemma dot_axpy r t p x : length r = length p -> dot (axpy r t p) x = (dot r x - t * dot p x)%Qc.
Proof.
  revert p x. induction r as [|a r IH]; intros [|b p] x H; try discriminate; cbn; [ring|].
  destruct x as [|y x]; [ring|]. rewrite IH by (now injection H). ring.
Qed.
Lemma axpy_length r t p : length r = length p -> length (axpy r t p) = length r.
Proof. revert p. induction r as [|a r IH]; intros [|b p] H; try discriminate; cbn; auto. Qed.
Lemma dot_qsum n : forall r x, length r = n -> length x = n -> dot r x = qsum (fun i => nth i r 0 * nth i x 0)%Qc (seq 0 n).
Proof.
  induction n as [|n IH]; intros r x Hr Hx.
  - destruct r; [reflexivity|discriminate].
  - destruct r as [|a r], x as [|y x]; try discriminate. cbn [dot seq]. cbn [rsum nth]. rewrite (IH r x) by auto.
    f_equal. rewrite <- seq_shift. clear. induction (seq 0 n); cbn; congruence.
Qed.

Definition holds (x : list Qc) (e : eqn) : Prop := dot (fst e) x = snd e.
Definition wide (n : nat) (e : eqn) : Prop := length (fst e) = n.

Lemma pick_spec n rows a p b others : Forall (wide (S n)) rows -> pick rows = Some (a, p, b, others) ->
  a <> 0%Qc /\ length p = n /\ Forall (wide (S n)) others /\ length rows = S (length others) /\
  forall x y, (Forall (holds (y :: x)) rows <-> (a * y + dot p x = b)%Qc /\ Forall (holds (y :: x)) others).
Proof.
  intros H. revert a p b others. induction H as [|[r c] rows Hr H IH]; intros a p b others E; [discriminate|].
  cbn [pick] in E. destruct r as [|h r]; [discriminate Hr|]. cbn [hd tl] in E. destruct (Qc_eq_bool h 0) eqn:Eh.
  - destruct (pick rows) as [[[[a' p'] b'] o']|] eqn:Ep; [|discriminate]. injection E as <- <- <- <-.
    destruct (IH _ _ _ _ eq_refl) as (A & B & C & D & K). split; auto. split; auto. split; [now constructor|].
    split; [cbn; lia|]. intros x y. specialize (K x y). rewrite !Forall_cons_iff, K. tauto.
  - injection E as <- <- <- <-. unfold wide in Hr. cbn in Hr. injection Hr as Hr. split; [|split; [|split; [|split]]]; auto.
    + intros ->. now rewrite (proj2 (Qc_eqb_spec 0 0) eq_refl) in Eh.
    + intros x y. rewrite Forall_cons_iff. unfold holds at 1. cbn. tauto.
Qed.
Lemma pick_none n rows : Forall (wide (S n)) rows -> pick rows = None ->
  forall e, In e rows -> hd 0%Qc (fst e) = 0%Qc.
Proof.
  induction rows as [|[r c] rows IH]; intros H E e He; [easy|]. inversion H; subst. cbn [pick] in E.
  destruct (Qc_eq_bool (hd 0%Qc r) 0) eqn:Eh; [|discriminate]. destruct (pick rows) as [[[[? ?] ?] ?]|] eqn:Ep; [discriminate|].
  destruct He as [<-|He]; [|now apply IH]. cbn. now apply Qc_eqb_spec.
Qed.
Lemma eliminate_wide n a p b e : length p = n -> wide (S n) e -> wide n (eliminate a p b e).
Proof.
  intros Hp He. unfold wide, eliminate in *. cbn [fst]. destruct e as [[|h r] c]; [discriminate|]. cbn in *.
  injection He as He. rewrite axpy_length; congruence.
Qed.
Lemma eliminate_holds n a p b e x y : length p = n -> wide (S n) e -> (a * y + dot p x = b)%Qc -> a <> 0%Qc ->
  (holds x (eliminate a p b e) <-> holds (y :: x) e).
Proof.
  intros Hp He Hb Ha. unfold holds, wide, eliminate in *. cbn [fst snd]. destruct e as [[|h r] c]; [discriminate|]. cbn in *.
  injection He as He. rewrite dot_axpy by congruence. rewrite <- Hb.
  replace (c - h / a * (a * y + dot p x))%Qc with (c - h * y - h / a * dot p x)%Qc by (field; auto).
  split; intros E.
  - replace (dot r x) with ((dot r x - h / a * dot p x) + h / a * dot p x)%Qc by ring. rewrite E. ring.
  - rewrite <- E. ring.
Qed.
Lemma gauss_sound n : forall rows x, Forall (wide n) rows -> length rows = n -> gauss n rows = Some x ->
  length x = n /\ Forall (holds x) rows.
Proof.
  induction n as [|n IH]; intros rows x Hw Hl E; cbn [gauss] in E.
  - injection E as <-. split; auto. destruct rows; [constructor|discriminate].
  - destruct (pick rows) as [[[[a p] b] others]|] eqn:Ep; [|discriminate].
    destruct (gauss n (map (eliminate a p b) others)) as [y|] eqn:Eg; [|discriminate]. injection E as <-.
    destruct (pick_spec n rows a p b others Hw Ep) as (Ha & Hp & Ho & Hlo & K).
    apply IH in Eg.
    + destruct Eg as [L F]. split; [cbn; lia|]. assert (B : (a * ((b - dot p y) / a) + dot p y = b)%Qc) by (field; auto).
      apply K. split; auto. rewrite Forall_map in F. rewrite Forall_forall in *. intros e He.
      apply (eliminate_holds n a p b e y); auto.
    + rewrite Forall_map. eapply Forall_impl; [|exact Ho]. intros e He. now apply eliminate_wide.
    + rewrite map_length. lia.
Qed.
Lemma eliminate_fst a p b c e : fst (eliminate a p b e) = fst (eliminate a p c (fst e, 0%Qc)).
Proof. reflexivity. Qed.
(** A system whose homogeneous version has only the zero solution is solved. *)
Lemma gauss_complete n : forall rows, Forall (wide n) rows -> length rows = n ->
  (forall x, length x = n -> Forall (fun e => dot (fst e) x = 0%Qc) rows -> x = repeat 0%Qc n) ->
  exists x, gauss n rows = Some x.
Proof.
  induction n as [|n IH]; intros rows Hw Hl K; cbn [gauss]; [eauto|].
  destruct (pick rows) as [[[[a p] b] others]|] eqn:Ep.
  - destruct (pick_spec n rows a p b others Hw Ep) as (Ha & Hp & Ho & Hlo & _).
    destruct (IH (map (eliminate a p b) others)) as [x Ex].
    + rewrite Forall_map. eapply Forall_impl; [|exact Ho]. intros e He. now apply eliminate_wide.
    + rewrite map_length. lia.
    + intros x Lx Fx. set (y := (- dot p x / a)%Qc).
      assert (Ky : y :: x = repeat 0%Qc (S n)).
      { apply K; [cbn; lia|].
        assert (Hw' : Forall (wide (S n)) (map (fun e => (fst e, 0%Qc)) rows)) by (rewrite Forall_map; exact Hw).
        assert (Ep' : pick (map (fun e => (fst e, 0%Qc)) rows) = Some (a, p, 0%Qc, map (fun e => (fst e, 0%Qc)) others)).
        { clear -Ep. revert a p b others Ep. induction rows as [|[r c] rows IHr]; intros a p b others Ep; [discriminate|].
          cbn in *. destruct (Qc_eq_bool (hd 0%Qc r) 0); [|now injection Ep as <- <- <- <-].
          destruct (pick rows) as [[[[a' p'] b'] o']|]; [|discriminate]. injection Ep as <- <- <- <-.
          now rewrite (IHr _ _ _ _ eq_refl). }
        destruct (pick_spec n _ _ _ _ _ Hw' Ep') as (_ & _ & _ & _ & K').
        specialize (K' x y). assert (B : (a * y + dot p x = 0)%Qc) by (unfold y; field; auto).
        assert (Forall (holds (y :: x)) (map (fun e => (fst e, 0%Qc)) rows)) as F.
        { apply K'. split; auto. rewrite Forall_map in *. rewrite Forall_forall in *. intros e He.
          apply (proj1 (eliminate_holds n a p 0%Qc (fst e, 0%Qc) x y Hp (Ho e He) B Ha)).
          unfold holds. specialize (Fx e He). unfold eliminate in *. cbn [fst snd] in *. rewrite Fx. ring. }
        rewrite Forall_map in F. exact F. }
      cbn in Ky. now injection Ky.
    + rewrite Ex. eauto.
  - exfalso. assert (X : 1%Qc :: repeat 0%Qc n = repeat 0%Qc (S n)).
    { apply K; [cbn; now rewrite repeat_length|]. apply Forall_forall. intros e He.
      pose proof (pick_none n rows Hw Ep e He) as Z. destruct (fst e) as [|h r]; [reflexivity|]. cbn in Z |- *. rewrite Z, dot_zeros. ring. }
    cbn in X. injection X as X. discriminate X.
Qed.

Lemma column_length m c : length (column m c) = length m.
Proof. apply map_length. Qed.
Lemma column_nth m c i : nth i (column m c) 0%Qc = get m i c.
Proof.
  unfold column, get. destruct (Nat.lt_ge_cases i (length m)) as [H|H].
  - now rewrite (nth_map_lt _ m i 0%Qc []).
  - rewrite (nth_overflow m) by auto. rewrite nth_overflow by (now rewrite map_length). now destruct c.
Qed.
Lemma transpose_shape n m : length (transpose n m) = n /\ Forall (fun r => length r = length m) (transpose n m).
Proof.
  unfold transpose. split; [now rewrite map_length, seq_length|]. rewrite Forall_map. apply Forall_forall. intros. apply column_length.
Qed.
Lemma transpose_get n m i c : i < n -> get (transpose n m) i c = get m c i.
Proof.
  intros H. unfold get at 1, transpose. rewrite (nth_map_lt _ (seq 0 n) i [] 0) by (now rewrite seq_length).
  rewrite seq_nth by auto. apply column_nth.
Qed.
Lemma get_over_row m i c : length m <= i -> get m i c = 0%Qc.
Proof. intros H. unfold get. rewrite (nth_overflow m) by auto. now destruct c. Qed.

(** [b] has only the zero vector in its kernel. *)
Definition regular (n : nat) (b : mat) : Prop :=
  forall x, length x = n -> (forall i, i < n -> dot (nth i b []) x = 0%Qc) -> forall i, i < n -> nth i x 0%Qc = 0%Qc.

Lemma np_solve_ok n b m d : length b = n -> Forall (fun r => length r = n) b -> length d = n -> regular n b ->
  exists f, np_solve b m d = Ok f /\ length f = n /\ Forall (fun r => length r = m) f /\
    forall i c, i < n -> c < m -> dot (nth i b []) (column f c) = get d i c.
Proof.
  intros Hb Hr Hd K. unfold np_solve. rewrite Hb.
  assert (W : forall c, Forall (wide n) (combine b (column d c)) /\ length (combine b (column d c)) = n).
  { intros c. split.
    - apply Forall_forall. intros [r q] Hin. apply in_combine_l in Hin. rewrite Forall_forall in Hr. now apply Hr.
    - rewrite combine_length, column_length. lia. }
  assert (G : forall c, exists x, gauss n (combine b (column d c)) = Some x /\ length x = n /\ forall i, i < n -> dot (nth i b []) x = get d i c).
  { intros c. destruct (W c) as [W1 W2]. destruct (gauss_complete n (combine b (column d c)) W1 W2) as [x Ex].
    - intros x Lx Fx. apply nth_ext_Qc; [now rewrite repeat_length|]. intros j Hj. rewrite nth_zeros.
      apply (K x); auto; try lia. intros i Hi. rewrite Forall_forall in Fx.
      specialize (Fx (nth i b [], nth i (column d c) 0%Qc)). apply Fx. rewrite <- combine_nth by (rewrite column_length; congruence).
      apply nth_In. lia.
    - exists x. split; auto. destruct (gauss_sound n _ _ W1 W2 Ex) as [Lx Fx]. split; auto. intros i Hi.
      rewrite Forall_forall in Fx. rewrite <- column_nth. apply (Fx (nth i b [], nth i (column d c) 0%Qc)).
      rewrite <- combine_nth by (rewrite column_length; congruence). apply nth_In. lia. }
  assert (M : forall l, exists xs, mapM (fun c => match gauss n (combine b (column d c)) with Some x => Ok x | None => Err (ValueError "Singular matrix") end) l = Ok xs
     /\ Forall2 (fun c x => length x = n /\ forall i, i < n -> dot (nth i b []) x = get d i c) l xs).
  { induction l as [|c l (xs & E & F)]; cbn [mapM]; [eauto|]. destruct (G c) as (x & Ex & P). rewrite Ex. cbn. rewrite E. cbn.
    exists (x :: xs). split; auto. }
  destruct (M (seq 0 m)) as (xs & E & F). rewrite E. cbn. assert (L : length (seq 0 m) = length xs) by (clear -F; induction F; cbn; congruence). rewrite seq_length in L.
  exists (transpose n xs). destruct (transpose_shape n xs) as [T1 T2]. split; auto. split; auto. rewrite <- L in T2. split; auto.
  intros i c Hi Hc. assert (P : length (nth c xs []) = n /\ dot (nth i b []) (nth c xs []) = get d i c).
  { assert (Q : forall l ys k, Forall2 (fun c x => length x = n /\ forall i, i < n -> dot (nth i b []) x = get d i c) l ys ->
       k < length l -> length (nth k ys []) = n /\ forall i, i < n -> dot (nth i b []) (nth k ys []) = get d i (nth k l 0)).
    { intros l ys k F2. revert k. induction F2; intros k Hk; cbn in Hk; [lia|]. destruct k; auto. cbn [nth]. apply IHF2. lia. }
    destruct (Q _ _ c F) as [Q1 Q2]; [now rewrite seq_length|]. split; auto. rewrite seq_nth in Q2 by auto. now apply Q2. }
  destruct P as [P1 P2]. rewrite <- P2. f_equal. apply nth_ext_Qc; rewrite column_length, T1; auto.
  intros j Hj. rewrite column_nth, transpose_get by auto. reflexivity.
Qed.
