From Coq Require Import ZArith Lqa Sorted Field.
From Verif Require Import Base NumModel RankSpec RankProofs ContrastSpec ContrastProofs ContrastMatProofs StateModel StateSpec StateProofs LinModel LinProofs SplineModel SplineSpec SplineNumProofs SplineProofs BsSpec BsProofs CrsProofs CrsSpec CrsCurveProofs CrsSolveProofs CrsConsProofs.
Open Scope nat_scope.
Open Scope list_scope.

(** A mean of columns, absorbed, leaves columns of mean zero. *)
Lemma row_zero qr n row q r c : qr_sound qr -> length row = n -> qr n (transpose n [row]) = Ok (q, r) -> c < n - 1 ->
  qsum (fun l => nth l row 0 * get q l (1 + c))%Qc (seq 0 n) = 0%Qc.
Proof.
  intros Hq Hr E Hc. assert (Q : is_qr n 1 (transpose n [row]) q r) by (apply Hq; auto; apply (transpose_shape n [row])).
  etransitivity; [apply (row_q n [row] q r Q 0 (1 + c)); cbn; lia|].
  replace (get r (1 + c) 0) with 0%Qc; [ring|]. symmetry. apply Q. lia.
Qed.
Lemma matmul_sum n D b c w : Forall (fun r => length r = n) D -> length b = n -> c < w ->
  col_sum (matmul D w b) c = qsum (fun l => col_sum D l * get b l c)%Qc (seq 0 n).
Proof.
  intros FD Lb Hc. unfold col_sum, matmul. rewrite rsum_map.
  transitivity (qsum (fun r => qsum (fun l => nth l r 0 * get b l c)%Qc (seq 0 n)) D).
  - apply qsum_ext. intros r Hr. rewrite Forall_forall in FD. rewrite nth_map_seq by auto. rewrite (dot_qsum n) by (auto; now rewrite column_length).
    apply qsum_ext. intros l Hl. apply in_seq in Hl. f_equal. rewrite column_nth. reflexivity.
  - rewrite qswap. apply qsum_ext. intros l _. rewrite Qcmult_comm, <- qsum_scale. apply qsum_ext. intros. ring.
Qed.
Lemma col_sum_out k m j : Forall (fun r => length r = k) m -> k <= j -> col_sum m j = 0%Qc.
Proof. intros H Hj. unfold col_sum. apply qzero. intros r Hr. rewrite Forall_forall in H. apply nth_overflow. rewrite H; auto. Qed.

(** ** te *)
Section Te.
Variable k : nat.
Definition te_inv (chunks : list (list arr)) (st : te) : Prop := exists tps, mapM (fun args => row_tensor_product (map to_2d args)) chunks = Ok tps /\
  Forall (fun tp => fst tp = k /\ Forall (fun r => length r = k) (snd tp)) tps /\
  te_cons_arg st = (match chunks with [] => None | _ => Some Centering end) /\ te_count st = length (concat (map snd tps)) /\
  match chunks with [] => te_sum st = None | _ => exists s, te_sum st = Some s /\ length s = k /\ forall l, l < k -> nth l s 0%Qc = col_sum (concat (map snd tps)) l end.
Lemma mapM_snoc {A B} (f : A -> result B) l a ys y : mapM f l = Ok ys -> f a = Ok y -> mapM f (l ++ [a]) = Ok (ys ++ [y]).
Proof.
  revert ys. induction l as [|b l IH]; intros ys H E; cbn in *.
  - injection H as <-. rewrite E. reflexivity.
  - destruct (f b); [|discriminate]. cbn [bind] in *. destruct (mapM f l) as [zs|]; [|discriminate]. cbn [bind] in *. injection H as <-.
    rewrite (IH zs) by auto. reflexivity.
Qed.
Lemma te_step chunks st args : te_piece k args -> te_inv chunks st -> exists st', te_chunk Centering st args = Ok st' /\ te_inv (chunks ++ [args]) st'.
Proof.
  intros (Na & (nrows & F) & P) (tps & I1 & I2 & I3 & I4 & I5).
  destruct (row_tensor_ok nrows (map to_2d args)) as (tp & Et & Hs & _); [now destruct args|now rewrite Forall_map|].
  rewrite map_map, P in Et. rewrite map_map, P in Hs. unfold te_chunk.
  assert (Ec : match te_cons_arg st with Some c => c | None => Centering end = Centering) by (rewrite I3; now destruct chunks). rewrite Ec, Et. cbn [bind fst snd].
  set (s := match te_sum st with Some s => s | None => repeat 0%Qc k end).
  assert (Ls : length s = k /\ forall l, l < k -> nth l s 0%Qc = col_sum (concat (map snd tps)) l).
  { unfold s. destruct chunks as [|c0 chunks].
    - rewrite I5. split; [apply repeat_length|]. intros l Hl. cbn in I1. injection I1 as <-. cbn. apply nth_zeros.
    - destruct I5 as (s' & -> & ? & ?). auto. }
  destruct Ls as [Ls Hn]. assert (Lc : length (col_sums k tp) = k) by (apply col_sums_length; [apply repeat_length|apply Hs]).
  rewrite broadcast_same by congruence. cbn [bind]. eexists. split; [reflexivity|]. exists (tps ++ [(k, tp)]). split; [now apply mapM_snoc|].
  split; [apply Forall_app; split; auto; constructor; auto; split; auto; apply Hs|]. cbn [te_cons_arg te_count te_sum].
  split; [now destruct chunks|]. rewrite map_app, concat_app. cbn [map concat snd]. rewrite app_nil_r. split; [rewrite app_length; lia|].
  assert (G : exists s0, Some (vadd s (col_sums k tp)) = Some s0 /\ length s0 = k /\ (forall l, l < k -> nth l s0 0%Qc = col_sum (concat (map snd tps) ++ tp) l)).
  { eexists. split; [reflexivity|]. split; [unfold vadd; rewrite map2_length; lia|]. intros l Hl. unfold vadd. rewrite (nth_map2 _ _ _ _ 0%Qc 0%Qc) by lia.
    rewrite Hn, col_sum_app by auto. f_equal. unfold col_sums. rewrite (col_sums_nth k) by (auto using repeat_length; apply Hs). rewrite nth_zeros. ring. }
  destruct chunks; exact G.
Qed.
Lemma te_fold chunks : Forall (te_piece k) chunks -> exists st, foldM (te_chunk Centering) chunks te_init = Ok st /\ te_inv chunks st.
Proof.
  intros F. pattern chunks. revert F. induction chunks as [|args chunks IH] using rev_ind; intros F.
  - exists te_init. split; [reflexivity|]. exists []. repeat split; auto.
  - apply Forall_app in F as [F1 F2]. inversion F2; subst. destruct (IH F1) as (st & E & I). destruct (te_step _ _ args H1 I) as (st' & E' & I').
    exists st'. split; auto. rewrite foldM_app, E. cbn [bind foldM]. rewrite E'. reflexivity.
Qed.
End Te.

Lemma absorb_center qr n D sums q r j : qr_sound qr -> Forall (fun r => length r = n) D -> length sums = n ->
  (forall l, l < n -> nth l sums 0%Qc = col_sum D l) -> D <> [] ->
  qr n (transpose n [map (fun s => s / qn (length D))%Qc sums]) = Ok (q, r) ->
  col_sum (matmul D (n - 1) (map (skipn 1) q)) j = 0%Qc.
Proof.
  intros Hq FD Ls Hs Nd E. set (row := map (fun s => s / qn (length D))%Qc sums) in *. assert (Lr : length row = n) by (unfold row; now rewrite map_length).
  destruct (Nat.lt_ge_cases j (n - 1)) as [Hj|Hj].
  - assert (Lq : length q = n) by (apply (Hq n 1 _ _ _) in E; [apply E|apply (transpose_shape n [row])]).
    rewrite (matmul_sum n) by (auto; now rewrite map_length).
    assert (Hd : qn (length D) <> 0%Qc) by (apply qn_nz; destruct D; [congruence|discriminate]).
    transitivity (qn (length D) * qsum (fun l => nth l row 0 * get q l (1 + j))%Qc (seq 0 n))%Qc.
    + rewrite <- qsum_scale. apply qsum_ext. intros l Hl. apply in_seq in Hl. rewrite get_skipn. unfold row. rewrite (nth_map_lt _ _ _ _ 0%Qc) by lia.
      rewrite Hs by lia. field. auto.
    + rewrite (row_zero qr n row q r j Hq Lr E Hj). ring.
  - apply (col_sum_out (n - 1)); auto. unfold matmul. rewrite Forall_map. apply Forall_forall. intros. now rewrite map_length, seq_length.
Qed.
Lemma matmul_concat Ds w b : matmul (concat Ds) w b = concat (map (fun D => matmul D w b) Ds).
Proof. unfold matmul. now rewrite concat_map. Qed.
Lemma col_sum_concat ms j : col_sum (concat ms) j = qsum (fun m => col_sum m j) ms.
Proof. induction ms as [|m ms IH]; [reflexivity|]. cbn [concat]. rewrite col_sum_app, IH. reflexivity. Qed.

Lemma crs_centered_ok qr cyclic a x st y k dm j : qr_sound qr -> crs_finish cyclic a x = Ok st -> crs_constr a = Centering -> as_vector y = Ok x ->
  crs_transform qr cyclic st y = Ok (k, dm) -> col_sum dm j = 0%Qc.
Proof.
  intros Hq Hf Hc Ey Et. destruct (crs_finish_spec _ _ _ _ Hf) as (ni & _ & _ & H). rewrite Hc in H. destruct (crs_cons st) as [cn|] eqn:Ecn; [|easy].
  unfold crs_transform in Et. rewrite Ey in Et. cbn [bind] in Et. destruct (free_crs_dmatrix x (crs_all_knots st) cyclic) as [D|] eqn:Ed; [|discriminate].
  cbn [bind] in *. rewrite Ecn in Et. cbn [absorb_opt] in Et. apply free_crs_shape in Ed as [D1 D2]. set (n := crs_dim cyclic (crs_all_knots st)) in *.
  unfold centering_row in H. destruct D as [|r0 D0] eqn:ED; [discriminate|]. rewrite <- ED in *. injection H as <-.
  unfold absorb_constraints in Et. cbn [fst snd length] in Et. destruct (qr _ _) as [[q r]|] eqn:Eq; [|discriminate]. cbn [bind fst] in Et. rewrite Nat.eqb_refl in Et.
  injection Et as _ <-. apply (absorb_center qr n D (col_sums n D) q r); auto.
  - apply col_sums_length; [apply repeat_length|exact D2].
  - intros l Hl. unfold col_sums. rewrite (col_sums_nth n) by (auto using repeat_length). rewrite nth_zeros. ring.
  - rewrite ED. discriminate.
Qed.
Lemma te_centered_ok qr k chunks cn outs j : qr_sound qr -> Forall (te_piece k) chunks -> te_memorize Centering chunks = Ok cn ->
  mapM (te_transform qr cn) chunks = Ok outs -> qsum (fun o => col_sum (snd o) j) outs = 0%Qc.
Proof.
  intros Hq F Em Eo. destruct (te_fold k chunks F) as (st & E & tps & I1 & I2 & I3 & I4 & I5). unfold te_memorize in Em. rewrite E in Em. cbn [bind] in Em.
  unfold te_finish in Em. rewrite I3 in Em. destruct chunks as [|c0 chunks0]; [discriminate|]. destruct I5 as (s & Es & Ls & Hs). rewrite Es in Em.
  set (chunks := c0 :: chunks0) in *. set (D := concat (map snd tps)) in *. destruct (Nat.eqb_spec (te_count st) 0) as [|Nz]; [discriminate|]. injection Em as <-. rewrite I4, Ls in *.
  assert (FD : Forall (fun r => length r = k) D).
  { unfold D. clear -I2. induction I2 as [|tp tps [_ H] _ IH]; cbn; auto. apply Forall_app. auto. }
  assert (Nd : D <> []) by (intros Z; rewrite Z in Nz; now apply Nz).
  destruct (qr k (transpose k [map (fun q => q / qn (length D))%Qc s])) as [[q r]|] eqn:Eq.
  - assert (Eouts : outs = map (fun tp => (k - 1, matmul (snd tp) (k - 1) (map (skipn 1) q))) tps).
    { revert I1 I2 Eo Eq. generalize (length D). clear. intros N. clearbody chunks. revert tps outs. induction chunks as [|c l IH]; intros tps outs I1 I2 Eo Eq.
      - cbn in *. injection I1 as <-. injection Eo as <-. reflexivity.
      - cbn [mapM] in *. destruct (row_tensor_product (map to_2d c)) as [tp|] eqn:Et; [|discriminate]. cbn [bind] in I1.
        destruct (mapM _ l) as [tps'|] eqn:Em; [|discriminate]. cbn [bind] in I1. injection I1 as <-. inversion I2 as [|? ? [J _] I2']; subst.
        unfold te_transform in Eo at 1. rewrite Et in Eo. cbn [bind absorb_opt] in Eo. unfold absorb_constraints in Eo at 1. cbn [fst snd length] in Eo. rewrite Eq in Eo. cbn [bind fst] in Eo.
        rewrite Nat.eqb_refl in Eo. cbn [bind] in Eo. destruct (mapM _ l) as [outs'|] eqn:Em' in Eo; [|discriminate]. cbn [bind] in Eo. injection Eo as <-. cbn [map]. f_equal.
        eapply IH; eauto. }
    rewrite Eouts, rsum_map. cbn [snd]. transitivity (col_sum (matmul D (k - 1) (map (skipn 1) q)) j); [|apply (absorb_center qr k D s q r); auto].
    unfold D. rewrite matmul_concat, col_sum_concat, map_map, rsum_map. reflexivity.
  - exfalso. unfold chunks in Eo, I1. cbn [mapM] in Eo, I1. destruct (row_tensor_product (map to_2d c0)) as [tp|] eqn:Et; [|discriminate]. unfold te_transform in Eo at 1. rewrite Et in Eo. cbn [bind absorb_opt] in Eo.
    unfold absorb_constraints in Eo at 1. cbn [fst snd] in Eo. rewrite Eq in Eo. discriminate.
Qed.
