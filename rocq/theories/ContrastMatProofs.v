From Coq Require Import Sorted Permutation.
From Verif Require Import Base NumModel ContrastModel RankSpec RankProofs ContrastSpec ContrastProofs.
Open Scope nat_scope.

(** * Array operations *)
Definition shape (n p : nat) (m : mat) : Prop := length m = n /\ Forall (fun row => length row = p) m.
Lemma shape_row n p m i : shape n p m -> i < n -> length (nth i m []) = p.
Proof. intros [Hl HF] Hi. rewrite Forall_forall in HF. apply HF. apply nth_In. lia. Qed.
Lemma nth_map_seq {A} (f : nat -> A) n i d : i < n -> nth i (map f (seq 0 n)) d = f i.
Proof.
  intros Hi. rewrite (nth_indep _ _ (f 0)) by (now rewrite map_length, seq_length). rewrite map_nth, seq_nth by exact Hi. reflexivity.
Qed.
Lemma get_eye n i j : i < n -> j < n -> get (eye n) i j = kron 0%Qc 1%Qc i j.
Proof. intros Hi Hj. unfold get, eye. rewrite nth_map_seq by exact Hi. now rewrite nth_map_seq. Qed.
Lemma shape_eye n : shape n n (eye n).
Proof.
  unfold shape, eye. rewrite map_length, seq_length. split; [reflexivity|]. apply Forall_forall. intros row H. apply in_map_iff in H.
  destruct H as [i [<- _]]. now rewrite map_length, seq_length.
Qed.
Lemma shape_zeros n p : shape n p (zeros n p).
Proof.
  unfold shape, zeros. rewrite repeat_length. split; [reflexivity|]. apply Forall_forall. intros row H. apply repeat_spec in H. subst. apply repeat_length.
Qed.
Lemma nth_repeat_any {A} (x : A) n i : nth i (repeat x n) x = x.
Proof. revert i. induction n; intros [|i]; cbn; auto. Qed.
Lemma get_zeros n p i j : get (zeros n p) i j = 0%Qc.
Proof.
  unfold get, zeros. destruct (Nat.lt_ge_cases i n).
  - rewrite (nth_indep _ _ (repeat 0%Qc p)) by (now rewrite repeat_length). rewrite nth_repeat_any. apply nth_repeat_any.
  - rewrite (nth_overflow (repeat _ n)) by (now rewrite repeat_length). destruct j; reflexivity.
Qed.
(** Inserting a row. *)
Lemma get_insert m E row r i j : length E = m -> r <= m ->
  get (firstn r E ++ [row] ++ skipn r E) i j = if i <? r then get E i j else if i =? r then nth j row 0%Qc else get E (i - 1) j.
Proof.
  intros Hl Hr. unfold get. assert (Hf : length (firstn r E) = r) by (rewrite firstn_length; lia).
  destruct (Nat.ltb_spec i r).
  - rewrite app_nth1 by lia. f_equal. rewrite <- (firstn_skipn r E) at 2. rewrite app_nth1 by lia. reflexivity.
  - rewrite app_nth2 by lia. rewrite Hf. destruct (Nat.eqb_spec i r) as [->|].
    + rewrite Nat.sub_diag. reflexivity.
    + destruct (i - r) as [|d] eqn:Ed; [lia|]. cbn. f_equal. rewrite <- (firstn_skipn r E) at 2. rewrite app_nth2 by lia. f_equal. lia.
Qed.
Lemma shape_insert m E row r : shape m m E -> length row = m -> r <= m -> shape (S m) m (firstn r E ++ [row] ++ skipn r E).
Proof.
  intros [Hl HF] Hrow Hr. split.
  - rewrite !app_length, firstn_length, skipn_length. cbn. lia.
  - apply Forall_app. rewrite <- (firstn_skipn r E) in HF. apply Forall_app in HF. destruct HF. split; [assumption|]. constructor; assumption.
Qed.

Lemma set_nth_length {A} (l : list A) i x : length (set_nth l i x) = length l.
Proof. revert i. induction l; intros [|i]; cbn; auto. Qed.
Lemma nth_set_nth {A} (l : list A) i x j d : i < length l -> nth j (set_nth l i x) d = if j =? i then x else nth j l d.
Proof.
  revert i j. induction l as [|y l IH]; intros [|i] [|j] H; cbn in *; try lia; try reflexivity.
  apply IH. lia.
Qed.
Lemma set_entry_spec n p m i j v : shape n p m -> i < n -> j < p -> exists m', set_entry m i j v = Ok m' /\ shape n p m' /\
  forall a b, get m' a b = if (a =? i) && (b =? j) then v else get m a b.
Proof.
  intros Hs Hi Hj. pose proof (shape_row n p m i Hs Hi) as Hr. destruct Hs as [Hl HF].
  exists (set_nth m i (set_nth (nth i m []) j v)). unfold set_entry. split; [|split; [split|]].
  - destruct (Nat.ltb_spec i (length m)); [|lia]. destruct (Nat.ltb_spec j (length (nth i m []))); [|lia]. reflexivity.
  - now rewrite set_nth_length.
  - clear Hj. revert i Hi Hr HF Hl. revert n. induction m as [|row m IH]; intros n [|i] Hi Hr HF Hl; cbn in *; try constructor; inversion HF; subst.
    + now rewrite set_nth_length.
    + assumption.
    + assumption.
    + apply (IH (length m)); auto. lia.
  - intros a b. unfold get. rewrite nth_set_nth by lia. destruct (Nat.eqb_spec a i) as [->|]; cbn [andb]; [|reflexivity].
    rewrite nth_set_nth by lia. reflexivity.
Qed.
Lemma assign_spec n p idx : forall vals m (f : nat -> nat -> Qc), shape n p m -> length idx = length vals ->
  (forall i j, In (i, j) idx -> i < n /\ j < p) -> (forall i j v, In ((i, j), v) (List.combine idx vals) -> v = f i j) ->
  exists m', assign m idx vals = Ok m' /\ shape n p m' /\
    (forall i j, In (i, j) idx -> get m' i j = f i j) /\ (forall i j, ~ In (i, j) idx -> get m' i j = get m i j).
Proof.
  intros vals m f Hs Hl Hr Hv. unfold assign. rewrite Hl, Nat.eqb_refl.
  revert vals m Hs Hl Hr Hv. induction idx as [|[a b] idx IH]; intros [|v vals] m Hs Hl Hr Hv; try discriminate.
  - exists m. cbn. split; [reflexivity|]. split; [exact Hs|]. split; [intros i j []|reflexivity].
  - cbn [List.combine foldM fst snd]. destruct (Hr a b) as [Ha Hb]; [now left|].
    destruct (set_entry_spec n p m a b v Hs Ha Hb) as [m1 [E1 [S1 G1]]]. rewrite E1. cbn [bind].
    destruct (IH vals m1 S1) as [m' [E' [S' [G' G'']]]].
    + now injection Hl.
    + intros i j H. apply Hr. now right.
    + intros i j w H. apply Hv. now right.
    + exists m'. split; [exact E'|]. split; [exact S'|].
      assert (Dec : forall i j, {In (i, j) idx} + {~ In (i, j) idx}).
      { intros i j. apply in_dec. intros [x y] [x' y']. destruct (Nat.eq_dec x x'), (Nat.eq_dec y y'); [left; congruence|right; congruence..]. }
      split.
      * intros i j H. destruct (Dec i j) as [D|D]; [now apply G'|]. destruct H as [[= -> ->]|H]; [|contradiction].
        rewrite G'' by exact D. rewrite G1, !Nat.eqb_refl. cbn. apply Hv. now left.
      * intros i j H. rewrite G''; [|intros D; apply H; now right]. rewrite G1.
        destruct (Nat.eqb_spec i a) as [->|]; [|reflexivity]. destruct (Nat.eqb_spec j b) as [->|]; [|reflexivity]. exfalso. apply H. now left.
Qed.

Lemma in_triu n i j : In (i, j) (triu_indices n) <-> i <= j /\ j < n.
Proof.
  unfold triu_indices. rewrite in_flat_map. split.
  - intros [x [Hx H]]. apply in_map_iff in H. destruct H as [y [[= <- <-] Hy]]. apply in_seq in Hy. apply in_seq in Hx. lia.
  - intros H. exists i. split; [apply in_seq; lia|]. apply in_map. apply in_seq. lia.
Qed.
Lemma in_tril n i j : In (i, j) (tril_indices n) <-> j <= i /\ i < n.
Proof.
  unfold tril_indices. rewrite in_flat_map. split.
  - intros [x [Hx H]]. apply in_map_iff in H. destruct H as [y [[= <- <-] Hy]]. apply in_seq in Hy. apply in_seq in Hx. lia.
  - intros H. exists i. split; [apply in_seq; lia|]. apply in_map. apply in_seq. lia.
Qed.

Lemma matrix_shape n p e m : matrix_is n p e m <-> shape n p m /\ forall i j, i < n -> j < p -> get m i j = e i j.
Proof. unfold matrix_is, shape. tauto. Qed.
Lemma with_ones_is n p e m : matrix_is n p e m -> matrix_is n (S p) (ones_first e) (with_ones m).
Proof.
  intros [Hl [HF H]]. unfold with_ones. split; [now rewrite map_length|]. split.
  - apply Forall_forall. intros row Hr. apply in_map_iff in Hr. destruct Hr as [r [<- Hr]]. rewrite Forall_forall in HF. cbn. f_equal. auto.
  - intros i j Hi Hj. unfold get. rewrite (nth_indep _ _ (1%Qc :: [])) by (rewrite map_length; lia). rewrite (map_nth (cons 1%Qc)).
    destruct j; cbn; [reflexivity|]. apply H; lia.
Qed.

(** * Level lookup *)
Section Levels.
Context {L : Type} (leqb : L -> L -> bool) (as_int : L -> option Z) (readable : L -> string).

Lemma index_of_spec x levels :
  match index_of leqb x levels with
  | Some i => exists y, nth_error levels i = Some y /\ leqb y x = true /\ forall j z, j < i -> nth_error levels j = Some z -> leqb z x = false
  | None => Forall (fun y => leqb y x = false) levels
  end.
Proof.
  induction levels as [|y r IH]; cbn; [constructor|]. destruct (leqb y x) eqn:E.
  - exists y. split; [reflexivity|]. split; [exact E|]. intros j z Hj. lia.
  - destruct (index_of leqb x r) as [i|]; cbn.
    + destruct IH as [z [H1 [H2 H3]]]. exists z. split; [exact H1|]. split; [exact H2|].
      intros [|j] w Hj Hw; cbn in Hw; [congruence|]. apply (H3 j); [lia|exact Hw].
    + constructor; assumption.
Qed.
Lemma get_level_lemma levels ref :
  match get_level leqb as_int levels ref with
  | Ok i => level_at leqb as_int levels ref i /\ i < length levels
  | Err e => is_patsy_error e = true /\ forall i, ~ level_at leqb as_int levels ref i
  end.
Proof.
  unfold get_level. pose proof (index_of_spec ref levels) as H. destruct (index_of leqb ref levels) as [i|].
  - split; [now left|]. destruct H as [y [H _]]. apply nth_error_Some. congruence.
  - assert (NL : forall i, ~ exists y, nth_error levels i = Some y /\ leqb y ref = true /\ forall j z, j < i -> nth_error levels j = Some z -> leqb z ref = false).
    { intros i [y [H1 [H2 _]]]. rewrite Forall_forall in H. rewrite (H y) in H2; [discriminate|]. eapply nth_error_In; eauto. }
    destruct (as_int ref) as [z|] eqn:Ez.
    + cbn zeta. destruct (Z.ltb_spec z 0).
      * destruct (Z.leb_spec 0 (z + Z.of_nat (length levels))), (Z.ltb_spec (z + Z.of_nat (length levels)) (Z.of_nat (length levels))); cbn [andb].
        -- split; [right|lia]. split; [exact H|]. exists z. split; [exact Ez|]. lia.
        -- lia.
        -- split; [reflexivity|]. intros i [K|[_ [z' [E K]]]]; [now apply (NL i)|]. rewrite Ez in E. injection E as <-. lia.
        -- lia.
      * destruct (Z.leb_spec 0 z), (Z.ltb_spec z (Z.of_nat (length levels))); cbn [andb]; try lia.
        -- split; [right|lia]. split; [exact H|]. exists z. split; [exact Ez|]. lia.
        -- split; [reflexivity|]. intros i [K|[_ [z' [E K]]]]; [now apply (NL i)|]. rewrite Ez in E. injection E as <-. lia.
    + split; [reflexivity|]. intros i [K|[_ [z' [E K]]]]; [now apply (NL i)|]. congruence.
Qed.
Lemma level_at_unique levels ref i j : level_at leqb as_int levels ref i -> level_at leqb as_int levels ref j -> i = j.
Proof.
  intros [H|[H1 [z [E H]]]] [K|[K1 [z' [E' K]]]].
  - destruct H as [y [A1 [A2 A3]]], K as [y' [B1 [B2 B3]]]. destruct (Nat.lt_trichotomy i j) as [C|[C|C]]; [|exact C|].
    + rewrite (B3 i y C A1) in A2. discriminate.
    + rewrite (A3 j y' C B1) in B2. discriminate.
  - exfalso. destruct H as [y [A1 [A2 _]]]. rewrite Forall_forall in K1. rewrite (K1 y) in A2; [discriminate|]. eapply nth_error_In; eauto.
  - exfalso. destruct K as [y [A1 [A2 _]]]. rewrite Forall_forall in H1. rewrite (H1 y) in A2; [discriminate|]. eapply nth_error_In; eauto.
  - rewrite E in E'. injection E' as <-. lia.
Qed.

(** Names: the [k]-th suffix names the [k]-th level other than [r]. *)
Lemma nth_others (levels : list L) r k : r < length levels -> nth_error (firstn r levels ++ skipn (r + 1) levels) k = nth_error levels (other r k).
Proof.
  intros Hr. assert (Hf : length (firstn r levels) = r) by (rewrite firstn_length; lia). unfold other.
  destruct (Nat.ltb_spec k r).
  - rewrite nth_error_app1 by lia. rewrite <- (firstn_skipn r levels) at 2. rewrite nth_error_app1 by lia. reflexivity.
  - rewrite nth_error_app2 by lia. rewrite Hf. rewrite <- (firstn_skipn (r + 1) levels) at 2.
    assert (Hf2 : length (firstn (r + 1) levels) = r + 1) by (rewrite firstn_length; lia).
    rewrite nth_error_app2 by lia. rewrite Hf2. f_equal. lia.
Qed.
Lemma names_lemma prefix (levels sel : list L) pos p : length sel = p -> (forall k, k < p -> nth_error sel k = nth_error levels (pos k)) ->
  suffixes_are readable prefix levels pos p (name_levels readable prefix sel).
Proof.
  intros Hl H. unfold suffixes_are, name_levels, name_strs. rewrite !map_length. split; [exact Hl|]. intros k Hk. rewrite !nth_error_map.
  destruct (nth_error sel k) as [x|] eqn:E; [|apply nth_error_None in E; lia]. exists x. rewrite <- H by exact Hk. rewrite E. auto.
Qed.

Lemma others_length (levels : list L) r : r < length levels -> length (firstn r levels ++ skipn (r + 1) levels) = length levels - 1.
Proof. intros Hr. rewrite app_length, firstn_length, skipn_length. lia. Qed.

Lemma treatment_matrix m r : r <= m -> matrix_is (S m) m (treatment_entry r) (firstn r (eye m) ++ zeros 1 m ++ skipn r (eye m)).
Proof.
  intros Hr. change (zeros 1 m) with [repeat 0%Qc m]. apply matrix_shape. split; [apply shape_insert; [apply shape_eye|apply repeat_length|exact Hr]|].
  intros i j Hi Hj. rewrite (get_insert m (eye m) _ r i j) by (apply shape_eye || exact Hr). unfold treatment_entry, other.
  destruct (Nat.ltb_spec i r).
  - rewrite get_eye by lia. unfold kron. destruct (Nat.ltb_spec j r); [reflexivity|]. destruct (Nat.eqb_spec i j), (Nat.eqb_spec i (S j)); try lia; reflexivity.
  - destruct (Nat.eqb_spec i r) as [->|].
    + rewrite nth_repeat_any. destruct (Nat.ltb_spec j r); [destruct (Nat.eqb_spec r j)|destruct (Nat.eqb_spec r (S j))]; try lia; reflexivity.
    + rewrite get_eye by lia. unfold kron. destruct (Nat.ltb_spec j r); destruct (Nat.eqb_spec (i - 1) j); [destruct (Nat.eqb_spec i j)..|destruct (Nat.eqb_spec i (S j))|destruct (Nat.eqb_spec i (S j))]; try lia; reflexivity.
Qed.
Lemma sum_matrix m r : r <= m -> matrix_is (S m) m (sum_entry r) (firstn r (eye m) ++ [repeat (Qcopp 1%Qc) m] ++ skipn r (eye m)).
Proof.
  intros Hr. pose proof (treatment_matrix m r Hr) as T. apply matrix_shape. split; [apply shape_insert; [apply shape_eye|apply repeat_length|exact Hr]|].
  intros i j Hi Hj. destruct T as [_ [_ T]]. specialize (T i j Hi Hj). change (zeros 1 m) with [repeat 0%Qc m] in T.
  rewrite (get_insert m (eye m) _ r i j) in T by (apply shape_eye || exact Hr).
  rewrite (get_insert m (eye m) _ r i j) by (apply shape_eye || exact Hr). unfold sum_entry. unfold treatment_entry in T.
  destruct (Nat.eqb_spec i r) as [->|].
  - destruct (Nat.ltb_spec r r); [lia|]. rewrite (nth_indep _ 0%Qc (Qcopp 1)) by (now rewrite repeat_length). apply nth_repeat_any.
  - exact T.
Qed.

Lemma dummy_lemma levels : exists c, dummy_code readable levels = Ok c /\
  matrix_is (length levels) (length levels) (kron 0%Qc 1%Qc) (cm_matrix c) /\
  suffixes_are readable "" levels (fun k => k) (length levels) (cm_suffixes c).
Proof.
  unfold dummy_code, mk_contrast. unfold name_levels, name_strs at 1. rewrite !map_length, Nat.eqb_refl.
  exists (mkContrast (eye (length levels)) (name_levels readable "" levels)). split; [reflexivity|]. split.
  - apply matrix_shape. split; [apply shape_eye|]. apply get_eye.
  - now apply names_lemma.
Qed.

Lemma ok_ref ref dflt levels r (g : result nat) : 0 < length levels -> dflt < length levels ->
  g = (match ref with None => Ok dflt | Some x => get_level leqb as_int levels x end) ->
  ref_pos leqb as_int ref dflt levels r -> g = Ok r /\ r < length levels.
Proof.
  intros H0 Hd -> Hr. destruct ref as [x|]; cbn in Hr; [|subst; auto].
  pose proof (get_level_lemma levels x) as H. destruct (get_level leqb as_int levels x) as [i|e].
  - destruct H as [H1 H2]. pose proof (level_at_unique levels x i r H1 Hr). subst. auto.
  - exfalso. now apply (proj2 H r).
Qed.

Lemma treatment_lemma ref levels r : levels <> [] -> ref_pos leqb as_int ref 0 levels r ->
  exists c, treatment_reduced leqb as_int readable ref levels = Ok c /\
    matrix_is (length levels) (length levels - 1) (treatment_entry r) (cm_matrix c) /\
    suffixes_are readable "T." levels (other r) (length levels - 1) (cm_suffixes c) /\ r < length levels.
Proof.
  intros Hne Hr. assert (H0 : 0 < length levels) by (destruct levels; [congruence|cbn; lia]).
  unfold treatment_reduced. destruct (ok_ref ref 0 levels r _ H0 H0 eq_refl Hr) as [E Hlt]. rewrite E. cbn [bind].
  destruct (length levels) as [|m] eqn:El; [lia|]. cbn [pred_dim bind]. replace (S m - 1) with m by lia. unfold mk_contrast.
  pose proof (others_length levels r ltac:(lia)) as Ho. rewrite El in Ho. replace (S m - 1) with m in Ho by lia.
  assert (Hn : suffixes_are readable "T." levels (other r) m (name_levels readable "T." (firstn r levels ++ skipn (r + 1) levels))).
  { apply names_lemma; [exact Ho|]. intros k Hk. apply nth_others. lia. }
  destruct Hn as [Hn1 Hn2]. rewrite Hn1, Nat.eqb_refl. eexists. split; [reflexivity|]. cbn [cm_matrix cm_suffixes]. split; [|split; [split; assumption|lia]].
  apply treatment_matrix. lia.
Qed.

Lemma sum_contrast_lemma ref levels r : levels <> [] -> ref_pos leqb as_int ref (length levels - 1) levels r ->
  exists mx, sum_contrast leqb as_int ref levels = Ok mx /\ omit_i leqb as_int ref levels = Ok r /\ r < length levels /\
    matrix_is (length levels) (length levels - 1) (sum_entry r) mx.
Proof.
  intros Hne Hr. assert (H0 : 0 < length levels) by (destruct levels; [congruence|cbn; lia]).
  assert (E0 : omit_i leqb as_int ref levels = match ref with None => Ok (length levels - 1) | Some x => get_level leqb as_int levels x end).
  { unfold omit_i. destruct ref; [reflexivity|]. destruct (length levels); [lia|]. cbn. now rewrite Nat.sub_0_r. }
  destruct (ok_ref ref (length levels - 1) levels r _ H0 ltac:(lia) E0 Hr) as [E Hlt].
  unfold sum_contrast. rewrite E. cbn [bind]. destruct (length levels) as [|m] eqn:El; [lia|]. cbn [pred_dim bind]. replace (S m - 1) with m by lia.
  eexists. split; [reflexivity|]. split; [reflexivity|]. split; [lia|]. apply sum_matrix. lia.
Qed.
Lemma sum_lemma ref levels r : levels <> [] -> ref_pos leqb as_int ref (length levels - 1) levels r ->
  exists c, sum_reduced leqb as_int readable ref levels = Ok c /\
    matrix_is (length levels) (length levels - 1) (sum_entry r) (cm_matrix c) /\
    suffixes_are readable "S." levels (other r) (length levels - 1) (cm_suffixes c) /\ r < length levels.
Proof.
  intros Hne Hr. destruct (sum_contrast_lemma ref levels r Hne Hr) as [mx [E1 [E2 [Hlt Hm]]]].
  unfold sum_reduced. rewrite E1. cbn [bind]. rewrite E2. cbn [bind]. unfold mk_contrast.
  assert (Hn : suffixes_are readable "S." levels (other r) (length levels - 1) (name_levels readable "S." (firstn r levels ++ skipn (r + 1) levels))).
  { apply names_lemma; [now apply others_length|]. intros k Hk. now apply nth_others. }
  destruct Hn as [Hn1 Hn2]. rewrite Hn1, Nat.eqb_refl. eexists. split; [reflexivity|]. cbn. split; [exact Hm|]. split; [split; assumption|exact Hlt].
Qed.
Lemma sum_full_lemma ref levels r : levels <> [] -> ref_pos leqb as_int ref (length levels - 1) levels r ->
  exists c, sum_full leqb as_int readable ref levels = Ok c /\
    matrix_is (length levels) (length levels) (ones_first (sum_entry r)) (cm_matrix c).
Proof.
  intros Hne Hr. destruct (sum_lemma ref levels r Hne Hr) as [c [E [Hm [[Hs _] Hlt]]]]. unfold sum_full. rewrite E. cbn [bind]. unfold mk_contrast.
  cbn [length]. rewrite Hs, Nat.eqb_refl. eexists. split; [reflexivity|]. cbn [cm_matrix].
  replace (length levels) with (S (length levels - 1)) at 2 by lia. now apply with_ones_is.
Qed.

(** Helmert *)
Lemma helmert_contrast_lemma (levels : list L) : levels <> [] -> exists mx, helmert_contrast levels = Ok mx /\
  matrix_is (length levels) (length levels - 1) helmert_entry mx.
Proof.
  intros Hne. unfold helmert_contrast. destruct (length levels) as [|m] eqn:El; [destruct levels; [congruence|discriminate]|].
  cbn [pred_dim bind]. replace (S m - 1) with m by lia.
  set (idx := map (fun p => (S (fst p), snd p)) (diag_indices m)).
  assert (Hidx : idx = map (fun i => (S i, i)) (seq 0 m)) by (unfold idx, diag_indices; rewrite map_map; reflexivity).
  assert (Hin : forall i j, In (i, j) idx <-> i = S j /\ j < m).
  { intros i j. rewrite Hidx, in_map_iff. split.
    - intros [x [[= <- <-] Hx]]. apply in_seq in Hx. lia.
    - intros [-> Hj]. exists j. split; [reflexivity|]. apply in_seq. lia. }
  destruct (assign_spec (S m) m idx (map qn (arange 1 (S m))) (zeros (S m) m) (fun _ j => qn (S j)) (shape_zeros (S m) m)) as [m1 [E1 [S1 [G1 N1]]]].
  - rewrite Hidx, !map_length. unfold arange. rewrite !seq_length. lia.
  - intros i j H. apply Hin in H. lia.
  - intros i j v H. rewrite Hidx in H. unfold arange in H. replace (S m - 1) with m in H by lia.
    rewrite <- seq_shift, map_map in H. clear - H. revert H. generalize (seq 0 m) as l. induction l as [|x l IH]; cbn; [intros []|].
    intros [[= <- <- <-]|H]; auto.
  - rewrite E1. cbn [bind]. unfold assign_scalar.
    destruct (assign_spec (S m) m (triu_indices m) (repeat (Qcopp 1%Qc) (length (triu_indices m))) m1 (fun _ _ => Qcopp 1%Qc) S1) as [m2 [E2 [S2 [G2 N2]]]].
    + now rewrite repeat_length.
    + intros i j H. apply in_triu in H. lia.
    + intros i j v H. apply in_combine_r in H. now apply repeat_spec in H.
    + exists m2. split; [exact E2|]. apply matrix_shape. split; [exact S2|]. intros i j Hi Hj. unfold helmert_entry.
      destruct (Nat.leb_spec i j).
      * apply G2. apply in_triu. lia.
      * rewrite N2 by (rewrite in_triu; lia). destruct (Nat.eqb_spec i (S j)) as [->|].
        -- apply G1. apply Hin. lia.
        -- rewrite N1 by (rewrite Hin; lia). apply get_zeros.
Qed.
Lemma helmert_lemma levels : levels <> [] -> exists c, helmert_reduced readable levels = Ok c /\
  matrix_is (length levels) (length levels - 1) helmert_entry (cm_matrix c) /\
  suffixes_are readable "H." levels S (length levels - 1) (cm_suffixes c).
Proof.
  intros Hne. destruct (helmert_contrast_lemma levels Hne) as [mx [E Hm]]. unfold helmert_reduced. rewrite E. cbn [bind]. unfold mk_contrast.
  assert (Hn : suffixes_are readable "H." levels S (length levels - 1) (name_levels readable "H." (skipn 1 levels))).
  { apply names_lemma; [apply skipn_length|]. intros k Hk. destruct levels; reflexivity || (cbn; now destruct k). }
  destruct Hn as [Hn1 Hn2]. rewrite Hn1, Nat.eqb_refl. eexists. split; [reflexivity|]. cbn. split; [exact Hm|split; assumption].
Qed.
Lemma helmert_full_lemma levels : levels <> [] -> exists c, helmert_full readable levels = Ok c /\
  matrix_is (length levels) (length levels) (ones_first helmert_entry) (cm_matrix c).
Proof.
  intros Hne. destruct (helmert_contrast_lemma levels Hne) as [mx [E Hm]]. unfold helmert_full. rewrite E. cbn [bind]. unfold mk_contrast, name_strs.
  rewrite map_length. cbn [length]. rewrite map_length, skipn_length, Nat.eqb_refl. eexists. split; [reflexivity|]. cbn [cm_matrix].
  assert (0 < length levels) by (destruct levels; [congruence|cbn; lia]).
  replace (length levels) with (S (length levels - 1)) at 2 by lia. now apply with_ones_is.
Qed.

(** Diff *)
Lemma sorted_perm_eq (a : list nat) : forall b, StronglySorted Nat.le a -> StronglySorted Nat.le b -> Permutation a b -> a = b.
Proof.
  induction a as [|x a IH]; intros b Ha Hb P; [apply Permutation_nil in P; now subst|].
  destruct b as [|y b]; [apply Permutation_sym, Permutation_nil in P; discriminate|].
  inversion Ha; subst. inversion Hb; subst. rewrite Forall_forall in *.
  assert (x = y).
  { assert (In y (x :: a)) by (eapply Permutation_in; [symmetry; exact P|now left]).
    assert (In x (y :: b)) by (eapply Permutation_in; [exact P|now left]).
    destruct H as [->|H]; [reflexivity|]. destruct H0 as [->|H0]; [reflexivity|]. apply H2 in H. apply H4 in H0. unfold Nat.le in *. lia. }
  subst y. f_equal. apply IH; auto. eapply Permutation_cons_inv; eauto.
Qed.
Lemma map_nth_seq (l : list nat) : map (fun p => nth p l 0) (seq 0 (length l)) = l.
Proof.
  induction l as [|x l IH]; cbn; [reflexivity|]. f_equal. rewrite <- seq_shift, map_map. exact IH.
Qed.
Lemma triu_cols m : Permutation (map snd (triu_indices m)) (flat_map (fun j => repeat j (S j)) (seq 0 m)).
Proof.
  assert (E : forall m, map snd (triu_indices m) = flat_map (fun i => seq i (m - i)) (seq 0 m)).
  { intros k. unfold triu_indices. generalize (seq 0 k) as l. induction l as [|x l IH]; cbn; [reflexivity|]. rewrite map_app, IH, map_map. f_equal. apply map_id. }
  rewrite E. clear E. induction m as [|m IH]; [constructor|]. rewrite !seq_S, !flat_map_app. cbn [plus flat_map]. rewrite !app_nil_r.
  replace (S m - m) with 1 by lia. cbn [seq].
  transitivity ((flat_map (fun i => seq i (m - i)) (seq 0 m) ++ repeat m m) ++ [m]).
  - apply Permutation_app_tail. clear IH.
    assert (G : forall l, (forall x, In x l -> x < m) -> Permutation (flat_map (fun i => seq i (S m - i)) l) (flat_map (fun i => seq i (m - i)) l ++ repeat m (length l))).
    { induction l as [|x l IHl]; intros Hl; [constructor|]. cbn [flat_map length repeat].
      assert (x < m) by (apply Hl; now left). replace (S m - x) with (S (m - x)) by lia. rewrite seq_S. replace (x + (m - x)) with m by lia.
      rewrite IHl by (intros; apply Hl; now right). rewrite <- !app_assoc. apply Permutation_app_head.
      transitivity (m :: (flat_map (fun i => seq i (m - i)) l ++ repeat m (length l))); [reflexivity|]. apply Permutation_middle. }
    rewrite G by (intros x Hx; apply in_seq in Hx; lia). now rewrite seq_length.
  - rewrite <- app_assoc. apply Permutation_app; [exact IH|]. cbn. symmetry. apply Permutation_cons_append.
Qed.
Lemma tril_cols m : Permutation (map snd (tril_indices m)) (flat_map (fun j => repeat j (m - j)) (seq 0 m)).
Proof.
  assert (E : forall m, map snd (tril_indices m) = flat_map (fun i => seq 0 (S i)) (seq 0 m)).
  { intros k. unfold tril_indices. generalize (seq 0 k) as l. induction l as [|x l IH]; [reflexivity|]. cbn [flat_map]. rewrite map_app, IH, map_map. f_equal. apply map_id. }
  rewrite E. clear E. induction m as [|m IH]; [constructor|]. rewrite seq_S at 1. rewrite flat_map_app. cbn [plus flat_map]. rewrite app_nil_r, IH.
  assert (G : forall l, (forall x, In x l -> x <= m) -> Permutation (flat_map (fun j => repeat j (m - j)) l ++ l) (flat_map (fun j => repeat j (S m - j)) l)).
  { induction l as [|x l IHl]; intros Hl; [constructor|]. cbn [flat_map].
    assert (x <= m) by (apply Hl; now left). replace (S m - x) with (S (m - x)) by lia. cbn [repeat app]. rewrite <- app_assoc.
    rewrite <- IHl by (intros; apply Hl; now right). symmetry. rewrite app_assoc. rewrite Permutation_middle. rewrite <- app_assoc. reflexivity. }
  rewrite <- G by (intros x Hx; apply in_seq in Hx; lia). rewrite !seq_S. cbn [plus]. rewrite flat_map_app. cbn [flat_map].
  rewrite Nat.sub_diag. cbn [repeat]. rewrite !app_nil_r. reflexivity.
Qed.
Lemma flat_repeat_sorted (w : nat -> nat) n : forall a, StronglySorted Nat.le (flat_map (fun j => repeat j (w j)) (seq a n)).
Proof.
  induction n as [|n IH]; intros a; cbn; [constructor|]. specialize (IH (S a)).
  assert (Hb : Forall (Nat.le a) (flat_map (fun j => repeat j (w j)) (seq (S a) n))).
  { apply Forall_forall. intros x Hx. apply in_flat_map in Hx. destruct Hx as [y [Hy Hx]]. apply repeat_spec in Hx. apply in_seq in Hy. subst. unfold Nat.le. lia. }
  induction (w a) as [|k IHk]; cbn; [exact IH|]. constructor; [exact IHk|]. apply Forall_app. split; [|exact Hb].
  apply Forall_forall. intros x Hx. apply repeat_spec in Hx. subst. unfold Nat.le. lia.
Qed.
Lemma np_repeat_map l : forall (w : nat -> nat), np_repeat l (map w l) = flat_map (fun j => repeat j (w j)) l.
Proof. intros w. unfold np_repeat. induction l as [|x l IH]; cbn; [reflexivity|]. f_equal. exact IH. Qed.
Lemma flat_repeat_shift (w : nat -> nat) n : flat_map (fun j => repeat j (w j)) (seq 1 n) = map S (flat_map (fun j => repeat j (w (S j))) (seq 0 n)).
Proof.
  rewrite <- seq_shift. generalize (seq 0 n) as l. induction l as [|x l IH]; cbn; [reflexivity|]. rewrite map_app, IH. f_equal.
  generalize (w (S x)) as k. induction k; cbn; [reflexivity|]. now f_equal.
Qed.
Lemma rev_seq n : forall a, rev (seq a n) = map (fun k => a + (n - 1) - (k - a)) (seq a n).
Proof.
  intros a. apply (nth_ext _ _ 0 ((fun k => a + (n - 1) - (k - a)) 0)); [now rewrite rev_length, map_length|].
  intros i Hi. rewrite rev_length, seq_length in Hi. rewrite rev_nth by (rewrite seq_length; lia). rewrite seq_length.
  rewrite seq_nth by lia. rewrite (map_nth (fun k => a + (n - 1) - (k - a))), seq_nth by lia. lia.
Qed.

Variable argsort : list nat -> list nat.
Hypothesis Hsort : sorts argsort.

Lemma order_combine (idx : list (nat * nat)) :
  let ord := argsort (map snd idx) in
  let rows := map (fun p => nth p (map fst idx) 0) ord in
  let cols := map (fun p => nth p (map snd idx) 0) ord in
  forall i j, In (i, j) (List.combine rows cols) <-> In (i, j) idx.
Proof.
  intros ord rows cols i j. destruct (Hsort (map snd idx)) as [P _]. fold ord in P. rewrite map_length in P.
  assert (E : List.combine rows cols = map (fun p => nth p idx (0, 0)) ord).
  { unfold rows, cols. generalize ord as l. induction l as [|p l IH]; cbn; [reflexivity|]. rewrite IH. f_equal.
    rewrite (map_nth fst idx (0, 0) p : nth p (map fst idx) 0 = _), (map_nth snd idx (0, 0) p : nth p (map snd idx) 0 = _).
    now destruct (nth p idx (0, 0)). }
  rewrite E, in_map_iff. split.
  - intros [p [Hp Hi]]. rewrite <- Hp. apply nth_In. eapply Permutation_in in Hi; [|exact P]. apply in_seq in Hi. lia.
  - intros H. apply (In_nth _ _ (0, 0)) in H. destruct H as [p [Hp H]]. exists p. split; [exact H|]. eapply Permutation_in; [symmetry; exact P|].
    apply in_seq. lia.
Qed.
Lemma order_cols (idx : list (nat * nat)) w n : Permutation (map snd idx) (flat_map (fun j => repeat j (w j)) (seq 0 n)) ->
  map (fun p => nth p (map snd idx) 0) (argsort (map snd idx)) = flat_map (fun j => repeat j (w j)) (seq 0 n).
Proof.
  intros P. destruct (Hsort (map snd idx)) as [P1 S1]. apply sorted_perm_eq; [exact S1|apply flat_repeat_sorted|].
  rewrite <- P. rewrite P1. now rewrite map_nth_seq.
Qed.
Lemma in_combine_vals (rows cols : list nat) (h : nat -> Qc) i j v :
  In ((i, j), v) (List.combine (List.combine rows cols) (map h cols)) -> v = h j.
Proof.
  revert cols. induction rows as [|x rows IH]; intros [|y cols]; cbn; try tauto. intros [[= <- <- <-]|H]; [reflexivity|eauto].
Qed.

Lemma diff_contrast_lemma (levels : list L) : levels <> [] -> exists mx, diff_contrast argsort levels = Ok mx /\
  matrix_is (length levels) (length levels - 1) (diff_entry (length levels)) mx.
Proof.
  intros Hne. unfold diff_contrast. destruct (length levels) as [|m] eqn:El; [destruct levels; [congruence|discriminate]|].
  cbn [pred_dim bind]. replace (S m - 1) with m by lia. set (n := S m).
  assert (Ear : arange 1 n = seq 1 m) by (unfold arange, n; f_equal; lia).
  set (colsu := map (fun p => nth p (map snd (triu_indices m)) 0) (argsort (map snd (triu_indices m)))).
  set (rowsu := map (fun p => nth p (map fst (triu_indices m)) 0) (argsort (map snd (triu_indices m)))).
  set (colsl := map (fun p => nth p (map snd (tril_indices m)) 0) (argsort (map snd (tril_indices m)))).
  set (rowsl := map (fun p => nth p (map fst (tril_indices m)) 0) (argsort (map snd (tril_indices m)))).
  assert (Eu : np_repeat (arange 1 n) (arange 1 n) = map S colsu).
  { unfold colsu. rewrite (order_cols _ (fun j => S j) m (triu_cols m)), Ear.
    rewrite <- (map_id (seq 1 m)) at 2. rewrite (np_repeat_map (seq 1 m) (fun x => x)). apply (flat_repeat_shift (fun x => x)). }
  assert (Elo : np_repeat (arange 1 n) (rev (arange 1 n)) = map S colsl).
  { unfold colsl. rewrite (order_cols _ (fun j => m - j) m (tril_cols m)), Ear, rev_seq.
    rewrite np_repeat_map, flat_repeat_shift. f_equal. rewrite !flat_map_concat_map. f_equal. apply map_ext_in. intros j Hj. apply in_seq in Hj. f_equal. lia. }
  rewrite Eu, Elo, !map_map.
  destruct (assign_spec n m (List.combine rowsu colsu) (map (fun u => (qz (Z.of_nat (S u) - Z.of_nat n) / qn n)%Qc) colsu) (zeros n m)
     (fun _ j => (qz (Z.of_nat (S j) - Z.of_nat n) / qn n)%Qc) (shape_zeros n m)) as [m1 [E1 [S1 [G1 N1]]]].
  - rewrite combine_length, map_length. unfold rowsu, colsu. rewrite !map_length. lia.
  - intros i j H. apply (order_combine (triu_indices m)) in H. apply in_triu in H. unfold n. lia.
  - intros i j v H. now apply in_combine_vals in H.
  - rewrite E1. cbn [bind].
    assert (Hl : forall i j, In (i, j) (List.combine (map S rowsl) colsl) <-> exists i', i = S i' /\ In (i', j) (tril_indices m)).
    { intros i j. assert (Em : List.combine (map S rowsl) colsl = map (fun p => (S (fst p), snd p)) (List.combine rowsl colsl)).
      { generalize rowsl, colsl. intros a. induction a as [|x a IH]; intros [|y b]; cbn; try reflexivity. now rewrite IH. }
      rewrite Em, in_map_iff. split.
      - intros [[x y] [[= <- <-] H]]. exists x. split; [reflexivity|]. now apply (order_combine (tril_indices m)) in H.
      - intros [i' [-> H]]. exists (i', j). split; [reflexivity|]. now apply (order_combine (tril_indices m)). }
    destruct (assign_spec n m (List.combine (map S rowsl) colsl) (map (fun u => (qn (S u) / qn n)%Qc) colsl) m1
       (fun _ j => (qn (S j) / qn n)%Qc) S1) as [m2 [E2 [S2 [G2 N2]]]].
    + rewrite combine_length, !map_length. unfold rowsl, colsl. rewrite !map_length. lia.
    + intros i j H. apply Hl in H. destruct H as [i' [-> H]]. apply in_tril in H. unfold n. lia.
    + intros i j v H. now apply in_combine_vals in H.
    + exists m2. split; [exact E2|]. apply matrix_shape. split; [exact S2|]. intros i j Hi Hj. unfold diff_entry.
      destruct (Nat.leb_spec i j).
      * rewrite N2. { apply G1. apply (order_combine (triu_indices m)). apply in_triu. lia. }
        intros K. apply Hl in K. destruct K as [i' [-> K]]. apply in_tril in K. lia.
      * apply G2. apply Hl. exists (i - 1). split; [lia|]. apply in_tril. unfold n in Hi. lia.
Qed.
Lemma diff_lemma levels : levels <> [] -> exists c, diff_reduced readable argsort levels = Ok c /\
  matrix_is (length levels) (length levels - 1) (diff_entry (length levels)) (cm_matrix c) /\
  suffixes_are readable "D." levels (fun k => k) (length levels - 1) (cm_suffixes c).
Proof.
  intros Hne. destruct (diff_contrast_lemma levels Hne) as [mx [E Hm]]. unfold diff_reduced. rewrite E. cbn [bind]. unfold mk_contrast.
  assert (Hn : suffixes_are readable "D." levels (fun k => k) (length levels - 1) (name_levels readable "D." (firstn (length levels - 1) levels))).
  { apply names_lemma; [rewrite firstn_length; lia|]. intros k Hk. rewrite <- (firstn_skipn (length levels - 1) levels) at 3.
    rewrite nth_error_app1; [reflexivity|]. rewrite firstn_length. lia. }
  destruct Hn as [Hn1 Hn2]. rewrite Hn1, Nat.eqb_refl. eexists. split; [reflexivity|]. cbn. split; [exact Hm|split; assumption].
Qed.
Lemma diff_full_lemma levels : levels <> [] -> exists c, diff_full readable argsort levels = Ok c /\
  matrix_is (length levels) (length levels) (ones_first (diff_entry (length levels))) (cm_matrix c).
Proof.
  intros Hne. destruct (diff_contrast_lemma levels Hne) as [mx [E Hm]]. unfold diff_full. rewrite E. cbn [bind]. unfold mk_contrast, name_levels, name_strs.
  assert (0 < length levels) by (destruct levels; [congruence|cbn; lia]).
  rewrite !map_length. replace (S (length levels - 1)) with (length levels) by lia. rewrite Nat.eqb_refl. eexists. split; [reflexivity|]. cbn [cm_matrix].
  pose proof (with_ones_is _ _ _ _ Hm) as W. replace (S (length levels - 1)) with (length levels) in W by lia. exact W.
Qed.
End Levels.
