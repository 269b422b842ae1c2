(** C50, C56, C57, C62: balanced(), demo_data(), the origin of errors, formatted columns. *)
From Coq Require Import Ascii ZArith QArith Permutation Sorted.
From Verif Require Import Base PySort CategoricalModel CategoricalSortProofs BuildModel BuildProofs BuildInfoProofs
  MiscModel MiscSpec MiscProofs MiscFmtProofs MiscDemoProofs.
Open Scope nat_scope.
Open Scope string_scope.
Open Scope list_scope.

(** C50: a table with one column per factor, in alphabetical order, each [repeat] times the product of the
    level counts long, in which every combination of levels is found exactly [repeat] times, and nothing else. *)
Theorem balanced_design : forall kwargs rep, NoDup (map fst kwargs) -> (forall f n, In (f, n) kwargs -> (1 <= n)%Z) ->
  let d := balanced kwargs rep in
  let total := Z.to_nat rep * design_size kwargs in
  Permutation (map fst kwargs) (map fst d) /\
  StronglySorted (fun a b => str_ltb a b = true) (map fst d) /\
  (forall f col, In (f, col) d -> List.length col = total) /\
  (forall pick, valid_pick kwargs pick -> times_in (combination (map fst d) pick) (table_rows d total) = Z.to_nat rep) /\
  (forall row, In row (table_rows d total) -> exists pick, valid_pick kwargs pick /\ row = combination (map fst d) pick).
Proof.
  intros kwargs rep Hn Hc. cbn zeta.
  assert (N : map fst (balanced kwargs rep) = sorted_names kwargs).
  { rewrite balanced_eq by auto. apply combine_fst. now rewrite map_length, seq_length, sorted_len. }
  split; [rewrite N; apply sorted_names_perm|]. split; [|split; [|split]].
  - rewrite N. assert (S : StronglySorted (le str_ltb) (sorted_names kwargs)).
    { apply py_sort_sorted.
      - intros a b H. destruct (str_ltb b a) eqn:E; auto. pose proof (str_lt_trans _ _ _ H E) as X. now rewrite str_ltb_irr in X.
      - unfold le. intros a b c H1 H2. destruct (str_ltb c a) eqn:E; auto. exfalso.
        destruct (str_tri a b) as [X|[<-|X]]; [|congruence|congruence].
        pose proof (str_lt_trans _ _ _ E X). congruence. }
    pose proof (sorted_nodup _ Hn) as Nd. clear N. revert S Nd. generalize (sorted_names kwargs). intros l0 S Nd. induction S as [|x l S IH F]; constructor.
    + apply IH. now inversion Nd.
    + rewrite Forall_forall in *. intros y Hy. specialize (F y Hy). unfold le in F.
      destruct (str_tri x y) as [X|[->|X]]; [exact X| |congruence]. now inversion Nd.
  - intros f col H. rewrite balanced_eq in H by auto. apply in_combine_r in H. apply in_map_iff in H as (j & <- & _).
    rewrite map_length. unfold list_times. now rewrite concat_repeat_length, design_size_perm.
  - intros pick Hp. now apply balanced_count.
  - intros row H. rewrite balanced_rows in H by auto. apply in_map_iff in H as (r & <- & Hr). apply concat_repeat_in in Hr.
    destruct (valid_rows kwargs r Hn Hr) as (pick & Hp & ->). exists pick. split; auto. rewrite N. unfold combination.
    apply combine_map_self.
Qed.
Print Assumptions balanced_design.

(** C50 (no levels): as soon as one factor has no levels, all the factors are missing from the result. *)
Theorem balanced_no_levels : forall kwargs rep f n, NoDup (map fst kwargs) -> In (f, n) kwargs -> (n <= 0)%Z -> balanced kwargs rep = [].
Proof.
  intros kwargs rep f n Hn H Hz. unfold balanced. fold (sorted_names kwargs). fold (count_of kwargs).
  change (map (fun name => level_names name (match dget String.eqb name kwargs with Some n => n | None => 0%Z end)) (sorted_names kwargs)) with (level_lists kwargs).
  assert (E : product (level_lists kwargs) = []).
  { apply product_empty. apply in_map_iff. exists f. split.
    - rewrite (count_of_in _ _ n) by auto. unfold level_names, range1. now replace (Z.to_nat n) with 0 by lia.
    - apply (Permutation_in _ (sorted_names_perm kwargs)). apply in_map_iff. now exists (f, n). }
  rewrite E. cbn. now destruct (sorted_names kwargs).
Qed.
Print Assumptions balanced_no_levels.

(** C62: demo_data returns one column per name: the categorical ones form a balanced design, all columns have
    the same length, which is the smallest multiple of the size of the design that is at least min_rows. *)
Theorem demo_data_design : forall (V : Type) (normal : nat -> nat -> V) names nlevels min_rows,
  (forall n, In n names -> cat_name n \/ num_name n) -> (1 <= nlevels)%Z -> (0 <= min_rows)%Z ->
  exists d kwargs rep N,
    demo_data normal names nlevels min_rows false = Ok d /\
    NoDup (map fst kwargs) /\ (forall f n, In (f, n) kwargs <-> (In f names /\ cat_name f) /\ n = nlevels) /\
    N = Z.to_nat rep * design_size kwargs /\ (min_rows <= Z.of_nat N < min_rows + Z.of_nat (design_size kwargs))%Z /\
    NoDup (map fst d) /\ (forall f, In f (map fst d) <-> In f names) /\
    (forall f col, In (f, DCat col) d <-> In (f, col) (balanced kwargs rep)) /\
    (forall f, In f names -> num_name f -> exists i, In (f, DNum (normal i N)) d).
Proof.
  intros V normal names nlevels min_rows Hnames Hl Hm. unfold demo_data.
  destruct (demo_fold nlevels names [] ([], [])) as ([kw nums] & E & I1 & I2 & I3 & I4 & I5); auto.
  { repeat split; cbn; try constructor; easy. }
  cbn [app] in *. cbn [fst snd] in *. rewrite E. cbn [bind fst snd]. rewrite (size_fold _ nlevels) by exact I3. rewrite Z.mul_1_l.
  rewrite map_length. set (size := (nlevels ^ Z.of_nat (List.length kw))%Z).
  assert (Hs : (0 < size)%Z) by (apply Z.pow_pos_nonneg; lia).
  assert (Hz : (size =? 0)%Z = false) by (apply Z.eqb_neq; lia). rewrite Hz.
  pose proof (ceil_spec min_rows size Hs) as Hc. cbn zeta in Hc. set (rep := (- (- min_rows / size))%Z) in *.
  assert (Hrep : (0 <= rep)%Z) by nia.
  assert (Kin : forall f n, In (f, n) kw <-> (In f names /\ cat_name f) /\ n = nlevels).
  { intros f n. split.
    - intros H. split; [apply I2|apply I3]; apply in_map_iff; exists (f, n); auto.
    - intros [H ->]. apply I2 in H. apply in_map_iff in H as ([g m] & <- & H). cbn. replace nlevels with m; auto.
      apply I3. apply in_map_iff. exists (g, m). auto. }
  assert (Hk : forall f n, In (f, n) kw -> (1 <= n)%Z) by (intros f n H; apply Kin in H as [_ ->]; exact Hl).
  assert (Hd : Z.of_nat (design_size kw) = size).
  { unfold size, design_size. clear - I3 Hl. induction kw as [|[f n] kw IH]; [reflexivity|]. cbn [map fold_right List.length snd].
    rewrite Nat2Z.inj_mul, IH by (intros; apply I3; now right). assert (n = nlevels) by (apply I3; now left). subst.
    rewrite Nat2Z.inj_succ, Z.pow_succ_r by lia. rewrite Z2Nat.id by lia. reflexivity. }
  set (N := Z.to_nat rep * design_size kw).
  assert (HN : N = Z.to_nat (rep * size)) by (unfold N; rewrite <- Hd, Z2Nat.inj_mul, Nat2Z.id by lia; reflexivity).
  pose proof (balanced_design kw rep I1 Hk) as (B1 & B2 & B3 & B4 & B5).
  set (data := map (fun nc => (fst nc, DCat (V:=V) (snd nc))) (balanced kw rep)).
  assert (Dk : map fst data = map fst (balanced kw rep)) by (unfold data; rewrite map_map; reflexivity).
  assert (Pn : Permutation nums (py_sort str_ltb nums)) by apply py_sort_perm.
  assert (Nn : NoDup (py_sort str_ltb nums)) by (eapply Permutation_NoDup; eauto).
  assert (Disj : forall f, In f (py_sort str_ltb nums) -> ~ In f (map fst data)).
  { intros f Hf Hf'. apply py_sort_in, I5 in Hf as [_ Hf]. rewrite Dk in Hf'.
    apply (Permutation_in _ (Permutation_sym B1)), I2 in Hf' as [_ Hf']. eapply cat_not_num; eauto. }
  exists (data ++ num_cols normal N 0 (py_sort str_ltb nums)), kw, rep, N.
  split. { replace (List.length nums) with (List.length (py_sort str_ltb nums)) by apply py_sort_length.
           apply num_fold; auto. nia. }
  split; auto. split; auto. split; auto. split. { rewrite HN, Z2Nat.id, Hd by nia. exact Hc. }
  assert (Nk : map fst (num_cols normal N 0 (py_sort str_ltb nums)) = py_sort str_ltb nums).
  { unfold num_cols. rewrite map_map. cbn [fst]. apply combine_seq_snd. }
  split; [|split; [|split]].
  - rewrite map_app, Nk, Dk. apply NoDup_app_intro; auto. { eapply Permutation_NoDup; eauto. }
    intros x Hx Hx'. apply (Disj x); auto. now rewrite Dk.
  - intros f. rewrite map_app, in_app_iff, Nk, Dk, py_sort_in, I5. split.
    + intros [H|[H _]]; auto. apply (Permutation_in _ (Permutation_sym B1)), I2 in H as [H _]. exact H.
    + intros H. destruct (Hnames f H) as [C|C]; auto. left. apply (Permutation_in _ B1), I2. auto.
  - intros f col. rewrite in_app_iff. split.
    + intros [H|H]; [apply in_map_iff in H as ([g c] & [= <- <-] & H); exact H|]. unfold num_cols in H.
      apply in_map_iff in H as (p & [=] & _).
    + intros H. left. apply in_map_iff. exists (f, col). auto.
  - intros f Hf C. assert (In f (py_sort str_ltb nums)) as H by (apply py_sort_in, I5; auto).
    destruct (In_nth _ _ "" H) as (i & Hi & Ei). exists i. apply in_app_iff. right. unfold num_cols. apply in_map_iff.
    exists (i, f). split; auto. rewrite <- Ei at 1.
    replace (i, nth i (py_sort str_ltb nums) "") with (nth i (List.combine (seq 0 (List.length (py_sort str_ltb nums))) (py_sort str_ltb nums)) (0, "")).
    + apply nth_In. rewrite combine_length, seq_length. lia.
    + rewrite combine_nth by apply seq_length. now rewrite seq_nth.
Qed.
Print Assumptions demo_data_design.

(** C62 (other names): a name with another first letter is rejected. *)
Theorem demo_data_bad_name : forall (V : Type) (normal : nat -> nat -> V) names nlevels min_rows,
  (forall n, In n names -> n <> "") -> (exists n, In n names /\ ~ cat_name n /\ ~ num_name n) ->
  exists msg, demo_data normal names nlevels min_rows false = Err (PatsyError msg None).
Proof.
  intros V normal names nlevels min_rows H1 H2. unfold demo_data.
  destruct (demo_bad nlevels names ([], []) H1 H2) as (msg & E). exists msg. now rewrite E.
Qed.
Print Assumptions demo_data_bad_name.

(** C62 (errors): other keyword arguments are rejected, and so are categorical columns without levels; numerical
    columns alone do not need any. *)
Theorem demo_data_errors : forall (V : Type) (normal : nat -> nat -> V) names nlevels min_rows,
  (exists m, demo_data normal names nlevels min_rows true = Err (TypeError m)) /\
  ((forall n, In n names -> cat_name n \/ num_name n) -> (exists n, In n names /\ cat_name n) ->
   (min_rows = 0%Z -> exists m, demo_data normal names 0 min_rows false = Err (ValueError m)) /\
   (min_rows <> 0%Z -> demo_data normal names 0 min_rows false = Err OverflowError)).
Proof.
  intros V normal names nlevels min_rows. split; [eexists; reflexivity|]. intros Hn [c [Hc Cc]]. unfold demo_data.
  destruct (demo_fold 0 names [] ([], [])) as ([kw nums] & E & I1 & I2 & I3 & I4 & I5); auto.
  { repeat split; cbn; try constructor; easy. }
  cbn [app] in *. cbn [fst snd] in *. rewrite E. cbn [bind fst snd]. rewrite (size_fold _ 0) by exact I3. rewrite Z.mul_1_l, map_length.
  assert (Hk : kw <> []) by (intros ->; apply (proj2 (I2 c)); auto).
  replace (0 ^ Z.of_nat (List.length kw))%Z with 0%Z by (symmetry; apply Z.pow_0_l; destruct kw; [congruence|cbn [List.length]; lia]).
  cbn [Z.eqb]. split; intros H; [subst; eexists; reflexivity|]. destruct min_rows; [congruence|reflexivity..].
Qed.
Print Assumptions demo_data_errors.

(** C56: the location of an error is the first one given, by the constructor or by any later call of set_origin. *)
Theorem first_origin_wins : forall first later,
  err_history first later = first_some (map meant_origin (first :: later)).
Proof.
  intros first later. unfold err_history. cbn [map].
  assert (M : forall a, err_set_origin None a = meant_origin a).
  { intros [o|[[o|a]|]]; reflexivity. }
  rewrite M. assert (K : forall l o, fold_left err_set_origin l (Some o) = Some o) by (induction l; intros o; cbn; auto).
  destruct (meant_origin first) as [o|]; cbn [first_some]; [apply K|].
  induction later as [|a later IH]; cbn [fold_left map first_some]; [reflexivity|]. rewrite M.
  destruct (meant_origin a) as [o|]; [apply K|exact IH].
Qed.
Print Assumptions first_origin_wins.

(** C57: entries that are not plain numbers are kept; all the others lose the same characters: some zeros after
    the point, or those and the point. *)
Theorem format_trims_alike : forall col, (forall s, In s col -> count_char "." s <= 1) ->
  exists col' z dot, format_column col = Ok col' /\
    Forall2 (fun s s' => (plain_number s -> trimmed z dot s s') /\ (~ plain_number s -> s' = s)) col col'.
Proof.
  intros col H1. enough (G : exists col' z dot, format_column col = Ok col' /\ Forall2 (fun s s' => if simple_float s then trimmed z dot s s' else s' = s) col col').
  { destruct G as (col' & z & dot & E & F). exists col', z, dot. split; [exact E|]. clear E H1. induction F as [|s s' col col' H F IH]; constructor; [|exact IH].
    pose proof (simple_plain s) as P. destruct (simple_float s); intuition congruence. } destruct (existsb simple_float col) eqn:E.
  - destruct (format_stripped col H1 E) as (r & Er & z & dot & S & _). exists (map snd r), z, dot. split; auto.
    now apply state_forall2.
  - exists col, 0, false. unfold format_column. replace (existsb fst (map (fun s => (simple_float s, s)) col)) with false.
    2:{ symmetry. clear H1. induction col as [|s col IH]; cbn in *; auto. destruct (simple_float s); [discriminate|]. now apply IH. }
    split; [reflexivity|]. clear H1. induction col as [|s col IH]; constructor.
    + cbn in E. destruct (simple_float s); [discriminate|reflexivity].
    + apply IH. cbn in E. destruct (simple_float s); [discriminate|exact E].
Qed.
Print Assumptions format_trims_alike.

(** C57 (values): every entry stands for the number it stood for before. *)
Theorem format_keeps_values : forall col, (forall s, In s col -> count_char "." s <= 1) ->
  exists col', format_column col = Ok col' /\ Forall2 (fun s s' => same_number (number s') (number s)) col col'.
Proof.
  intros col H1. destruct (format_trims_alike col H1) as (col' & z & dot & E & F). exists col'. split; auto. clear E.
  induction F as [|s s' col col' H F IH]; constructor.
  - pose proof (simple_plain s) as P. destruct H as [Ha Hb]. destruct (simple_float s) eqn:E.
    + eapply trimmed_number; [|now apply Ha, P]. apply H1. now left.
    + rewrite Hb by (intros X; apply P in X; discriminate). apply same_refl.
  - apply IH. intros x Hx. apply H1. now right.
Qed.
Print Assumptions format_keeps_values.

(** C57 (as many as possible): if the points are kept, some entry does not end in a zero and some entry does
    not end in the point. *)
Theorem format_trims_all : forall col, (forall s, In s col -> count_char "." s <= 1) -> (exists s, In s col /\ plain_number s) ->
  exists col', format_column col = Ok col' /\
    ((forall i, i < List.length col -> plain_number (nth i col "") -> ~ contains "." (nth i col' "")) \/
     ((exists i, i < List.length col /\ plain_number (nth i col "") /\ ends_with "0" (nth i col' "") = false) /\
      (exists i, i < List.length col /\ plain_number (nth i col "") /\ ends_with "." (nth i col' "") = false))).
Proof.
  intros col H1 E0. assert (E : existsb simple_float col = true) by (apply existsb_exists; destruct E0 as (s & A & B); exists s; split; [exact A|now apply simple_plain]). clear E0.
  destruct (format_stripped col H1 E) as (r & Er & z & dot & S & Hd). exists (map snd r). split; auto.
  assert (X : forall c, ends_all c r = false -> exists i, i < List.length col /\ plain_number (nth i col "") /\ ends_with c (nth i (map snd r) "") = false).
  { intros c. clear Hd Er E H1. revert r S. induction col as [|s col IH]; intros r S; cbn [masked map] in S.
    - inversion S; subst. discriminate.
    - destruct (simple_float s) eqn:F; inversion S; subst; cbn [ends_all forallb negb fst snd orb].
      + destruct (ends_with c s') eqn:G.
        * cbn. intros H. destruct (IH l' ltac:(assumption) H) as (i & Hi & A & B). exists (Datatypes.S i). cbn [nth map snd List.length]. split; [lia|]. split; [exact A|exact B].
        * intros _. exists 0. cbn [nth map snd]. split; [cbn; lia|]. split; [now apply simple_plain|exact G].
      + cbn. intros H. destruct (IH l' ltac:(assumption) H) as (i & Hi & A & B). exists (Datatypes.S i). cbn [nth map snd List.length]. split; [lia|]. split; [exact A|exact B]. }
  destruct dot; [left|right; destruct (Hd eq_refl); split; apply X; auto].
  pose proof (state_forall2 _ _ _ S) as F. clear - F H1. induction F as [|s s' col col' H F IH]; intros i Hi; cbn in Hi; [lia|].
  destruct i as [|i]; cbn [nth].
  - intros Hs. apply simple_plain in Hs. rewrite Hs in H. unfold trimmed in H. specialize (H1 s (or_introl eq_refl)). rewrite H, count_app in H1.
    unfold count_char in H1 at 2. cbn in H1. apply count_not_in. lia.
  - apply IH; [|lia]. intros x Hx. apply H1. now right.
Qed.
Print Assumptions format_trims_all.

Example balanced_ex : balanced [("b", 3%Z); ("a", 2%Z)] 1 = [("a", ["a1"; "a1"; "a1"; "a2"; "a2"; "a2"]); ("b", ["b1"; "b2"; "b3"; "b1"; "b2"; "b3"])].
Proof. vm_compute. reflexivity. Qed.
Example balanced_zero_ex : balanced [("b", 0%Z); ("a", 2%Z)] 1 = [].
Proof. vm_compute. reflexivity. Qed.
Example demo_ex : demo_data (fun i n => (i, n)) ["x"; "b"; "a"; "x"] 2 5 false
  = Ok [("a", DCat ["a1"; "a1"; "a2"; "a2"; "a1"; "a1"; "a2"; "a2"]); ("b", DCat ["b1"; "b2"; "b1"; "b2"; "b1"; "b2"; "b1"; "b2"]); ("x", DNum (0, 8))].
Proof. vm_compute. reflexivity. Qed.
Example demo_errors_ex : demo_data (fun i n => (i, n)) ["x"; "a"] 0 5 false = Err OverflowError /\ cat_name "a" /\ num_name "x".
Proof. split; [reflexivity|]. split; cbn; tauto. Qed.
Example demo_bad_ex : demo_data (fun i n => (i, n)) ["a"; "o"] 2 5 false = Err (PatsyError "bad name o" None).
Proof. vm_compute. reflexivity. Qed.
Example origin_ex : let o := mkOrigin "y ~ x" 4 5 in
  err_history (OrigObj None) [OrigObj (Some (OrigObj None)); OrigObj (Some (OrigIs o)); OrigIs (mkOrigin "y ~ x" 0 1)] = Some o.
Proof. vm_compute. reflexivity. Qed.
Example format_ex : format_column ["1.000"; "nan"; "-10.500"] = Ok ["1.0"; "nan"; "-10.5"] /\
  format_column ["100.000"; "inf"; "-20.000"] = Ok ["100"; "inf"; "-20"] /\
  number "-10.500" = Some (- (10 * (10 * 0 + 1) + 0 + 500 / 1000))%Q.
Proof. repeat split; vm_compute; reflexivity. Qed.
