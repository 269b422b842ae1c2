From Coq Require Import ZArith Lqa Sorted Permutation Field.
From Verif Require Import Base NumModel PySort RankSpec RankProofs ContrastSpec ContrastProofs ContrastMatProofs StateModel StateSpec StateProofs LinModel LinProofs SplineModel SplineSpec SplineNumProofs SplineProofs BsModel BsSpec BsProofs CrsProofs CrsSpec CrsCurveProofs CrsSolveProofs CrsSplineProofs CrsCyclicProofs CrsConsProofs CrsFinalProofs KnotSpec KnotProofs UnitSpec.
Open Scope nat_scope.
Open Scope list_scope.

Section Units.
Variables c d : Qc.
Hypothesis Hc : (0 < c)%Qc.
Notation m := (conv c d).
Lemma c_nz : c <> 0%Qc.
Proof. intros E. rewrite E in Hc. now apply Qclt_not_eq in Hc. Qed.
Lemma m_sub a b : (m a - m b = c * (a - b))%Qc.
Proof. unfold conv. ring. Qed.
Lemma m_lt a b : (a < b)%Qc -> (m a < m b)%Qc.
Proof.
  intros H. assert (0 < c * (b - a))%Qc by (apply Qcmul_pos; auto; qq; lra). rewrite <- m_sub in H0. generalize dependent (m a). generalize dependent (m b). intros. qq. lra.
Qed.
Lemma m_le a b : (a <= b)%Qc -> (m a <= m b)%Qc.
Proof. intros H. destruct (Qcle_lt_or_eq _ _ H) as [L| ->]; [apply Qclt_le_weak, m_lt, L|apply Qcle_refl]. Qed.
Lemma m_inj a b : m a = m b -> a = b.
Proof.
  intros H. assert (E : (c * (a - b) = 0)%Qc) by (rewrite <- m_sub, H; ring). apply Qcmult_integral in E as [E|E]; [now apply c_nz in E|].
  replace a with (a - b + b)%Qc by ring. rewrite E. ring.
Qed.
Lemma m_le_inv a b : (m a <= m b)%Qc -> (a <= b)%Qc.
Proof. intros H. destruct (Qclt_le_dec b a) as [L|L]; auto. apply m_lt in L. apply Qclt_not_le in L. contradiction. Qed.
Lemma m_ltb a b : qltb (m a) (m b) = qltb a b.
Proof.
  unfold qltb. destruct (Qclt_le_dec a b) as [L|L], (Qclt_le_dec (m a) (m b)) as [L'|L']; auto.
  - apply m_lt in L. now apply Qcle_not_lt in L'.
  - apply m_le in L. now apply Qcle_not_lt in L.
Qed.
Lemma m_leb a b : qleb (m a) (m b) = qleb a b.
Proof. unfold qleb. now rewrite m_ltb. Qed.
Lemma m_eqb a b : Qc_eq_bool (m a) (m b) = Qc_eq_bool a b.
Proof.
  unfold Qc_eq_bool. destruct (Qc_eq_dec a b) as [E|N], (Qc_eq_dec (m a) (m b)) as [E'|N']; auto; [now rewrite E in N'|now apply m_inj in E'].
Qed.

(** * numpy operations *)
Lemma fold_min_m l : forall a, fold_left qmin2 (map m l) (m a) = m (fold_left qmin2 l a).
Proof. induction l as [|x l IH]; intros a; cbn; auto. rewrite <- IH. f_equal. unfold qmin2. rewrite m_ltb. now destruct (qltb x a). Qed.
Lemma fold_max_m l : forall a, fold_left qmax2 (map m l) (m a) = m (fold_left qmax2 l a).
Proof. induction l as [|x l IH]; intros a; cbn; auto. rewrite <- IH. f_equal. unfold qmax2. rewrite m_ltb. now destruct (qltb a x). Qed.
Lemma np_min_m l : l <> [] -> np_min (map m l) = m (np_min l).
Proof. destruct l as [|x l]; [easy|]. intros _. apply fold_min_m. Qed.
Lemma np_max_m l : l <> [] -> np_max (map m l) = m (np_max l).
Proof. destruct l as [|x l]; [easy|]. intros _. apply fold_max_m. Qed.
Lemma np_sort_m l : np_sort (map m l) = map m (np_sort l).
Proof. apply py_sort_map. intros. apply m_ltb. Qed.
Lemma dedup_m l : dedup (map m l) = map m (dedup l).
Proof.
  induction l as [|x [|y l] IH]; auto. cbn [map] in *. cbn [dedup]. rewrite m_eqb. cbn [dedup] in IH. rewrite IH. now destruct (Qc_eq_bool x y).
Qed.
Lemma np_unique_m l : np_unique (map m l) = map m (np_unique l).
Proof. unfold np_unique. now rewrite np_sort_m, dedup_m. Qed.
Lemma at_place_m s pos q : at_place s pos q -> at_place (map m s) pos (m q).
Proof.
  intros [i Hi E|i Hi A B].
  - rewrite <- (nth_map_lt m s 0%Qc 0%Qc i Hi). apply at_value; [now rewrite map_length|exact E].
  - assert (X : m (nth i s 0 * (qn (i + 1) - pos) + nth (i + 1) s 0 * (pos - qn i))%Qc = (nth i (map m s) 0 * (qn (i + 1) - pos) + nth (i + 1) (map m s) 0 * (pos - qn i))%Qc).
    { rewrite !(nth_map_lt m s 0%Qc 0%Qc) by lia. unfold conv. rewrite qn_S. ring. }
    rewrite X. apply at_between; auto. now rewrite map_length.
Qed.
Lemma nondec_m s : nondecreasing s -> nondecreasing (map m s).
Proof.
  induction 1 as [|x s Hs IH Hx]; cbn; constructor; auto. rewrite Forall_map. eapply Forall_impl; [|exact Hx]. intros y. apply m_le.
Qed.
Lemma inc_m s : increasing s -> increasing (map m s).
Proof.
  induction 1 as [|x s Hs IH Hx]; cbn; constructor; auto. rewrite Forall_map. eapply Forall_impl; [|exact Hx]. intros y. apply m_lt.
Qed.
Lemma quantile_m x p q : quantile x p q -> quantile (map m x) p (m q).
Proof.
  intros (s & H1 & H2 & H3). exists (map m s). split; [now apply Permutation_map|]. split; [now apply nondec_m|]. rewrite map_length. now apply at_place_m.
Qed.
Lemma percentile_m x p : x <> [] -> (0 <= p)%Qc -> (p <= 1)%Qc -> percentile (map m x) (qz 100 * p)%Qc = m (percentile x (qz 100 * p)%Qc).
Proof.
  intros Nx P0 P1. eapply quantile_fun; [apply percentile_place; auto; now destruct x|]. apply quantile_m, percentile_place; auto.
Qed.
Lemma linspace_unit n q : In q (linspace_inner 0%Qc 1%Qc n) -> (0 <= q)%Qc /\ (q <= 1)%Qc.
Proof.
  intros H. apply (In_nth _ _ 0%Qc) in H as (j & Hj & <-). rewrite linspace_length in Hj. rewrite linspace_nth by auto.
  replace (0 + (1 - 0) * qn (j + 1) / qn (n + 1))%Qc with (qn (j + 1) / qn (n + 1))%Qc; [now apply share_ok|]. unfold Qcdiv. ring.
Qed.
Definition conv_res {A} (f : A -> A) (r : result A) : result A := match r with Ok x => Ok (f x) | Err e => Err e end.
Lemma quantile_knots_m x n : quantile_knots (map m x) n = conv_res (map m) (quantile_knots x n).
Proof.
  unfold quantile_knots. destruct x as [|x0 x]; cbn [map]; [now destruct n|].
  assert (E : map (fun q => percentile (m x0 :: map m x) (qz 100 * q)%Qc) (linspace_inner 0%Qc 1%Qc n) = map m (map (fun q => percentile (x0 :: x) (qz 100 * q)%Qc) (linspace_inner 0%Qc 1%Qc n))).
  { rewrite map_map. apply map_ext_in. intros q Hq. apply linspace_unit in Hq as [Q0 Q1]. now rewrite <- (percentile_m (x0 :: x)). }
  rewrite E. reflexivity.
Qed.
Lemma existsb_m (f g : Qc -> bool) l : (forall k, f (m k) = g k) -> existsb f (map m l) = existsb g l.
Proof. intros H. induction l as [|k l IH]; cbn; auto. now rewrite H, IH. Qed.
Lemma repeat_pair_m a b n : repeat_pair (m a) (m b) n = map m (repeat_pair a b n).
Proof. induction n as [|n IH]; cbn; auto. now rewrite IH. Qed.

(** * bs() *)
Definition conv_st (st : bs) : bs := mkBs (bs_deg st) (map m (bs_all_knots st)).
Lemma bs_finish_m a x : bs_finish (conv_bs c d a) (map m x) = conv_res conv_st (bs_finish a x).
Proof.
  unfold bs_finish. cbn [bs_df bs_knots bs_degree bs_intercept bs_lower bs_upper conv_bs].
  destruct (bs_degree a <? 0)%Z; [reflexivity|].
  cbv zeta.
  match goal with |- bind ?u _ = conv_res _ (bind ?v _) => set (I' := u); set (I := v) end.
  assert (EI : I' = conv_res (map m) I).
  { unfold I, I'. destruct (bs_df a) as [df|], (bs_knots a) as [ks|]; cbn [option_map conv_res]; auto.
    - destruct (_ <? 0)%Z; auto. rewrite map_length. now destruct (_ =? _)%Z.
    - destruct (_ <? 0)%Z; auto. apply quantile_knots_m. }
  clearbody I I'. subst I'. destruct I as [inner|e]; [|reflexivity]. cbn [conv_res bind].
  assert (EL : match option_map m (bs_lower a) with Some l => Ok l | None => match map m x with [] => Err (ValueError "zero-size array") | _ => Ok (np_min (map m x)) end end
             = conv_res m (match bs_lower a with Some l => Ok l | None => match x with [] => Err (ValueError "zero-size array") | _ => Ok (np_min x) end end)).
  { destruct (bs_lower a); [reflexivity|]. cbn [option_map]. destruct x as [|x0 x]; [reflexivity|]. rewrite np_min_m by easy. reflexivity. }
  rewrite EL. clear EL. match goal with |- bind (conv_res m ?t) _ = conv_res _ (bind ?t _) => destruct t as [lo|e]; [|reflexivity] end. cbn [conv_res bind].
  assert (EU : match option_map m (bs_upper a) with Some l => Ok l | None => match map m x with [] => Err (ValueError "zero-size array") | _ => Ok (np_max (map m x)) end end
             = conv_res m (match bs_upper a with Some l => Ok l | None => match x with [] => Err (ValueError "zero-size array") | _ => Ok (np_max x) end end)).
  { destruct (bs_upper a); [reflexivity|]. cbn [option_map]. destruct x as [|x0 x]; [reflexivity|]. rewrite np_max_m by easy. reflexivity. }
  rewrite EU. clear EU. match goal with |- bind (conv_res m ?t) _ = conv_res _ (bind ?t _) => destruct t as [hi|e]; [|reflexivity] end. cbn [conv_res bind].
  rewrite m_ltb. destruct (qltb hi lo); [reflexivity|].
  rewrite (existsb_m _ (fun k => qltb k lo)) by (intros; apply m_ltb). destruct (existsb _ inner); [reflexivity|].
  rewrite (existsb_m _ (fun k => qltb hi k)) by (intros; apply m_ltb). destruct (existsb _ inner); [reflexivity|].
  cbn [conv_res]. unfold conv_st. cbn [bs_deg bs_all_knots]. rewrite repeat_pair_m, <- map_app, np_sort_m. reflexivity.
Qed.

Lemma find_interval_m knots x steps : forall l, l + steps < length knots -> find_interval steps (map m knots) (m x) l = find_interval steps knots x l.
Proof.
  induction steps as [|s IH]; intros l H; cbn [find_interval]; auto. rewrite (nth_map_lt m knots 0%Qc 0%Qc) by lia. rewrite m_leb. rewrite IH by lia. reflexivity.
Qed.
Lemma bspl_step_m knots x l j h : l + j < length knots -> bspl_step (map m knots) (m x) l j h = bspl_step knots x l j h.
Proof.
  intros H. unfold bspl_step.
  assert (K : forall i, In i (seq 0 j) -> nth (l + i + 1) (map m knots) 0%Qc = m (nth (l + i + 1) knots 0%Qc) /\ nth (l + i + 1 - j) (map m knots) 0%Qc = m (nth (l + i + 1 - j) knots 0%Qc)).
  { intros i Hi. apply in_seq in Hi. split; apply (nth_map_lt m knots 0%Qc 0%Qc); lia. }
  assert (N : forall i, In i (seq 0 j) -> forall g, nth i (map g (seq 0 j)) 0%Qc = g i) by (intros i Hi g; apply in_seq in Hi; apply nth_map_seq; lia).
  f_equal; [f_equal|f_equal]; apply map_ext_in; intros i Hi; destruct (K i Hi) as [K1 K2]; rewrite !(N i Hi), K1, K2, m_eqb; unfold Qc_eq_bool;
    destruct (Qc_eq_dec _ _) as [E|E]; try ring; rewrite !m_sub; field; (split; [|apply c_nz] || idtac); intros X; apply E;
    match goal with X : (?a - ?b)%Qc = 0%Qc |- _ => replace a with (a - b + b)%Qc by ring; rewrite X; ring end.
Qed.
Lemma bspl_m knots x l p : l + p < length knots -> bspl (map m knots) (m x) l p = bspl knots x l p.
Proof.
  induction p as [|p IH]; intros H; [reflexivity|]. rewrite !bspl_S, IH by lia. apply bspl_step_m. lia.
Qed.
Lemma splev_m x knots cs p : 2 * (p + 1) <= length knots -> splev (m x) (map m knots) cs p = splev x knots cs p.
Proof.
  intros H. unfold splev. rewrite map_length. rewrite find_interval_m by lia. rewrite bspl_m; auto.
  pose proof (find_interval_spec knots x (length knots - (p + 1) - 1 - p) p) as F. cbv zeta in F. lia.
Qed.
Lemma eval_basis_m x knots p : 2 * (p + 1) <= length knots -> eval_basis (map m x) (map m knots) p = eval_basis x knots p.
Proof.
  intros H. unfold eval_basis. rewrite np_sort_m. assert (L : length (np_sort knots) = length knots) by apply py_sort_length.
  destruct x as [|x0 x]; [reflexivity|]. cbv zeta. change (map m (x0 :: x)) with (m x0 :: map m x) at 1. cbv iota.
  assert (Nk : np_sort knots <> []) by (destruct (np_sort knots); [cbn in L; lia|easy]).
  rewrite !np_min_m, !np_max_m, !m_ltb by (auto; easy). destruct (_ || _); [reflexivity|]. rewrite map_length, L. destruct (5 <? p); [reflexivity|]. do 2 f_equal.
  rewrite map_map. apply map_ext. intros v. apply map_ext. intros i. apply splev_m. lia.
Qed.
Lemma as_vector_m x : proper x -> as_vector (conv_arr c d x) = conv_res (map m) (as_vector x).
Proof.
  destruct x as [q|l|k rows]; cbn; auto. intros F. destruct (Nat.eqb_spec k 1) as [->|]; auto. cbn. f_equal. unfold column. rewrite !map_map.
  apply map_ext_in. intros r Hr. rewrite Forall_forall in F. specialize (F r Hr). destruct r as [|q [|]]; cbn in F; try discriminate. reflexivity.
Qed.
Lemma knots_enough a x st : bs_finish a x = Ok st -> 2 * (bs_deg st + 1) <= length (bs_all_knots st).
Proof.
  intros E. destruct (bs_finish_spec a x st E) as (_ & _ & lo & hi & inner & _ & _ & _ & _ & (s & _ & _ & ->) & _). rewrite !app_length, !repeat_length. lia.
Qed.
Lemma bs_transform_m a st x : proper x -> 2 * (bs_deg st + 1) <= length (bs_all_knots st) ->
  bs_transform (conv_bs c d a) (conv_st st) (conv_arr c d x) = bs_transform a st x.
Proof.
  intros P H. unfold bs_transform. rewrite as_vector_m by auto. destruct (as_vector x) as [v|]; [|reflexivity]. cbn [conv_res bind conv_st bs_all_knots bs_deg conv_bs bs_intercept].
  now rewrite eval_basis_m.
Qed.
Lemma bs_chunks_m a xs : forall tmp, Forall proper xs ->
  foldM (bs_chunk (conv_bs c d a)) (map (conv_arr c d) xs) (option_map (fun t => (conv_bs c d (fst t), map (map m) (snd t))) tmp) =
  match foldM (bs_chunk a) xs tmp with Ok t => Ok (option_map (fun t => (conv_bs c d (fst t), map (map m) (snd t))) t) | Err e => Err e end.
Proof.
  induction xs as [|x xs IH]; intros tmp F; [reflexivity|]. inversion F; subst. cbn [map foldM]. unfold bs_chunk at 1 3. rewrite as_vector_m by auto.
  destruct (as_vector x) as [v|]; [|reflexivity]. cbn [conv_res bind]. rewrite <- IH by auto. f_equal. cbn. destruct tmp as [[a' xs']|]; cbn; [|reflexivity]. now rewrite map_app.
Qed.
Lemma bs_memorize_m a xs : Forall proper xs -> bs_memorize (conv_bs c d a) (map (conv_arr c d) xs) = conv_res conv_st (bs_memorize a xs).
Proof.
  intros F. unfold bs_memorize. pose proof (bs_chunks_m a xs None F) as E. cbn [option_map] in E. rewrite E. destruct (foldM (bs_chunk a) xs None) as [[[a' xs']|]|]; try reflexivity.
  cbn [bind option_map fst snd]. rewrite <- concat_map. apply bs_finish_m.
Qed.

(** * cr() and cc() *)
Lemma linspace_100 n : linspace_inner 0%Qc (qz 100) n = map (fun q => qz 100 * q)%Qc (linspace_inner 0%Qc 1%Qc n).
Proof. unfold linspace_inner. rewrite map_map. apply map_ext. intros i. unfold Qcdiv. ring. Qed.
Lemma filter_m (f g : Qc -> bool) l : (forall k, f (m k) = g k) -> filter f (map m l) = map m (filter g l).
Proof. intros H. induction l as [|k l IH]; cbn; auto. rewrite H, IH. now destruct (g k). Qed.
Lemma all_sorted_knots_m x n inner lower upper :
  all_sorted_knots (map m x) n (option_map (map m) inner) (option_map m lower) (option_map m upper) = conv_res (map m) (all_sorted_knots x n inner lower upper).
Proof.
  unfold all_sorted_knots.
  match goal with |- bind ?u _ = conv_res _ (bind ?v _) => assert (EL : u = conv_res m v) end.
  { destruct lower; [reflexivity|]. cbn [option_map]. destruct x as [|x0 x]; [reflexivity|]. rewrite np_min_m by easy. reflexivity. }
  rewrite EL. clear EL. match goal with |- bind (conv_res m ?t) _ = conv_res _ (bind ?t _) => destruct t as [lo|e]; [|reflexivity] end. cbn [conv_res bind].
  match goal with |- bind ?u _ = conv_res _ (bind ?v _) => assert (EL : u = conv_res m v) end.
  { destruct upper; [reflexivity|]. cbn [option_map]. destruct x as [|x0 x]; [reflexivity|]. rewrite np_max_m by easy. reflexivity. }
  rewrite EL. clear EL. match goal with |- bind (conv_res m ?t) _ = conv_res _ (bind ?t _) => destruct t as [hi|e]; [|reflexivity] end. cbn [conv_res bind].
  rewrite m_ltb. destruct (qltb hi lo); [reflexivity|].
  match goal with |- bind ?u _ = conv_res _ (bind ?v _) => assert (EP : u = match v with Ok p => Ok (map m (fst p), snd p) | Err e => Err e end) end.
  { destruct inner as [ks|]; cbn [option_map].
    - rewrite np_unique_m, map_length. destruct (match n with Some _ => _ | None => _ end); [reflexivity|].
      rewrite (existsb_m _ (fun k => qltb k lo)) by (intros; apply m_ltb). destruct (existsb _ _); [reflexivity|].
      rewrite (existsb_m _ (fun k => qltb hi k)) by (intros; apply m_ltb). now destruct (existsb _ _).
    - destruct n as [n|]; [|reflexivity]. destruct (n <? 0)%Z; [reflexivity|]. cbv zeta.
      rewrite (filter_m _ (fun v => qleb lo v && qleb v hi)) by (intros; now rewrite !m_leb). rewrite np_unique_m. set (u := np_unique _). clearbody u.
      destruct u as [|u0 u]; [cbn [map]; now destruct (n =? 0)%Z|].
      assert (E : map (percentile (map m (u0 :: u))) (linspace_inner 0%Qc (qz 100) (Z.to_nat n)) = map m (map (percentile (u0 :: u)) (linspace_inner 0%Qc (qz 100) (Z.to_nat n)))).
      { rewrite linspace_100, !map_map. apply map_ext_in. intros q Hq. apply linspace_unit in Hq as [Q0 Q1]. now rewrite percentile_m. }
      rewrite E. reflexivity. }
  rewrite EP. clear EP. match goal with |- bind (match ?t with Ok _ => _ | Err _ => _ end) _ = _ => destruct t as [[p k]|e]; [|reflexivity] end. cbn [bind fst snd].
  change (m lo :: m hi :: map m p) with (map m (lo :: hi :: p)). rewrite np_unique_m, map_length. now destruct (_ =? _)%Z.
Qed.

(** A polynomial in the old units as one in the new. *)
Definition old (x : Qc) : Qc := ((x - d) / c)%Qc.
Lemma old_m x : old (m x) = x.
Proof. unfold old, conv. field. apply c_nz. Qed.
Lemma m_old x : m (old x) = x.
Proof. unfold old, conv. field. apply c_nz. Qed.
Definition in_new (p : list Qc) : list Qc :=
  let u := (/ c)%Qc in let v := (- d / c)%Qc in
  match p with
  | [] => []
  | [a] => [a]
  | [a; b] => [a + b * v; b * u]
  | [a; b; e] => [a + b * v + e * v * v; b * u + qz 2 * e * u * v; e * u * u]
  | a :: b :: e :: f :: _ => [a + b * v + e * v * v + f * v * v * v; b * u + qz 2 * e * u * v + qz 3 * f * u * v * v; e * u * u + qz 3 * f * u * u * v; f * u * u * u]
  end%Qc.
Lemma qn1 : qn 1 = 1%Qc. Proof. reflexivity. Qed.
Lemma qn2 : qn 2 = (1 + 1)%Qc. Proof. reflexivity. Qed.
Lemma qn3 : qn 3 = (1 + 1 + 1)%Qc. Proof. reflexivity. Qed.
Lemma qz2 : qz 2 = (1 + 1)%Qc. Proof. reflexivity. Qed.
Lemma qz3' : qz 3 = (1 + 1 + 1)%Qc. Proof. reflexivity. Qed.
Lemma in_new_ok p : length p <= 4 -> length (in_new p) = length p /\ (forall x, peval (in_new p) x = peval p (old x)) /\
  (forall x, peval (pderiv (in_new p)) x = (/ c * peval (pderiv p) (old x))%Qc) /\
  (forall x, peval (pderiv (pderiv (in_new p))) x = (/ c * / c * peval (pderiv (pderiv p)) (old x))%Qc).
Proof.
  pose proof c_nz. intros L. destruct p as [|a [|b [|e [|f [|? ?]]]]]; cbn in L; try lia; (split; [reflexivity|]); unfold old;
    repeat split; intros x; cbn; rewrite ?qn1, ?qn2, ?qn3, ?qz2, ?qz3'; field; auto.
Qed.
Lemma meet_new p q x y : length p <= 4 -> length q <= 4 -> meet p x q y -> meet (in_new p) (m x) (in_new q) (m y).
Proof.
  intros Lp Lq (M1 & M2 & M3). destruct (in_new_ok p Lp) as (_ & P1 & P2 & P3), (in_new_ok q Lq) as (_ & Q1 & Q2 & Q3).
  repeat split; [rewrite P1, Q1|rewrite P2, Q2|rewrite P3, Q3]; rewrite !old_m; congruence.
Qed.
Lemma first_m knots : knots <> [] -> first_knot (map m knots) = m (first_knot knots).
Proof. now destruct knots. Qed.
Lemma last_m knots : knots <> [] -> last_knot (map m knots) = m (last_knot knots).
Proof. intros N. unfold last_knot. rewrite map_length. apply (nth_map_lt m knots 0%Qc 0%Qc). destruct knots; [easy|cbn; lia]. Qed.
Lemma old_le_l a x : (m a <= x)%Qc -> (a <= old x)%Qc.
Proof. intros H. apply m_le_inv. now rewrite m_old. Qed.
Lemma old_le_r a x : (x <= m a)%Qc -> (old x <= a)%Qc.
Proof. intros H. apply m_le_inv. now rewrite m_old. Qed.
Lemma spline_new cyclic knots s : enough_knots cyclic knots -> is_spline cyclic knots s -> is_spline cyclic (map m knots) (fun x => s (old x)).
Proof.
  intros He. assert (Nk : knots <> []) by (intros ->; unfold enough_knots in He; destruct cyclic; cbn in He; lia).
  assert (K : forall i, i < length knots -> nth i (map m knots) 0%Qc = m (nth i knots 0%Qc)) by (intros; now apply (nth_map_lt m knots 0%Qc 0%Qc)).
  assert (L0 : length (@nil Qc) <= 4) by (cbn; lia).
  assert (NI : forall (ps : list (list Qc)) i, Forall (fun p => length p <= 4) ps -> length (nth i ps []) <= 4).
  { intros ps i F. destruct (Nat.lt_ge_cases i (length ps)); [|rewrite nth_overflow by lia; exact L0]. rewrite Forall_forall in F. apply F, nth_In. auto. }
  unfold is_spline, enough_knots in *. destruct cyclic.
  - intros (ps & (P1 & P2 & P3 & P4) & O1 & O2). exists (map in_new ps). split.
    + split; [now rewrite !map_length|]. split; [rewrite Forall_map; eapply Forall_impl; [|exact P2]; intros p Hp; cbn; now rewrite (proj1 (in_new_ok p Hp))|].
      split.
      * intros i Hi. rewrite map_length in Hi. rewrite K by lia. change (@nil Qc) with (in_new []). rewrite !map_nth. apply meet_new; auto.
      * rewrite map_length, last_m, first_m by auto. change (@nil Qc) with (in_new []). rewrite !map_nth. apply meet_new; auto.
    + split.
      * intros i x Hi A B. rewrite map_length in Hi. rewrite K in A, B by lia. change (@nil Qc) with (in_new []). rewrite map_nth.
        rewrite (proj1 (proj2 (in_new_ok _ (NI ps i P2)))). apply O1; auto; [now apply old_le_l|now apply old_le_r].
      * intros x z. rewrite last_m, first_m by auto. rewrite <- (O2 (old x) z). f_equal. unfold old, conv. field. apply c_nz.
  - intros (l & ps & r & (P1 & P2 & P3 & P4 & P5) & O1 & O2 & O3). exists (in_new l), (map in_new ps), (in_new r).
    assert (Ll : length l <= 4) by lia. assert (Lr : length r <= 4) by lia.
    assert (Fa : Forall (fun p => length p <= 4) (l :: ps ++ [r])) by (constructor; auto; apply Forall_app; split; auto).
    split.
    + split; [now rewrite !map_length|]. split; [rewrite Forall_map; eapply Forall_impl; [|exact P2]; intros p Hp; cbn; now rewrite (proj1 (in_new_ok p Hp))|].
      split; [now rewrite (proj1 (in_new_ok l Ll))|]. split; [now rewrite (proj1 (in_new_ok r Lr))|].
      intros i Hi all. rewrite map_length in Hi. rewrite K by lia. assert (Ea : all = map in_new (l :: ps ++ [r])) by (unfold all; cbn; now rewrite map_app).
      rewrite Ea. change (@nil Qc) with (in_new []). rewrite !map_nth. apply meet_new; [apply NI, Fa|apply NI, Fa|]. exact (P5 i Hi).
    + split; [|split].
      * intros x A. rewrite first_m in A by auto. rewrite (proj1 (proj2 (in_new_ok l Ll))). apply O1. now apply old_le_r.
      * intros x A. rewrite last_m in A by auto. rewrite (proj1 (proj2 (in_new_ok r Lr))). apply O2. now apply old_le_l.
      * intros i x Hi A B. rewrite map_length in Hi. rewrite K in A, B by lia. change (@nil Qc) with (in_new []). rewrite map_nth.
        rewrite (proj1 (proj2 (in_new_ok _ (NI ps i P2)))). apply O3; auto; [now apply old_le_l|now apply old_le_r].
Qed.
Lemma removelast_m (l : list Qc) : removelast (map m l) = map m (removelast l).
Proof. induction l as [|x [|y l] IH]; auto. cbn [map removelast] in *. now rewrite IH. Qed.
Lemma free_m cyclic knots v : increasing knots -> enough_knots cyclic knots -> free_crs_dmatrix (map m v) (map m knots) cyclic = free_crs_dmatrix v knots cyclic.
Proof.
  intros Hi He. assert (Hi' := inc_m _ Hi). assert (He' : enough_knots cyclic (map m knots)) by (unfold enough_knots in *; now rewrite map_length).
  destruct (free_complete cyclic knots Hi He _ (const_spline cyclic _ He 0%Qc) v) as (dm & Ed & _).
  destruct (free_complete cyclic _ Hi' He' _ (const_spline cyclic _ He' 0%Qc) (map m v)) as (dm' & Ed' & _). rewrite Ed, Ed'. f_equal.
  pose proof (free_crs_shape _ _ _ _ Ed) as [S1 S2]. pose proof (free_crs_shape _ _ _ _ Ed') as [S1' S2'].
  assert (En : crs_dim cyclic (map m knots) = crs_dim cyclic knots) by (unfold crs_dim; now rewrite map_length). rewrite En in S2'. rewrite map_length in S1'.
  set (n := crs_dim cyclic knots) in *. rewrite Forall_forall in S2, S2'.
  assert (R : forall i, i < length v -> nth i dm' [] = nth i dm []).
  { intros i Hl. assert (L : length (nth i dm []) = n) by (apply S2, nth_In; lia). assert (L' : length (nth i dm' []) = n) by (apply S2', nth_In; lia).
    apply nth_ext_Qc; [congruence|]. intros j Hj. rewrite L' in Hj.
    destruct (free_curve cyclic knots Hi He (unit_vec n j)) as (s & Hs & Hk & Hd); [unfold unit_vec; rewrite map_length, seq_length; reflexivity|].
    destruct (Hd v) as (dm2 & E2 & E3). rewrite Ed in E2. injection E2 as <-.
    destruct (free_complete cyclic _ Hi' He' _ (spline_new cyclic knots s He Hs) (map m v)) as (dm3 & E4 & E5). rewrite Ed' in E4. injection E4 as <-.
    assert (Ek : map (fun x => s (old x)) (free_knots cyclic (map m knots)) = unit_vec n j).
    { rewrite <- Hk. unfold free_knots. destruct cyclic; rewrite ?removelast_m, map_map; apply map_ext; intros a; now rewrite old_m. }
    rewrite Ek in E5. assert (E6 : map (fun r => dot r (unit_vec n j)) dm' = map (fun r => dot r (unit_vec n j)) dm).
    { rewrite E5, E3, map_map. apply map_ext. intros a. now rewrite old_m. }
    assert (U : forall h, dot h (unit_vec n j) = nth j h 0%Qc).
    { intros h. apply dot_unit; unfold unit_vec; rewrite map_length, seq_length; auto. intros k Hk'. rewrite nth_map_seq by auto. now rewrite Nat.eqb_sym. }
    rewrite <- (U (nth i dm' [])), <- (U (nth i dm [])).
    rewrite <- (nth_map_lt (fun r => dot r (unit_vec n j)) dm' 0%Qc [] i) by lia. rewrite <- (nth_map_lt (fun r => dot r (unit_vec n j)) dm 0%Qc [] i) by lia. now rewrite E6. }
  apply (nth_ext _ _ [] []); [congruence|]. intros i Hl. apply R. lia.
Qed.
Definition conv_cr (st : crs) : crs := mkCrs (map m (crs_all_knots st)) (crs_cons st).
Lemma crs_finish_m cyclic a x st : crs_finish cyclic a x = Ok st -> enough_knots cyclic (crs_all_knots st) ->
  crs_finish cyclic (conv_crs c d a) (map m x) = Ok (conv_cr st).
Proof.
  intros E He. destruct (crs_finish_spec _ _ _ _ E) as (ni & Ek & _).
  destruct (all_sorted_knots_spec _ _ _ _ _ _ Ek) as (lo & hi & _ & _ & Hi & _).
  revert E. unfold crs_finish. cbn [crs_df crs_knots crs_lower crs_upper crs_constr conv_crs].
  assert (G : forall n_inner : result (option Z),
    (let* n := n_inner in let* knots := all_sorted_knots x n (crs_knots a) (crs_lower a) (crs_upper a) in
      match crs_constr a with
      | NoConstraint => Ok (mkCrs knots None)
      | cc =>
          let* cn := match cc with
            | Constraint k rows => Ok (k, rows)
            | _ => let* dm := free_crs_dmatrix x knots cyclic in centering_row (crs_dim cyclic knots) dm
            end in
          if Nat.eqb (fst cn) (crs_dim cyclic knots) then Ok (mkCrs knots (Some cn))
          else Err (ValueError "Constraints array should have a column for each parameter")
      end) = Ok st ->
    (let* n := n_inner in let* knots := all_sorted_knots (map m x) n (option_map (map m) (crs_knots a)) (option_map m (crs_lower a)) (option_map m (crs_upper a)) in
      match crs_constr a with
      | NoConstraint => Ok (mkCrs knots None)
      | cc =>
          let* cn := match cc with
            | Constraint k rows => Ok (k, rows)
            | _ => let* dm := free_crs_dmatrix (map m x) knots cyclic in centering_row (crs_dim cyclic knots) dm
            end in
          if Nat.eqb (fst cn) (crs_dim cyclic knots) then Ok (mkCrs knots (Some cn))
          else Err (ValueError "Constraints array should have a column for each parameter")
      end) = Ok (conv_cr st)).
  { intros [n|]; [|discriminate]. cbn [bind]. rewrite all_sorted_knots_m. destruct (all_sorted_knots x n _ _ _) as [knots|]; [|discriminate]. cbn [bind conv_res].
    assert (Ed : crs_dim cyclic (map m knots) = crs_dim cyclic knots) by (unfold crs_dim; now rewrite map_length). rewrite Ed.
    intros E. assert (Hk : crs_all_knots st = knots).
    { destruct (crs_constr a); cbv beta iota in E; [now injection E as <-|match type of E with bind ?t _ = _ => destruct t as [cn|]; [|discriminate] end; cbn [bind] in E|]; destruct (_ =? _); try discriminate; now injection E as <-. }
    rewrite Hk in *. rewrite free_m by auto. revert E. unfold conv_cr. rewrite Hk.
    destruct (crs_constr a); cbv beta iota; [intros E; now injection E as <-|match goal with |- bind ?t _ = _ -> _ => destruct t as [cn|]; [|discriminate] end; cbn [bind]|]; destruct (_ =? _); try discriminate; intros E; now injection E as <-. }
  destruct (crs_df a) as [df|]; destruct (crs_knots a) as [ks|]; cbn [option_map] in *; try discriminate; apply G.
Qed.
Lemma crs_transform_m qr cyclic st x : proper x -> increasing (crs_all_knots st) -> enough_knots cyclic (crs_all_knots st) ->
  crs_transform qr cyclic (conv_cr st) (conv_arr c d x) = crs_transform qr cyclic st x.
Proof.
  intros P Hi He. unfold crs_transform. rewrite as_vector_m by auto. destruct (as_vector x) as [v|]; [|reflexivity]. cbn [conv_res bind conv_cr crs_all_knots crs_cons].
  rewrite free_m by auto. unfold crs_dim. now rewrite map_length.
Qed.
Lemma crs_chunks_m a xs : forall tmp, Forall proper xs ->
  foldM (crs_chunk (conv_crs c d a)) (map (conv_arr c d) xs) (option_map (fun t => (conv_crs c d (fst t), map (map m) (snd t))) tmp) =
  match foldM (crs_chunk a) xs tmp with Ok t => Ok (option_map (fun t => (conv_crs c d (fst t), map (map m) (snd t))) t) | Err e => Err e end.
Proof.
  induction xs as [|x xs IH]; intros tmp F; [reflexivity|]. inversion F; subst. cbn [map foldM]. unfold crs_chunk at 1 3. rewrite as_vector_m by auto.
  destruct (as_vector x) as [v|]; [|reflexivity]. cbn [conv_res bind]. rewrite <- IH by auto. f_equal. cbn. destruct tmp as [[a' xs']|]; cbn; [|reflexivity]. now rewrite map_app.
Qed.
Lemma crs_memorize_m cyclic a xs st : Forall proper xs -> crs_memorize cyclic a xs = Ok st -> enough_knots cyclic (crs_all_knots st) ->
  crs_memorize cyclic (conv_crs c d a) (map (conv_arr c d) xs) = Ok (conv_cr st) /\ increasing (crs_all_knots st).
Proof.
  intros F. unfold crs_memorize. pose proof (crs_chunks_m a xs None F) as E. cbn [option_map] in E. rewrite E. destruct (foldM (crs_chunk a) xs None) as [[[a' xs']|]|]; try discriminate.
  cbn [bind option_map fst snd]. intros Ef He. rewrite <- concat_map. split; [now apply crs_finish_m|].
  destruct (crs_finish_spec _ _ _ _ Ef) as (ni & Ek & _). now destruct (all_sorted_knots_spec _ _ _ _ _ _ Ek) as (lo & hi & _ & _ & Hi & _).
Qed.
End Units.
