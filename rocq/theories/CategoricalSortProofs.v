(** [SortAnythingKey] orders numbers, strings and objects. *)
From Coq Require Import Ascii QArith Permutation Sorted.
From Verif Require Import Base PySort BuildModel CategoricalModel CategoricalSpec CategoricalKeyProofs.
Open Scope nat_scope.
Open Scope string_scope.
Open Scope list_scope.

(** * Numbers and strings *)
Lemma Qlt_bool_iff p q : Qlt_bool p q = true <-> (p < q)%Q.
Proof.
  unfold Qlt_bool. rewrite negb_true_iff. split.
  - intros H. apply Qnot_le_lt. intros C. apply Qle_bool_iff in C. congruence.
  - intros H. destruct (Qle_bool q p) eqn:E; [|reflexivity]. apply Qle_bool_iff in E. exfalso. now apply (Qlt_not_le p q).
Qed.
Lemma num_lt_trans a b c : num_ltb a b = true -> num_ltb b c = true -> num_ltb a c = true.
Proof.
  destruct a, b, c; cbn; try discriminate; try reflexivity. rewrite !Qlt_bool_iff. apply Qlt_trans.
Qed.
Lemma num_irr a b : num_eqb a b = true -> num_ltb a b = false.
Proof.
  destruct a, b; cbn; try discriminate; try reflexivity. intros H. apply Qeq_bool_iff in H. destruct (Qlt_bool q q0) eqn:E; [|reflexivity].
  apply Qlt_bool_iff in E. rewrite H in E. now apply Qlt_irrefl in E.
Qed.
Lemma num_tri a b : a <> NaN -> b <> NaN -> num_ltb a b = true \/ num_eqb a b = true \/ num_ltb b a = true.
Proof.
  destruct a, b; cbn; intros H1 H2; auto; try congruence. rewrite !Qlt_bool_iff, Qeq_bool_iff. destruct (Q_dec q q0) as [[H|H]|H]; auto.
Qed.
Lemma str_ltb_irr s : str_ltb s s = false.
Proof. induction s as [|c s IH]; cbn; [reflexivity|]. now rewrite N.ltb_irrefl, Ascii.eqb_refl, IH. Qed.
Lemma ascii_N a b : N_of_ascii a = N_of_ascii b -> a = b.
Proof. intros H. rewrite <- (ascii_N_embedding a), <- (ascii_N_embedding b). now rewrite H. Qed.
Lemma str_ltb_compare s : forall t, str_ltb s t = true <-> String.compare s t = Lt.
Proof.
  induction s as [|c s IH]; intros [|d t]; cbn; try (split; discriminate); try (split; reflexivity).
  unfold Ascii.compare. rewrite orb_true_iff, andb_true_iff, N.ltb_lt, IH, Ascii.eqb_eq. destruct (N.compare_spec (N_of_ascii c) (N_of_ascii d)) as [E|E|E].
  - apply ascii_N in E. subst d. split; [intros [H|[_ H]]; [lia|exact H]|auto].
  - split; auto.
  - split; [|discriminate]. intros [H|[-> _]]; lia.
Qed.
Lemma str_lt_trans s : forall t u, str_ltb s t = true -> str_ltb t u = true -> str_ltb s u = true.
Proof.
  induction s as [|c s IH]; intros [|d t] [|e u]; cbn; try discriminate; try reflexivity.
  rewrite !orb_true_iff, !andb_true_iff, !N.ltb_lt, !Ascii.eqb_eq. intros [H1|[-> H1]] [H2|[E H2]]; subst; auto; [left; lia|]. right. split; [reflexivity|eauto].
Qed.
Lemma str_tri s : forall t, str_ltb s t = true \/ s = t \/ str_ltb t s = true.
Proof.
  induction s as [|c s IH]; intros [|d t]; cbn; auto. rewrite !orb_true_iff, !andb_true_iff, !N.ltb_lt, !Ascii.eqb_eq.
  destruct (N.lt_total (N_of_ascii c) (N_of_ascii d)) as [H|[H|H]]; auto. apply ascii_N in H. subst d. destruct (IH t) as [H|[->|H]]; auto.
Qed.

(** * The order *)
Section Order.
Variable addr : pval -> nat.
Variable Dom : pval -> Prop.
Hypothesis Haddr : forall a b, Dom a -> Dom b -> is_object a -> is_object b -> addr a = addr b -> a = b.
Definition good (v : pval) : Prop := sortable v /\ Dom v.
Local Notation lt := (sort_key_lt addr).

Lemma lt_numbers a b x y : to_num a = Some x -> to_num b = Some y -> lt a b = num_ltb x y.
Proof. destruct a; try discriminate; destruct b; try discriminate; cbn; intros H1 H2; injection H1 as <-; injection H2 as <-; reflexivity. Qed.
Lemma python_lt_zero a : (exists r, python_lt a (VInt 0) = Some r) <-> is_number a.
Proof. unfold is_number. destruct a; cbn; split; intros H; try (destruct H; discriminate); try congruence; eauto; discriminate. Qed.
Lemma lt_number_first a b : is_number a -> ~ is_number b -> lt a b = true /\ lt b a = false.
Proof.
  unfold is_number. intros Ha Hb. destruct a; cbn in Ha; try congruence; destruct b; cbn in Hb; try (exfalso; apply Hb; discriminate); split; reflexivity.
Qed.
(** The class, the text and the address (of objects) decide. *)
Definition rank (v : pval) : string * (string * nat) :=
  (class_name v, match v with VStr s => (s, 0) | _ => ("", addr v) end).
Definition rank_lt (a b : string * (string * nat)) : bool :=
  str_ltb (fst a) (fst b) || String.eqb (fst a) (fst b) && (str_ltb (fst (snd a)) (fst (snd b)) || String.eqb (fst (snd a)) (fst (snd b)) && Nat.ltb (snd (snd a)) (snd (snd b))).
Lemma rank_lt_iff a b c d e f : rank_lt (a, (b, c)) (d, (e, f)) = true <-> str_ltb a d = true \/ a = d /\ (str_ltb b e = true \/ b = e /\ c < f).
Proof. unfold rank_lt. cbn [fst snd]. rewrite !orb_true_iff, !andb_true_iff, !orb_true_iff, !andb_true_iff, !String.eqb_eq, Nat.ltb_lt. tauto. Qed.
Lemma rank_trans a b c : rank_lt a b = true -> rank_lt b c = true -> rank_lt a c = true.
Proof.
  destruct a as [a1 [a2 a3]], b as [b1 [b2 b3]], c as [c1 [c2 c3]]. rewrite !rank_lt_iff.
  intros [H1|[-> [H1|[-> H1]]]] [H2|[-> [H2|[-> H2]]]]; eauto using str_lt_trans; right; (split; [reflexivity|]); eauto using str_lt_trans. right. split; [reflexivity|lia].
Qed.
Lemma rank_irr a : rank_lt a a = false.
Proof.
  destruct a as [a1 [a2 a3]]. destruct (rank_lt _ _) eqn:E; [|reflexivity]. apply rank_lt_iff in E. rewrite !str_ltb_irr in E.
  destruct E as [E|[_ [E|[_ E]]]]; try discriminate. lia.
Qed.
Lemma rank_tri a b : rank_lt a b = true \/ a = b \/ rank_lt b a = true.
Proof.
  destruct a as [a1 [a2 a3]], b as [b1 [b2 b3]]. rewrite !rank_lt_iff.
  destruct (str_tri a1 b1) as [H|[->|H]]; auto. destruct (str_tri a2 b2) as [H|[->|H]]; auto 6. destruct (Nat.lt_total a3 b3) as [H|[->|H]]; auto 8.
Qed.
Lemma lt_rank a b : sortable a -> sortable b -> ~ is_number a -> ~ is_number b -> lt a b = rank_lt (rank a) (rank b).
Proof.
  unfold is_number. intros Sa Sb Na Nb.
  destruct a; cbn in Na; try (exfalso; apply Na; discriminate); destruct b; cbn in Nb; try (exfalso; apply Nb; discriminate); cbn in Sa, Sb; try contradiction; unfold rank, rank_lt; cbn [fst snd class_name].
  - cbn [sort_key_lt python_lt]. rewrite str_ltb_irr. unfold sort_key_lt. cbn [python_lt]. rewrite String.eqb_refl. cbn. now rewrite andb_false_r, orb_false_r.
  - reflexivity.
  - unfold sort_key_lt. cbn [python_lt to_num py_eqb key_eqb class_name]. destruct (String.eqb "str" cls) eqn:E; [apply String.eqb_eq in E; congruence|]. now rewrite !andb_false_l.
  - reflexivity.
  - unfold sort_key_lt. cbn [python_lt to_num py_eqb key_eqb class_name]. now rewrite !str_ltb_irr, !String.eqb_refl, Nat.ltb_irrefl.
  - unfold sort_key_lt. cbn [python_lt to_num py_eqb key_eqb class_name]. cbn. reflexivity.
  - unfold sort_key_lt. cbn [python_lt to_num py_eqb key_eqb class_name]. destruct (String.eqb cls "str") eqn:E; [apply String.eqb_eq in E; congruence|]. now rewrite !andb_false_l.
  - unfold sort_key_lt. cbn [python_lt to_num py_eqb key_eqb class_name]. cbn. reflexivity.
  - unfold sort_key_lt. cbn [python_lt to_num py_eqb key_eqb class_name].
    destruct (_ && _) eqn:E.
    + apply andb_true_iff in E. destruct E as [E E3]. apply andb_true_iff in E. destruct E as [E1 E2]. apply Nat.eqb_eq in E1. apply String.eqb_eq in E2. apply eqb_prop in E3. subst.
      now rewrite str_ltb_irr, String.eqb_refl, Nat.ltb_irrefl, (str_ltb_irr "").
    + reflexivity.
Qed.
Lemma rank_same a b : good a -> good b -> ~ is_number a -> ~ is_number b -> rank a = rank b -> same a b.
Proof.
  unfold is_number. intros [Sa Da] [Sb Db] Na Nb H.
  destruct a; cbn in Na; try (exfalso; apply Na; discriminate); destruct b; cbn in Nb; try (exfalso; apply Nb; discriminate); cbn in Sa, Sb; try contradiction; unfold rank in H; cbn [class_name] in H; try discriminate; try apply same_refl; injection H; intros; subst; try contradiction;
    try (apply same_iff; f_equal; apply Haddr; [exact Da|exact Db|exact Logic.I|exact Logic.I|assumption]); try apply same_refl; congruence.
Qed.
Lemma same_number a b : same a b -> is_number a -> is_number b.
Proof. rewrite same_iff. unfold is_number. destruct a, b; cbn; congruence. Qed.
Lemma same_rank a b : sortable a -> sortable b -> ~ is_number a -> same a b -> rank a = rank b.
Proof. rewrite same_iff. unfold is_number. intros Sa Sb Na. destruct a, b; cbn; cbn in Na; try congruence; try contradiction; intros E; try (exfalso; apply Na; discriminate). Qed.
Lemma num_same a b x y : to_num a = Some x -> to_num b = Some y -> x <> NaN -> (num_eqb x y = true <-> same a b).
Proof.
  unfold same. destruct a; try discriminate; destruct b; try discriminate; cbn; intros H1 H2; injection H1 as <-; injection H2 as <-; try tauto; cbn; intros; try congruence; split; auto.
Qed.
Lemma sortable_num a x : sortable a -> to_num a = Some x -> x <> NaN.
Proof. destruct a; cbn; try discriminate; intros S H; try contradiction; injection H as <-; try discriminate. now destruct neg. Qed.
Lemma number_dec a : is_number a \/ ~ is_number a.
Proof. unfold is_number. destruct (to_num a); [left; discriminate|right; auto]. Qed.
Lemma number_some a : is_number a -> exists x, to_num a = Some x.
Proof. unfold is_number. destruct (to_num a); [eauto|congruence]. Qed.

Lemma lt_irr a b : good a -> good b -> same a b -> lt a b = false.
Proof.
  intros [Sa _] [Sb _] H. destruct (number_dec a) as [Na|Na].
  - pose proof (same_number _ _ H Na) as Nb. destruct (number_some a Na) as [x Hx]. destruct (number_some b Nb) as [y Hy]. rewrite (lt_numbers a b x y Hx Hy). apply num_irr. apply (num_same a b x y Hx Hy); [|exact H]. now apply (sortable_num a).
  - assert (Nb : ~ is_number b) by (intros C; apply Na; eapply same_number; [apply same_sym|]; eauto). rewrite lt_rank; auto. rewrite (same_rank a b); auto. apply rank_irr.
Qed.
Lemma lt_tri a b : good a -> good b -> lt a b = true \/ same a b \/ lt b a = true.
Proof.
  intros Ga Gb. pose proof (proj1 Ga) as Sa. pose proof (proj1 Gb) as Sb. destruct (number_dec a) as [Na|Na], (number_dec b) as [Nb|Nb].
  - destruct (number_some a Na) as [x Hx]. destruct (number_some b Nb) as [y Hy]. rewrite (lt_numbers a b x y Hx Hy), (lt_numbers b a y x Hy Hx).
    destruct (num_tri x y) as [H|[H|H]]; auto; [now apply (sortable_num a)|now apply (sortable_num b)|]. right. left. apply (num_same a b x y Hx Hy); [|exact H]. now apply (sortable_num a).
  - left. now apply lt_number_first.
  - right. right. now apply lt_number_first.
  - rewrite !lt_rank; auto. destruct (rank_tri (rank a) (rank b)) as [H|[H|H]]; auto. right. left. now apply rank_same.
Qed.
Lemma lt_trans' a b c : good a -> good b -> good c -> lt a b = true -> lt b c = true -> lt a c = true.
Proof.
  intros [Sa _] [Sb _] [Sc _] H1 H2. destruct (number_dec a) as [Na|Na], (number_dec b) as [Nb|Nb], (number_dec c) as [Nc|Nc];
    try (apply lt_number_first; assumption); try (destruct (lt_number_first b a Nb Na); congruence); try (destruct (lt_number_first c b Nc Nb); congruence).
  - destruct (number_some a Na) as [x Hx]. destruct (number_some b Nb) as [y Hy]. destruct (number_some c Nc) as [z Hz].
    rewrite (lt_numbers a b x y Hx Hy) in H1. rewrite (lt_numbers b c y z Hy Hz) in H2. rewrite (lt_numbers a c x z Hx Hz). eapply num_lt_trans; eauto.
  - rewrite lt_rank in *; auto. eapply rank_trans; eauto.
Qed.
Lemma lt_asym a b : good a -> good b -> lt a b = true -> lt b a = false.
Proof.
  intros Sa Sb H. destruct (lt b a) eqn:E; [|reflexivity]. pose proof (lt_trans' a b a Sa Sb Sa H E) as C. rewrite (lt_irr a a) in C; auto using same_refl.
Qed.
Lemma le_trans' a b c : good a -> good b -> good c -> lt b a = false -> lt c b = false -> lt c a = false.
Proof.
  intros Sa Sb Sc H1 H2. destruct (lt c a) eqn:E; [|reflexivity].
  destruct (lt_tri a b Sa Sb) as [H|[H|H]]; [|..|congruence].
  - rewrite (lt_trans' c a b Sc Sa Sb E H) in H2. discriminate.
  - destruct (lt_tri c b Sc Sb) as [K|[K|K]]; [congruence| |].
    + rewrite (lt_irr c a) in E; auto. eapply same_trans; [exact K|now apply same_sym].
    + rewrite (lt_trans' b c a Sb Sc Sa K E) in H1. discriminate.
Qed.

(** * Sorting *)
Lemma insert_sorted' x l : good x -> Forall good l -> StronglySorted (fun a b => lt b a = false) l -> StronglySorted (fun a b => lt b a = false) (insert lt x l).
Proof.
  intros Sx Sl. induction 1 as [|y l Hs IH Hy]; cbn; [repeat constructor|]. inversion Sl as [|? ? Sy Sl']; subst.
  destruct (lt y x) eqn:E.
  - constructor; [auto|]. rewrite Forall_forall in *. intros z Hz. apply (Permutation_in z (Permutation_sym (insert_perm lt x l))) in Hz.
    destruct Hz as [<-|Hz]; [now apply lt_asym|auto].
  - constructor; [constructor; assumption|]. constructor; [exact E|]. rewrite Forall_forall in *. intros z Hz. apply (le_trans' x y z); auto.
Qed.
Lemma sort_levels_sorted l : Forall good l -> StronglySorted (fun a b => lt b a = false) (sort_levels addr l).
Proof.
  unfold sort_levels. induction 1 as [|x l Sx Sl IH]; cbn; [constructor|]. apply insert_sorted'; auto.
  rewrite Forall_forall in *. intros z Hz. apply Sl. now apply (py_sort_in lt).
Qed.
Lemma sorted_strict l : Forall good l -> NoDup (keys l) -> StronglySorted (fun a b => lt b a = false) l -> StronglySorted (fun a b => lt a b = true) l.
Proof.
  intros Sl N. induction 1 as [|x l Hs IH Hx]; [constructor|]. inversion Sl as [|? ? Sx Sl']; subst. cbn in N. inversion N as [|? ? N1 N2]; subst. constructor; [auto|].
  rewrite Forall_forall in *. intros y Hy. destruct (lt_tri x y) as [H|[H|H]]; auto; [|rewrite Hx in H; auto; discriminate].
  exfalso. apply N1. apply in_map_iff. exists y. split; [symmetry; now apply same_iff|exact Hy].
Qed.
Lemma sorted_unique l : forall m, Forall good l -> Forall good m -> NoDup (keys l) -> NoDup (keys m) ->
  StronglySorted (fun a b => lt a b = true) l -> StronglySorted (fun a b => lt a b = true) m ->
  (forall k, In k (keys l) <-> In k (keys m)) -> keys l = keys m.
Proof.
  induction l as [|x l IH]; intros [|y m] Sl Sm Nl Nm Hl Hm K.
  - reflexivity.
  - exfalso. apply (K (key_of y)). now left.
  - exfalso. apply (K (key_of x)). now left.
  - inversion Sl as [|? ? Sx Sl']; inversion Sm as [|? ? Sy Sm']; subst. inversion Hl as [|? ? Hl' Hx]; inversion Hm as [|? ? Hm' Hy]; subst. cbn in Nl, Nm. inversion Nl as [|? ? Nx Nl']; inversion Nm as [|? ? Ny Nm']; subst.
    rewrite Forall_forall in Sl', Sm', Hx, Hy.
    assert (E : key_of x = key_of y).
    { assert (A : In (key_of x) (keys (y :: m))) by (apply K; now left). destruct A as [A|A]; [auto|].
      assert (B : In (key_of y) (keys (x :: l))) by (apply K; now left). destruct B as [B|B]; [auto|].
      apply in_map_iff in A, B. destruct A as [x' [A1 A2]], B as [y' [B1 B2]].
      pose proof (Hx y' B2) as L1. pose proof (Hy x' A2) as L2. apply same_iff in A1, B1.
      assert (L3 : lt y x = true). { destruct (lt_tri y x) as [H|[H|H]]; auto; exfalso.
        - assert (C : lt y x' = false) by (apply lt_irr; auto; eapply same_trans; [exact H|now apply same_sym]). congruence.
        - pose proof (lt_trans' x y x' Sx Sy (Sm' x' A2) H L2) as C. assert (C2 : lt x x' = false) by (apply lt_irr; auto using same_sym). congruence. }
      pose proof (lt_trans' y x y' Sy Sx (Sl' y' B2) L3 L1) as C. assert (C2 : lt y y' = false) by (apply lt_irr; auto using same_sym). congruence. }
    cbn. f_equal; [exact E|]. apply IH; auto; [now apply Forall_forall|now apply Forall_forall|].
    intros k. split; intros Hk.
    + assert (A : In k (keys (y :: m))) by (apply K; now right). destruct A as [<-|A]; [|exact A]. rewrite <- E in Hk. contradiction.
    + assert (A : In k (keys (x :: l))) by (apply K; now right). destruct A as [<-|A]; [|exact A]. rewrite E in Hk. contradiction.
Qed.
Lemma keys_perm l m : Permutation l m -> Permutation (keys l) (keys m).
Proof. apply Permutation_map. Qed.
Lemma sort_levels_unique l m : Forall good l -> Forall good m -> NoDup (keys l) -> NoDup (keys m) ->
  (forall k, In k (keys l) <-> In k (keys m)) -> keys (sort_levels addr l) = keys (sort_levels addr m).
Proof.
  intros Sl Sm Nl Nm K.
  assert (P : forall l, Permutation l (sort_levels addr l)) by (intros; apply py_sort_perm).
  assert (S' : forall l, Forall good l -> Forall good (sort_levels addr l)).
  { intros l0 H. rewrite Forall_forall in *. intros z Hz. apply H. now apply (py_sort_in lt). }
  assert (N' : forall l, NoDup (keys l) -> NoDup (keys (sort_levels addr l))) by (intros l0; apply Permutation_NoDup, keys_perm, P).
  apply sorted_unique; auto.
  - apply sorted_strict; auto using sort_levels_sorted.
  - apply sorted_strict; auto using sort_levels_sorted.
  - intros k. split; intros H; eapply Permutation_in; try apply keys_perm, P; apply K; eapply Permutation_in; try exact H; apply Permutation_sym, keys_perm, P.
Qed.
End Order.

(** Addresses do not matter where there are only numbers and strings. *)
Local Notation plain_value' := (fun v : pval => is_number v \/ exists s, v = VStr s).
Lemma lt_plain addr1 addr2 a b : plain_value' a -> plain_value' b -> sort_key_lt addr1 a b = sort_key_lt addr2 a b.
Proof.
  unfold  is_number, sort_key_lt. intros [Ha|[s ->]] [Hb|[t ->]]; try (destruct a; cbn in Ha; try congruence); try (destruct b; cbn in Hb; try congruence); reflexivity.
Qed.
Lemma insert_ext addr1 addr2 x l : plain_value' x -> Forall plain_value' l -> insert (sort_key_lt addr1) x l = insert (sort_key_lt addr2) x l.
Proof.
  intros Hx. induction 1 as [|y l Hy Hl IH]; cbn; [reflexivity|]. rewrite (lt_plain addr1 addr2) by assumption. now rewrite IH.
Qed.
Lemma sort_levels_plain addr1 addr2 l : Forall plain_value' l -> sort_levels addr1 l = sort_levels addr2 l.
Proof.
  unfold sort_levels. induction 1 as [|x l Hx Hl IH]; [reflexivity|]. cbn [py_sort fold_right]. fold (py_sort (sort_key_lt addr1) l). fold (py_sort (sort_key_lt addr2) l). rewrite IH. apply insert_ext; [exact Hx|].
  rewrite Forall_forall in *. intros z Hz. apply Hl. now apply (py_sort_in (sort_key_lt addr2)).
Qed.
Lemma tuple_eqb_keys a b : tuple_eqb a b = true <-> keys a = keys b.
Proof. unfold tuple_eqb. pose proof (same_iff (VTuple a) (VTuple b)) as H. unfold same in H. rewrite H. cbn. unfold keys. split; congruence. Qed.
Lemma before_le addr a b : sortable a -> sortable b -> sort_key_lt addr b a = false -> before a b.
Proof.
  unfold before. intros Sa Sb H. destruct (to_num a) as [x|] eqn:Ea, (to_num b) as [y|] eqn:Eb; auto.
  - rewrite (lt_numbers addr b a y x Eb Ea) in H. pose proof (sortable_num a x Sa Ea) as Nx. pose proof (sortable_num b y Sb Eb) as Ny.
    destruct x, y; cbn in *; auto; try discriminate; try congruence. apply Qnot_lt_le. intros C. apply Qlt_bool_iff in C. congruence.
  - destruct (lt_number_first addr b a) as [H1 _]; [unfold is_number; congruence|intros N; now apply N|]. congruence.
  - assert (T : String.compare (type_name a) (type_name b) <> Gt).
    { rewrite lt_rank in H; auto; try (intros N; unfold is_number in N; congruence). unfold rank, rank_lt in H. cbn [fst snd] in H. apply orb_false_iff in H. destruct H as [H _].
      assert (Ca : class_name a = type_name a) by (destruct a; try discriminate; reflexivity). assert (Cb : class_name b = type_name b) by (destruct b; try discriminate; reflexivity). rewrite Ca, Cb in H.
      intros C. rewrite String.compare_antisym in C. destruct (String.compare (type_name b) (type_name a)) eqn:E; try discriminate. apply str_ltb_compare in E. congruence. }
    destruct a; auto. destruct b; auto. change (sort_key_lt addr (VStr s0) (VStr s)) with (str_ltb s0 s) in H. intros C. rewrite String.compare_antisym in C. destruct (String.compare s0 s) eqn:E; try discriminate. apply str_ltb_compare in E. congruence.
Qed.
Lemma same_levels_keys l m : same_levels l m <-> NoDup (keys l) /\ NoDup (keys m) /\ forall k, In k (keys l) <-> In k (keys m).
Proof.
  assert (E : forall l w, (exists x, In x l /\ same x w) <-> In (key_of w) (keys l)).
  { intros l0 w. unfold keys. rewrite in_map_iff. split; intros [x [A B]]; exists x; rewrite same_iff in *; auto. }
  unfold same_levels. rewrite !distinct_iff. split; intros [A [B H]]; (split; [exact A|split; [exact B|]]).
  - intros k. split; intros Hk; pose proof Hk as Hk'; apply in_map_iff in Hk'; destruct Hk' as [w [<- _]]; apply E, H, E; exact Hk.
  - intros w. now rewrite !E.
Qed.
Lemma plain_sortable v : CategoricalSpec.plain_value v -> sortable v.
Proof. unfold CategoricalSpec.plain_value, is_number. intros [[H N]|[s ->]]; [|exact Logic.I]. destruct v; cbn in *; auto; try congruence. exact (N _ eq_refl). Qed.
Lemma addr_plain l addr1 addr2 : Forall CategoricalSpec.plain_value l -> sort_levels addr1 l = sort_levels addr2 l.
Proof. intros H. apply sort_levels_plain. eapply Forall_impl; [|exact H]. intros v [[A _]|A]; auto. Qed.
Lemma keys_same l : forall m, keys l = keys m <-> Forall2 same l m.
Proof.
  induction l as [|x l IH]; intros [|y m]; cbn; split; intros H; try discriminate; try inversion H; try constructor; subst; auto.
  - now apply same_iff.
  - now apply IH.
  - f_equal; [now apply same_iff|now apply IH].
Qed.

(** * Tuples *)
Lemma kind_cases k x y : of_kind k x -> of_kind k y ->
  same x y \/ (~ same x y /\ ((python_lt x y = Some true /\ before x y) \/ (python_lt x y = Some false /\ before y x))).
Proof.
  destruct k; cbn.
  - intros [Nx Fx] [Ny Fy]. destruct (number_some x Nx) as [p Ep], (number_some y Ny) as [q Eq].
    assert (Hp : p <> NaN) by (intros ->; destruct x; try discriminate; [destruct neg; discriminate|now apply (Fx id)]).
    assert (Hq : q <> NaN) by (intros ->; destruct y; try discriminate; [destruct neg; discriminate|now apply (Fy id)]).
    assert (Lt : python_lt x y = Some (num_ltb p q)) by (destruct x; try discriminate; destruct y; try discriminate; cbn in Ep, Eq |- *; injection Ep as <-; injection Eq as <-; reflexivity).
    rewrite Lt. destruct (num_eqb p q) eqn:E; [left; now apply (num_same x y p q Ep Eq Hp)|]. right. split; [intros S; apply (num_same x y p q Ep Eq Hp) in S; congruence|].
    unfold before. rewrite Ep, Eq. destruct (num_tri p q Hp Hq) as [L|[L|L]]; [|congruence|].
    + left. split; [now rewrite L|]. destruct p, q; cbn in *; try discriminate; try exact Logic.I. apply Qlt_bool_iff in L. now apply Qlt_le_weak.
    + right. split; [destruct (num_ltb p q) eqn:L'; [pose proof (num_lt_trans p q p L' L) as C; assert (C' : num_ltb p p = false) by (destruct p; cbn; try reflexivity; destruct (Qlt_bool q0 q0) eqn:X; [apply Qlt_bool_iff in X; now apply Qlt_irrefl in X|reflexivity]); congruence|reflexivity]|].
      destruct p, q; cbn in *; try discriminate; try exact Logic.I; try congruence. apply Qlt_bool_iff in L. now apply Qlt_le_weak.
  - intros [s ->] [t ->]. cbn. unfold before. cbn. destruct (String.eqb_spec s t) as [->|Hne]; [left; apply same_refl|]. right.
    split; [unfold same; cbn; intros S; apply String.eqb_eq in S; congruence|]. destruct (str_tri s t) as [L|[L|L]]; [|congruence|].
    + left. split; [now rewrite L|]. apply str_ltb_compare in L. rewrite L. discriminate.
    + right. split; [destruct (str_ltb s t) eqn:L'; [pose proof (str_lt_trans s t s L' L) as C; rewrite str_ltb_irr in C; discriminate|reflexivity]|]. apply str_ltb_compare in L. rewrite L. discriminate.
Qed.
Fixpoint lexlt (l m : list pval) : option bool :=
  match l, m with
  | _, [] => Some false
  | [], _ => Some true
  | x :: l, y :: m => if key_eqb x y then lexlt l m else python_lt x y
  end.
Lemma tuples_lt l m : python_lt (VTuple l) (VTuple m) = lexlt l m.
Proof. revert m. induction l as [|x l IH]; intros [|y m]; cbn [lexlt]; try rewrite <- IH; reflexivity. Qed.
Lemma lexlt_before ks : forall l m, Forall2 of_kind ks l -> Forall2 of_kind ks m -> (lexlt l m = Some true /\ lex_before l m) \/ (lexlt l m = Some false /\ lex_before m l).
Proof.
  induction ks as [|k ks IH]; intros l m Hl Hm; inversion Hl as [|? x ? l' Hx Hl']; subst; inversion Hm as [|? y ? m' Hy Hm']; subst; [right; split; [reflexivity|constructor]|].
  cbn [lexlt]. destruct (kind_cases k x y Hx Hy) as [S|[S H]].
  - unfold same in S. rewrite S. destruct (IH l' m' Hl' Hm') as [[E H]|[E H]]; [left|right]; (split; [exact E|]); apply lex_same; try exact H; [exact S|now apply same_sym].
  - destruct (key_eqb x y) eqn:E; [elim S; exact E|]. destruct H as [[L B]|[L B]]; [left|right]; (split; [exact L|]); apply lex_less; try exact B; [exact S|intros C; apply S; now apply same_sym].
Qed.
Lemma before_trans k x y z : of_kind k x -> of_kind k y -> of_kind k z -> before x y -> before y z -> before x z.
Proof.
  destruct k; cbn.
  - intros [Nx Fx] [Ny Fy] [Nz Fz]. unfold before. destruct (number_some x Nx) as [p ->], (number_some y Ny) as [q ->], (number_some z Nz) as [r ->]. destruct p, q, r; cbn; try tauto. apply Qle_trans.
  - intros [s ->] [t ->] [u ->]. unfold before. cbn. intros H1 H2 H3. rewrite String.compare_antisym in H1, H2. rewrite String.compare_antisym in H3.
    assert (L : str_ltb u s = true) by (apply str_ltb_compare; destruct (String.compare u s); cbn in *; congruence).
    destruct (str_tri t s) as [L1|[->|L1]]; [apply str_ltb_compare in L1; rewrite L1 in H1; now apply H1| |].
    + apply str_ltb_compare in L. rewrite L in H2. now apply H2.
    + pose proof (str_lt_trans u s t L L1) as L2. apply str_ltb_compare in L2. rewrite L2 in H2. now apply H2.
Qed.
Lemma before_same k x y : of_kind k x -> of_kind k y -> same x y -> before x y.
Proof.
  destruct k; cbn.
  - intros [Nx Fx] [Ny Fy] S. unfold before. destruct (number_some x Nx) as [p Ep], (number_some y Ny) as [q Eq]. rewrite Ep, Eq.
    assert (Hp : p <> NaN) by (intros ->; destruct x; try discriminate; [destruct neg; discriminate|now apply (Fx id)]).
    apply (num_same x y p q Ep Eq Hp) in S. destruct p, q; cbn in *; try discriminate; try exact Logic.I. apply Qeq_bool_iff in S. rewrite S. apply Qle_refl.
  - intros [s ->] [t ->] S. unfold same in S. cbn in S. apply String.eqb_eq in S. subst t. unfold before. cbn. intros E. pose proof (String.compare_antisym s s) as X. rewrite E in X. discriminate.
Qed.
Lemma before_antisym k x y : of_kind k x -> of_kind k y -> before x y -> before y x -> same x y.
Proof.
  intros Hx Hy B1 B2. destruct k; cbn in *.
  - destruct Hx as [Nx Fx], Hy as [Ny Fy]. destruct (number_some x Nx) as [p Ep], (number_some y Ny) as [q Eq]. unfold before in *. rewrite Ep, Eq in *.
    assert (Hp : p <> NaN) by (intros ->; destruct x; try discriminate; [destruct neg; discriminate|now apply (Fx id)]).
    apply (num_same x y p q Ep Eq Hp). destruct p, q; cbn in *; try tauto. apply Qeq_bool_iff. now apply Qle_antisym.
  - destruct Hx as [s ->], Hy as [t ->]. unfold before in *. cbn in *. rewrite String.compare_antisym in B2. unfold same. cbn. apply String.eqb_eq. apply String.compare_eq_iff. destruct (String.compare s t); cbn in *; congruence.
Qed.
Lemma lex_trans ks : forall l m n, Forall2 of_kind ks l -> Forall2 of_kind ks m -> Forall2 of_kind ks n -> lex_before l m -> lex_before m n -> lex_before l n.
Proof.
  induction ks as [|k ks IH]; intros l m n Hl Hm Hn; inversion Hl as [|? x ? l' Hx Hl']; subst; inversion Hm as [|? y ? m' Hy Hm']; subst; inversion Hn as [|? z ? n' Hz Hn']; subst; [constructor|].
  intros A B. inversion A as [|? ? ? ? A1 A2|? ? ? ? A1 A2]; subst; inversion B as [|? ? ? ? B1 B2|? ? ? ? B1 B2]; subst.
  - apply lex_less; [eapply (before_trans k x y z); assumption|]. intros S. apply A2. apply (before_antisym k); try assumption. apply (before_trans k y z x); try assumption. apply (before_same k); try assumption. now apply same_sym.
  - apply lex_less; [apply (before_trans k x y z); try assumption; now apply (before_same k)|]. intros S. apply A2. eapply same_trans; [exact S|now apply same_sym].
  - apply lex_less; [apply (before_trans k x y z); try assumption; now apply (before_same k)|]. intros S. apply B2. eapply same_trans; [apply same_sym; exact A1|exact S].
  - apply lex_same; [eapply same_trans; eassumption|]. apply (IH l' m' n'); assumption.
Qed.
Lemma tuple_step addr ks a b : tuple_of ks a -> tuple_of ks b -> (sort_key_lt addr a b = true /\ tuple_before a b) \/ (sort_key_lt addr a b = false /\ tuple_before b a).
Proof.
  intros [l [-> Hl]] [m [-> Hm]]. unfold sort_key_lt. rewrite tuples_lt. destruct (lexlt_before ks l m Hl Hm) as [[-> H]|[-> H]]; [left|right]; (split; [reflexivity|]); eexists _, _; eauto.
Qed.
Lemma tuple_trans ks a b c : tuple_of ks a -> tuple_of ks b -> tuple_of ks c -> tuple_before a b -> tuple_before b c -> tuple_before a c.
Proof.
  intros [l [-> Hl]] [m [-> Hm]] [n [-> Hn]] [l1 [m1 [[= <-] [[= <-] H1]]]] [l2 [m2 [[= <-] [[= <-] H2]]]]. eexists _, _. split; [reflexivity|]. split; [reflexivity|]. apply (lex_trans ks l m n); assumption.
Qed.
Lemma tuples_sorted addr ks l : Forall (tuple_of ks) l -> StronglySorted tuple_before (sort_levels addr l).
Proof.
  assert (G : forall x m, tuple_of ks x -> Forall (tuple_of ks) m -> StronglySorted tuple_before m -> StronglySorted tuple_before (insert (sort_key_lt addr) x m)).
  { intros x m Hx. induction m as [|y m IH]; intros Hm S; cbn; [repeat constructor|]. inversion Hm as [|? ? Hy Hm']; subst. inversion S as [|? ? S' Hs]; subst.
    destruct (tuple_step addr ks y x Hy Hx) as [[-> B]|[-> B]].
    - constructor; [auto|]. rewrite Forall_forall in *. intros z Hz. apply (Permutation_in z (Permutation_sym (insert_perm (sort_key_lt addr) x m))) in Hz. destruct Hz as [<-|Hz]; auto.
    - constructor; [exact S|]. constructor; [exact B|]. rewrite Forall_forall in *. intros z Hz. apply (tuple_trans ks x y z); auto. }
  induction 1 as [|x l Hx Hl IH]; cbn; [constructor|]. apply G; [exact Hx| |exact IH]. rewrite Forall_forall in *. intros z Hz. apply Hl. apply (py_sort_in (sort_key_lt addr)). exact Hz.
Qed.

Lemma sorted_perm_unique {A} (R : A -> A -> Prop) (Hr : forall x y, R x y -> R y x -> x = y) : forall l m, StronglySorted R l -> StronglySorted R m -> Permutation l m -> l = m.
Proof.
  induction l as [|x l IH]; intros m Sl Sm P; [now apply Permutation_nil in P|]. destruct m as [|y m]; [now apply Permutation_sym, Permutation_nil_cons in P|].
  inversion Sl as [|? ? Sl' Hl]; subst. inversion Sm as [|? ? Sm' Hm]; subst. rewrite Forall_forall in Hl, Hm.
  assert (E : x = y).
  { assert (Ix : In x (y :: m)) by (apply (Permutation_in x P); now left). assert (Iy : In y (x :: l)) by (apply (Permutation_in y (Permutation_sym P)); now left).
    destruct Ix as [Ix|Ix]; [congruence|]. destruct Iy as [Iy|Iy]; [exact Iy|]. apply Hr; auto. }
  subst y. f_equal. apply IH; try assumption. now apply Permutation_cons_inv in P.
Qed.
Lemma lex_congr ks : forall l l' m m', Forall2 of_kind ks l -> Forall2 of_kind ks l' -> Forall2 of_kind ks m -> Forall2 of_kind ks m' -> Forall2 same l l' -> Forall2 same m m' -> lex_before l m -> lex_before l' m'.
Proof.
  induction ks as [|k ks IH]; intros l l' m m' Hl Hl' Hm Hm' Sl Sm H.
  - inversion Hl'; subst. inversion Hm'; subst. constructor.
  - inversion Hl as [|? x ? l0 Hx Hl0]; subst; inversion Hm as [|? y ? m0 Hy Hm0]; subst; inversion Hl' as [|? x' ? l0' Hx' Hl0']; subst; inversion Hm' as [|? y' ? m0' Hy' Hm0']; subst.
    inversion Sl as [|? ? ? ? Sx Sl0]; subst. inversion Sm as [|? ? ? ? Sy Sm0]; subst.
    inversion H as [|? ? ? ? B N|? ? ? ? S L]; subst.
    + apply lex_less.
      * apply (before_trans k x' x y'); try assumption; [apply (before_same k); try assumption; now apply same_sym|]. apply (before_trans k x y y'); try assumption. now apply (before_same k).
      * intros S. apply N. eapply same_trans; [exact Sx|]. eapply same_trans; [exact S|now apply same_sym].
    + apply lex_same; [eapply same_trans; [apply same_sym; exact Sx|]; eapply same_trans; [exact S|exact Sy]|]. apply (IH l0 l0' m0 m0'); assumption.
Qed.
Lemma lex_antisym ks : forall l m, Forall2 of_kind ks l -> Forall2 of_kind ks m -> lex_before l m -> lex_before m l -> Forall2 same l m.
Proof.
  induction ks as [|k ks IH]; intros l m Hl Hm; inversion Hl as [|? x ? l' Hx Hl']; subst; inversion Hm as [|? y ? m' Hy Hm']; subst; [constructor|].
  intros A B. inversion A as [|? ? ? ? A1 A2|? ? ? ? A1 A2]; subst; inversion B as [|? ? ? ? B1 B2|? ? ? ? B1 B2]; subst.
  - elim A2. now apply (before_antisym k).
  - elim A2. now apply same_sym.
  - elim B2. now apply same_sym.
  - constructor; [exact A1|]. now apply IH.
Qed.
Lemma tuple_same l m : same (VTuple l) (VTuple m) <-> Forall2 same l m.
Proof.
  unfold same. revert m. induction l as [|x l IH]; intros [|y m]; cbn.
  - split; [constructor|reflexivity].
  - split; [discriminate|intros H; inversion H].
  - split; [discriminate|intros H; inversion H].
  - rewrite andb_true_iff. specialize (IH m). cbn in IH. rewrite IH. split; [intros [A B]; now constructor|intros H; inversion H; subst; auto].
Qed.
Lemma tuples_order addr1 addr2 ks l m : Forall (tuple_of ks) (l ++ m) -> same_levels l m -> Forall2 same (sort_levels addr1 l) (sort_levels addr2 m).
Proof.
  intros Ht H. apply same_levels_keys in H. destruct H as [N1 [N2 K]]. apply keys_same. apply Forall_app in Ht. destruct Ht as [T1 T2].
  set (R := fun k k' => exists a b, tuple_of ks a /\ tuple_of ks b /\ key_of a = k /\ key_of b = k' /\ tuple_before a b).
  assert (G : forall addr l, Forall (tuple_of ks) l -> StronglySorted R (keys (sort_levels addr l))).
  { intros addr l0 Hl. pose proof (tuples_sorted addr ks l0 Hl) as S. assert (Hl' : Forall (tuple_of ks) (sort_levels addr l0)) by (rewrite Forall_forall in *; intros z Hz; apply Hl; now apply (py_sort_in (sort_key_lt addr))).
    revert Hl'. induction S as [|x s Ss IH Hx]; intros Hs; [constructor|]. inversion Hs as [|? ? Hx' Hs']; subst. cbn. constructor; [auto|].
    apply Forall_forall. intros k Hk. apply in_map_iff in Hk. destruct Hk as [y [<- Hy]]. rewrite Forall_forall in Hx, Hs'. exists x, y. auto 6. }
  apply (sorted_perm_unique R); [|now apply G|now apply G|].
  - intros k k' [a [b [Ta [Tb [<- [<- B1]]]]]] [b' [a' [Tb' [Ta' [Eb [Ea B2]]]]]]. destruct Ta as [la [-> Ka]], Tb as [lb [-> Kb]], Ta' as [la' [-> Ka']], Tb' as [lb' [-> Kb']].
    apply same_iff in Ea, Eb. apply same_iff. apply tuple_same. apply tuple_same in Ea, Eb. destruct B1 as [? [? [[= <-] [[= <-] B1]]]], B2 as [? [? [[= <-] [[= <-] B2]]]].
    apply (lex_antisym ks); try assumption. apply (lex_congr ks lb' lb la' la); assumption.
  - transitivity (keys l); [apply Permutation_sym, keys_perm, py_sort_perm|]. transitivity (keys m); [now apply NoDup_Permutation|]. apply keys_perm, py_sort_perm.
Qed.
