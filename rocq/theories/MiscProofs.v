From Coq Require Import Ascii ZArith Permutation DecimalString DecimalNat.
From Verif Require Import Base PySort CategoricalModel CategoricalSortProofs BuildModel BuildProofs BuildInfoProofs MiscModel MiscSpec.
Open Scope nat_scope.
Open Scope string_scope.
Open Scope list_scope.

(** * Level names *)
Lemma string_of_uint_inj u : forall v, NilEmpty.string_of_uint u = NilEmpty.string_of_uint v -> u = v.
Proof. induction u; intros v H; destruct v; cbn in H; try discriminate; auto; injection H as H; f_equal; now apply IHu. Qed.
Lemma nat_str_inj i j : nat_str i = nat_str j -> i = j.
Proof. unfold nat_str. intros H. apply string_of_uint_inj in H. now apply Unsigned.to_uint_inj in H. Qed.
Lemma sapp_inj a : forall x y, String.append a x = String.append a y -> x = y.
Proof. induction a as [|c a IH]; intros x y H; [exact H|]. cbn in H. injection H as H. auto. Qed.
Lemma NoDup_map_inj {A B} (f : A -> B) l : (forall x y, In x l -> In y l -> f x = f y -> x = y) -> NoDup l -> NoDup (map f l).
Proof.
  intros Hf H. induction H as [|x l Hx H IH]; cbn; constructor.
  - intros HI. apply in_map_iff in HI as (y & E & Hy). assert (y = x) by (apply Hf; cbn; auto). now subst.
  - apply IH. intros a b Ha Hb. apply Hf; now right.
Qed.
Lemma level_names_nodup f n : NoDup (level_names f n).
Proof.
  apply NoDup_map_inj; [|apply seq_NoDup]. intros x y _ _ E. apply sapp_inj in E. now apply nat_str_inj.
Qed.
Lemma level_names_in f n s : In s (level_names f n) <-> exists i, (1 <= Z.of_nat i <= n)%Z /\ s = String.append f (nat_str i).
Proof.
  unfold level_names, range1. rewrite in_map_iff. split.
  - intros (i & <- & Hi). apply in_seq in Hi. exists i. split; auto. lia.
  - intros (i & Hi & ->). exists i. split; auto. apply in_seq. lia.
Qed.
Lemma level_names_length f n : List.length (level_names f n) = Z.to_nat n.
Proof. unfold level_names, range1. now rewrite map_length, seq_length. Qed.

(** * Products *)
Lemma product_in {A} (ls : list (list A)) row : In row (product ls) <-> Forall2 (fun l x => In x l) ls row.
Proof.
  revert row. induction ls as [|l ls IH]; intros row; cbn.
  - split; [intros [<-|[]]; constructor|intros H; inversion H; auto].
  - rewrite in_flat_map. split.
    + intros (x & Hx & HI). apply in_map_iff in HI as (r & <- & Hr). constructor; auto. now apply IH.
    + intros H. inversion H; subst. exists y. split; auto. apply in_map. now apply IH.
Qed.
Lemma product_length {A} (ls : list (list A)) : List.length (product ls) = fold_right Nat.mul 1 (map (@List.length A) ls).
Proof.
  induction ls as [|l ls IH]; cbn; auto. rewrite <- IH. clear IH. induction l as [|x l IHl]; cbn; auto.
  rewrite app_length, map_length, IHl. reflexivity.
Qed.
Lemma product_row {A} (ls : list (list A)) row : In row (product ls) -> List.length row = List.length ls.
Proof. intros H. apply product_in in H. induction H; cbn; auto. Qed.
Lemma NoDup_app_intro {A} (l m : list A) : NoDup l -> NoDup m -> (forall x, In x l -> In x m -> False) -> NoDup (l ++ m).
Proof.
  intros H1 H2 H. induction H1 as [|x l Hx H1 IH]; cbn; auto. constructor.
  - rewrite in_app_iff. intros [X|X]; [easy|]. apply (H x); cbn; auto.
  - apply IH. intros y Hy. apply H. now right.
Qed.
Lemma product_nodup {A} (ls : list (list A)) : Forall (@NoDup A) ls -> NoDup (product ls).
Proof.
  intros H. induction H as [|l ls Hl H IH]; cbn; [repeat constructor; easy|].
  induction Hl as [|x l Hx Hl IHl]; cbn; [constructor|]. apply NoDup_app_intro; auto.
  - apply NoDup_map_inj; auto. congruence.
  - intros r Hr Hr'. apply in_map_iff in Hr as (r1 & <- & _). apply in_flat_map in Hr' as (y & Hy & Hr').
    apply in_map_iff in Hr' as (r2 & E & _). injection E as <- <-. easy.
Qed.

(** * The table *)
Lemma fold_min_const l n : (forall x, In x l -> x = n) -> fold_left Nat.min l n = n.
Proof. induction l as [|x l IH]; cbn; auto. intros H. rewrite (H x), Nat.min_id by now left. apply IH. auto. Qed.
Lemma zip_star_rows rows n : rows <> [] -> (forall r, In r rows -> List.length r = n) ->
  zip_star rows = map (fun j => map (fun r => nth j r "") rows) (seq 0 n).
Proof.
  intros Hne H. destruct rows as [|r rs]; [easy|]. unfold zip_star. rewrite (H r (or_introl eq_refl)).
  rewrite fold_min_const; auto. intros x Hx. apply in_map_iff in Hx as (y & <- & Hy). apply H. now right.
Qed.
Lemma concat_repeat_map {A B} (f : A -> B) l n : List.concat (repeat (map f l) n) = map f (List.concat (repeat l n)).
Proof. induction n; cbn; auto. now rewrite IHn, map_app. Qed.
Lemma concat_repeat_length {A} (l : list A) n : List.length (List.concat (repeat l n)) = n * List.length l.
Proof. induction n; cbn; auto. now rewrite app_length, IHn. Qed.
Lemma concat_repeat_in {A} (l : list A) n x : In x (List.concat (repeat l n)) -> In x l.
Proof. induction n; cbn; [easy|]. rewrite in_app_iff. intros [H|H]; auto. Qed.
Lemma concat_repeat_count {A} (dec : forall a b : A, {a = b} + {a <> b}) l n x :
  count_occ dec (List.concat (repeat l n)) x = n * count_occ dec l x.
Proof. induction n; cbn; auto. now rewrite count_occ_app, IHn. Qed.

Lemma combine_nth_self {A} (row : list string) (names : list A) : List.length names = List.length row ->
  map (fun nj : A * nat => (fst nj, nth (snd nj) row "")) (List.combine names (seq 0 (List.length row))) = List.combine names row.
Proof.
  revert names. induction row as [|x row IH]; intros [|m names] H; cbn in *; auto; try lia. f_equal.
  rewrite <- IH by lia. rewrite <- seq_shift. clear. revert names. generalize (seq 0 (List.length row)).
  induction l as [|j l IHl]; intros [|m names]; cbn; auto. f_equal. apply IHl.
Qed.
Lemma combine_map_r {A B C} (f : B -> C) (l : list A) m : List.combine l (map f m) = map (fun p => (fst p, f (snd p))) (List.combine l m).
Proof. revert m. induction l as [|x l IH]; intros [|y m]; cbn; auto. now rewrite IH. Qed.

(** The rows of the columns made from the table [T]. *)
Lemma columns_rows names (T : list (list string)) n : List.length names = n -> (forall r, In r T -> List.length r = n) ->
  table_rows (List.combine names (map (fun j => map (fun r => nth j r "") T) (seq 0 n))) (List.length T) = map (List.combine names) T.
Proof.
  intros Hn HT. unfold table_rows. apply (nth_ext _ _ [] []); [now rewrite !map_length, seq_length|].
  intros i Hi. rewrite map_length, seq_length in Hi.
  rewrite (nth_indep _ [] (row_at (List.combine names (map (fun j => map (fun r => nth j r "") T) (seq 0 n))) 0)) by (rewrite map_length, seq_length; exact Hi).
  rewrite map_nth, seq_nth by exact Hi. cbn [plus].
  rewrite (nth_indep _ [] (List.combine names [])) by (rewrite map_length; exact Hi). rewrite map_nth.
  assert (L : List.length (nth i T []) = n) by (apply HT; now apply nth_In).
  unfold row_at. rewrite combine_map_r, map_map. cbn [fst snd].
  rewrite <- (combine_nth_self (nth i T []) names) by lia. rewrite L. apply map_ext. intros [nm j]. cbn. f_equal.
  rewrite (nth_indep _ "" (nth j [] "")) by (now rewrite map_length). now rewrite (map_nth (fun r => nth j r "")).
Qed.

Lemma combine_names_pick names row : List.length names = List.length row -> NoDup names ->
  List.combine names row = map (fun f => (f, match dget String.eqb f (List.combine names row) with Some x => x | None => "" end)) names.
Proof.
  revert row. induction names as [|f names IH]; intros [|x row] H Hn; cbn in *; auto; try lia.
  inversion Hn as [|? ? Hf Hn']; subst. rewrite String.eqb_refl. f_equal.
  rewrite IH at 1 by (auto; lia). apply map_ext_in. intros g Hg. destruct (String.eqb f g) eqn:E; auto.
  apply String.eqb_eq in E. now subst.
Qed.

Definition sorted_names (kwargs : list (string * Z)) : list string := py_sort str_ltb (map fst kwargs).
Definition count_of (kwargs : list (string * Z)) (f : string) : Z := match dget String.eqb f kwargs with Some n => n | None => 0%Z end.
Lemma count_of_in kwargs f n : NoDup (map fst kwargs) -> In (f, n) kwargs -> count_of kwargs f = n.
Proof.
  unfold count_of. intros Hn H. induction kwargs as [|[g m] kw IH]; [easy|]. cbn in Hn. inversion Hn; subst. cbn [dget].
  destruct H as [[= -> ->]|H]; [now rewrite String.eqb_refl|]. destruct (String.eqb g f) eqn:E; [|now apply IH].
  apply String.eqb_eq in E. subst. exfalso. apply H2. apply in_map_iff. now exists (f, n).
Qed.
Lemma sorted_names_perm kwargs : Permutation (map fst kwargs) (sorted_names kwargs).
Proof. apply py_sort_perm. Qed.
Definition level_lists (kwargs : list (string * Z)) : list (list string) :=
  map (fun f => level_names f (count_of kwargs f)) (sorted_names kwargs).
Lemma sorted_nodup kwargs : NoDup (map fst kwargs) -> NoDup (sorted_names kwargs).
Proof. intros H. exact (Permutation_NoDup (sorted_names_perm kwargs) H). Qed.
Lemma design_size_perm kwargs : NoDup (map fst kwargs) -> List.length (product (level_lists kwargs)) = design_size kwargs.
Proof.
  intros Hn. rewrite product_length. unfold level_lists, design_size. rewrite map_map.
  rewrite (map_ext _ (fun f => Z.to_nat (count_of kwargs f))) by (intros; apply level_names_length).
  transitivity (fold_right Nat.mul 1 (map (fun f => Z.to_nat (count_of kwargs f)) (map fst kwargs))).
  - assert (G : forall l l', Permutation l l' -> fold_right Nat.mul 1 l = fold_right Nat.mul 1 l').
    { intros l l' H. induction H; cbn; lia. }
    apply G. apply Permutation_map. symmetry. apply sorted_names_perm.
  - rewrite map_map. f_equal. apply map_ext_in. intros [f n] H. cbn. now rewrite (count_of_in _ _ n).
Qed.
Lemma product_nonempty {A} (ls : list (list A)) : Forall (fun l => l <> []) ls -> product ls <> [].
Proof.
  intros H. induction H as [|l ls Hl H IH]; cbn; [easy|]. destruct l as [|x l]; [easy|]. cbn.
  destruct (product ls); [easy|]. cbn. easy.
Qed.
Lemma product_empty {A} (ls : list (list A)) : In [] ls -> product ls = [].
Proof.
  induction ls as [|l ls IH]; [easy|]. intros [->|H]; cbn; auto. rewrite (IH H). induction l; cbn; auto.
Qed.
Lemma balanced_eq kwargs rep : NoDup (map fst kwargs) -> (forall f n, In (f, n) kwargs -> (1 <= n)%Z) ->
  balanced kwargs rep = List.combine (sorted_names kwargs)
    (map (fun j => map (fun r => nth j r "") (list_times (product (level_lists kwargs)) rep)) (seq 0 (List.length kwargs))).
Proof.
  intros Hn Hc. unfold balanced. fold (sorted_names kwargs).
  assert (Ls : List.length (sorted_names kwargs) = List.length kwargs).
  { rewrite <- (Permutation_length (sorted_names_perm kwargs)). apply map_length. }
  fold (count_of kwargs). change (map (fun name => level_names name (match dget String.eqb name kwargs with Some n => n | None => 0%Z end)) (sorted_names kwargs)) with (level_lists kwargs).
  rewrite (zip_star_rows _ (List.length kwargs)).
  - rewrite map_map. unfold list_times. rewrite (map_ext _ (fun j => map (fun r => nth j r "") (List.concat (repeat (product (level_lists kwargs)) (Z.to_nat rep)))))
      by (intros; apply concat_repeat_map).
    apply dict_of_distinct, distinct_NoDup. rewrite combine_fst; [now apply sorted_nodup|].
    now rewrite map_length, seq_length.
  - apply product_nonempty. apply Forall_forall. intros l Hl. apply in_map_iff in Hl as (f & <- & Hf).
    apply (Permutation_in _ (Permutation_sym (sorted_names_perm kwargs))) in Hf. apply in_map_iff in Hf as ([g n] & <- & Hg).
    cbn. rewrite (count_of_in _ _ n) by auto. specialize (Hc _ _ Hg). intros E.
    apply (f_equal (@List.length string)) in E. rewrite level_names_length in E. cbn in E. lia.
  - intros r Hr. apply product_row in Hr. rewrite Hr. unfold level_lists. now rewrite map_length.
Qed.
Lemma product_rows_len kwargs rep r : In r (list_times (product (level_lists kwargs)) rep) -> List.length r = List.length kwargs.
Proof.
  intros H. apply concat_repeat_in, product_row in H. rewrite H. unfold level_lists. rewrite map_length.
  rewrite <- (Permutation_length (sorted_names_perm kwargs)). apply map_length.
Qed.
Lemma sorted_len kwargs : List.length (sorted_names kwargs) = List.length kwargs.
Proof. rewrite <- (Permutation_length (sorted_names_perm kwargs)). apply map_length. Qed.
Lemma balanced_rows kwargs rep : NoDup (map fst kwargs) -> (forall f n, In (f, n) kwargs -> (1 <= n)%Z) ->
  table_rows (balanced kwargs rep) (Z.to_nat rep * design_size kwargs) =
  map (List.combine (sorted_names kwargs)) (list_times (product (level_lists kwargs)) rep).
Proof.
  intros Hn Hc. rewrite balanced_eq by auto. rewrite <- columns_rows with (n := List.length kwargs).
  - f_equal. unfold list_times. rewrite concat_repeat_length, design_size_perm by auto. reflexivity.
  - apply sorted_len.
  - intros r. apply product_rows_len.
Qed.
Lemma combine_inj {A B} (names : list A) : forall (r r' : list B), List.length r = List.length names -> List.length r' = List.length names ->
  List.combine names r = List.combine names r' -> r = r'.
Proof. induction names as [|n names IH]; intros [|x r] [|y r'] H H' E; cbn in *; try lia; auto. injection E as -> E. f_equal. auto. Qed.
Lemma pick_row kwargs pick : NoDup (map fst kwargs) -> valid_pick kwargs pick ->
  In (map (fun f => String.append f (nat_str (pick f))) (sorted_names kwargs)) (product (level_lists kwargs)).
Proof.
  intros Hn Hp. apply product_in. unfold level_lists.
  assert (G : forall l, incl l (map fst kwargs) ->
    Forall2 (fun l x => In x l) (map (fun f => level_names f (count_of kwargs f)) l) (map (fun f => String.append f (nat_str (pick f))) l)).
  { intros l. induction l as [|f l IH]; intros Hl; cbn; constructor.
    - assert (Hf : In f (map fst kwargs)) by (apply Hl; now left). apply in_map_iff in Hf as ([g n] & <- & Hg). cbn.
      apply level_names_in. exists (pick g). rewrite (count_of_in _ _ n) by auto. split; [now apply Hp|reflexivity].
    - apply IH. intros x Hx. apply Hl. now right. }
  apply G. intros x Hx. exact (Permutation_in _ (Permutation_sym (sorted_names_perm kwargs)) Hx).
Qed.
Lemma combine_map_self {A B} (g : A -> B) names : List.combine names (map g names) = map (fun f => (f, g f)) names.
Proof. induction names; cbn; congruence. Qed.
Lemma balanced_count kwargs rep pick : NoDup (map fst kwargs) -> (forall f n, In (f, n) kwargs -> (1 <= n)%Z) -> valid_pick kwargs pick ->
  times_in (combination (map fst (balanced kwargs rep)) pick) (table_rows (balanced kwargs rep) (Z.to_nat rep * design_size kwargs)) = Z.to_nat rep.
Proof.
  intros Hn Hc Hp. rewrite balanced_rows by auto.
  assert (N : map fst (balanced kwargs rep) = sorted_names kwargs).
  { rewrite balanced_eq by auto. apply combine_fst. now rewrite map_length, seq_length, sorted_len. }
  rewrite N. unfold times_in, list_times. rewrite <- concat_repeat_map, concat_repeat_count.
  rewrite (proj1 (NoDup_count_occ' _ _)); [lia| |].
  - apply NoDup_map_inj.
    + intros r r' Hr Hr'. apply product_row in Hr, Hr'. unfold level_lists in Hr, Hr'. rewrite map_length in Hr, Hr'. now apply combine_inj.
    + apply product_nodup. apply Forall_forall. intros l Hl. apply in_map_iff in Hl as (f & <- & _). apply level_names_nodup.
  - unfold combination. rewrite <- combine_map_self. apply in_map. now apply pick_row.
Qed.
Lemma valid_rows kwargs row : NoDup (map fst kwargs) -> In row (product (level_lists kwargs)) ->
  exists pick, valid_pick kwargs pick /\ row = map (fun f => String.append f (nat_str (pick f))) (sorted_names kwargs).
Proof.
  intros Hn H. apply product_in in H. unfold level_lists in H. pose proof (sorted_nodup _ Hn) as Hs.
  assert (HP : forall f n, In (f, n) kwargs -> In f (sorted_names kwargs)).
  { intros f n Hf. apply (Permutation_in _ (sorted_names_perm kwargs)). apply in_map_iff. now exists (f, n). }
  assert (G : forall l row, NoDup l -> Forall2 (fun l x => In x l) (map (fun f => level_names f (count_of kwargs f)) l) row ->
    exists pick, (forall f, In f l -> (1 <= Z.of_nat (pick f) <= count_of kwargs f)%Z) /\ row = map (fun f => String.append f (nat_str (pick f))) l).
  { clear. induction l as [|f l IH]; intros row Hn H; cbn in H; inversion H; subst.
    - exists (fun _ => 0). split; [easy|reflexivity].
    - inversion Hn; subst. destruct (IH _ H5 H4) as (pick & Hp & ->). apply level_names_in in H2 as (i & Hi & ->).
      exists (fun g => if String.eqb f g then i else pick g). split.
      + intros g [<-|Hg]; [now rewrite String.eqb_refl|]. destruct (String.eqb f g) eqn:E; [apply String.eqb_eq in E; now subst|auto].
      + cbn. rewrite String.eqb_refl. f_equal. apply map_ext_in. intros g Hg. destruct (String.eqb f g) eqn:E; auto.
        apply String.eqb_eq in E. now subst. }
  destruct (G _ _ Hs H) as (pick & Hp & ->). exists pick. split; auto. intros f n Hf.
  rewrite <- (count_of_in kwargs f n Hn Hf). apply Hp. eapply HP. exact Hf.
Qed.
