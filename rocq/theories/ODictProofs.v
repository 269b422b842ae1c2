From Coq Require Import Permutation.
From Verif Require Import Base NumModel BuildModel ODictModel ODictSpec.
Open Scope nat_scope.
Open Scope list_scope.

Section Proofs.
Context {K A : Type}.
Variable eqb : K -> K -> bool.
Hypothesis Heq : forall a b, eqb a b = true <-> a = b.
Local Notation link := (@link K).
Local Notation odict := (@odict K A).

Lemma eqb_refl k : eqb k k = true. Proof. now apply Heq. Qed.
Lemma eqb_neq a b : a <> b -> eqb a b = false. Proof. intros H. apply not_true_iff_false. now rewrite Heq. Qed.

(** * The heap *)
Lemma set_nth_length {X} (l : list X) i x : length (set_nth l i x) = length l.
Proof. revert i. induction l as [|y l IH]; intros [|i]; cbn; auto. Qed.
Lemma nth_set_nth {X} (l : list X) i x j d : i < length l -> nth j (set_nth l i x) d = if Nat.eqb j i then x else nth j l d.
Proof.
  revert i j. induction l as [|y l IH]; intros i j Hi; [cbn in Hi; lia|]. destruct i as [|i]; cbn [set_nth].
  - destruct j; reflexivity.
  - destruct j as [|j]; [reflexivity|]. cbn [nth Nat.eqb]. apply IH. cbn in Hi. lia.
Qed.
Lemma set_next_length (h : list link) a n : length (set_next h a n) = length h. Proof. apply set_nth_length. Qed.
Lemma set_prev_length (h : list link) a n : length (set_prev h a n) = length h. Proof. apply set_nth_length. Qed.
Lemma next_next (h : list link) a n b : a < length h -> l_next (link_at (set_next h a n) b) = if Nat.eqb b a then n else l_next (link_at h b).
Proof. intros H. unfold link_at at 1, set_next. rewrite nth_set_nth by exact H. destruct (Nat.eqb b a); reflexivity. Qed.
Lemma prev_next (h : list link) a n b : a < length h -> l_prev (link_at (set_next h a n) b) = l_prev (link_at h b).
Proof. intros H. unfold link_at at 1, set_next. rewrite nth_set_nth by exact H. destruct (Nat.eqb_spec b a); [subst; reflexivity|reflexivity]. Qed.
Lemma key_next (h : list link) a n b : a < length h -> l_key (link_at (set_next h a n) b) = l_key (link_at h b).
Proof. intros H. unfold link_at at 1, set_next. rewrite nth_set_nth by exact H. destruct (Nat.eqb_spec b a); [subst; reflexivity|reflexivity]. Qed.
Lemma prev_prev (h : list link) a n b : a < length h -> l_prev (link_at (set_prev h a n) b) = if Nat.eqb b a then n else l_prev (link_at h b).
Proof. intros H. unfold link_at at 1, set_prev. rewrite nth_set_nth by exact H. destruct (Nat.eqb b a); reflexivity. Qed.
Lemma next_prev (h : list link) a n b : a < length h -> l_next (link_at (set_prev h a n) b) = l_next (link_at h b).
Proof. intros H. unfold link_at at 1, set_prev. rewrite nth_set_nth by exact H. destruct (Nat.eqb_spec b a); [subst; reflexivity|reflexivity]. Qed.
Lemma key_prev (h : list link) a n b : a < length h -> l_key (link_at (set_prev h a n) b) = l_key (link_at h b).
Proof. intros H. unfold link_at at 1, set_prev. rewrite nth_set_nth by exact H. destruct (Nat.eqb_spec b a); [subst; reflexivity|reflexivity]. Qed.
Lemma at_app (h : list link) x a : a < length h -> link_at (h ++ [x]) a = link_at h a.
Proof. intros H. unfold link_at. now rewrite app_nth1. Qed.
Lemma at_new (h : list link) x : link_at (h ++ [x]) (length h) = x.
Proof. unfold link_at. rewrite app_nth2, Nat.sub_diag by lia. reflexivity. Qed.

(** From [a] over [l] to [b], forwards and back. *)
Fixpoint chain (h : list link) (a : nat) (l : list nat) (b : nat) : Prop :=
  match l with
  | [] => l_next (link_at h a) = b /\ l_prev (link_at h b) = a
  | x :: r => l_next (link_at h a) = x /\ l_prev (link_at h x) = a /\ chain h x r b
  end.
Lemma chain_app h a l x r b : chain h a (l ++ x :: r) b <-> chain h a l x /\ chain h x r b.
Proof.
  revert a. induction l as [|y l IH]; intros a; cbn [chain app]; [tauto|]. rewrite IH. tauto.
Qed.
Lemma chain_frame h h' a l b : (forall x, x = a \/ In x l -> l_next (link_at h' x) = l_next (link_at h x)) ->
  (forall x, x = b \/ In x l -> l_prev (link_at h' x) = l_prev (link_at h x)) -> chain h a l b -> chain h' a l b.
Proof.
  revert a. induction l as [|x l IH]; intros a Hn Hp; cbn [chain].
  - intros [E1 E2]. rewrite Hn, Hp; auto.
  - intros (E1 & E2 & C). rewrite Hn, Hp by (cbn; auto). split; [exact E1|]. split; [exact E2|]. apply IH; auto; intros y [->|Hy]; (apply Hn || apply Hp); cbn; auto.
Qed.
Definition at_end (a : nat) (l : list nat) : nat := last l a.
Lemma chain_prev h a l b : chain h a l b -> l_prev (link_at h b) = last l a.
Proof.
  revert a. induction l as [|x l IH]; intros a; cbn [chain].
  - intros [_ E]. exact E.
  - intros (_ & _ & C). rewrite (IH _ C). destruct l; [reflexivity|]. cbn [last]. clear. revert n. induction l as [|y l IH]; intros n; [reflexivity|]. cbn [last] in *. apply IH.
Qed.
Lemma chain_next h a l b : chain h a l b -> l_next (link_at h a) = hd b l.
Proof. destruct l; cbn; tauto. Qed.

(** * Dictionaries as functions *)
Lemma dget_dset {B} k v (d : list (K * B)) k' : dget eqb k' (dset eqb k v d) = if eqb k k' then Some v else dget eqb k' d.
Proof.
  induction d as [|[u w] d IH]; cbn [dset dget].
  - reflexivity.
  - destruct (eqb u k) eqn:E; cbn [dget].
    + apply Heq in E. subst u. destruct (eqb k k'); reflexivity.
    + rewrite IH. destruct (eqb u k') eqn:E'; [|reflexivity]. apply Heq in E'. subst u. rewrite eqb_neq; [reflexivity|]. intros ->. rewrite eqb_refl in E. discriminate.
Qed.
Lemma dget_ddel {B} k (d : list (K * B)) k' : dget eqb k' (ddel eqb k d) = if eqb k k' then None else dget eqb k' d.
Proof.
  unfold ddel. induction d as [|[u w] d IH]; cbn [filter dget fst]; [now destruct (eqb k k')|]. destruct (eqb u k) eqn:E; cbn [negb dget].
  - apply Heq in E. subst u. rewrite IH. destruct (eqb k k'); reflexivity.
  - rewrite IH. destruct (eqb u k') eqn:E'; [|reflexivity]. apply Heq in E'. subst u. rewrite eqb_neq; [reflexivity|]. intros ->. rewrite eqb_refl in E. discriminate.
Qed.
Lemma dget_In {B} (d : list (K * B)) k v : NoDup (map fst d) -> dget eqb k d = Some v <-> In (k, v) d.
Proof.
  induction d as [|[u w] d IH]; intros H; cbn [dget]; [split; [discriminate|intros []]|]. inversion H as [|? ? Hn Hd]; subst. destruct (eqb u k) eqn:E.
  - apply Heq in E. subst u. split; [intros [= ->]; now left|]. intros [[= ->]|X]; [reflexivity|]. exfalso. apply Hn. change k with (fst (k, v)). now apply in_map.
  - rewrite IH by exact Hd. split; [now right|]. intros [[= -> ->]|X]; [rewrite eqb_refl in E; discriminate|exact X].
Qed.
Lemma dget_None {B} (d : list (K * B)) k : dget eqb k d = None <-> ~ In k (map fst d).
Proof.
  induction d as [|[u w] d IH]; cbn [dget map fst In]; [tauto|]. destruct (eqb u k) eqn:E.
  - apply Heq in E. subst u. split; [discriminate|]. intros X. exfalso. apply X. now left.
  - rewrite IH. split; [|tauto]. intros X [->|Y]; [rewrite eqb_refl in E; discriminate|tauto].
Qed.
Lemma dset_keys {B} k v (d : list (K * B)) : map fst (dset eqb k v d) = if dmem eqb k d then map fst d else map fst d ++ [k].
Proof.
  unfold dmem. induction d as [|[u w] d IH]; cbn [dset dget map fst app]; [reflexivity|]. destruct (eqb u k) eqn:E; cbn [map fst].
  - reflexivity.
  - rewrite IH. destruct (dget eqb k d); reflexivity.
Qed.
Lemma ddel_keys {B} k (d : list (K * B)) : map fst (ddel eqb k d) = filter (fun u => negb (eqb u k)) (map fst d).
Proof. unfold ddel. induction d as [|[u w] d IH]; cbn [filter map fst]; [reflexivity|]. destruct (negb (eqb u k)); cbn [map fst]; now rewrite IH. Qed.

(** * What the dictionary stands for *)
(** [as_] are the addresses of the links of the items [l]. *)
Record stands (o : odict) (l : list (K * A)) (as_ : list nat) : Prop := {
  st_nodup : NoDup (map fst l);
  st_dict : Permutation (od_dict o) l;
  st_len : length as_ = length l;
  st_addr : NoDup as_ /\ ~ In 0 as_ /\ Forall (fun a => a < length (od_heap o)) as_ /\ 0 < length (od_heap o);
  st_chain : chain (od_heap o) 0 as_ 0;
  st_keys : map (fun a => l_key (link_at (od_heap o) a)) as_ = map (fun p => Some (fst p)) l;
  st_map : forall k a, dget eqb k (od_map o) = Some a <-> In (k, a) (combine (map fst l) as_) }.

Lemma stands_new : stands od_new [] [].
Proof.
  constructor; cbn.
  - constructor.
  - constructor.
  - reflexivity.
  - repeat split; auto using NoDup_nil.
  - split; reflexivity.
  - reflexivity.
  - split; [discriminate|intros []].
Qed.
Lemma dget_stands o l as_ k v : stands o l as_ -> dget eqb k (od_dict o) = Some v <-> In (k, v) l.
Proof.
  intros H. rewrite dget_In.
  - split; apply Permutation_in; [|apply Permutation_sym]; exact (st_dict _ _ _ H).
  - eapply Permutation_NoDup; [apply Permutation_sym, Permutation_map, (st_dict _ _ _ H)|exact (st_nodup _ _ _ H)].
Qed.
Lemma value_find (l : list (K * A)) k v : NoDup (map fst l) -> In (k, v) l -> find (of_key eqb k) l = Some (k, v).
Proof.
  induction l as [|[u w] l IH]; intros H Hi; [destruct Hi|]. inversion H as [|? ? Hn Hd]; subst. unfold of_key. cbn [find fst]. destruct (eqb u k) eqn:E.
  - apply Heq in E. subst u. destruct Hi as [[= ->]|X]; [reflexivity|]. exfalso. apply Hn. change k with (fst (k, v)). now apply in_map.
  - destruct Hi as [[= -> ->]|X]; [rewrite eqb_refl in E; discriminate|]. now apply IH.
Qed.
Lemma has_iff (l : list (K * A)) k : has eqb k l = true <-> In k (map fst l).
Proof.
  unfold has, of_key. rewrite existsb_exists, in_map_iff. split.
  - intros (p & Hp & E). apply Heq in E. exists p. auto.
  - intros (p & E & Hp). exists p. split; [exact Hp|]. now apply Heq.
Qed.
Lemma get_cases o l as_ k : stands o l as_ ->
  (exists v, dget eqb k (od_dict o) = Some v /\ In (k, v) l /\ has eqb k l = true /\ value eqb k l = Ok v) \/
  (dget eqb k (od_dict o) = None /\ has eqb k l = false /\ value eqb k l = Err KeyError /\ ~ In k (map fst l)).
Proof.
  intros H. destruct (dget eqb k (od_dict o)) as [v|] eqn:E.
  - left. exists v. assert (I := proj1 (dget_stands _ _ _ _ _ H) E). split; [reflexivity|]. split; [exact I|]. split.
    + apply has_iff. change k with (fst (k, v)). now apply in_map.
    + unfold value. rewrite (value_find l k v (st_nodup _ _ _ H) I). reflexivity.
  - right. apply dget_None in E. assert (N : ~ In k (map fst l)).
    { intros X. apply E. eapply Permutation_in; [apply Permutation_sym, Permutation_map, (st_dict _ _ _ H)|exact X]. }
    split; [reflexivity|]. assert (F : has eqb k l = false) by (apply not_true_iff_false; rewrite has_iff; exact N). split; [exact F|]. split; [|exact N].
    unfold value. destruct (find (of_key eqb k) l) as [p|] eqn:Ef; [|reflexivity]. exfalso. apply find_some in Ef as [Hp Ep]. apply N. unfold of_key in Ep. apply Heq in Ep. subst k. now apply in_map.
Qed.

(** Going along the links. *)
Lemma walk_next h l as_ b fuel : chain h b as_ 0 -> ~ In 0 as_ -> map (fun a => l_key (link_at h a)) as_ = map (fun p : K * A => Some (fst p)) l -> length as_ <= fuel ->
  walk fuel h l_next (l_next (link_at h b)) = Ok (map fst l).
Proof.
  revert l b fuel. induction as_ as [|a as_ IH]; intros l b fuel C N Hk Hf.
  - cbn [chain] in C. destruct C as [-> _]. destruct l; [|discriminate]. destruct fuel; reflexivity.
  - cbn [chain] in C. destruct C as (-> & _ & C). destruct l as [|[k v] l]; [discriminate|]. cbn [map fst] in Hk. injection Hk as Hk Hr.
    destruct fuel as [|fuel]; [cbn in Hf; lia|]. cbn [walk]. destruct (Nat.eqb_spec a 0); [exfalso; apply N; now left|]. rewrite Hk.
    rewrite (IH l a fuel C) by (auto; try (intros X; apply N; now right); cbn in Hf; lia). reflexivity.
Qed.
Lemma walk_prev h l as_ b fuel : chain h 0 as_ b -> ~ In 0 as_ -> map (fun a => l_key (link_at h a)) as_ = map (fun p : K * A => Some (fst p)) l -> length as_ <= fuel ->
  walk fuel h l_prev (l_prev (link_at h b)) = Ok (rev (map fst l)).
Proof.
  revert l b fuel. induction as_ as [|a as_ IH] using rev_ind; intros l b fuel C N Hk Hf.
  - cbn [chain] in C. destruct C as [_ ->]. destruct l; [|discriminate]. destruct fuel; reflexivity.
  - apply chain_app in C as [C1 C2]. cbn [chain] in C2. destruct C2 as [_ ->]. rewrite map_app in Hk. cbn [map] in Hk.
    destruct (@exists_last _ l) as (l' & [k v] & ->). { intros ->. now destruct (map (fun a => l_key (link_at h a)) as_). }
    rewrite map_app in Hk. cbn [map fst] in Hk. apply app_inj_tail in Hk as [Hr Hk]. rewrite app_length in Hf. cbn [length] in Hf.
    destruct fuel as [|fuel]; [lia|]. cbn [walk]. destruct (Nat.eqb_spec a 0); [exfalso; apply N, in_or_app; right; now left|]. rewrite Hk.
    rewrite (IH l' a fuel C1) by (auto; try (intros X; apply N, in_or_app; now left); lia). cbn [bind]. now rewrite map_app, rev_app_distr.
Qed.
Lemma nodup_bound (as_ : list nat) n : NoDup as_ -> Forall (fun a => a < n) as_ -> length as_ <= n.
Proof.
  intros H F. rewrite <- (seq_length n 0). apply NoDup_incl_length; [exact H|]. intros a Ha. rewrite Forall_forall in F. apply in_seq. specialize (F a Ha). lia.
Qed.
Lemma keys_ok o l as_ : stands o l as_ -> od_keys o = Ok (map fst l) /\ od_reversed o = Ok (rev (map fst l)).
Proof.
  intros H. destruct (st_addr _ _ _ H) as (N & Z & F & _). assert (L := nodup_bound _ _ N F). split.
  - exact (walk_next _ _ _ _ _ (st_chain _ _ _ H) Z (st_keys _ _ _ H) L).
  - exact (walk_prev _ _ _ _ _ (st_chain _ _ _ H) Z (st_keys _ _ _ H) L).
Qed.
Lemma mapM_ok {X Y} (f : X -> result Y) l m : Forall2 (fun x y => f x = Ok y) l m -> mapM f l = Ok m.
Proof. intros H. induction H as [|x y l m E F IH]; [reflexivity|]. cbn [mapM]. rewrite E, IH. reflexivity. Qed.
Lemma items_ok o l as_ : stands o l as_ -> od_items eqb o = Ok l /\ od_values eqb o = Ok (map snd l).
Proof.
  intros H. unfold od_items, od_values. rewrite (proj1 (keys_ok _ _ _ H)). cbn [bind].
  assert (G : forall m, incl m l -> Forall2 (fun k p => od_get eqb k o = Ok (snd p) /\ k = fst p) (map fst m) m).
  { induction m as [|[k v] m IH]; intros Hi; cbn [map fst]; [constructor|]. constructor; [|apply IH; intros p Hp; apply Hi; now right].
    split; [|reflexivity]. unfold od_get. rewrite (proj2 (dget_stands _ _ _ k v H) (Hi _ (or_introl eq_refl))). reflexivity. }
  specialize (G l (incl_refl l)). split; apply mapM_ok.
  - clear H. induction G as [|k [k' v] ks m [E1 E2] G IH]; constructor; auto. cbn [fst snd] in *. subst k'. rewrite E1. reflexivity.
  - clear H. induction G as [|k [k' v] ks m [E1 E2] G IH]; cbn [map]; constructor; auto.
Qed.
Lemma len_ok o l as_ : stands o l as_ -> length (od_dict o) = length l.
Proof. intros H. apply Permutation_length, (st_dict _ _ _ H). Qed.

(** * Setting *)
Lemma combine_in_keys (l : list (K * A)) (as_ : list nat) k a : In (k, a) (combine (map fst l) as_) -> In k (map fst l) /\ In a as_.
Proof. intros H. split; [exact (in_combine_l _ _ _ _ H)|exact (in_combine_r _ _ _ _ H)]. Qed.
Lemma combine_app {X Y} (a a' : list X) (b b' : list Y) : length a = length b -> combine (a ++ a') (b ++ b') = combine a b ++ combine a' b'.
Proof. revert b. induction a as [|x a IH]; intros [|y b] H; cbn in *; try discriminate; [reflexivity|]. now rewrite IH by congruence. Qed.
Lemma dset_perm k v (d : list (K * A)) l : NoDup (map fst l) -> Permutation d l -> Permutation (dset eqb k v d) (put eqb k v l).
Proof.
  intros N P.
  assert (Nd : NoDup (map fst d)) by (eapply Permutation_NoDup; [apply Permutation_sym, Permutation_map, P|exact N]).
  unfold put. destruct (has eqb k l) eqn:Eh.
  - apply has_iff in Eh.
    assert (E : dset eqb k v d = map (fun p => if of_key eqb k p then (fst p, v) else p) d).
    { assert (Hk : In k (map fst d)) by (eapply Permutation_in; [apply Permutation_sym, Permutation_map, P|exact Eh]). clear -Heq Nd Hk.
      induction d as [|[u w] d IH]; [destruct Hk|]. inversion Nd as [|? ? Hn Hd]; subst. cbn [dset map]. change (of_key eqb k (u, w)) with (eqb u k). cbn [fst]. destruct (eqb u k) eqn:E.
      - f_equal. apply Heq in E. subst u. clear -Heq Hn. induction d as [|[u w] d IH]; [reflexivity|]. cbn [map]. rewrite <- IH by (intros X; apply Hn; now right).
        change (of_key eqb k (u, w)) with (eqb u k). rewrite eqb_neq; [reflexivity|]. intros ->. apply Hn. now left.
      - f_equal. apply IH; [exact Hd|]. cbn [map fst] in Hk. destruct Hk as [->|X]; [rewrite eqb_refl in E; discriminate|exact X]. }
    rewrite E. apply Permutation_map, P.
  - assert (E : dset eqb k v d = d ++ [(k, v)]).
    { assert (Hk : ~ In k (map fst d)). { intros X. apply not_true_iff_false in Eh. apply Eh, has_iff. eapply Permutation_in; [apply Permutation_map, P|exact X]. } clear -Heq Hk.
      induction d as [|[u w] d IH]; [reflexivity|]. cbn [dset app]. rewrite eqb_neq by (intros ->; apply Hk; now left). f_equal. apply IH. intros X. apply Hk. now right. }
    rewrite E. now apply Permutation_app_tail.
Qed.
Lemma put_keys k v (l : list (K * A)) : map fst (put eqb k v l) = if has eqb k l then map fst l else map fst l ++ [k].
Proof.
  unfold put. destruct (has eqb k l).
  - rewrite map_map. apply map_ext. intros p. destruct (of_key eqb k p); reflexivity.
  - now rewrite map_app.
Qed.
Lemma last_cases (l : list nat) a : l = [] /\ last l a = a \/ exists l' x, l = l' ++ [x] /\ last l a = x.
Proof. destruct l as [|x l] using rev_ind; [now left|]. right. exists l, x. split; [reflexivity|]. apply last_last. Qed.
Lemma NoDup_snoc {X} (l : list X) x : NoDup l -> ~ In x l -> NoDup (l ++ [x]).
Proof. intros H N. eapply Permutation_NoDup; [apply Permutation_cons_append|]. now constructor. Qed.
Lemma set_ok o l as_ k v : stands o l as_ -> exists as', stands (od_set eqb k v o) (put eqb k v l) as'.
Proof.
  intros H. pose proof (dset_perm k v _ _ (st_nodup _ _ _ H) (st_dict _ _ _ H)) as P.
  unfold od_set, dmem. destruct (get_cases o l as_ k H) as [(w & E & Hi & Eh & _)|(E & Eh & _ & N)]; rewrite E.
  - exists as_. assert (Ek : map fst (put eqb k v l) = map fst l) by (rewrite put_keys, Eh; reflexivity).
    destruct H as [H1 H2 H3 H4 H5 H6 H7]. constructor; cbn [od_dict od_map od_heap]; auto.
    + now rewrite Ek. + rewrite H3. rewrite <- (map_length fst (put eqb k v l)), Ek. now rewrite map_length.
    + rewrite H6. rewrite <- (map_map fst (@Some K)), <- (map_map fst (@Some K)), Ek. reflexivity.
    + now rewrite Ek.
  - set (h := od_heap o). set (new := length h). set (last := l_prev (link_at h 0)). exists (as_ ++ [new]).
    assert (Ep : put eqb k v l = l ++ [(k, v)]) by (unfold put; now rewrite Eh).
    destruct H as [H1 H2 H3 (A1 & A2 & A3 & A4) H5 H6 H7]. fold h in A3, A4, H5, H6, H7.
    assert (El : last = List.last as_ 0) by (exact (chain_prev _ _ _ _ H5)).
    assert (Ln : last < new). { unfold new. destruct (last_cases as_ 0) as [[-> E']|(l' & x & -> & E')]; rewrite El, E'; [lia|]. rewrite Forall_forall in A3. apply A3, in_or_app. right. now left. }
    set (h1 := h ++ [mkLink last 0 (Some k)]). assert (L1 : length h1 = S new) by (unfold h1, new; rewrite app_length; cbn; lia).
    set (h2 := set_next h1 last new). assert (L2 : length h2 = S new) by (unfold h2; now rewrite set_next_length).
    set (h3 := set_prev h2 0 new). assert (L3 : length h3 = S new) by (unfold h3; now rewrite set_prev_length).
    assert (Nx : forall a, l_next (link_at h3 a) = if Nat.eqb a last then new else l_next (link_at h1 a)).
    { intros a. unfold h3. rewrite next_prev by lia. unfold h2. apply next_next. lia. }
    assert (Pv : forall a, l_prev (link_at h3 a) = if Nat.eqb a 0 then new else l_prev (link_at h1 a)).
    { intros a. unfold h3. rewrite prev_prev by lia. destruct (Nat.eqb a 0); [reflexivity|]. unfold h2. apply prev_next. lia. }
    assert (Ky : forall a, l_key (link_at h3 a) = l_key (link_at h1 a)).
    { intros a. unfold h3. rewrite key_prev by lia. unfold h2. apply key_next. lia. }
    assert (Nnew : ~ In new as_). { intros X. rewrite Forall_forall in A3. specialize (A3 _ X). unfold new in A3. lia. }
    constructor; cbn [od_dict od_map od_heap].
    + rewrite Ep, map_app. cbn [map fst]. now apply NoDup_snoc.
    + exact P.
    + rewrite Ep, !app_length. cbn. lia.
    + fold h new h1 h2 h3. split; [now apply NoDup_snoc|]. split.
      { intros X. apply in_app_or in X as [X|[X|[]]]; [now apply A2|]. unfold new in X. lia. }
      split; [|rewrite L3; lia]. rewrite L3. apply Forall_app. split; [|constructor; [lia|constructor]]. eapply Forall_impl; [|exact A3]. intros a. unfold new. cbn. lia.
    + fold h last new h1 h2 h3. rewrite chain_app. split.
      * assert (C : chain h3 0 as_ new).
        { destruct (last_cases as_ 0) as [[E0 E1]|(l' & x & E0 & E1)].
          - subst as_. cbn [chain]. rewrite Nx, Pv. rewrite El, E1. cbn [Nat.eqb]. split; [reflexivity|].
            destruct (Nat.eqb_spec new 0); [unfold new in *; lia|]. unfold h1, new. rewrite at_new. cbn [l_prev]. rewrite El, E1. reflexivity.
          - subst as_. rewrite E1 in El. rewrite chain_app in H5 |- *. destruct H5 as [C1 C2]. split.
            + eapply chain_frame; [| |exact C1].
              * intros y Hy. rewrite Nx. destruct (Nat.eqb_spec y last) as [->|_].
                { exfalso. rewrite El in Hy. destruct Hy as [->|Hy]; [apply A2, in_or_app; right; now left|]. apply NoDup_remove_2 in A1. apply A1. rewrite app_nil_r. exact Hy. }
                unfold h1. rewrite at_app; [reflexivity|]. destruct Hy as [->|Hy]; [exact A4|]. rewrite Forall_forall in A3. apply A3, in_or_app. now left.
              * intros y Hy. rewrite Pv. destruct (Nat.eqb_spec y 0) as [->|_].
                { exfalso. apply A2, in_or_app. destruct Hy as [<-|Hy]; [right; now left|now left]. }
                unfold h1. rewrite at_app; [reflexivity|]. rewrite Forall_forall in A3. apply A3, in_or_app. destruct Hy as [->|Hy]; [right; now left|now left].
            + cbn [chain]. rewrite Nx, Pv, El, Nat.eqb_refl. split; [reflexivity|]. destruct (Nat.eqb_spec new 0); [unfold new in *; lia|]. unfold h1, new. rewrite at_new. cbn [l_prev]. now rewrite El. }
        exact C.
      * cbn [chain]. rewrite Nx, Pv. cbn [Nat.eqb]. destruct (Nat.eqb_spec new last); [lia|]. unfold h1, new. rewrite at_new. split; reflexivity.
    + fold h new h1 h2 h3. rewrite Ep, !map_app. cbn [map fst]. f_equal.
      * rewrite <- H6. apply map_ext_in. intros a Ha. rewrite Ky. unfold h1. rewrite at_app; [reflexivity|]. rewrite Forall_forall in A3. now apply A3.
      * rewrite Ky. unfold h1, new. rewrite at_new. reflexivity.
    + intros k' a. rewrite dget_dset. fold h new. rewrite Ep, map_app. cbn [map fst]. rewrite combine_app by (now rewrite map_length). rewrite in_app_iff. cbn [combine In].
      destruct (eqb k k') eqn:E'.
      * apply Heq in E'. subst k'. split; [intros [= <-]; right; now left|]. intros [X|[[= <-]|[]]]; [|reflexivity]. exfalso. apply N, (proj1 (combine_in_keys _ _ _ _ X)).
      * rewrite H7. split; [now left|]. intros [X|[[= -> _]|[]]]; [exact X|]. rewrite eqb_refl in E'. discriminate.
Qed.

(** * Deleting *)
Lemma find_place (l : list (K * A)) (as_ : list nat) k a : length as_ = length l -> In (k, a) (combine (map fst l) as_) ->
  exists l1 v l2 b1 b2, l = l1 ++ (k, v) :: l2 /\ as_ = b1 ++ a :: b2 /\ length b1 = length l1.
Proof.
  revert as_. induction l as [|[u w] l IH]; intros [|b as_] L Hi; cbn in *; try easy. destruct Hi as [[= -> ->]|Hi].
  - exists [], w, l, [], as_. auto.
  - destruct (IH as_ ltac:(congruence) Hi) as (l1 & v & l2 & b1 & b2 & -> & -> & E). exists ((u, w) :: l1), v, l2, (b :: b1), b2. cbn. auto.
Qed.
Lemma without_mid (l1 l2 : list (K * A)) k v : NoDup (map fst (l1 ++ (k, v) :: l2)) -> without eqb k (l1 ++ (k, v) :: l2) = l1 ++ l2.
Proof.
  intros N. rewrite map_app in N. cbn [map fst] in N. apply NoDup_remove_2 in N. unfold without, of_key. rewrite filter_app. cbn [filter fst]. rewrite eqb_refl. cbn [negb].
  assert (G : forall m : list (K * A), ~ In k (map fst m) -> filter (fun p => negb (eqb (fst p) k)) m = m).
  { induction m as [|[u w] m IH]; intros Hn; [reflexivity|]. cbn [filter fst]. rewrite eqb_neq by (intros ->; apply Hn; now left). cbn [negb]. f_equal. apply IH. intros X. apply Hn. now right. }
  rewrite !G; [reflexivity| |]; intros X; apply N, in_or_app; [now right|now left].
Qed.
(** Taking one link out of the chain. *)
Lemma unlink_ok o l1 k v l2 b1 a b2 : stands o (l1 ++ (k, v) :: l2) (b1 ++ a :: b2) -> length b1 = length l1 ->
  let pr := l_prev (link_at (od_heap o) a) in let nx := l_next (link_at (od_heap o) a) in
  pr = last b1 0 /\ nx = hd 0 b2 /\
  stands (mkOD (ddel eqb k (od_dict o)) (ddel eqb k (od_map o)) (set_prev (set_next (od_heap o) pr nx) nx pr)) (l1 ++ l2) (b1 ++ b2).
Proof.
  intros H Lb pr nx. set (h := od_heap o) in *. destruct H as [H1 H2 H3 (A1 & A2 & A3 & A4) H5 H6 H7]. fold h in A3, A4, H5, H6.
  apply chain_app in H5 as [C1 C2]. assert (Epr : pr = last b1 0) by (exact (chain_prev _ _ _ _ C1)). assert (Enx : nx = hd 0 b2) by (exact (chain_next _ _ _ _ C2)).
  split; [exact Epr|]. split; [exact Enx|].
  assert (Na : ~ In a (b1 ++ b2)) by (now apply NoDup_remove_2 in A1). assert (Nab : NoDup (b1 ++ b2)) by (now apply NoDup_remove_1 in A1).
  assert (A0 : a <> 0) by (intros ->; apply A2, in_or_app; right; now left).
  assert (F : Forall (fun x => x < length h) (b1 ++ b2)).
  { rewrite Forall_forall in *. intros x Hx. apply A3. apply in_app_or in Hx as [X|X]; apply in_or_app; [now left|right; now right]. }
  assert (N0 : ~ In 0 (b1 ++ b2)) by (intros X; apply A2; apply in_app_or in X as [X|X]; apply in_or_app; [now left|right; now right]).
  assert (Lp : pr < length h). { rewrite Epr. destruct (last_cases b1 0) as [[-> ->]|(b' & x & -> & ->)]; [exact A4|]. rewrite Forall_forall in F. apply F. rewrite <- app_assoc. apply in_or_app. right. now left. }
  assert (Ln : nx < length h). { rewrite Enx. destruct b2 as [|x b2]; [exact A4|]. cbn [hd]. rewrite Forall_forall in F. apply F, in_or_app. right. now left. }
  set (h1 := set_next h pr nx). set (h2 := set_prev h1 nx pr). assert (L1 : length h1 = length h) by apply set_next_length. assert (L2 : length h2 = length h) by (unfold h2; now rewrite set_prev_length).
  assert (Nx : forall x, l_next (link_at h2 x) = if Nat.eqb x pr then nx else l_next (link_at h x)).
  { intros x. unfold h2. rewrite next_prev by lia. unfold h1. now apply next_next. }
  assert (Pv : forall x, l_prev (link_at h2 x) = if Nat.eqb x nx then pr else l_prev (link_at h x)).
  { intros x. unfold h2. rewrite prev_prev by lia. destruct (Nat.eqb x nx); [reflexivity|]. unfold h1. now apply prev_next. }
  assert (Ky : forall x, l_key (link_at h2 x) = l_key (link_at h x)).
  { intros x. unfold h2. rewrite key_prev by lia. unfold h1. now apply key_next. }
  assert (Nk : ~ In k (map fst (l1 ++ l2))). { rewrite map_app in *. cbn [map fst] in H1. now apply NoDup_remove_2 in H1. }
  constructor; cbn [od_dict od_map od_heap].
  - rewrite map_app in *. cbn [map fst] in H1. now apply NoDup_remove_1 in H1.
  - rewrite <- (without_mid l1 l2 k v H1). unfold ddel, without, of_key. clear -H2. induction H2; cbn [filter]; auto.
    + destruct (negb _); auto. + destruct (negb (eqb (fst x) k)), (negb (eqb (fst y) k)); auto. constructor. + eapply perm_trans; eassumption.
  - rewrite !app_length in *. cbn in H3. lia.
  - fold h h1 h2. rewrite L2. auto.
  - fold h h1 h2.
    (* the chain: forwards only the link before [a] changes, backwards only the one after it *)
    assert (G1 : chain h2 0 b1 (hd 0 b2) /\ forall x b2', b2 = x :: b2' -> chain h2 x b2' 0).
    { split.
      - rewrite <- Enx. destruct (last_cases b1 0) as [[E0 E1]|(b' & x & E0 & E1)].
        + subst b1. rewrite E1 in Epr. cbn [chain]. rewrite Nx, Pv, Epr, !Nat.eqb_refl. split; reflexivity.
        + subst b1. rewrite E1 in Epr. rewrite chain_app in C1 |- *. destruct C1 as [C1 C1']. split.
          * eapply chain_frame; [| |exact C1].
            -- intros y Hy. rewrite Nx. destruct (Nat.eqb_spec y pr) as [->|_]; [|reflexivity]. exfalso. rewrite Epr in Hy. destruct Hy as [->|Hy].
               ++ apply N0. rewrite <- app_assoc. apply in_or_app. right. now left.
               ++ rewrite <- app_assoc in Nab. cbn [app] in Nab. apply NoDup_remove_2 in Nab. apply Nab, in_or_app. now left.
            -- intros y Hy. rewrite Pv. destruct (Nat.eqb_spec y nx) as [->|_]; [|reflexivity]. exfalso. rewrite Enx in Hy. assert (Hy' : In (hd 0 b2) (b' ++ [x])) by (apply in_or_app; destruct Hy as [<-|Hy]; [right; now left|now left]).
               destruct b2 as [|z b2]; cbn [hd] in Hy'; [apply N0, in_or_app; now left|]. apply NoDup_remove_2 in Nab. apply Nab, in_or_app. now left.
          * cbn [chain]. rewrite Nx, Pv, Epr, !Nat.eqb_refl. split; reflexivity.
      - intros x b2' ->. cbn [chain] in C2. destruct C2 as (E1 & E2 & C2). cbn [hd] in Enx. eapply chain_frame; [| |exact C2].
        + intros y Hy. rewrite Nx. destruct (Nat.eqb_spec y pr) as [->|_]; [|reflexivity]. exfalso. assert (Hy' : In pr (x :: b2')) by (destruct Hy as [->|Hy]; [now left|now right]).
          rewrite Epr in Hy'. destruct (last_cases b1 0) as [[Q0 Q1]|(b' & z & Q0 & Q1)]; rewrite Q1 in Hy'.
          * apply N0, in_or_app. now right.
          * subst b1. rewrite <- app_assoc in Nab. cbn [app] in Nab. apply NoDup_remove_2 in Nab. apply Nab, in_or_app. now right.
        + intros y Hy. rewrite Pv. destruct (Nat.eqb_spec y nx) as [->|_]; [|reflexivity]. exfalso. rewrite Enx in Hy. destruct Hy as [->|Hy].
          * apply N0, in_or_app. right. now left.
          * apply NoDup_remove_2 in Nab. apply Nab, in_or_app. now right. }
    destruct G1 as [G1 G2]. destruct b2 as [|x b2]; [rewrite app_nil_r; exact G1|]. apply chain_app. split; [exact G1|]. now apply G2.
  - fold h h1 h2. rewrite map_app in H6. cbn [map fst] in H6. rewrite map_app in H6. cbn [map fst] in H6. 
    assert (Hs : map (fun x => l_key (link_at h x)) b1 = map (fun p => Some (fst p)) l1 /\ map (fun x => l_key (link_at h x)) b2 = map (fun p => Some (fst p)) l2).
    { assert (Ll : length (map (fun x => l_key (link_at h x)) b1) = length (map (fun p : K * A => Some (fst p)) l1)) by (now rewrite !map_length). revert H6 Ll. generalize (map (fun x => l_key (link_at h x)) b1), (map (fun p : K * A => Some (fst p)) l1).
      intros u w. revert w. induction u as [|x u IH]; intros [|y w] E Ll; cbn in *; try discriminate; [now injection E|]. injection E as -> E. destruct (IH w E ltac:(congruence)) as [-> ->]. auto. }
    destruct Hs as [S1 S2]. rewrite !map_app, <- S1, <- S2. f_equal; apply map_ext; intros y; apply Ky.
  - intros k' x. rewrite dget_ddel. specialize (H7 k' x). rewrite map_app in *. cbn [map fst] in H7. rewrite combine_app in H7 |- * by (now rewrite map_length). cbn [combine] in H7. rewrite in_app_iff in *. cbn [In] in H7.
    destruct (eqb k k') eqn:E'.
    + apply Heq in E'. subst k'. split; [discriminate|]. intros X. exfalso. apply Nk. destruct X as [X|X]; [left|right]; exact (in_combine_l _ _ _ _ X).
    + rewrite H7. split; [|tauto]. intros [X|[[= -> _]|X]]; auto. rewrite eqb_refl in E'. discriminate.
Qed.
Lemma map_place o l as_ k v : stands o l as_ -> In (k, v) l -> exists a, dget eqb k (od_map o) = Some a /\
  exists l1 l2 b1 b2, l = l1 ++ (k, v) :: l2 /\ as_ = b1 ++ a :: b2 /\ length b1 = length l1.
Proof.
  intros H Hi. assert (Ha : exists a, In (k, a) (combine (map fst l) as_)).
  { assert (L : length (map fst l) = length as_) by (rewrite map_length; symmetry; exact (st_len _ _ _ H)). assert (Hk : In k (map fst l)) by (change k with (fst (k, v)); now apply in_map).
    clear -L Hk. revert as_ L. induction (map fst l) as [|u m IH]; intros [|a as_] L; cbn in *; try easy. destruct Hk as [->|Hk]; [exists a; now left|]. destruct (IH Hk as_ ltac:(congruence)) as [b Hb]. exists b. now right. }
  destruct Ha as [a Ha]. exists a. split; [now apply (st_map _ _ _ H)|]. destruct (find_place l as_ k a (st_len _ _ _ H) Ha) as (l1 & v' & l2 & b1 & b2 & E1 & E2 & E3).
  exists l1, l2, b1, b2. split; [|auto]. rewrite E1. f_equal. f_equal. f_equal.
  assert (D1 := proj2 (dget_stands o l as_ k v H) Hi). assert (D2 : dget eqb k (od_dict o) = Some v') by (apply (dget_stands o l as_ k v' H); rewrite E1; apply in_or_app; right; now left). congruence.
Qed.
Lemma del_ok o l as_ k : stands o l as_ ->
  if has eqb k l then exists o' as', od_del eqb k o = (Ok tt, o') /\ stands o' (without eqb k l) as' else od_del eqb k o = (Err KeyError, o).
Proof.
  intros H. destruct (get_cases o l as_ k H) as [(v & E & Hi & -> & _)|(E & -> & _ & N)]; unfold od_del; rewrite E; [|reflexivity].
  destruct (map_place _ _ _ _ _ H Hi) as (a & -> & l1 & l2 & b1 & b2 & -> & -> & L). destruct (unlink_ok _ _ _ _ _ _ _ _ H L) as (_ & _ & U).
  eexists _, (b1 ++ b2). split; [reflexivity|]. rewrite (without_mid l1 l2 k v (st_nodup _ _ _ H)). exact U.
Qed.
Lemma popitem_ok o l as_ (last : bool) : stands o l as_ ->
  match (if last then rev l else l) with
  | [] => od_popitem eqb last o = (Err KeyError, o)
  | p :: r => exists o' as', od_popitem eqb last o = (Ok p, o') /\ stands o' (if last then rev r else r) as'
  end.
Proof.
  intros H. unfold od_popitem. destruct (od_dict o) as [|p0 d0] eqn:Ed.
  - assert (l = []) by (apply Permutation_nil; rewrite <- Ed; exact (st_dict _ _ _ H)). subst l. now destruct last.
  - assert (Nl : l <> []). { intros ->. pose proof (st_dict _ _ _ H) as P. rewrite Ed in P. symmetry in P. now apply Permutation_nil_cons in P. }
    rewrite <- Ed. clear Ed p0 d0. destruct last.
    + destruct (exists_last Nl) as (l1 & [k v] & ->). rewrite rev_app_distr. cbn [rev app].
      assert (La := st_len _ _ _ H). rewrite app_length in La. cbn in La. destruct (@exists_last _ as_) as (b1 & a & ->); [intros ->; cbn in La; lia|].
      rewrite app_length in La. cbn in La. assert (L : length b1 = length l1) by lia. destruct (unlink_ok _ _ _ _ _ _ _ _ H L) as (Epr & Enx & U). cbn [hd] in Enx.
      assert (Er : l_prev (link_at (od_heap o) 0) = a) by (rewrite (chain_prev _ _ _ _ (st_chain _ _ _ H)); apply last_last). rewrite Er.
      assert (Ek : l_key (link_at (od_heap o) a) = Some k). { pose proof (st_keys _ _ _ H) as X. rewrite !map_app in X. cbn [map fst] in X. now apply app_inj_tail in X as [_ X]. }
      rewrite Ek. assert (Hi : In (k, v) (l1 ++ [(k, v)])) by (apply in_or_app; right; now left).
      destruct (map_place _ _ _ _ _ H Hi) as (a' & -> & _). rewrite (proj2 (dget_stands _ _ _ _ _ H) Hi).
      eexists _, (b1 ++ []). split; [reflexivity|]. rewrite rev_involutive. rewrite Enx in U. rewrite !app_nil_r in *. exact U.
    + destruct l as [|[k v] l]; [easy|]. assert (La := st_len _ _ _ H). destruct as_ as [|a as_]; [cbn in La; lia|].
      destruct (unlink_ok o [] k v l [] a as_ H eq_refl) as (Epr & Enx & U). cbn [List.last app] in *.
      assert (Er : l_next (link_at (od_heap o) 0) = a) by (exact (chain_next _ _ _ _ (st_chain _ _ _ H))). rewrite Er.
      assert (Ek : l_key (link_at (od_heap o) a) = Some k). { pose proof (st_keys _ _ _ H) as X. cbn [map fst] in X. now injection X. }
      rewrite Ek. assert (Hi : In (k, v) ((k, v) :: l)) by now left.
      destruct (map_place _ _ _ _ _ H Hi) as (a' & -> & _). rewrite (proj2 (dget_stands _ _ _ _ _ H) Hi).
      eexists _, as_. split; [reflexivity|]. rewrite Epr in U. exact U.
Qed.
Lemma update_ok m : forall o l as_, stands o l as_ -> exists as', stands (od_update eqb m o) (fold_left (fun l p => put eqb (fst p) (snd p) l) m l) as'.
Proof.
  induction m as [|[k v] m IH]; intros o l as_ H; [exists as_; exact H|]. unfold od_update. cbn [fold_left fst snd]. destruct (set_ok _ _ _ k v H) as [as' H']. exact (IH _ _ _ H').
Qed.

(** * All calls *)
Lemma step_ok c o l as_ : no_clear c -> stands o l as_ ->
  fst (perform eqb c o) = fst (step eqb c l) /\ exists as', stands (snd (perform eqb c o)) (snd (step eqb c l)) as'.
Proof.
  intros Nc H. destruct c as [k v|k|k d|last|k v|m|k|k| | | | | |]; cbn [perform step].
  - split; [reflexivity|]. now apply (set_ok _ _ as_).
  - pose proof (del_ok _ _ _ k H) as D. destruct (has eqb k l).
    + destruct D as (o' & as' & -> & S). split; [reflexivity|]. eauto.
    + rewrite D. split; [reflexivity|]. eauto.
  - unfold od_pop. pose proof (del_ok _ _ _ k H) as D. destruct (get_cases o l as_ k H) as [(v & E & Hi & Eh & Ev)|(E & Eh & Ev & N)]; rewrite E; rewrite Eh in *.
    + destruct D as (o' & as' & -> & S). rewrite Ev. split; [reflexivity|]. eauto.
    + destruct d; (split; [reflexivity|]); eauto.
  - pose proof (popitem_ok _ _ _ last H) as P. destruct (if last then rev l else l) as [|p r].
    + rewrite P. split; [reflexivity|]. eauto.
    + destruct P as (o' & as' & -> & S). split; [reflexivity|]. eauto.
  - unfold od_setdefault. destruct (get_cases o l as_ k H) as [(w & E & Hi & Eh & Ev)|(E & Eh & Ev & N)]; rewrite E, Eh.
    + rewrite Ev. split; [reflexivity|]. eauto.
    + split; [reflexivity|]. destruct (set_ok _ _ _ k v H) as [as' S]. unfold put in S. rewrite Eh in S. eauto.
  - split; [reflexivity|]. now apply (update_ok m o l as_).
  - split; [|eauto]. unfold od_get. cbn [fst]. destruct (get_cases o l as_ k H) as [(w & E & Hi & Eh & Ev)|(E & Eh & Ev & N)]; rewrite E, Ev; reflexivity.
  - split; [|eauto]. unfold dmem. cbn [fst]. destruct (get_cases o l as_ k H) as [(w & E & Hi & Eh & Ev)|(E & Eh & Ev & N)]; rewrite E, Eh; reflexivity.
  - split; [|eauto]. cbn [fst]. now rewrite (len_ok _ _ _ H).
  - split; [|eauto]. cbn [fst]. now rewrite (proj1 (keys_ok _ _ _ H)).
  - split; [|eauto]. cbn [fst]. now rewrite (proj2 (keys_ok _ _ _ H)).
  - split; [|eauto]. cbn [fst]. now rewrite (proj2 (items_ok _ _ _ H)).
  - split; [|eauto]. cbn [fst]. now rewrite (proj1 (items_ok _ _ _ H)).
  - destruct Nc.
Qed.
Lemma steps_ok cs : forall o l as_, Forall no_clear cs -> stands o l as_ ->
  fst (perform_all eqb cs o) = fst (steps eqb cs l) /\ exists as', stands (snd (perform_all eqb cs o)) (snd (steps eqb cs l)) as'.
Proof.
  induction cs as [|c cs IH]; intros o l as_ F H; [split; [reflexivity|exists as_; exact H]|]. inversion F as [|? ? Fc Fr]; subst. cbn [perform_all steps].
  destruct (step_ok c o l as_ Fc H) as [E [as' S]]. destruct (perform eqb c o) as [x o'], (step eqb c l) as [x' l']. cbn [fst snd] in *. subst x'.
  destruct (IH o' l' as' Fr S) as [E' [as'' S']]. destruct (perform_all eqb cs o') as [xs o''], (steps eqb cs l') as [xs' l'']. cbn [fst snd] in *. subst xs'. split; [reflexivity|eauto].
Qed.
End Proofs.

(** * Copies, comparisons *)
Section More.
Context {K A : Type}.
Variable eqb : K -> K -> bool.
Hypothesis Heq : forall a b, eqb a b = true <-> a = b.
Lemma list_eqb_pairs (veqb : A -> A -> bool) (Hv : forall a b, veqb a b = true <-> a = b) (l m : list (K * A)) :
  list_eqb (fun p q => eqb (fst p) (fst q) && veqb (snd p) (snd q))%bool l m = true <-> l = m.
Proof.
  revert m. induction l as [|[k v] l IH]; intros [|[k' v'] m]; cbn [list_eqb fst snd]; try (split; [discriminate|discriminate]); [tauto|].
  rewrite !Bool.andb_true_iff, Heq, Hv, IH. split; [intros [[-> ->] ->]; reflexivity|intros [= -> -> ->]; auto].
Qed.
Lemma reach (cs : list (call K A)) : Forall no_clear cs -> exists as_, stands (A := A) eqb (snd (perform_all eqb cs od_new)) (snd (steps eqb cs [])) as_.
Proof. intros F. exact (proj2 (steps_ok eqb Heq cs _ _ _ F (stands_new eqb))). Qed.
Lemma put_all (l : list (K * A)) : forall m, NoDup (map fst (m ++ l)) -> fold_left (fun l p => put eqb (fst p) (snd p) l) l m = m ++ l.
Proof.
  induction l as [|[k v] l IH]; intros m N; cbn [fold_left fst snd]; [now rewrite app_nil_r|].
  assert (E : put eqb k v m = m ++ [(k, v)]).
  { unfold put. destruct (has eqb k m) eqn:E; [|reflexivity]. exfalso. apply (has_iff eqb Heq) in E. rewrite map_app in N. cbn [map fst] in N. apply NoDup_remove_2 in N. apply N, in_or_app. now left. }
  rewrite E, IH; rewrite <- app_assoc; [reflexivity|exact N].
Qed.
Lemma copy_ok (o : @odict K A) (l : list (K * A)) as_ : stands eqb o l as_ -> exists (o' : @odict K A) as', od_copy eqb o = Ok o' /\ stands eqb o' l as'.
Proof.
  intros H. unfold od_copy. rewrite (proj1 (items_ok eqb Heq _ _ _ H)). cbn [bind]. destruct (update_ok eqb Heq l od_new [] [] (stands_new eqb)) as [as' S].
  rewrite put_all in S by exact (st_nodup _ _ _ _ H). eauto.
Qed.
Lemma fromkeys_ok ks (v : A) : exists as_, stands eqb (od_fromkeys eqb ks v) (fold_left (fun l k => put eqb k v l) ks []) as_.
Proof.
  unfold od_fromkeys. generalize (@stands_new K A eqb). generalize (@od_new K A), (@nil (K * A)), (@nil nat). induction ks as [|k ks IH]; intros o l as_ H; [exists as_; exact H|].
  cbn [fold_left]. destruct (set_ok eqb Heq _ _ _ k v H) as [as' S]. exact (IH _ _ _ S).
Qed.
Lemma put_firsts ks (v : A) : fold_left (fun l k => put eqb k v l) ks [] = map (fun k => (k, v)) (firsts eqb ks).
Proof.
  unfold firsts. enough (G : forall m, fold_left (fun l k => put eqb k v l) ks (map (fun k => (k, v)) m) = map (fun k => (k, v)) (fold_left (fun l k => if existsb (fun u => eqb u k) l then l else l ++ [k]) ks m)) by exact (G []).
  induction ks as [|k ks IH]; intros m; [reflexivity|]. cbn [fold_left]. rewrite <- IH. f_equal.
  unfold put. assert (E : has eqb k (map (fun k => (k, v)) m) = existsb (fun u => eqb u k) m).
  { unfold has, of_key. clear. induction m as [|u m IH]; [reflexivity|]. cbn [map existsb fst]. now rewrite IH. }
  rewrite E. destruct (existsb _ m); [|now rewrite map_app]. rewrite map_map. apply map_ext. intros u. destruct (of_key eqb k (u, v)); reflexivity.
Qed.
Lemma eq_ok (veqb : A -> A -> bool) (o o' : @odict K A) l l' as_ as' : (forall a b, veqb a b = true <-> a = b) -> stands eqb o l as_ -> stands eqb o' l' as' ->
  exists b, od_eq eqb veqb o o' = Ok b /\ (b = true <-> l = l').
Proof.
  intros Hv H H'. unfold od_eq. rewrite (len_ok eqb _ _ _ H), (len_ok eqb _ _ _ H'). destruct (Nat.eqb_spec (length l) (length l')) as [E|E].
  - rewrite (proj1 (items_ok eqb Heq _ _ _ H)), (proj1 (items_ok eqb Heq _ _ _ H')). cbn [bind]. eexists. split; [reflexivity|]. now apply list_eqb_pairs.
  - exists false. split; [reflexivity|]. split; [discriminate|intros ->; congruence].
Qed.
Lemma clear_ok (o : @odict K A) (l : list (K * A)) as_ : stands eqb o l as_ -> l <> [] ->
  od_keys (od_clear o) = Ok (map fst l) /\ length (od_dict (od_clear o)) = 0 /\ od_items eqb (od_clear o) = Err KeyError.
Proof.
  intros H N. split; [exact (proj1 (keys_ok eqb _ _ _ H))|]. split; [reflexivity|]. unfold od_items. change (od_keys (od_clear o)) with (od_keys o). rewrite (proj1 (keys_ok eqb _ _ _ H)).
  destruct l as [|[k v] l]; [easy|]. reflexivity.
Qed.
End More.
