(** Sniffing finds the levels of the data; codes; factor types. *)
From Coq Require Import Ascii QArith Permutation.
From Verif Require Import Base BuildModel BuildProofs CategoricalModel CategoricalSpec CategoricalKeyProofs.
Open Scope nat_scope.
Open Scope string_scope.
Open Scope list_scope.

Local Notation kT := (key_of (VBool true)).
Local Notation kF := (key_of (VBool false)).

(** * Sniffing *)
Definition covers (na : na_types) (values : list pval) (k : kkey) : Prop :=
  exists v, In v values /\ ~ missing na v /\ (key_of v = k \/ is_bool v /\ (k = kT \/ k = kF)).
Lemma level_of_covers na values w : level_of na values w <-> covers na values (key_of w).
Proof.
  unfold level_of, covers. split; intros [v [A [B D]]]; exists v; (split; [exact A|split; [exact B|]]); rewrite ?same_iff in *;
    (destruct D as [D|[D [E|E]]]; [left|right; split; [exact D|left]|right; split; [exact D|right]]); congruence.
Qed.
Lemma covers_app na a b k : covers na (a ++ b) k <-> covers na a k \/ covers na b k.
Proof.
  unfold covers. split.
  - intros [v [A B]]. apply in_app_iff in A. destruct A; [left|right]; eauto.
  - intros [[v [A B]]|[v [A B]]]; exists v; rewrite in_app_iff; auto.
Qed.
Lemma covers_nil na k : ~ covers na [] k.
Proof. intros [v [[] _]]. Qed.
Lemma covers_one na v k : covers na [v] k <-> ~ missing na v /\ (key_of v = k \/ is_bool v /\ (k = kT \/ k = kF)).
Proof. unfold covers. split; [intros [w [[<-|[]] H]]; exact H|intros H; exists v; cbn; auto]. Qed.
Lemma covers_key na values k : covers na values k -> exists w, key_of w = k.
Proof. intros [v [_ [_ [E|[_ [->| ->]]]]]]; eauto. Qed.
Lemma pure_iff na values : zero_one_pure na values <-> (covers na values kT -> covers na values kF -> forall k, covers na values k -> k = kT \/ k = kF).
Proof.
  unfold zero_one_pure. split.
  - intros H A B k Hk. destruct (covers_key _ _ _ Hk) as [w <-]. specialize (H (proj2 (level_of_covers _ _ _) A) (proj2 (level_of_covers _ _ _) B) w (proj2 (level_of_covers _ _ _) Hk)).
    rewrite !same_iff in H. destruct H; auto.
  - intros H A B w Hw. apply level_of_covers in A, B, Hw. rewrite !same_iff. destruct (H A B _ Hw); auto.
Qed.

Lemma sniff_value_keys na org s v s' : sniff_value na org s v = Ok s' -> NoDup (keys s) ->
  NoDup (keys s') /\ forall k, In k (keys s') <-> In k (keys s) \/ covers na [v] k.
Proof.
  unfold sniff_value. intros H Hn. destruct (na_cases na v) as [[E M]|[[E M]|E]]; rewrite E in H; cbn [bind] in H; [| |discriminate].
  - injection H as <-. split; [exact Hn|]. intros k. rewrite covers_one. tauto.
  - assert (NB : hashable v = true -> (forall b, v <> VBool b) -> Ok (set_add s v) = Ok s' -> NoDup (keys s') /\ forall k, In k (keys s') <-> In k (keys s) \/ covers na [v] k).
    { intros _ Hb H'. injection H' as <-. split; [now apply set_add_NoDup|]. intros k. rewrite set_add_keys, covers_one. split.
      - intros [A| ->]; auto.
      - intros [A|[_ [A|[[b A] _]]]]; [auto|auto|]. exfalso. now apply (Hb b). }
    destruct v; try (apply NB; [reflexivity|congruence|exact H]).
    + injection H as <-. split; [now apply set_add_NoDup, set_add_NoDup|]. intros k. rewrite !set_add_keys, covers_one. split.
      * intros [[A| ->]| ->]; [auto| |]; right; (split; [exact M|]); right; (split; [now exists b|]); auto.
      * intros [A|[_ [A|[_ [A|A]]]]]; auto. destruct b; auto.
    + destruct (hashable (VTuple l)) eqn:Eh; [|discriminate]. apply NB; [reflexivity|congruence|exact H].
    + cbn [CategoricalModel.hashable] in H, NB. destruct hashable; [|discriminate]. apply NB; [reflexivity|congruence|exact H].
Qed.
Lemma sniff_values_keys na org values : forall s s', foldM (sniff_value na org) values s = Ok s' -> NoDup (keys s) ->
  NoDup (keys s') /\ forall k, In k (keys s') <-> In k (keys s) \/ covers na values k.
Proof.
  induction values as [|v values IH]; intros s s' H Hn; cbn [foldM] in H.
  - injection H as <-. split; [exact Hn|]. intros k. pose proof (covers_nil na k). tauto.
  - destruct (sniff_value na org s v) as [s1|] eqn:E1; [|discriminate]. cbn [bind] in H.
    destruct (sniff_value_keys _ _ _ _ _ E1 Hn) as [N1 K1]. destruct (IH _ _ H N1) as [N2 K2]. split; [exact N2|].
    intros k. rewrite K2, K1. change (v :: values) with ([v] ++ values). rewrite covers_app. tauto.
Qed.
Lemma sniff_values_ok na org values : Forall (usable na) values -> forall s, exists s', foldM (sniff_value na org) values s = Ok s'.
Proof.
  induction 1 as [|v values [T U] Hl IH]; intros s; cbn [foldM]; [eauto|].
  assert (H : exists s1, sniff_value na org s v = Ok s1).
  { unfold sniff_value. destruct (testable_cases na v T) as [[-> M]|[-> M]]; cbn [bind]; [eauto|]. destruct U as [U|U]; [contradiction|]. rewrite U. destruct v; eauto. }
  destruct H as [s1 ->]. cbn [bind]. apply IH.
Qed.

Section Look.
Context {C F D : Type}.
Local Notation sniffer := (@sniffer C).
Variable eval : F -> D -> result (@value C).
Variable origin_of : F -> option origin.
Variable na : na_types.

Lemma sniff_data_keys org (st st' : sniffer) d l fin : consists_of d l -> ~ is_pandas d -> (forall n, d <> DBools n []) ->
  sniff_data na org st d = Ok (st', fin) -> sn_levels st = None -> NoDup (keys (sn_set st)) ->
  sn_contrast st' = sn_contrast st /\ sn_levels st' = None /\ NoDup (keys (sn_set st')) /\
  ((fin = is_bools (sn_set st') /\ forall k, In k (keys (sn_set st')) <-> In k (keys (sn_set st)) \/ covers na l k) \/
   (fin = true /\ (forall k, In k (keys (sn_set st')) <-> k = kT \/ k = kF) /\ (forall k, covers na l k <-> k = kT \/ k = kF))).
Proof.
  intros Hc Hp Hb H Hl Hn. destruct Hc as [n l Hle|n l|n v|cats codes l Hf].
  - cbn in H. injection H as <- <-. cbn. split; [reflexivity|]. split; [exact Hl|]. split.
    { constructor; [intros [A|[]]; discriminate|constructor; [intros []|constructor]]. }
    right. split; [reflexivity|]. split; [intros k; intuition|]. intros k. split.
    + intros [v [A [_ [B|[_ B]]]]]; [|exact B]. apply in_map_iff in A. destruct A as [b [<- _]]. subst k. destruct b; auto.
    + intros K. destruct l as [|b l]; [exfalso; now apply (Hb n)|]. exists (VBool b). split; [now left|]. split; [|right; split; [now exists b|exact K]].
      unfold missing. intros [[_ [[i A]|[s [A _]]]]|[_ A]]; discriminate.
  - cbn [sniff_data shape_fix bind] in H. destruct (foldM _ _ _) as [s|] eqn:E; [|discriminate]. cbn in H. injection H as <- <-. cbn [sn_contrast sn_levels sn_set].
    destruct (sniff_values_keys _ _ _ _ _ E Hn) as [N K]. auto 10.
  - cbn [sniff_data shape_fix bind] in H. destruct (foldM _ _ _) as [s|] eqn:E; [|discriminate]. cbn in H. injection H as <- <-. cbn [sn_contrast sn_levels sn_set].
    destruct (sniff_values_keys _ _ _ _ _ E Hn) as [N K]. auto 10.
  - exfalso. apply Hp. exists cats, codes. reflexivity.
Qed.
Lemma sniff_keys org (st st' : sniffer) v l fin : chunk_values v l ->
  sniff na org st v = Ok (st', fin) -> sn_levels st = None -> NoDup (keys (sn_set st)) ->
  sn_levels st' = None /\ NoDup (keys (sn_set st')) /\
  ((fin = is_bools (sn_set st') /\ forall k, In k (keys (sn_set st')) <-> In k (keys (sn_set st)) \/ covers na l k) \/
   (fin = true /\ (forall k, In k (keys (sn_set st')) <-> k = kT \/ k = kF) /\ (forall k, covers na l k <-> k = kT \/ k = kF))).
Proof.
  intros [d l' H1 H2 H3|d c l' H1 H2 H3] H Hl Hn; cbn in H.
  - now destruct (sniff_data_keys org _ _ d l' fin H1 H2 H3 H Hl Hn) as [_ K].
  - destruct (sniff_data_keys org _ _ d l' fin H1 H2 H3 H Hl Hn) as [_ K]. exact K.
Qed.
Lemma sniff_data_ok org (st : sniffer) d l : consists_of d l -> Forall (usable na) l -> exists st' fin, sniff_data na org st d = Ok (st', fin).
Proof.
  intros [n l' Hle|n l'|n v|cats codes l' Hf] Hu; cbn [sniff_data shape_fix bind]; eauto; destruct (sniff_values_ok na org _ Hu (sn_set st)) as [s ->]; cbn; eauto.
Qed.
Lemma sniff_ok org (st : sniffer) v l : chunk_values v l -> Forall (usable na) l -> exists st' fin, sniff na org st v = Ok (st', fin).
Proof.
  intros [d l' H1 H2 H3|d c l' H1 H2 H3] Hu; cbn; eapply sniff_data_ok; eauto.
Qed.

Definition chunk_is (f : F) (d : D) (l : list pval) : Prop := exists v, eval f d = Ok v /\ chunk_values v l.
Lemma look_keys f chunks ls : Forall2 (chunk_is f) chunks ls -> forall sn sn' pre, look eval origin_of na f chunks sn = Ok sn' ->
  sn_levels sn = None -> NoDup (keys (sn_set sn)) -> (forall k, In k (keys (sn_set sn)) <-> covers na pre k) -> zero_one_pure na (pre ++ concat ls) ->
  sn_levels sn' = None /\ NoDup (keys (sn_set sn')) /\ forall k, In k (keys (sn_set sn')) <-> covers na (pre ++ concat ls) k.
Proof.
  induction 1 as [|d l chunks ls [v [Ev Hv]] Hr IH]; intros sn sn' pre H Hl Hn Hk Hp; cbn [look] in H.
  - injection H as <-. cbn. rewrite app_nil_r. auto.
  - rewrite Ev in H. cbn [bind] in H. destruct (sniff na (origin_of f) sn v) as [[st fin]|] eqn:Es; [|discriminate]. cbn [bind] in H.
    destruct (sniff_keys _ _ _ _ _ _ Hv Es Hl Hn) as [L1 [N1 K1]]. cbn [concat] in *.
    rewrite pure_iff in Hp.
    assert (Stop : (forall k, In k (keys (sn_set st)) <-> k = kT \/ k = kF) -> (forall k, In k (keys (sn_set st)) -> covers na (pre ++ l ++ concat ls) k) ->
      forall k, In k (keys (sn_set st)) <-> covers na (pre ++ l ++ concat ls) k).
    { intros B I k. split; [apply I|]. intros G. apply B. apply Hp; [apply I, B; auto|apply I, B; auto|exact G]. }
    destruct K1 as [[-> K1]|[-> [K1 K2]]].
    + destruct (is_bools (sn_set st)) eqn:Eb.
      * injection H as <-. split; [exact L1|]. split; [exact N1|]. apply Stop; [now apply is_bools_iff|]. intros k G. apply K1 in G. rewrite !covers_app. rewrite Hk in G. tauto.
      * rewrite app_assoc. apply (IH st sn' (pre ++ l) H L1 N1); [|rewrite <- app_assoc; now apply pure_iff]. intros k. rewrite K1, Hk, covers_app. tauto.
    + injection H as <-. split; [exact L1|]. split; [exact N1|]. apply Stop; [exact K1|]. intros k G. apply K1 in G. rewrite !covers_app, K2. tauto.
Qed.
Lemma look_ok f chunks ls : Forall2 (chunk_is f) chunks ls -> Forall (usable na) (concat ls) -> forall sn, exists sn', look eval origin_of na f chunks sn = Ok sn'.
Proof.
  induction 1 as [|d l chunks ls [v [Ev Hv]] Hr IH]; intros Hu sn; cbn [look]; [eauto|]. cbn in Hu. apply Forall_app in Hu. destruct Hu as [U1 U2].
  rewrite Ev. cbn [bind]. destruct (sniff_ok (origin_of f) sn v l Hv U1) as [st [fin ->]]. cbn [bind]. destruct fin; [eauto|now apply IH].
Qed.
(** The levels are values of the data, or booleans. *)
Lemma sniff_values_in org values : forall s s', foldM (sniff_value na org) values s = Ok s' -> forall x, In x s' -> In x s \/ In x values \/ exists b, x = VBool b.
Proof.
  induction values as [|v values IH]; intros s s' H x Hx; cbn [foldM] in H; [injection H as <-; auto|].
  destruct (sniff_value na org s v) as [s1|] eqn:E1; [|discriminate]. cbn [bind] in H. destruct (IH _ _ H x Hx) as [A|[A|A]]; cbn; auto.
  assert (Add : forall t w, In x (set_add t w) -> In x t \/ x = w).
  { intros t w G. unfold set_add in G. destruct (set_mem w t); [auto|]. apply in_app_iff in G. destruct G as [G|[G|[]]]; auto. }
  unfold sniff_value in E1. destruct (is_categorical_NA na v) as [[]|]; cbn [bind] in E1; [injection E1 as <-; auto| |discriminate].
  assert (NB : Ok (set_add s v) = Ok s1 -> In x s \/ (v = x \/ In x values) \/ exists b, x = VBool b).
  { intros G. injection G as <-. apply Add in A. destruct A; auto. }
  destruct v; try (apply NB; exact E1).
  - injection E1 as <-. apply Add in A. destruct A as [A| ->]; [|eauto]. apply Add in A. destruct A as [A| ->]; eauto.
  - destruct (hashable (VTuple l)); [auto|discriminate].
  - cbn [CategoricalModel.hashable] in E1. destruct hashable; [auto|discriminate].
Qed.
Lemma sniff_in org (st st' : sniffer) v l fin : chunk_values v l -> sniff na org st v = Ok (st', fin) ->
  forall x, In x (sn_set st') -> In x (sn_set st) \/ In x l \/ exists b, x = VBool b.
Proof.
  assert (G : forall d l (st st' : sniffer), consists_of d l -> ~ is_pandas d -> sniff_data na org st d = Ok (st', fin) -> forall x, In x (sn_set st') -> In x (sn_set st) \/ In x l \/ exists b, x = VBool b).
  { clear. intros d l st st' Hc Hp H x Hx. destruct Hc as [n l' Hle|n l'|n v|cats codes l' Hf]; cbn [sniff_data shape_fix bind] in H.
    - injection H as <- <-. cbn in Hx. destruct Hx as [<-|[<-|[]]]; eauto.
    - destruct (foldM _ _ _) as [s|] eqn:E; [|discriminate]. cbn in H. injection H as <- <-. eapply sniff_values_in; eauto.
    - destruct (foldM _ _ _) as [s|] eqn:E; [|discriminate]. cbn in H. injection H as <- <-. eapply sniff_values_in; eauto.
    - exfalso. apply Hp. now exists cats, codes. }
  intros [d l' H1 H2 H3|d c l' H1 H2 H3] H; cbn in H.
  - eapply G; eauto.
  - intros x Hx. apply (G d l' _ st' H1 H2 H x Hx).
Qed.
Lemma look_in f chunks ls : Forall2 (chunk_is f) chunks ls -> forall sn sn' all, look eval origin_of na f chunks sn = Ok sn' ->
  (forall x, In x (sn_set sn) -> In x all \/ exists b, x = VBool b) -> (forall x, In x (concat ls) -> In x all) -> forall x, In x (sn_set sn') -> In x all \/ exists b, x = VBool b.
Proof.
  induction 1 as [|d l chunks ls [v [Ev Hv]] Hr IH]; intros sn sn' all H Hi Ha x Hx; cbn [look] in H; [injection H as <-; auto|].
  rewrite Ev in H. cbn [bind] in H. destruct (sniff na (origin_of f) sn v) as [[st fin]|] eqn:Es; [|discriminate]. cbn [bind] in H. cbn [concat] in Ha.
  assert (Hi' : forall y, In y (sn_set st) -> In y all \/ exists b, y = VBool b).
  { intros y Hy. destruct (sniff_in _ _ _ _ _ _ Hv Es y Hy) as [A|[A|A]]; auto. left. apply Ha, in_app_iff. auto. }
  destruct fin; [injection H as <-; auto|]. apply (IH st sn' all H Hi'); [|exact Hx]. intros y Hy. apply Ha, in_app_iff. auto.
Qed.
Lemma keys_levels values s : NoDup (keys s) -> (forall k, In k (keys s) <-> covers na values k) -> levels_exact na values s.
Proof.
  intros N K. split; [now apply distinct_iff|]. intros w. rewrite level_of_covers, <- K. unfold keys. rewrite in_map_iff. split; intros [x [A B]]; exists x; rewrite same_iff in *; auto.
Qed.
Lemma levels_exact_perm values s s' : Permutation s s' -> levels_exact na values s -> levels_exact na values s'.
Proof.
  intros P [D1 L]. split.
  - apply distinct_iff. apply distinct_iff in D1. eapply Permutation_NoDup; [|exact D1]. now apply Permutation_map.
  - intros w. rewrite <- L. split; intros [x [A B]]; exists x; (split; [|exact B]); [apply Permutation_sym in P|]; eapply Permutation_in; eauto.
Qed.
End Look.
