(** Normalised code, keys and the calls on transform objects. *)
From Coq Require Import Permutation.
From Verif Require Import Base TokensModel TokensSpec TokensProofs BuildModel EvalModel EvalSpec EvalBinsProofs.
Open Scope string_scope.
Open Scope list_scope.

(** * Normalisation *)
Lemma pu_loop_has_text l : forall st, pu_loop st l = pu_loop st (filter has_text l).
Proof.
  induction l as [|[ty s] l IH]; intros st; [reflexivity|].
  assert (G : pu_step st ty s = Ok ([], st) \/ has_text (ty, s) = true) by (destruct ty; cbn; auto).
  cbn [filter]. destruct (has_text (ty, s)) eqn:E.
  - cbn [pu_loop]. destruct (pu_step st ty s) as [[out st']|]; cbn [bind]; [now rewrite IH|reflexivity].
  - destruct G as [G|G]; [|discriminate]. cbn [pu_loop]. rewrite G. cbn [bind]. rewrite IH. now destruct (pu_loop st _).
Qed.
Lemma untokenize_has_text l : pretty_untokenize l = pretty_untokenize (filter has_text l).
Proof. unfold pretty_untokenize. now rewrite <- pu_loop_has_text. Qed.

Section N.
Variable gt : string -> result (list ptok).
Local Notation tokens_of := (tokens_of gt).
Lemma normalize_iff c1 c2 t1 t2 toks1 toks2 :
  tokens_of c1 toks1 -> tokens_of c2 toks2 ->
  normalize_token_spacing gt c1 = Ok t1 -> normalize_token_spacing gt c2 = Ok t2 ->
  tokens_of t1 toks1 -> tokens_of t2 toks2 ->
  (t1 = t2 <-> toks1 = toks2).
Proof.
  intros [x1 [A1 ->]] [x2 [A2 ->]] N1 N2 [y1 [B1 E1]] [y2 [B2 E2]].
  unfold normalize_token_spacing in *. rewrite A1 in N1. rewrite A2 in N2. cbn [bind] in *.
  rewrite untokenize_has_text in N1, N2. split.
  - intros ->. rewrite B1 in B2. injection B2 as ->. congruence.
  - intros E. rewrite E in N1. congruence.
Qed.
Lemma normalize_idem c t toks : tokens_of c toks -> normalize_token_spacing gt c = Ok t -> tokens_of t toks -> normalize_token_spacing gt t = Ok t.
Proof.
  intros [x [A ->]] N [y [B E]]. unfold normalize_token_spacing in *. rewrite A in N. rewrite B. cbn [bind] in *.
  rewrite untokenize_has_text in N |- *. now rewrite <- E.
Qed.
Lemma normalize_same_tokens c1 c2 toks : tokens_of c1 toks -> tokens_of c2 toks -> normalize_token_spacing gt c1 = normalize_token_spacing gt c2.
Proof.
  intros [x [A ->]] [y [B E]]. unfold normalize_token_spacing in *. rewrite A, B. cbn [bind]. rewrite (untokenize_has_text x), (untokenize_has_text y). now rewrite E.
Qed.
End N.

(** * Keys *)
Section K.
Context {C L H : Type} (ceqb : C -> C -> bool) (leqb : L -> L -> bool).
Variable chash : C -> result H.
Variable lhash : L -> result H.
Variable shash : string -> H.
Variable bhash : bool -> H.
Variable hash_tuple : list H -> H.
Variable heqb : H -> H -> bool.
Local Notation feqb := (factor_eqb ceqb leqb).
Local Notation fhash := (factor_hash chash lhash shash bhash hash_tuple).
Lemma factor_eqb_equiv : (forall x, ceqb x x = true) -> (forall x y, ceqb x y = true -> ceqb y x = true) -> (forall x y z, ceqb x y = true -> ceqb y z = true -> ceqb x z = true) ->
  (forall x, leqb x x = true) -> (forall x y, leqb x y = true -> leqb y x = true) -> (forall x y z, leqb x y = true -> leqb y z = true -> leqb x z = true) ->
  (forall x, feqb x x = true) /\ (forall x y, feqb x y = true -> feqb y x = true) /\ (forall x y z, feqb x y = true -> feqb y z = true -> feqb x z = true).
Proof.
  intros C1 C2 C3 L1 L2 L3. repeat split.
  - intros [c|n f c l]; cbn; [apply String.eqb_refl|]. now rewrite String.eqb_refl, Bool.eqb_reflx, C1, L1.
  - intros [c|n f c l] [c'|n' f' c' l']; cbn; try discriminate; [now rewrite String.eqb_sym|].
    rewrite !andb_true_iff. intros [[[A B] D] E]. rewrite String.eqb_sym. rewrite eqb_true_iff in *. auto.
  - intros [c|n f c l] [c'|n' f' c' l'] [c''|n'' f'' c'' l'']; cbn; try discriminate.
    + rewrite !String.eqb_eq. congruence.
    + rewrite !andb_true_iff, !String.eqb_eq, !eqb_true_iff. intros [[[A B] D] E] [[[A' B'] D'] E']. repeat split; try congruence; eauto.
Qed.
Lemma factor_hash_eq : (forall x y, ceqb x y = true -> chash x = chash y) -> (forall x y, leqb x y = true -> lhash x = lhash y) ->
  forall x y, feqb x y = true -> fhash x = fhash y.
Proof.
  intros HC HL [c|n f c l] [c'|n' f' c' l']; cbn; try discriminate.
  - rewrite String.eqb_eq. now intros ->.
  - rewrite !andb_true_iff, String.eqb_eq, eqb_true_iff. intros [[[-> ->] A] B]. now rewrite (HC _ _ A), (HL _ _ B).
Qed.
Lemma hashed_get_lemma {V} : (forall x y, ceqb x y = true -> chash x = chash y) -> (forall x y, leqb x y = true -> lhash x = lhash y) ->
  (forall h, heqb h h = true) ->
  forall (d : list (H * (@factor_key C L * V))) h k, Forall (fun p => fhash (fst (snd p)) = Ok (fst p)) d -> fhash k = Ok h ->
  hashed_get ceqb leqb heqb h k d = match find (fun p => feqb (fst (snd p)) k) d with Some (_, (_, v)) => Some v | None => None end.
Proof.
  intros HC HL HH d h k Hd Hk. induction Hd as [|[h' [k' v]] d Hp Hd IH]; [reflexivity|]. cbn in *.
  destruct (feqb k' k) eqn:E.
  - rewrite (factor_hash_eq HC HL _ _ E) in Hp. rewrite Hk in Hp. injection Hp as <-. now rewrite HH.
  - rewrite andb_false_r. exact IH.
Qed.
End K.

(** * The calls on the objects *)
Section Calls.
Context {D : Type}.
Variable data : nat -> list D.
Definition calls_from_pass (p : nat) (bins : list (list string)) : list (@ocall D) :=
  flat_map (fun p => flat_map (memorize_chunk_calls (snd p)) (data (fst p)) ++ memorize_finish_calls (snd p)) (combine (seq p (List.length bins)) bins).
Lemma filter_none {A} (f : A -> bool) l : (forall x, In x l -> f x = false) -> filter f l = [].
Proof. induction l as [|x l IH]; intros H; [reflexivity|]. cbn. rewrite (H x) by now left. apply IH. intros y Hy. apply H. now right. Qed.
Lemma filter_flat_map {A B} (f : B -> bool) (g : A -> list B) l : filter f (flat_map g l) = flat_map (fun x => filter f (g x)) l.
Proof. induction l as [|x l IH]; [reflexivity|]. cbn. now rewrite filter_app, IH. Qed.
Lemma chunk_calls_about bin (d : D) o : NoDup bin -> filter (about o) (memorize_chunk_calls bin d) = if str_in o bin then [OChunk o d] else [].
Proof.
  induction 1 as [|x bin Hx Hn IH]; [reflexivity|]. unfold memorize_chunk_calls in *. cbn [map filter about]. cbn [str_in existsb]. rewrite (String.eqb_sym o x). destruct (String.eqb_spec x o) as [->|Ne].
  - cbn. rewrite IH. destruct (str_in o bin) eqn:E; [|reflexivity]. exfalso. now apply Hx, str_in_iff.
  - cbn. exact IH.
Qed.
Lemma finish_calls_about bin o : NoDup bin -> filter (@about D o) (memorize_finish_calls bin) = if str_in o bin then [@OFinish D o] else [].
Proof.
  induction 1 as [|x bin Hx Hn IH]; [reflexivity|]. unfold memorize_finish_calls in *. cbn [map filter about]. cbn [str_in existsb]. rewrite (String.eqb_sym o x). destruct (String.eqb_spec x o) as [->|Ne].
  - cbn. rewrite IH. destruct (str_in o bin) eqn:E; [|reflexivity]. exfalso. now apply Hx, str_in_iff.
  - cbn. exact IH.
Qed.
Lemma pass_calls_about p bin o : NoDup bin -> filter (about o) (flat_map (memorize_chunk_calls bin) (data p) ++ memorize_finish_calls bin) =
  if str_in o bin then map (OChunk o) (data p) ++ [OFinish o] else [].
Proof.
  intros H. rewrite filter_app, filter_flat_map, finish_calls_about by exact H.
  destruct (str_in o bin) eqn:E.
  - f_equal. induction (data p) as [|d l IH]; [reflexivity|]. cbn. rewrite chunk_calls_about, E by exact H. cbn. now rewrite IH.
  - rewrite app_nil_r. induction (data p) as [|d l IH]; [reflexivity|]. cbn. rewrite chunk_calls_about, E by exact H. exact IH.
Qed.
Lemma in_calls_of_pass p bin (c : @ocall D) : In c (flat_map (memorize_chunk_calls bin) (data p) ++ memorize_finish_calls bin) -> exists o, In o bin /\ about o c = true.
Proof.
  rewrite in_app_iff, in_flat_map. unfold memorize_chunk_calls, memorize_finish_calls. intros [[d [_ H]]|H]; apply in_map_iff in H; destruct H as [o [<- Ho]]; exists o; cbn; now rewrite String.eqb_refl.
Qed.
Lemma calls_about_lemma bins : NoDup (concat bins) -> forall p q o bin, nth_error bins q = Some bin -> In o bin ->
  filter (about o) (calls_from_pass p bins) = map (OChunk o) (data (p + q)) ++ [OFinish o].
Proof.
  induction bins as [|b bins IH]; intros Hn p q o bin Hq Ho; [now destruct q|].
  unfold calls_from_pass. cbn [List.length seq combine flat_map fst snd]. fold (calls_from_pass (S p) bins). rewrite filter_app. cbn in Hn.
  assert (Hb : NoDup b) by (clear - Hn; induction b as [|x b IHb]; [constructor|]; inversion Hn; subst; constructor; [intros Hx; apply H1; apply in_app_iff; now left|auto]).
  assert (Hbs : NoDup (concat bins)) by (clear - Hn; induction b as [|x b IHb]; [exact Hn|]; inversion Hn; subst; auto).
  assert (Hdis : forall x, In x b -> In x (concat bins) -> False).
  { clear - Hn. induction b as [|y b IHb]; [intros x []|]. inversion Hn; subst. intros x [<-|Hx] Hc; [apply H1; apply in_app_iff; now right|exact (IHb H2 x Hx Hc)]. }
  rewrite pass_calls_about by exact Hb. destruct q as [|q]; cbn in Hq.
  - injection Hq as ->. rewrite (proj2 (str_in_iff _ _) Ho). rewrite Nat.add_0_r. rewrite filter_none; [now rewrite app_nil_r|].
    intros c Hc. unfold calls_from_pass in Hc. apply in_flat_map in Hc. destruct Hc as [[p' b'] [Hp' Hc]]. cbn in Hc. apply in_combine_r in Hp'.
    destruct (in_calls_of_pass _ _ _ Hc) as [o' [Ho' Hab]]. destruct (about o c) eqn:E; [|reflexivity]. exfalso.
    assert (o' = o) by (destruct c; cbn in *; apply String.eqb_eq in E, Hab; congruence). subst o'. apply (Hdis o Ho). apply in_concat. eauto.
  - assert (Hin : In o (concat bins)) by (apply in_concat; exists bin; split; [eapply nth_error_In; eassumption|exact Ho]).
    destruct (str_in o b) eqn:E; [exfalso; apply str_in_iff in E; exact (Hdis o E Hin)|]. cbn [app]. rewrite (IH Hbs (S p) q o bin Hq Ho). f_equal. f_equal. f_equal. lia.
Qed.
Lemma object_calls_about bins o q : NoDup (concat bins) -> in_pass bins o q ->
  filter (about o) (object_calls data bins) = map (OChunk o) (data q) ++ [OFinish o].
Proof. intros H [bin [A B]]. exact (calls_about_lemma bins H 0 q o bin A B). Qed.

(** Calls of earlier passes come first. *)
Lemma earlier_first bins : NoDup (concat bins) -> forall s p q o o' bin bin' pre d post, nth_error bins p = Some bin -> In o bin ->
  nth_error bins q = Some bin' -> In o' bin' -> q < p ->
  calls_from_pass s bins = pre ++ OChunk o d :: post -> In (OFinish o') pre.
Proof.
  induction bins as [|b bins IH]; intros Hn s p q o o' bin bin' pre d post Hp Ho Hq Ho' Hlt E; [now destruct p|].
  unfold calls_from_pass in E. cbn [List.length seq combine flat_map fst snd] in E. fold (calls_from_pass (S s) bins) in E. cbn in Hn.
  assert (Hbs : NoDup (concat bins)) by (clear - Hn; induction b as [|x b IHb]; [exact Hn|]; inversion Hn; subst; auto).
  assert (Hdis : forall x, In x b -> In x (concat bins) -> False).
  { clear - Hn. induction b as [|y b IHb]; [intros x []|]. inversion Hn; subst. intros x [<-|Hx] Hc; [apply H1; apply in_app_iff; now right|exact (IHb H2 x Hx Hc)]. }
  destruct p as [|p]; [lia|]. cbn in Hp.
  set (now_ := flat_map (memorize_chunk_calls b) (data s) ++ memorize_finish_calls b) in *.
  assert (Hnot : ~ In (OChunk o d) now_).
  { intros Hc. destruct (in_calls_of_pass _ _ _ Hc) as [x [Hx Hab]]. cbn in Hab. apply String.eqb_eq in Hab. subst x. apply (Hdis o Hx). apply in_concat. exists bin. split; [eapply nth_error_In; eassumption|exact Ho]. }
  assert (Hsplit : exists pre', pre = now_ ++ pre' /\ calls_from_pass (S s) bins = pre' ++ OChunk o d :: post).
  { clear - E Hnot. revert pre E. induction now_ as [|c l IH]; intros pre E; [exists pre; auto|].
    destruct pre as [|c' pre]; cbn in E; injection E as Hc E; [exfalso; apply Hnot; left; exact Hc|]. subst c'.
    destruct (IH (fun H => Hnot (or_intror H)) pre E) as [pre' [-> E']]. exists pre'. auto. }
  destruct Hsplit as [pre' [-> E']]. apply in_app_iff. destruct q as [|q]; cbn in Hq.
  - injection Hq as ->. left. apply in_app_iff. right. apply in_map_iff. eauto.
  - right. eapply (IH Hbs (S s) p q); eauto. lia.
Qed.
End Calls.
