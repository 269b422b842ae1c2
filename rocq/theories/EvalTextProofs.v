(** Text of rewritten tokens. *)
From Coq Require Import Ascii DecimalString DecimalNat DecimalFacts.
From Verif Require Import Base TokensModel TokensSpec TokensProofs BuildModel EvalModel EvalSpec.
Open Scope string_scope.
Open Scope list_scope.

(** * Object names *)
Lemma uint_str_inj u : forall v x y, String.append (NilEmpty.string_of_uint u) (String "_"%char x) = String.append (NilEmpty.string_of_uint v) (String "_"%char y) -> u = v.
Proof.
  induction u; intros v x y H; destruct v; cbn in H; try discriminate; try reflexivity; injection H as H; f_equal; eapply IHu; exact H.
Qed.
Lemma append_cancel_l a : forall x y, String.append a x = String.append a y -> x = y.
Proof. induction a as [|c a IH]; intros x y H; [exact H|]. cbn in H. injection H as H. auto. Qed.
Lemma obj_name_inj i j s t : obj_name i s = obj_name j t -> i = j.
Proof.
  unfold obj_name. intros H. apply append_cancel_l in H. unfold nat_str in H.
  assert (E : Nat.to_uint i = Nat.to_uint j) by (eapply uint_str_inj; exact H). now apply Unsigned.to_uint_inj in E.
Qed.
Lemma obj_name_head i s : exists x, obj_name i s = String "_"%char x.
Proof. eexists. reflexivity. Qed.
Lemma obj_plain i s : opens (obj_name i s) = false /\ closes (obj_name i s) = false /\ String.eqb (obj_name i s) "." = false.
Proof. repeat split. Qed.

(** * Printing from a state *)
Definition pu_text (st : pu_state) (toks : list ptok) : result string :=
  let* l := pu_loop st toks in Ok (String.concat "" l).
Lemma pu_text_cons st ty tok r : pu_text st ((ty, tok) :: r) =
  let* q := pu_step st ty tok in let* s := pu_text (snd q) r in Ok (String.append (String.concat "" (fst q)) s).
Proof.
  unfold pu_text. cbn [pu_loop]. destruct (pu_step st ty tok) as [[out st']|]; cbn; [|reflexivity].
  destruct (pu_loop st' r); cbn; [|reflexivity]. now rewrite concat_app_s.
Qed.
Lemma pretty_pu_text toks : pretty_untokenize toks = pu_text pu_init toks.
Proof. reflexivity. Qed.

(** The state after [object.method]. *)
Definition after_word (st : pu_state) : pu_state := mkPU true false false true (brackets st).
Definition space_before_word (st : pu_state) : string := if prev_wants_space st || prev_was_space_delim st then " " else "".
Lemma word_step st s : str_in s ["("; ","] = false ->
  pu_step st PNAME s = Ok ((if prev_wants_space st || prev_was_space_delim st then [" "; s] else [s]), after_word st).
Proof. intros H. unfold pu_step, after_word. now rewrite H. Qed.
Lemma append_nil_r s : String.append s "" = s.
Proof. induction s; cbn; [reflexivity|now f_equal]. Qed.
Lemma append_assoc_str a b c : String.append (String.append a b) c = String.append a (String.append b c).
Proof. induction a; cbn; [reflexivity|now f_equal]. Qed.

Lemma method_text st i s m r : str_in m ["("; ","] = false ->
  pu_text st (method_of (obj_name i s) m ++ r) =
  let* x := pu_text (after_word st) r in Ok (String.append (space_before_word st) (String.append (obj_name i s) (String.append "." (String.append m x)))).
Proof.
  intros Hm. unfold method_of. cbn [app]. rewrite pu_text_cons, word_step by reflexivity. cbn [bind snd].
  rewrite pu_text_cons.
  replace (pu_step (after_word st) POTHER ".") with (Ok (["."], mkPU false false false false (brackets st))) by reflexivity. cbn [bind snd fst].
  rewrite pu_text_cons, word_step by exact Hm. cbn [bind snd fst prev_wants_space prev_was_space_delim orb].
  change (after_word (mkPU false false false false (brackets st))) with (after_word st).
  destruct (pu_text _ r) as [x|]; cbn [bind]; [|reflexivity]. f_equal.
  unfold space_before_word. destruct (prev_wants_space st || prev_was_space_delim st); cbn; rewrite ?append_nil_r; reflexivity.
Qed.
Lemma compound_text st i s m r : str_in (String.append (obj_name i s) (String.append "." m)) ["("; ","] = false ->
  pu_text st ((PNAME, String.append (obj_name i s) (String.append "." m)) :: r) =
  let* x := pu_text (after_word st) r in Ok (String.append (space_before_word st) (String.append (obj_name i s) (String.append "." (String.append m x)))).
Proof.
  intros H. rewrite pu_text_cons, word_step by exact H. cbn [bind snd fst]. destruct (pu_text (after_word st) r) as [x|]; cbn [bind]; [|reflexivity]. f_equal.
  unfold space_before_word. destruct (prev_wants_space st || prev_was_space_delim st); rewrite ?concat_cons; cbn [String.concat]; rewrite ?append_nil_r, ?append_assoc_str; reflexivity.
Qed.

(** * Marked tokens: [Some o] where a transform is called *)
Notation mtok := (ptok * option string)%type.
Definition compound (t : mtok) : ptok :=
  match snd t with Some o => (fst (fst t), String.append o ".transform") | None => fst t end.
Definition expand (t : mtok) : list ptok :=
  match snd t with Some o => method_of o "transform" | None => [fst t] end.
Definition good_mark (t : mtok) : Prop :=
  match snd t with Some o => (exists i s, o = obj_name i s) /\ fst (fst t) = PNAME | None => True end.

Lemma compound_expand ms : Forall good_mark ms -> forall st, pu_text st (map compound ms) = pu_text st (flat_map expand ms).
Proof.
  induction 1 as [|t ms Ht Hms IH]; intros st; [reflexivity|]. cbn [map flat_map]. unfold compound at 1, expand at 1.
  destruct t as [[ty s] [o|]]; cbn [snd fst].
  - destruct Ht as [[i [s' ->]] Hty]. cbn in Hty. subst ty. change ".transform" with (String.append "." "transform").
    rewrite compound_text by reflexivity. rewrite method_text by reflexivity. now rewrite IH.
  - cbn [app]. rewrite !pu_text_cons. destruct (pu_step st ty s) as [[out st']|]; cbn; [|reflexivity]. now rewrite IH.
Qed.
