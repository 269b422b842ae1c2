(** Capturing the call of a transform object. *)
From Coq Require Import Ascii Sorted.
From Verif Require Import Base TokensModel TokensSpec TokensProofs BuildModel EvalModel EvalSpec EvalTextProofs EvalMarkProofs.
Open Scope string_scope.
Open Scope list_scope.

(** * Bare references *)
Fixpoint bref (p : string -> bool) (pd : bool) (l : list ptok) : bool :=
  match l with [] => false | t :: r => (negb pd && is_name t && p (snd t)) || bref p (text_is "." t) r end.
Fixpoint last_dot (pd : bool) (l : list ptok) : bool := match l with [] => pd | t :: r => last_dot (text_is "." t) r end.
Lemma bare_ref_bref names l : forall pd, bare_ref_in names (annotate pd l) = bref (fun s => str_in s names) pd l.
Proof. unfold bare_ref_in. induction l as [|t r IH]; intros pd; [reflexivity|]. cbn [annotate existsb bref fst snd]. now rewrite IH. Qed.
Lemma bref_app p a : forall pd b, bref p pd (a ++ b) = bref p pd a || bref p (last_dot pd a) b.
Proof. induction a as [|t r IH]; intros pd b; [reflexivity|]. cbn. now rewrite IH, orb_assoc. Qed.
Lemma last_dot_app a : forall pd b, last_dot pd (a ++ b) = last_dot (last_dot pd a) b.
Proof. induction a as [|t r IH]; intros pd b; [reflexivity|]. cbn. apply IH. Qed.
Lemma bref_mono p q l : (forall s, p s = true -> q s = true) -> forall pd, bref q pd l = false -> bref p pd l = false.
Proof.
  intros H. induction l as [|t r IH]; intros pd; [reflexivity|]. cbn. rewrite !orb_false_iff. intros [A B]. split; [|auto].
  destruct (negb pd && is_name t); [|reflexivity]. cbn in *. destruct (p (snd t)) eqn:E; [|reflexivity]. now rewrite (H _ E) in A.
Qed.

(** * Marked tokens once more: properties that hold of every contiguous part *)
Fixpoint mok (pd : bool) (ml : list mtok) : Prop :=
  match ml with
  | [] => True
  | (t, o) :: r => (o <> None -> pd = false /\ fst t = PNAME /\ opens (snd t) = false /\ closes (snd t) = false /\ snd t <> ".") /\ mok (text_is "." t) r
  end.
Lemma mok_app a : forall pd b, mok pd (a ++ b) <-> mok pd a /\ mok (last_dot pd (map fst a)) b.
Proof. induction a as [|[t o] r IH]; intros pd b; cbn; [tauto|]. rewrite IH. tauto. Qed.
Section MarkOk.
Context {val : Type} (stateful : val -> bool) (ns : @namespace val).
Lemma mark_mok toks : punctuation_is_operators toks -> forall k pd, mok pd (mark stateful ns k pd toks).
Proof.
  induction toks as [|t r IH]; intros H k pd; [exact I|].
  assert (Hr : punctuation_is_operators r) by (intros ty s Hi; apply H; now right).
  cbn [mark]. destruct (is_call pd t r && tr stateful ns (snd t)) eqn:E; cbn [mok]; (split; [|auto]); [|congruence].
  intros _. apply andb_true_iff in E. destruct E as [E _]. apply is_call_iff in E. destruct E as [A [B _]]. destruct t as [ty s]. cbn [fst snd] in B |- *. subst ty.
  assert (G : ~ (opens s = true \/ closes s = true \/ s = ".")) by (intros X; apply (H PNAME s) in X; [discriminate|now left]).
  split; [exact A|]. split; [reflexivity|]. split; [|split].
  - destruct (opens s) eqn:E1; [exfalso; auto|reflexivity].
  - destruct (closes s) eqn:E1; [exfalso; auto|reflexivity].
  - auto.
Qed.
End MarkOk.
Definition object_in (p : string -> bool) (ml : list mtok) : bool := existsb (fun t => match snd t with Some o => p o | None => false end) ml.
Lemma last_dot_expand ml : forall pd, mok pd ml -> last_dot pd (flat_map expand ml) = last_dot pd (map fst ml).
Proof.
  induction ml as [|[t [o|]] ml IH]; intros pd H; [reflexivity| |].
  - destruct H as [H1 H2]. destruct H1 as [_ [_ [_ [_ H1]]]]; [discriminate|]. cbn -[method_of]. unfold expand. cbn [snd method_of app last_dot text_is].
    cbn [text_is snd]. change (text_is "." (PNAME, "transform")) with false.
    assert (E : text_is "." t = false) by (now apply String.eqb_neq). rewrite E in H2. rewrite E. now apply IH.
  - destruct H as [_ H2]. cbn. now apply IH.
Qed.
Lemma bref_expand p ml : forall pd, mok pd ml -> bref p pd (map fst ml) = false -> bref p pd (flat_map expand ml) = object_in p ml.
Proof.
  induction ml as [|[t [o|]] ml IH]; intros pd H Hb; [reflexivity| |].
  - destruct H as [H1 H2]. destruct H1 as [A [B [_ [_ C]]]]; [discriminate|]. cbn in Hb. apply orb_false_iff in Hb. destruct Hb as [_ Hb].
    assert (E : text_is "." t = false) by (now apply String.eqb_neq). rewrite E in H2, Hb. subst pd.
    cbn [flat_map expand snd method_of app bref object_in existsb]. change (text_is "." (PNAME, o)) with (String.eqb o ".").
    change (is_name (PNAME, o)) with true. cbn [negb andb snd is_name fst]. change (text_is "." (POTHER, ".")) with true. cbn [negb andb orb].
    change (text_is "." (PNAME, "transform")) with false. rewrite (IH false H2 Hb). unfold object_in. destruct (p o); cbn [orb]; [reflexivity|]. rewrite !andb_false_r. reflexivity.
  - destruct H as [_ H2]. cbn in Hb. apply orb_false_iff in Hb. destruct Hb as [Hb1 Hb2]. cbn [flat_map expand snd fst app bref object_in existsb]. rewrite Hb1. cbn. now apply IH.
Qed.

(** * The capturers *)
Fixpoint cap' (obj : string) (pd : bool) (caps : list capturer) (l : list ptok) : result (list capturer) :=
  match l with
  | [] => Ok caps
  | t :: r => let* caps' := mapM (fun c => add_token c t) caps in
              cap' obj (text_is "." t) (if negb pd && is_name t && text_is obj t then caps' ++ [new_capturer t] else caps') r
  end.
Lemma capture_cap' obj l : forall pd caps, capture_loop obj caps (annotate pd l) = cap' obj pd caps l.
Proof. induction l as [|t r IH]; intros pd caps; [reflexivity|]. cbn [annotate capture_loop cap']. destruct (mapM _ caps); cbn; [apply IH|reflexivity]. Qed.
Lemma cap'_app obj a : forall pd caps b, cap' obj pd caps (a ++ b) = let* c := cap' obj pd caps a in cap' obj (last_dot pd a) c b.
Proof. induction a as [|t r IH]; intros pd caps b; [reflexivity|]. cbn. destruct (mapM _ caps); cbn; [apply IH|reflexivity]. Qed.
Definition eqo (obj s : string) : bool := String.eqb s obj.
Lemma cap'_none obj l : forall pd, bref (eqo obj) pd l = false -> cap' obj pd [] l = Ok [].
Proof.
  induction l as [|t r IH]; intros pd H; [reflexivity|]. cbn in H |- *. apply orb_false_iff in H. destruct H as [A B].
  unfold text_is at 2. change (String.eqb (snd t) obj) with (eqo obj (snd t)). rewrite A. auto.
Qed.
Lemma cap'_one obj l : forall pd c, bref (eqo obj) pd l = false -> cap' obj pd [c] l = let* c' := foldM add_token l c in Ok [c'].
Proof.
  induction l as [|t r IH]; intros pd c H; [reflexivity|]. cbn in H |- *. apply orb_false_iff in H. destruct H as [A B].
  unfold text_is at 2. change (String.eqb (snd t) obj) with (eqo obj (snd t)). rewrite A. destruct (add_token c t); cbn; auto.
Qed.

Definition dz (t : ptok) : Z := ((if opens (snd t) then 1 else 0) - (if closes (snd t) then 1 else 0))%Z.
Fixpoint take_call (d : Z) (l : list ptok) : list ptok :=
  match l with [] => [] | t :: r => t :: if Z.eqb (d + dz t) 0 then [] else take_call (d + dz t) r end.
Lemma dz_ge t : (-1 <= dz t <= 1)%Z.
Proof. unfold dz. destruct (opens _), (closes _); lia. Qed.
Lemma opens_closes s : opens s = true -> closes s = false.
Proof.
  unfold opens, closes, str_in. cbn. intros H. destruct (String.eqb_spec s "("); [now subst|]. destruct (String.eqb_spec s "["); [now subst|].
  destruct (String.eqb_spec s "{"); [now subst|]. discriminate.
Qed.
Lemma add_done c l : cap_done c = true -> foldM add_token l c = Ok c.
Proof. intros H. induction l as [|t r IH]; [reflexivity|]. cbn [foldM]. unfold add_token at 1. rewrite H. cbn. exact IH. Qed.
Lemma add_started l : forall func toks d, (0 < d)%Z ->
  exists c, foldM add_token l (mkCap func toks d true false) = Ok c /\ cap_func c = func /\ cap_tokens c = toks ++ take_call d l.
Proof.
  induction l as [|t r IH]; intros func toks d Hd.
  { eexists. split; [reflexivity|]. cbn. now rewrite app_nil_r. }
  cbn [foldM]. unfold add_token at 1. cbn [cap_done cap_tokens cap_depth cap_started cap_func].
  set (d1 := if opens (snd t) then (d + 1)%Z else d). set (d2 := if closes (snd t) then (d1 - 1)%Z else d1).
  assert (E : d2 = (d + dz t)%Z) by (unfold d2, d1, dz; destruct (opens _), (closes _); lia).
  pose proof (dz_ge t). cbn [take_call]. rewrite E. unfold assert. destruct (Z.leb_spec 0 (d + dz t)); [|lia]. cbn [bind andb].
  destruct (Z.eqb_spec (d + dz t) 0).
  - rewrite add_done by reflexivity. eexists. split; [reflexivity|]. cbn. auto.
  - destruct (IH func (toks ++ [t]) (d + dz t)%Z) as [c [A [B C]]]; [lia|]. exists c. split; [exact A|]. split; [exact B|]. now rewrite C, <- app_assoc.
Qed.
Definition call_of (post : list ptok) : list ptok := match post with [] => [] | u :: r => u :: take_call 1 r end.
Lemma capture_method i s u r : snd u = "(" ->
  let o := obj_name i s in
  exists c, foldM add_token ([(POTHER, "."); (PNAME, "transform")] ++ u :: r) (new_capturer (PNAME, o)) = Ok c /\
    cap_func c = [o; "."; "transform"] /\ cap_tokens c = method_of o "transform" ++ call_of (u :: r).
Proof.
  intros Hu o. cbn [app foldM]. unfold new_capturer. cbn [snd].
  unfold add_token at 1. cbn [cap_done cap_tokens cap_depth cap_started cap_func snd]. cbn -[add_token foldM].
  unfold add_token at 1. cbn [cap_done cap_tokens cap_depth cap_started cap_func snd]. cbn -[add_token foldM].
  unfold add_token at 1. cbn [cap_done cap_tokens cap_depth cap_started cap_func]. unfold text_is. rewrite Hu. cbn -[add_token foldM take_call].
  destruct (add_started r [o; "."; "transform"] [(PNAME, o); (POTHER, "."); (PNAME, "transform"); u] 1%Z) as [c [A [B C]]]; [lia|].
  exists c. split; [exact A|]. split; [exact B|]. exact C.
Qed.

(** The code for one object. *)
Lemma pu_text_prefix a : forall st b x, pu_text st (a ++ b) = Ok x -> exists y, pu_text st a = Ok y.
Proof.
  induction a as [|[ty t] a IH]; intros st b x H; [eexists; reflexivity|]. cbn [app] in H. rewrite pu_text_cons in H |- *.
  destruct (pu_step st ty t) as [q|]; [|discriminate]. cbn in H |- *. destruct (pu_text (snd q) (a ++ b)) as [z|] eqn:E; [|discriminate].
  destruct (IH _ _ _ E) as [y ->]. eexists. reflexivity.
Qed.
Lemma pu_text_total l : layout_ok l -> forall st, exists y, pu_text st l = Ok y.
Proof.
  induction l as [|[ty t] l IH]; intros H st; [eexists; reflexivity|]. rewrite pu_text_cons.
  destruct (H ty t (or_introl eq_refl)) as [A [B C]]. assert (Hl : layout_ok l) by (intros ? ? ?; eapply H; right; eassumption).
  destruct ty; try congruence; cbn [pu_step bind snd fst]; match goal with |- context [pu_text ?s l] => destruct (IH Hl s) as [y ->] end; eexists; reflexivity.
Qed.
Lemma pu_text_layout l : forall st y, pu_text st l = Ok y -> layout_ok l.
Proof.
  induction l as [|[ty t] l IH]; intros st y H; [easy|]. rewrite pu_text_cons in H.
  destruct (pu_step st ty t) as [q|] eqn:E; [|discriminate]. cbn in H. destruct (pu_text (snd q) l) as [z|] eqn:E2; [|discriminate].
  intros ty' s [Hi|Hi]; [|exact (IH _ _ E2 _ _ Hi)]. injection Hi as -> ->. destruct ty'; try discriminate; repeat split; discriminate.
Qed.
Lemma drop_append a b : drop_chars (String.length a) (String.append a b) = b.
Proof. induction a; cbn; auto. Qed.
Lemma prefix_append a b : String.prefix a (String.append a b) = true.
Proof. induction a as [|c a IH]; cbn; [destruct b; reflexivity|]. destruct (Ascii.ascii_dec c c); [exact IH|congruence]. Qed.

Lemma cap'_start i s Y : cap' (obj_name i s) false [] ((PNAME, obj_name i s) :: Y) = cap' (obj_name i s) false [new_capturer (PNAME, obj_name i s)] Y.
Proof.
  cbn [cap' mapM bind]. assert (E1 : text_is (obj_name i s) (PNAME, obj_name i s) = true) by (unfold text_is; apply String.eqb_refl). rewrite E1. reflexivity.
Qed.
Lemma code_strings o name code x' : name = String.append o ".transform" -> code = String.append o (String.append "." (String.append "transform" (String "("%char x'))) ->
  assert (String.eqb name (String.append o ".transform"))
    (assert (String.prefix (String.append name "(") code)
      (Ok (String.append o (String.append ".memorize_chunk" (drop_chars (String.length name) code))))) =
  Ok (String.append o (String.append ".memorize_chunk" (String "("%char x'))).
Proof.
  intros -> ->. rewrite String.eqb_refl. unfold assert at 1.
  replace (String.append o (String.append "." (String.append "transform" (String "("%char x')))) with (String.append (String.append (String.append o ".transform") "(") x')
    by (rewrite !append_assoc_str; reflexivity).
  rewrite prefix_append. unfold assert. rewrite append_assoc_str, drop_append. reflexivity.
Qed.
Section Code.
Context (lex : string -> result (list ptok)).
Lemma memorize_code_lemma eval_code i s pre u r :
  let o := obj_name i s in
  lex eval_code = Ok (pre ++ method_of o "transform" ++ u :: r) ->
  layout_ok (u :: r) ->
  u = (POTHER, "(") -> last_dot false pre = false ->
  bref (eqo o) false pre = false -> bref (eqo o) false (u :: r) = false ->
  exists text, memorize_code_for lex eval_code o = Ok text /\
    pretty_untokenize (method_of o "memorize_chunk" ++ call_of (u :: r)) = Ok text.
Proof.
  intros o Hlex Hlay Hu Hpd Hpre Hpost.
  assert (Hp : pu_text (after_word pu_init) (call_of (u :: r)) <> Err AssertionError /\ exists x, pu_text (after_word pu_init) (call_of (u :: r)) = Ok x).
  { assert (Hs : exists suf, u :: r = call_of (u :: r) ++ suf).
    { cbn [call_of]. assert (forall l d, exists suf, l = take_call d l ++ suf) as G.
      { induction l as [|t l IH]; intros d; [now exists []|]. cbn. destruct (Z.eqb _ 0); [exists l; reflexivity|]. destruct (IH (d + dz t)%Z) as [suf E]. exists suf. cbn. now rewrite <- E. }
      destruct (G r 1%Z) as [suf E]. exists suf. cbn. now rewrite <- E. }
    destruct Hs as [suf Hs]. destruct (pu_text_total _ Hlay (after_word pu_init)) as [y Hy]. rewrite Hs in Hy. apply pu_text_prefix in Hy. destruct Hy as [x Hx].
    split; [rewrite Hx; discriminate|eauto]. }
  destruct Hp as [_ [x Hx]].
  destruct (capture_method i s u r) as [c [C1 [C2 C3]]]; [now rewrite Hu|].
  unfold memorize_code_for, capture_obj_method_calls, annotated_tokens. rewrite Hlex. cbn [bind]. rewrite capture_cap', cap'_app, (cap'_none _ _ _ Hpre), Hpd. cbn [bind].
  assert (Estep : forall X, cap' o false [] (method_of o "transform" ++ X) = cap' o false [new_capturer (PNAME, o)] ([(POTHER, "."); (PNAME, "transform")] ++ X)).
  { intros X. unfold method_of. cbn [app]. apply cap'_start. }
  rewrite Estep.
  rewrite cap'_one.
  2:{ rewrite bref_app. cbn [last_dot]. change (text_is "." (PNAME, "transform")) with false. rewrite Hpost. reflexivity. }
  match goal with |- context [foldM add_token ?L ?k] => replace (foldM add_token L k) with (Ok c) by (symmetry; exact C1) end. cbn [bind mapM]. rewrite C3, C2. subst o. rewrite pretty_pu_text, method_text by reflexivity.
  rewrite Hx.
  cbn [bind].
  assert (Ex : exists x', x = String "("%char x').
  { cbn [call_of] in Hx. rewrite Hu, pu_text_cons in Hx. cbn in Hx. destruct (pu_text _ _) as [z|] in Hx; [|discriminate]. cbn in Hx. injection Hx as <-. eexists. reflexivity. }
  destruct Ex as [x' ->]. eexists. split; [apply code_strings; reflexivity|].
  rewrite pretty_pu_text. rewrite method_text by reflexivity. rewrite Hx. reflexivity.
Qed.
End Code.
