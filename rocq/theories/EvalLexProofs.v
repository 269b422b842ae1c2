(** The results about factor code, for the tokenizer of PyLexModel. *)
From Coq Require Import Ascii Sorted Permutation DecimalString.
From Verif Require Import Base TokensModel TokensSpec TokensProofs BuildModel EvalModel EvalSpec EvalTextProofs EvalMarkProofs EvalCaptureProofs EvalBinsProofs EvalProofs EvalTopProofs EvalEnvProofs PyLexModel PyLexSpec PyLexProofs.
Open Scope string_scope.
Open Scope list_scope.

(** * Tokens produced are simple *)
Lemma py_lex_simple n : forall s toks, py_lex_from n s = Ok toks -> Forall simple_token toks.
Proof.
  induction n as [|n IH]; intros s toks H; cbn [py_lex_from] in H.
  { destruct s; [|discriminate]. injection H as <-. constructor. }
  destruct s as [|c r]; [injection H as <-; constructor|].
  destruct (is_blank c); [eauto|]. destruct (next_token (String c r)) as [ty w rest| | |] eqn:E; [|discriminate|injection H as <-; constructor|discriminate].
  destruct (py_lex_from n rest) as [l|] eqn:El; [|discriminate]. injection H as <-. constructor; [|eauto]. exact (proj2 (next_token_spec _ _ _ _ E)).
Qed.
Lemma py_lex_plain s toks : py_lex s = Ok toks -> neighbours_fit toks = true -> plain toks.
Proof. intros H F. split; [eapply py_lex_simple; exact H|exact F]. Qed.
Lemma simple_layout l : Forall simple_token l -> layout_ok l.
Proof. rewrite Forall_forall. intros H ty s Hi. specialize (H _ Hi). destruct ty; cbn in H; try tauto; repeat split; discriminate. Qed.
Lemma simple_punctuation l : Forall simple_token l -> punctuation_is_operators l.
Proof.
  rewrite Forall_forall. intros H ty s Hi Hp. specialize (H _ Hi).
  destruct (simple_first _ H) as (c & r & Ec & _ & _ & _ & W). cbn [fst snd] in *. subst s.
  assert (G : op_char c = true /\ (c = "."%char -> r = "")).
  { destruct Hp as [Hp|[Hp|Hp]].
    - unfold opens in Hp. apply str_in_iff in Hp. destruct Hp as [E|[E|[E|[]]]]; injection E as <- _; (split; [reflexivity|discriminate]).
    - unfold closes in Hp. apply str_in_iff in Hp. destruct Hp as [E|[E|[E|[]]]]; injection E as <- _; (split; [reflexivity|discriminate]).
    - injection Hp as -> ->. split; reflexivity. }
  destruct G as [G1 G2]. destruct ty; cbn [simple_token] in H; try tauto; destruct (W eq_refl) as [K|[K1 K]]; try congruence. subst c. rewrite (G2 eq_refl) in H. discriminate.
Qed.

(** * C10 *)
Lemma plain_printed toks : plain toks -> exists text, pretty_untokenize toks = Ok text.
Proof.
  intros [H _]. destruct (pretty_untokenize toks) as [t|e] eqn:E; [eauto|]. exfalso.
  destruct (proj1 (proj2 (pretty_err_lemma toks))) as [t [Ht Hl]]; [eauto|]. destruct t as [ty s]. destruct (simple_layout toks H ty s Ht) as [A [B C]]. unfold layout in Hl. cbn in Hl. tauto.
Qed.
Lemma generate_tokens_of s toks : py_lex s = Ok toks -> tokens_of generate_tokens s toks.
Proof.
  intros H. exists (toks ++ [(PNEWLINE, ""); (PENDMARKER, "")]). unfold generate_tokens. rewrite H. split; [reflexivity|].
  rewrite filter_app. cbn. rewrite app_nil_r. symmetry. apply simple_has_text. eapply py_lex_simple; exact H.
Qed.
Lemma normalize_text s toks text : py_lex s = Ok toks -> pretty_untokenize toks = Ok text -> normalize_token_spacing generate_tokens s = Ok text.
Proof.
  intros H E. unfold normalize_token_spacing, generate_tokens. rewrite H. cbn [bind]. rewrite untokenize_has_text, filter_app. cbn. rewrite app_nil_r, <- untokenize_has_text. exact E.
Qed.
Lemma normalize_py s toks : py_lex s = Ok toks -> neighbours_fit toks = true ->
  exists text, normalize_token_spacing generate_tokens s = Ok text /\ py_lex text = Ok toks /\ normalize_token_spacing generate_tokens text = Ok text.
Proof.
  intros H F. pose proof (py_lex_plain s toks H F) as P. destruct (plain_printed toks P) as [text E]. pose proof (py_lex_back toks text P E) as B.
  exists text. split; [exact (normalize_text s toks text H E)|]. split; [exact B|exact (normalize_text text toks text B E)].
Qed.
Lemma normalize_eq_py s1 s2 toks1 toks2 : py_lex s1 = Ok toks1 -> neighbours_fit toks1 = true -> py_lex s2 = Ok toks2 -> neighbours_fit toks2 = true ->
  (normalize_token_spacing generate_tokens s1 = normalize_token_spacing generate_tokens s2 <-> toks1 = toks2).
Proof.
  intros H1 F1 H2 F2. destruct (normalize_py s1 toks1 H1 F1) as [t1 [N1 [L1 _]]]. destruct (normalize_py s2 toks2 H2 F2) as [t2 [N2 [L2 _]]].
  rewrite N1, N2. split; intros E; [injection E as ->; congruence|]. subst toks2.
  rewrite <- N1, <- N2. eapply normalize_same_tokens; apply generate_tokens_of; eassumption.
Qed.

(** * C30 *)
Lemma fit_cons t u l : neighbours_fit (t :: u :: l) = fits t u && neighbours_fit (u :: l).
Proof. reflexivity. Qed.
Lemma fit_app a b : neighbours_fit (a ++ b) = true -> neighbours_fit a = true /\ neighbours_fit b = true.
Proof.
  induction a as [|t a IH]; intros H; [auto|]. destruct a as [|u a].
  - split; [reflexivity|]. destruct b; [reflexivity|]. cbn in H. apply andb_true_iff in H. apply H.
  - cbn [app] in H. rewrite fit_cons in H. apply andb_true_iff in H. destruct H as [H1 H2]. destruct (IH H2) as [A B]. split; [|exact B]. now rewrite fit_cons, H1, A.
Qed.
Lemma fit_name s l : neighbours_fit ((PNAME, s) :: l) = neighbours_fit l.
Proof. destruct l; reflexivity. Qed.
Lemma fit_dot s l : neighbours_fit ((POTHER, ".") :: (PNAME, s) :: l) = neighbours_fit l.
Proof. exact (fit_name s l). Qed.
Lemma fit_method o m l : neighbours_fit (method_of o m ++ l) = neighbours_fit l.
Proof. unfold method_of. cbn [app]. now rewrite fit_name, fit_dot. Qed.

Section Rew.
Variable obj : nat -> option string.
Definition rew_from (k : nat) (toks : list ptok) : list ptok :=
  flat_map (fun p => match obj (fst p) with Some o => method_of o "transform" | None => [snd p] end) (combine (seq k (List.length toks)) toks).
Lemma rew_fit toks : forall k, (forall i o t, obj (k + i) = Some o -> nth_error toks i = Some t -> fst t = PNAME) ->
  neighbours_fit toks = true -> neighbours_fit (rew_from k toks) = true.
Proof.
  induction toks as [|t toks IH]; intros k Ho F; [reflexivity|].
  assert (F' : neighbours_fit toks = true) by (destruct toks; [reflexivity|]; cbn in F; apply andb_true_iff in F; apply F).
  assert (Ho' : forall i o u, obj (S k + i) = Some o -> nth_error toks i = Some u -> fst u = PNAME) by (intros i o u A B; apply (Ho (S i) o u); [now rewrite Nat.add_succ_r|exact B]).
  specialize (IH (S k) Ho' F'). unfold rew_from. cbn [List.length seq combine flat_map fst snd]. fold (rew_from (S k) toks).
  destruct (obj k) as [o|] eqn:E; [now rewrite fit_method|]. cbn [app].
  destruct toks as [|u toks]; [reflexivity|]. rewrite fit_cons in F. apply andb_true_iff in F. destruct F as [F _].
  unfold rew_from in IH |- *. cbn [List.length seq combine flat_map fst snd] in IH |- *.
  destruct (obj (S k)) as [o|] eqn:E2.
  - specialize (Ho' 0 o u). rewrite Nat.add_0_r in Ho'. specialize (Ho' E2 eq_refl). destruct u as [uty us]. cbn in Ho'. subst uty.
    unfold method_of in IH |- *. cbn [app] in IH |- *. rewrite fit_cons, IH.
    unfold fits in F |- *. cbn [fst snd] in F |- *. rewrite andb_true_r. exact F.
  - cbn [app] in IH |- *. now rewrite fit_cons, IH, F.
Qed.
End Rew.

Lemma object_at_in k ms i o : object_at k ms i = Some o -> exists j s, In (i, s) ms /\ o = obj_name j s.
Proof.
  revert k. induction ms as [|[j s] ms IH]; intros k H; [discriminate|]. cbn [object_at] in H. destruct (Nat.eqb_spec j i) as [->|N].
  - injection H as <-. exists k, s. split; [now left|reflexivity].
  - destruct (IH _ H) as [j' [s' [A B]]]. exists j', s'. split; [now right|exact B].
Qed.
Lemma uint_chars d : all_chars name_char (NilEmpty.string_of_uint d) = true.
Proof. induction d; cbn; auto. Qed.
Lemma obj_name_simple j s : simple_token (PNAME, s) -> simple_token (PNAME, obj_name j s).
Proof.
  destruct s as [|c s]; [intros []|]. intros [Hc Hs]. unfold obj_name. cbn [append simple_token]. split; [reflexivity|].
  cbn [all_chars]. rewrite !all_chars_app. unfold nat_str. rewrite uint_chars. cbn [append all_chars]. rewrite all_chars_app. cbn. rewrite Hs. unfold name_char at 1. rewrite Hc. reflexivity.
Qed.
Lemma rewritten_plain toks is_tr ms : plain toks -> transform_calls toks is_tr ms -> plain (rewritten toks ms).
Proof.
  intros [Hs Hf] [_ Hm]. assert (Hcall : forall i o, object_at 0 ms i = Some o -> exists j s, nth_error toks i = Some (PNAME, s) /\ o = obj_name j s).
  { intros i o Ho. destruct (object_at_in _ _ _ _ Ho) as [j [s [A B]]]. apply Hm in A. destruct A as [[A _] _]. eauto. }
  split.
  - apply Forall_forall. intros x Hx. unfold rewritten in Hx. apply in_flat_map in Hx. destruct Hx as [[i t] [H1 H2]]. cbn [fst snd] in H2.
    rewrite Forall_forall in Hs. destruct (object_at 0 ms i) as [o|] eqn:E.
    + destruct (Hcall i o E) as [j [s [A ->]]]. apply nth_error_In in A. apply Hs in A.
      destruct H2 as [<-|[<-|[<-|[]]]]; [now apply obj_name_simple|unfold simple_token; vm_compute; tauto|vm_compute; auto].
    + destruct H2 as [<-|[]]. apply in_combine_r in H1. auto.
  - apply (rew_fit (object_at 0 ms) toks 0); [|exact Hf]. intros i o t Ho Ht. destruct (Hcall i o Ho) as [j [s [A _]]]. cbn in A. rewrite A in Ht. now injection Ht as <-.
Qed.
Lemma call_plain pre o seg suf : plain (pre ++ method_of o "transform" ++ seg ++ suf) -> plain (method_of o "memorize_chunk" ++ seg).
Proof.
  intros [Hs Hf]. split.
  - rewrite Forall_app in Hs. destruct Hs as [_ Hs]. rewrite Forall_app in Hs. destruct Hs as [Ho Hs]. rewrite Forall_app in Hs. destruct Hs as [Hs _]. apply Forall_app. split; [|exact Hs].
    inversion Ho as [|? ? H1 H2]; subst. constructor; [exact H1|]. inversion H2 as [|? ? H3 H4]; subst. constructor; [exact H3|]. constructor; [vm_compute; auto|constructor].
  - apply fit_app in Hf. destruct Hf as [_ Hf]. rewrite fit_method in Hf. apply fit_app in Hf. rewrite fit_method. apply Hf.
Qed.

Section Top.
Context {val : Type}.
Variable ast_names : string -> result (list string).
Variable stateful : val -> bool.
Variable builtins : @namespace val.
Lemma passes_py_lemma code e mentioned toks ms :
  ast_names code = Ok mentioned -> py_lex code = Ok toks -> neighbours_fit toks = true ->
  transform_calls toks (is_transform stateful builtins e mentioned) ms ->
  (forall o, In o (objects ms) -> ~ referenced toks o) ->
  exists st, memorize_passes_needed py_lex ast_names stateful builtins code e = Ok st /\
    Permutation (concat (fs_pass_bins st)) (objects ms) /\ Forall (fun b => b <> []) (fs_pass_bins st) /\
    (forall o o' p q, in_pass (fs_pass_bins st) o p -> in_pass (fs_pass_bins st) o' q -> inside toks ms o o' -> q < p) /\
    (forall o p, in_pass (fs_pass_bins st) o (S p) -> exists o', in_pass (fs_pass_bins st) o' p /\ inside toks ms o o') /\
    (forall o, In o (objects ms) -> exists pre seg suf text,
       rewritten toks ms = pre ++ method_of o "transform" ++ seg ++ suf /\ argument_list seg suf /\
       dget String.eqb o (fs_memorize_code st) = Some text /\ pretty_untokenize (method_of o "memorize_chunk" ++ seg) = Ok text).
Proof.
  intros Ha Hl Hf Hms Hno. pose proof (py_lex_plain code toks Hl Hf) as P. pose proof (rewritten_plain toks _ ms P Hms) as RP.
  apply (passes_lemma py_lex ast_names stateful builtins code e mentioned toks ms); auto.
  - apply simple_punctuation. apply P.
  - apply simple_layout. apply P.
  - intros text E. now apply py_lex_back.
  - intros pre o seg suf E _ text Et. apply py_lex_back; [|exact Et]. rewrite E in RP. eapply call_plain; exact RP.
Qed.
End Top.

(** * The calls made on the objects, given the passes *)
Lemma schedule_lemma {D} (data : nat -> list D) bins objs (ins : string -> string -> Prop) : NoDup objs -> Permutation (concat bins) objs ->
  (forall o o' p q, in_pass bins o p -> in_pass bins o' q -> ins o o' -> q < p) ->
  (forall o, In o objs -> exists p, in_pass bins o p /\ filter (about o) (object_calls data bins) = map (OChunk o) (data p) ++ [OFinish o]) /\
  (forall o o' pre d post, In o objs -> In o' objs -> ins o o' -> object_calls data bins = pre ++ OChunk o d :: post -> In (OFinish o') pre).
Proof.
  intros Hn Hp Hi. assert (Hnc : NoDup (concat bins)) by (eapply Permutation_NoDup; [symmetry; exact Hp|exact Hn]).
  assert (Hin : forall o, In o objs -> exists p, in_pass bins o p).
  { intros o Ho. apply (Permutation_in _ (Permutation_sym Hp)) in Ho. apply in_concat in Ho. destruct Ho as [bin [A B]]. apply In_nth_error in A. destruct A as [p A]. exists p, bin. auto. }
  split.
  - intros o Ho. destruct (Hin o Ho) as [p Hpo]. exists p. split; [exact Hpo|]. now apply object_calls_about.
  - intros o o' pre d post Ho Ho' Hoo E. destruct (Hin o Ho) as [p Hpo]. destruct (Hin o' Ho') as [q Hq]. pose proof (Hi o o' p q Hpo Hq Hoo) as L.
    destruct Hpo as [bin [A B]]. destruct Hq as [bin' [A' B']]. exact (earlier_first data bins Hnc 0 p q o o' bin bin' pre d post A B A' B' L E).
Qed.
