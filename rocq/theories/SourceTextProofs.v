(** Text of factors on two kinds of data in which the names mentioned have the same values. *)
From Coq Require Import Permutation.
From Verif Require Import Base OriginModel TokensModel EvalBinsProofs BuildModel EvalModel EvalSpec EvalMarkProofs EvalCaptureProofs EvalTopProofs EvalTextProofs EvalProofs PyLexModel PyLexSpec PyLexProofs EvalLexProofs
  DescModel CategoricalModel PipeModel MemorizeModel MemorizeSpec FitModel FitSpec FitProofs EntryModel CodeModel CodeSpec CodeTreeProofs CodeProofs CodeEvalProofs SourceSpec SourceProofs.
Open Scope nat_scope.
Open Scope string_scope.
Open Scope list_scope.

Section Text.
Context {V I C val op St D1 D2 : Type}.
Local Notation cx := (@cx op).
Local Notation part := (ptok + cx)%type.
Variable parse : list ptok -> result cx.
Variable look1 : D1 -> @namespace val.
Variable look2 : D2 -> @namespace val.
Variable pybuiltins : @namespace val.
Variable apply : op -> list val -> result val.
Variable truth : val -> result bool.
Variable call : val -> list (option ptok) -> list val -> result val.
Variable call_method : val -> string -> list (option ptok) -> list val -> result val.
Variable stateful : val -> bool.
Variable t_new : val -> St.
Variable t_chunk : val -> list (option ptok) -> St -> list val -> result St.
Variable t_finish : val -> St -> result St.
Variable t_transform : val -> list (option ptok) -> St -> list val -> result val.
Variable objval : string -> val.
Variable vnone : val.
Variable builtins : @namespace val.
Variable e : @env val.
Variable bin_order : list string -> list string.
Hypothesis Hbin : forall l, Permutation (bin_order l) l.
Variable origin_of : factor -> option origin.
Variable as_obj : val -> @fobj V I C.
Local Notation with_objects := (@with_objects val op stateful builtins e).
Local Notation pwith := (@parts_with_objects val op stateful builtins e).
Local Notation nodes := (@nodes val op stateful builtins e).
Local Notation pnodes := (@pnodes val op stateful builtins e).
Local Notation places := (@places val op stateful builtins e).
Local Notation ncalls := (@ncalls val op stateful builtins e).
Local Notation tr := (transform_of stateful builtins e).

(** ** Only the names in a tree are looked up *)
Section Sem.
Variable fs : @factor_state val.
(** Only the factor's own objects are stored. *)
Definition stored (st : @store St) : Prop := forall o, dget String.eqb o (fs_transforms fs) = None -> st o = None.
Lemma stored_put st o s s' : stored st -> st o = Some s -> stored (put st o s').
Proof.
  intros H E k Hk. unfold put. destruct (String.eqb_spec k o) as [->|]; [|now apply H]. rewrite (H o Hk) in E. discriminate.
Qed.
Lemma andthen_stored {A B} (m : result A * @store St) (k : A -> @store St -> result B * @store St) : stored (snd m) -> (forall a st, stored st -> stored (snd (k a st))) -> stored (snd (andthen m k)).
Proof. destruct m as [[a|] st]; cbn; auto. Qed.
Section Stored.
Context {D : Type}.
Variable look : D -> @namespace val.
Variable d : D.
Local Notation psem := (psem look pybuiltins apply truth call call_method t_chunk t_transform objval vnone fs d).
Local Notation pargs := (pargs look pybuiltins apply truth call call_method t_chunk t_transform objval vnone fs d).
Lemma parts_stored parts : Forall (on_part (fun t : cx => forall st, stored st -> stored (snd (psem t st)))) parts -> forall st, stored st -> stored (snd (pargs parts st)).
Proof.
  induction 1 as [|p r Hp _ IH]; intros st Hst; [exact Hst|]. destruct p as [tok|x]; cbn [CodeEvalProofs.pargs]; [now apply IH|].
  apply andthen_stored; [now apply Hp|]. intros v st' H'. apply andthen_stored; [now apply IH|]. auto.
Qed.
Lemma sem_stored t : forall st, stored st -> stored (snd (psem t st)).
Proof.
  induction t as [s|o parts IH|b c f IHb IHc IHf|s parts IH|o m parts IH] using cx_ind'; intros st Hst.
  - exact Hst.
  - rewrite psem_node. apply andthen_stored; [now apply parts_stored|auto].
  - cbn [CodeModel.psem]. apply andthen_stored; [now apply IHc|]. intros v st' H'. destruct (truth v) as [[|]|]; auto.
  - rewrite psem_call. apply andthen_stored; [exact Hst|]. intros v st' H'. apply andthen_stored; [now apply parts_stored|auto].
  - rewrite psem_meth. destruct (object _ _ _ _ _) as [v|].
    + apply andthen_stored; [now apply parts_stored|]. intros vs st' H'. unfold object_method. destruct (st' o) as [s|] eqn:E; [|exact H']. destruct (String.eqb m "transform"); [exact H'|]. destruct (String.eqb m "memorize_chunk"); [|exact H'].
      destruct (t_chunk v (shape parts) s vs); [|exact H']. cbn [snd]. eapply stored_put; eassumption.
    + apply andthen_stored; [exact Hst|]. intros v st' H'. apply andthen_stored; [now apply parts_stored|auto].
Qed.
End Stored.

Variables (d1 : D1) (d2 : D2).
Local Notation psem1 := (psem look1 pybuiltins apply truth call call_method t_chunk t_transform objval vnone fs d1).
Local Notation psem2 := (psem look2 pybuiltins apply truth call call_method t_chunk t_transform objval vnone fs d2).
(** What a name stands for that is not an object. *)
Definition seen (data : option val) (s : string) : option val :=
  match data with Some v => Some v | None => match vlookup (fs_env fs) s with Some v => Some v | None => pybuiltins s end end.
Definition agree (l : list string) : Prop :=
  forall s, In s l -> look1 d1 s = look2 d2 s \/ (dget String.eqb s (fs_transforms fs) = None /\ seen (look1 d1 s) s = seen (look2 d2 s) s).
Lemma load_seen {D} (look : D -> @namespace val) d (st : @store St) s : st s = None ->
  load look pybuiltins objval fs d st s = match seen (look d s) s with Some v => Ok v | None => Err NameError end.
Proof.
  intros H. unfold load, factor_locals, eval_locals, new_vld, seen. cbn [vlookup empty_ns]. rewrite H. cbn [option_map].
  destruct (look d s); [reflexivity|]. destruct (vlookup (fs_env fs) s); reflexivity.
Qed.
Lemma agree_load (st : @store St) l s : agree l -> In s l -> stored st -> load look1 pybuiltins objval fs d1 st s = load look2 pybuiltins objval fs d2 st s.
Proof.
  intros Ha Hs Hst. destruct (Ha s Hs) as [H|[H1 H2]].
  - unfold load, factor_locals, eval_locals, new_vld. cbn [vlookup]. now rewrite H.
  - rewrite !load_seen by now apply Hst. now rewrite H2.
Qed.
Lemma agree_object (st : @store St) l s : agree l -> In s l -> stored st -> object look1 fs d1 st s = object look2 fs d2 st s.
Proof.
  intros Ha Hs Hst. unfold object. destruct (Ha s Hs) as [H|[H1 H2]]; [now rewrite H|]. rewrite (Hst s H1). destruct (look1 d1 s), (look2 d2 s); reflexivity.
Qed.
Lemma andthen_ext {A B} (m : result A * @store St) (k k' : A -> @store St -> result B * @store St) : stored (snd m) -> (forall a st, stored st -> k a st = k' a st) -> andthen m k = andthen m k'.
Proof. intros S H. destruct m as [[a|] st]; cbn; [apply H; exact S|reflexivity]. Qed.
Local Notation pargs1 := (pargs look1 pybuiltins apply truth call call_method t_chunk t_transform objval vnone fs d1).
Local Notation pargs2 := (pargs look2 pybuiltins apply truth call call_method t_chunk t_transform objval vnone fs d2).
Lemma agree_incl l m : agree m -> incl l m -> agree l.
Proof. intros H Hi s Hs. apply H, Hi, Hs. Qed.
Lemma args_stored parts st : stored st -> stored (snd (pargs2 parts st)).
Proof. apply parts_stored. clear. induction parts as [|[tok|x] r IH]; constructor; [exact Logic.I|exact IH|exact (sem_stored look2 d2 x)|exact IH]. Qed.
Lemma agree_parts parts : Forall (on_part (fun t : cx => agree (tree_names t) -> forall st, stored st -> psem1 t st = psem2 t st)) parts -> agree (pnames parts) -> forall st, stored st -> pargs1 parts st = pargs2 parts st.
Proof.
  induction 1 as [|p r Hp _ IH]; intros Ha st Hst; [reflexivity|]. destruct p as [tok|x]; cbn [CodeEvalProofs.pargs].
  - now apply IH.
  - rewrite Hp; [|intros s Hs; apply Ha; cbn; apply in_app_iff; now left|exact Hst]. apply andthen_ext; [now apply sem_stored|]. intros v st' H'. rewrite IH; [reflexivity|intros s Hs; apply Ha; cbn; apply in_app_iff; now right|exact H'].
Qed.
Lemma agree_sem t : agree (tree_names t) -> forall st, stored st -> psem1 t st = psem2 t st.
Proof.
  induction t as [s|o parts IH|b c f IHb IHc IHf|s parts IH|o m parts IH] using cx_ind'; intros Ha st Hst.
  - cbn [CodeModel.psem]. now rewrite (agree_load st _ s Ha (or_introl eq_refl) Hst).
  - rewrite !psem_node. now rewrite (agree_parts parts IH Ha).
  - cbn [CodeModel.psem tree_names] in *. rewrite IHc; [|intros s Hs; apply Ha; rewrite !in_app_iff; auto|exact Hst]. apply andthen_ext; [now apply sem_stored|]. intros v st' H'. destruct (truth v) as [[|]|]; [apply IHb|apply IHf|reflexivity]; try exact H'; intros s Hs; apply Ha; rewrite !in_app_iff; auto.
  - rewrite !psem_call. cbn [tree_names] in Ha. fold (pnames parts) in Ha. rewrite (agree_load st _ s Ha (or_introl eq_refl) Hst). apply andthen_ext; [exact Hst|]. intros v st' H'. rewrite (agree_parts parts IH); [reflexivity|intros x Hx; apply Ha; now right|exact H'].
  - rewrite !psem_meth. cbn [tree_names] in Ha. fold (pnames parts) in Ha. rewrite (agree_object st _ o Ha (or_introl eq_refl) Hst), (agree_load st _ o Ha (or_introl eq_refl) Hst). assert (Hp : agree (pnames parts)) by (intros x Hx; apply Ha; now right).
    destruct (object look2 fs d2 st o); [now rewrite (agree_parts parts IH Hp)|]. apply andthen_ext; [exact Hst|]. intros v st' H'. now rewrite (agree_parts parts IH Hp).
Qed.
End Sem.

(** ** The names in the rewritten tree *)
Lemma names_with t : forall i k s, In s (tree_names (with_objects k t)) -> In s (tree_names t) \/ In s (map object_of (nodes i k t)).
Proof.
  assert (Hp : forall parts, Forall (on_part (fun t : cx => forall i k s, In s (tree_names (with_objects k t)) -> In s (tree_names t) \/ In s (map object_of (nodes i k t)))) parts ->
    forall i k s, In s (pnames (pwith k parts)) -> In s (pnames parts) \/ In s (map object_of (pnodes i k parts))).
  { induction 1 as [|p r Hp _ IH]; intros i k s Hs; [destruct Hs|]. destruct p as [tok|x]; cbn [parts_with_objects CodeTreeProofs.pnodes] in *; [now apply IH|].
    unfold pnames in *. cbn [flat_map] in *. rewrite map_app, !in_app_iff in *. destruct Hs as [Hs|Hs]; [destruct (Hp i k s Hs); auto|]. destruct (IH (i + List.length (toks_of x)) (k + ncalls x) s Hs); auto. }
  induction t as [s|o parts IH|b c f IHb IHc IHf|s parts IH|o m parts IH] using cx_ind'; intros i k z Hz.
  - now left.
  - rewrite with_node in Hz. rewrite nodes_node. now apply Hp.
  - cbn [CodeSpec.with_objects CodeSpec.nodes tree_names] in *. rewrite !map_app, !in_app_iff in *. destruct Hz as [Hz|[Hz|Hz]]; [apply (IHb i) in Hz|eapply IHc in Hz|eapply IHf in Hz]; intuition eauto.
  - rewrite with_call in Hz. rewrite nodes_call. destruct (tr s) as [v|]; cbn [tree_names map] in Hz |- *; fold (pnames parts).
    + destruct Hz as [<-|Hz]; [right; now left|]. apply (Hp _ IH (i + 2)) in Hz. destruct Hz; [left; now right|right; now right].
    + destruct Hz as [<-|Hz]; [left; now left|]. apply (Hp _ IH (i + 2)) in Hz. destruct Hz; [left; now right|now right].
  - rewrite with_meth in Hz. rewrite nodes_meth. cbn [tree_names] in Hz |- *. fold (pnames parts). destruct Hz as [<-|Hz]; [left; now left|]. apply (Hp _ IH (i + 4)) in Hz. destruct Hz; [left; now right|now right].
Qed.
Lemma names_parts_with parts i k s : In s (pnames (pwith k parts)) -> In s (pnames parts) \/ In s (map object_of (pnodes i k parts)).
Proof.
  revert i k. induction parts as [|[tok|x] r IH]; intros i k Hs; [destruct Hs| |]; cbn [parts_with_objects CodeTreeProofs.pnodes] in *; [now apply IH|].
  unfold pnames in *. cbn [flat_map] in *. rewrite map_app, !in_app_iff in *. destruct Hs as [Hs|Hs]; [destruct (names_with x i k s Hs); auto|]. destruct (IH (i + List.length (toks_of x)) (k + ncalls x) Hs); auto.
Qed.

(** ** A factor *)
Local Notation mpn := (memorize_passes_needed py_lex (text_names py_lex parse) stateful builtins).
Local Notation passes := (tf_passes py_lex parse stateful t_new builtins e).
Local Notation finish := (tf_finish (val := val) t_finish bin_order).
Local Notation chunk1 := (tf_chunk py_lex parse look1 pybuiltins apply truth call call_method t_chunk t_transform objval vnone bin_order origin_of).
Local Notation chunk2 := (tf_chunk py_lex parse look2 pybuiltins apply truth call call_method t_chunk t_transform objval vnone bin_order origin_of).
Local Notation eval1 := (tf_eval py_lex parse look1 pybuiltins apply truth call call_method t_chunk t_transform objval vnone origin_of as_obj).
Local Notation eval2 := (tf_eval py_lex parse look2 pybuiltins apply truth call call_method t_chunk t_transform objval vnone origin_of as_obj).
(** The state of a factor is that of its own preparation. *)
Definition own (f : factor) (s : @factor_state val * @store St) : Prop := mpn f e = Ok (fst s) /\ stored (fst s) (snd s).
Lemma own_new f s k : passes f = Ok (s, k) -> own f s.
Proof. unfold tf_passes, own. destruct (mpn f e) as [fs|]; cbn [bind]; [|discriminate]. intros [= <- _]. split; [reflexivity|]. intros o Ho. cbn [fst snd] in *. now rewrite Ho. Qed.
Lemma text_stored fs d code st st' v : stored fs st -> eval_text py_lex parse look1 pybuiltins apply truth call call_method t_chunk t_transform objval vnone fs d code st = (Ok v, st') -> stored fs st'.
Proof.
  intros Hst. unfold eval_text. destruct (bind _ _) as [t|]; [|discriminate]. intros E. pose proof (sem_stored fs look1 d t st Hst) as H. rewrite E in H. exact H.
Qed.
Lemma foldM_stored {X} fs (g : @store St -> X -> result (@store St)) l : (forall a x b, stored fs a -> g a x = Ok b -> stored fs b) -> forall a b, stored fs a -> foldM g l a = Ok b -> stored fs b.
Proof.
  intros H. induction l as [|x l IH]; intros a b Ha; cbn [foldM]; [intros [= <-]; exact Ha|]. destruct (g a x) as [c|] eqn:E; cbn [bind]; [|discriminate]. apply IH. eapply H; eassumption.
Qed.
Lemma own_chunk f s p d s' : own f s -> chunk1 f s p d = Ok s' -> own f s'.
Proof.
  unfold own, tf_chunk. destruct s as [fs st]. cbn [fst snd]. intros [H Hst]. destruct (nth_error _ p) as [bin|]; [|discriminate]. match goal with |- bind ?r _ = _ -> _ => destruct r as [st'|] eqn:E; cbn [bind]; [|discriminate] end. intros [= <-]. split; [exact H|].
  cbn [fst snd]. revert E. apply foldM_stored; [|exact Hst]. intros u o w Ha. destruct (lookup _) as [code|]; cbn [bind]; [|discriminate].
  destruct (eval_text _ _ _ _ _ _ _ _ _ _ _ _ _ _ code u) as [[v|x] w'] eqn:Et; cbn; [|discriminate]. intros [= <-]. eapply text_stored; eassumption.
Qed.
Lemma own_finish f s p s' : own f s -> finish f s p = Ok s' -> own f s'.
Proof.
  unfold own, tf_finish. destruct s as [fs st]. cbn [fst snd]. intros [H Hst]. destruct (nth_error _ p); [|discriminate]. match goal with |- bind ?r _ = _ -> _ => destruct r eqn:E; cbn [bind]; [|discriminate] end. intros [= <-]. split; [exact H|].
  cbn [fst snd]. revert E. apply foldM_stored; [|exact Hst]. intros u o w Ha. destruct (u o) as [s|] eqn:Eo; [|discriminate]. destruct (dget String.eqb o (fs_transforms fs)) as [v|]; [|discriminate]. destruct (t_finish v s); cbn [bind]; [|discriminate]. intros [= <-]. eapply stored_put; eassumption.
Qed.

Local Notation stands := (stands pybuiltins builtins e).
Lemma text_same f t d1 d2 : text_reads stateful builtins e parse f t -> (forall s, In s (tree_names t) -> stands look1 d1 s = stands look2 d2 s) ->
  no_object_columns look1 stateful builtins e t d1 -> no_object_columns look2 stateful builtins e t d2 ->
  forall s, own f s -> eval1 f s d1 = eval2 f s d2 /\ forall p, chunk1 f s p d1 = chunk2 f s p d2.
Proof.
  intros [Hlex [Hfit [Hr Hfree]]] Ha N1 N2 [fs st] [Ho Hst]. cbn [fst snd] in Ho, Hst.
  destruct (prepare parse look1 pybuiltins apply truth call call_method stateful t_new t_chunk t_finish t_transform builtins e f t Hlex Hfit Hr Hfree) as [fs' [Em P]].
  rewrite Ho in Em. injection Em as <-.
  assert (Hobj : forall s, In s (map object_of (nodes 0 0 t)) -> look1 d1 s = look2 d2 s).
  { intros s Hs. rewrite <- objects_places in Hs. now rewrite (N1 s Hs), (N2 s Hs). }
  assert (Hname : forall s, In s (tree_names t) -> look1 d1 s = look2 d2 s \/ (dget String.eqb s (fs_transforms fs) = None /\ seen fs (look1 d1 s) s = seen fs (look2 d2 s) s)).
  { intros s Hs. right. split.
    - apply (ps_others _ _ _ _ _ _ _ _ _ _ _ _ _ _ _ P). intros K. apply (Hfree s K). now apply name_in_toks.
    - unfold seen. rewrite (ps_names _ _ _ _ _ _ _ _ _ _ _ _ _ _ _ P s Hs). now apply Ha. }
  split.
  - unfold tf_eval. do 3 f_equal. unfold eval_text. rewrite (ps_eval _ _ _ _ _ _ _ _ _ _ _ _ _ _ _ P). cbn [bind]. rewrite (rd_eval _ _ _ _ _ Hr). apply agree_sem; [|exact Hst].
    intros s Hs. destruct (names_with t 0 0 s Hs) as [H|H]; [now apply Hname|left; now apply Hobj].
  - intros p. unfold tf_chunk. destruct (nth_error (fs_pass_bins fs) p) as [bin|] eqn:Ebin; [|reflexivity]. 
    assert (Hb : both (fun a b => a = b /\ stored fs a) (foldM (fun st o => let* code := lookup (dget String.eqb o (fs_memorize_code fs)) in wrap_exc "Error evaluating factor" (origin_of f)
        (match eval_text py_lex parse look1 pybuiltins apply truth call call_method t_chunk t_transform objval vnone fs d1 code st with (Ok _, st) => Ok st | (Err x, _) => Err x end)) (bin_order bin) st)
      (foldM (fun st o => let* code := lookup (dget String.eqb o (fs_memorize_code fs)) in wrap_exc "Error evaluating factor" (origin_of f)
        (match eval_text py_lex parse look2 pybuiltins apply truth call call_method t_chunk t_transform objval vnone fs d2 code st with (Ok _, st) => Ok st | (Err x, _) => Err x end)) (bin_order bin) st)).
    2: { match goal with |- bind ?r _ = bind ?q _ => change (both (fun a b => a = b /\ stored fs a) r q) in Hb; destruct r, q; cbn in Hb |- *; try contradiction; [destruct Hb as [-> _]; reflexivity|now subst] end. }
    apply (both_foldM _ eq); [apply forall2_eq| |split; [reflexivity|exact Hst]].
    intros a b o o' [<- Hsta] Hin <-. apply (Permutation_in _ (Hbin bin)) in Hin.
    assert (Hn : In o (objects (places t))).
    { pose proof (proj1 (ps_inner _ _ _ _ _ _ _ _ _ _ _ _ _ _ _ P)) as PI. pose proof (calls_perm look1 pybuiltins apply truth call call_method stateful t_new t_chunk t_finish t_transform builtins e t 0 0) as CP. apply perm_objects in CP.
      rewrite objects_places. eapply Permutation_in; [apply Permutation_sym; exact CP|]. eapply Permutation_in; [exact PI|]. apply in_concat. exists bin. split; [eapply nth_error_In; exact Ebin|exact Hin]. }
    rewrite objects_places in Hn. apply in_map_iff in Hn. destruct Hn as [[q [j [s parts]]] [<- Hn]]. change (object_of (q, (j, (s, parts)))) with (obj_name j s).
    destruct (ps_memorize _ _ _ _ _ _ _ _ _ _ _ _ _ _ _ P _ _ _ _ Hn) as [text [E1 E2]]. rewrite E1. cbn [lookup bind].
    assert (Et : eval_text py_lex parse look1 pybuiltins apply truth call call_method t_chunk t_transform objval vnone fs d1 text a = eval_text py_lex parse look2 pybuiltins apply truth call call_method t_chunk t_transform objval vnone fs d2 text a).
    { unfold eval_text. rewrite E2. cbn [bind]. rewrite (rd_memorize _ _ _ _ _ Hr _ _ _ _ Hn). apply agree_sem; [|exact Hsta]. cbn [tree_names]. pose proof (node_found stateful builtins e t 0 0 _ Hn) as [_ [_ [_ [F1 F2]]]].
      intros z [<-|Hz]; [left; apply Hobj; change (obj_name j s) with (object_of (q, (j, (s, parts)))); now apply in_map|].
      destruct (names_parts_with parts (q + 2) (S j) z Hz) as [H|H]; [apply Hname, F2; now right|left]. apply Hobj. apply in_map_iff in H. destruct H as [n [<- H]]. apply in_map. now apply F1. }
    rewrite <- Et. destruct (eval_text _ _ look1 _ _ _ _ _ _ _ _ _ fs d1 text a) as [[v|x] b'] eqn:Ex.
    + cbn. split; [reflexivity|]. eapply text_stored; eassumption.
    + reflexivity.
Qed.
End Text.
