(** Factors of formulas, from their text to the values in design matrices. *)
From Coq Require Import ZArith Permutation.
From Verif Require Import Base TokensModel BuildModel EvalModel EvalSpec PyLexModel PyLexSpec DescModel CategoricalModel MemorizeModel MemorizeSpec PipeModel PipeSpec
  FitModel FitSpec FitProofs FitProps EntryModel EntryFitProofs CodeModel CodeSpec CodeTreeProofs CodeProofs CodeEvalProofs.
Open Scope string_scope.
Open Scope list_scope.

Section Top.
Context {val op St D : Type}.
Local Notation cx := (@cx op).
Local Notation part := (ptok + cx)%type.
Variable parse : list ptok -> result cx.
Variable look : D -> @namespace val.
Variable pybuiltins : @namespace val.
Variable apply : op -> list val -> result val.
Variable truth : val -> result bool.
Variable call : val -> list (option ptok) -> list val -> result val.
Variable call_method : val -> string -> list (option ptok) -> list val -> result val.
Variable stateful : val -> bool.
Variable t_new : val -> St.
Variable t_chunk : val -> list (option ptok) -> St -> list val -> result St.
Variable t_finish : val -> St -> result St.
Variable t_transform : val -> list (option ptok) -> St -> list val -> result val.
Variable objval : string -> val.
Variable vnone : val.
Variable builtins : @namespace val.
Variable e : @env val.
Local Notation tr := (transform_of stateful builtins e).
Local Notation meaning := (@meaning val op St D look pybuiltins apply truth call call_method stateful t_new t_chunk t_finish t_transform builtins e).
Local Notation pmeaning := (@pmeaning val op St D look pybuiltins apply truth call call_method stateful t_new t_chunk t_finish t_transform builtins e).
Local Notation class_of := (class_of t_new t_chunk t_finish t_transform).
Local Notation name_value := (name_value look pybuiltins builtins e).
Local Notation python_value := (@python_value val op D look pybuiltins apply truth call call_method builtins e).

(** * Python's own value *)
Section Python.
Hypothesis Hdirect : transforms_direct call stateful t_new t_chunk t_finish t_transform.
Variable d : D.
Fixpoint pypargs (l : list part) : result (list val) :=
  match l with [] => Ok [] | inl _ :: r => pypargs r | inr x :: r => let* v := python_value d x in let* vs := pypargs r in Ok (v :: vs) end.
Lemma python_node o parts : python_value d (CNode o parts) = let* vs := pypargs parts in apply o vs. Proof. reflexivity. Qed.
Lemma python_call s parts : python_value d (CCall s parts) = let* v := name_value s d in let* vs := pypargs parts in call v (around parts) vs. Proof. reflexivity. Qed.
Lemma python_meth o m parts : python_value d (CMeth o m parts) = let* v := name_value o d in let* vs := pypargs parts in call_method v m (around parts) vs. Proof. reflexivity. Qed.
Definition visible (names : list string) : Prop := forall s, In s names -> tr s <> None -> look d s = None.
Lemma plain_parts parts : Forall (on_part (fun t => forall k, visible (tree_names t) -> plain_value (meaning k t) d = python_value d t)) parts ->
  forall k, visible (pnames parts) -> mapM (fun a => plain_value a d) (pmeaning k parts) = pypargs parts.
Proof.
  induction 1 as [|p r Hp _ IH]; intros k Hv; [reflexivity|]. destruct p as [tok|x]; cbn [CodeTreeProofs.pmeaning pypargs mapM]; [now apply IH|]. cbn in Hp.
  rewrite Hp by (intros s Hs; apply Hv; cbn; apply in_app_iff; now left). destruct (python_value d x); cbn [bind]; [|reflexivity]. now rewrite IH by (intros s Hs; apply Hv; cbn; apply in_app_iff; now right).
Qed.
Lemma plain_python t : forall k, visible (tree_names t) -> plain_value (meaning k t) d = python_value d t.
Proof.
  induction t as [s|o parts IH|b c f IHb IHc IHf|s parts IH|o m parts IH] using cx_ind'; intros k Hv.
  - reflexivity.
  - rewrite meaning_node, plain_op, python_node. now rewrite (plain_parts parts IH k).
  - cbn [CodeSpec.meaning plain_value CodeSpec.python_value tree_names] in *.
    rewrite IHc by (intros s Hs; apply Hv; apply in_app_iff; right; apply in_app_iff; now left). destruct (python_value d c) as [v|]; cbn [bind]; [|reflexivity]. destruct (truth v) as [[|]|]; cbn [bind]; [|apply IHf|reflexivity].
    + apply IHb. intros s Hs; apply Hv; apply in_app_iff; now left.
    + intros s Hs; apply Hv; apply in_app_iff; right; apply in_app_iff; now right.
  - rewrite meaning_call, python_call. cbn [tree_names] in Hv. fold (pnames parts) in Hv. assert (Hp : visible (pnames parts)) by (intros x Hx; apply Hv; now right).
    destruct (tr s) as [v|] eqn:E.
    + rewrite plain_call, (plain_parts parts IH) by exact Hp. assert (En : name_value s d = Ok v).
      { unfold CodeSpec.name_value. cbn [vlookup]. rewrite (Hv s (or_introl eq_refl)) by congruence. unfold transform_of in E. destruct (vlookup (e ++ [builtins]) s) as [w|]; [|discriminate]. destruct (stateful w); congruence. }
      rewrite En. cbn [bind]. assert (Hs : stateful v = true) by (unfold transform_of in E; destruct (vlookup (e ++ [builtins]) s) as [w|]; [|discriminate]; destruct (stateful w) eqn:Ew; congruence).
      destruct (pypargs parts); cbn [bind]; [|reflexivity]. now rewrite Hdirect.
    + rewrite plain_op. cbn [mapM plain_value]. destruct (name_value s d); cbn [bind]; [|reflexivity]. rewrite (plain_parts parts IH) by exact Hp. destruct (pypargs parts); reflexivity.
  - rewrite meaning_meth, python_meth. cbn [tree_names] in Hv. fold (pnames parts) in Hv. assert (Hp : visible (pnames parts)) by (intros x Hx; apply Hv; now right).
    rewrite plain_op. cbn [mapM plain_value]. destruct (name_value o d); cbn [bind]; [|reflexivity]. rewrite (plain_parts parts IH) by exact Hp. destruct (pypargs parts); reflexivity.
Qed.
End Python.

(** * Training *)
Context {V I C : Type}.
Variable as_obj : val -> @fobj V I C.
Variable bin_order : list string -> list string.
Hypothesis Hbin : forall l, Permutation (bin_order l) l.
Variable origin_of : factor -> option origin.
Local Notation mpn := (memorize_passes_needed py_lex (text_names py_lex parse) stateful builtins).
Local Notation tf_passes := (tf_passes py_lex parse stateful t_new builtins e).
Local Notation tf_chunk := (tf_chunk py_lex parse look pybuiltins apply truth call call_method t_chunk t_transform objval vnone bin_order origin_of).
Local Notation tf_finish := (tf_finish t_finish bin_order).
Local Notation tf_eval := (tf_eval py_lex parse look pybuiltins apply truth call call_method t_chunk t_transform objval vnone origin_of as_obj).
Definition value_of (chunks : list D) (t : cx) (f : factor) (d : D) : result (@fobj V I C) :=
  match fitted_value chunks (meaning 0 t) d with Ok v => Ok (as_obj v) | Err _ => Err (PatsyError "Error evaluating factor" (origin_of f)) end.

Lemma trained_text (f : factor) t chunks : text_reads stateful builtins e parse f t -> (forall d, In d chunks -> no_object_columns look stateful builtins e t d) ->
  (exists s k, tf_passes f = Ok (s, k)) /\
  ((exists s, trained tf_passes tf_chunk tf_finish (fun _ => chunks) f s) <->
   (forall o c args, In (o, (c, args)) (calls (meaning 0 t)) -> exists s, fitted_state chunks c args = Ok s)) /\
  (forall s, trained tf_passes tf_chunk tf_finish (fun _ => chunks) f s -> forall d, no_object_columns look stateful builtins e t d -> tf_eval f s d = value_of chunks t f d).
Proof.
  intros [Hl [Hf [Hr Hn]]] Hc.
  destruct (prepare parse look pybuiltins apply truth call call_method stateful t_new t_chunk t_finish t_transform builtins e f t Hl Hf Hr Hn) as [fs [Em Hp]].
  set (codes := fun _ : factor => meaning 0 t). set (binss := fun _ : factor => map bin_order (fs_pass_bins fs)).
  set (st0 := (fs, fun o => option_map t_new (dget String.eqb o (fs_transforms fs))) : @tstate val St).
  assert (Ep : tf_passes f = Ok (st0, Z.of_nat (List.length (fs_pass_bins fs)))) by (unfold CodeModel.tf_passes; rewrite Em; reflexivity).
  assert (Ef : ef_passes codes binss f = Ok (new_objects (meaning 0 t), Z.of_nat (List.length (fs_pass_bins fs)))) by (unfold ef_passes, binss; now rewrite map_length).
  pose proof (run_rel parse look pybuiltins apply truth call call_method stateful t_new t_chunk t_finish t_transform objval vnone builtins e t Hr Hn fs Hp bin_order Hbin origin_of codes binss f eq_refl eq_refl (fun _ => chunks) (fun n => Hc) (List.length (fs_pass_bins fs)) st0 (new_objects (meaning 0 t))
    (new_rel look pybuiltins apply truth call call_method stateful t_new t_chunk t_finish t_transform builtins e t fs Hp codes f eq_refl)) as R.
  assert (Tl : forall s, trained tf_passes tf_chunk tf_finish (fun _ => chunks) f s <-> run tf_chunk tf_finish st0 (@calls_for factor D (fun _ => chunks) (List.length (fs_pass_bins fs)) f) = Ok s).
  { intros s. unfold trained. rewrite Ep. split; [intros [s0 [k [[= <- <-] H]]]; now rewrite Nat2Z.id in H|]. intros H. eexists _, _. split; [reflexivity|]. now rewrite Nat2Z.id. }
  assert (Tr : forall s, fit_factor (meaning 0 t) (binss f) chunks = Ok s <-> run (ef_chunk codes binss origin_of) (ef_finish codes binss) (new_objects (meaning 0 t)) (@calls_for factor D (fun _ => chunks) (List.length (fs_pass_bins fs)) f) = Ok s).
  { intros s. etransitivity; [symmetry; exact (trained_fit codes binss origin_of chunks (fun _ => chunks) (fun _ => eq_refl) f s)|]. unfold trained. rewrite Ef. split; [intros [s0 [k [[= <- <-] H]]]; now rewrite Nat2Z.id in H|]. intros H. eexists _, _. split; [reflexivity|]. now rewrite Nat2Z.id. }
  assert (Hi : inner_first (meaning 0 t) (binss f)) by (apply (bins_inner look pybuiltins apply truth call call_method stateful t_new t_chunk t_finish t_transform builtins e t fs Hp bin_order Hbin)).
  assert (Hd : NoDup (map fst (calls (meaning 0 t)))) by apply tree_calls_nodup.
  destruct (fitted_factor_value (meaning 0 t) (binss f) chunks Hd Hi) as [F1 F2].
  split; [eauto|]. split.
  - rewrite <- F1. split.
    + intros [s Hs]. apply Tl in Hs. rewrite Hs in R. destruct (run (ef_chunk codes binss origin_of) _ _ _) as [s'|] eqn:E in R; [|destruct R]. exists s'. now apply Tr.
    + intros [s Hs]. apply Tr in Hs. rewrite Hs in R. destruct (run tf_chunk _ _ _) as [s'|] eqn:E in R; [|destruct R]. exists s'. now apply Tl.
  - intros s Hs d Hd'. apply Tl in Hs. rewrite Hs in R. destruct (run (ef_chunk codes binss origin_of) _ _ _) as [s'|] eqn:E in R; [|destruct R].
    rewrite (eval_rel parse look pybuiltins apply truth call call_method stateful t_new t_chunk t_finish t_transform objval vnone builtins e t Hr Hn fs Hp as_obj origin_of codes f eq_refl s s' d R Hd').
    apply Tr in E. destruct (F2 s' E) as [_ Ev]. unfold ef_eval, codes, value_of. rewrite Ev. now destruct (fitted_value chunks (meaning 0 t) d).
Qed.
Lemma trained_python (f : factor) t d s : transforms_direct call stateful t_new t_chunk t_finish t_transform -> text_reads stateful builtins e parse f t -> no_object_columns look stateful builtins e t d -> transforms_visible look stateful builtins e t d ->
  trained tf_passes tf_chunk tf_finish (fun _ => [d]) f s -> fitted_value [d] (meaning 0 t) d = python_value d t.
Proof.
  intros Hdir Ht Hd Hv Hs. rewrite <- (plain_python Hdir d t 0 Hv). apply direct_one. apply (proj1 (proj2 (trained_text f t [d] Ht (fun x H => match H with or_introl E => eq_rect d (fun x => no_object_columns look stateful builtins e t x) Hd x E | or_intror F => False_ind _ F end)))). eauto.
Qed.
End Top.
