(** C74, C75, C76: environments taken from the call stack, their equality, and [Q]. *)
From Verif Require Import Base BuildModel EvalModel PyExprModel PyExprSpec PyExprProofs EvalBinsProofs EvalTopProofs PyLexModel FrameModel FrameSpec FrameProofs.
From Coq Require Import NArith ZArith Lia.
Open Scope string_scope.
Open Scope list_scope.

(** C74.  [EvalEnvironment.capture(k, reference=r)] called from a function: with [k + r = d >= 0] it gives
    the environment of the [d]-th function up the stack, counting from 0 for the caller of [capture]; an
    error if the stack has no such frame; with [k + r < 0], the environment of [capture] itself.  The
    assertion about flags never fails.  Names are looked up in the frame's local variables, then its global
    variables.  Environments are returned as they are; everything else is refused. *)
Theorem capture_depth : forall {val} all_flags (own : @frame val) callers k r,
  (forall d f, (k + r)%Z = Z.of_nat d -> nth_error callers d = Some f ->
     exists e, capture all_flags (AInt k) r (own :: callers) = Ok e /\ environment_of all_flags f e /\
       forall s, env_namespace e s = seen_in f s) /\
  ((Z.of_nat (length callers) <= k + r)%Z ->
     capture all_flags (AInt k) r (own :: callers) = Err AttributeError \/
     capture all_flags (AInt k) r (own :: callers) = Err (ValueError "call-stack is not that deep!")) /\
  ((k + r < 0)%Z -> exists e, capture all_flags (AInt k) r (own :: callers) = Ok e /\ environment_of all_flags own e) /\
  (forall e, capture all_flags (AEnv e) r (own :: callers) = Ok e) /\
  (exists m, capture all_flags AOther r (own :: callers) = Err (TypeError m)).
Proof.
  intros val all_flags own callers k r. destruct (capture_int all_flags k r own callers) as [Hneg Hpos]. split; [|split; [|split; [exact Hneg|split; [reflexivity|now eexists]]]].
  - intros d f Hd Hf. destruct (Hpos d Hd) as [H _]. destruct (H f Hf) as [e [H1 H2]]. exists e. repeat split; [exact H1|apply H2|apply H2|]. intros s. now apply (namespace_of all_flags).
  - intros H. destruct (Hpos (Z.to_nat (k + r)) ltac:(lia)) as [_ [H1 H2]].
    destruct (Nat.eq_dec (Z.to_nat (k + r)) (length callers)) as [E|E]; [left; now apply H1|right; apply H2; lia].
Qed.
Print Assumptions capture_depth.

(** C74.  [dmatrix(..., eval_env=k)] and the other functions that take [eval_env]: [k = 0] (the default) is
    the calling function, [k = 1] its caller, and so on; an environment is used as it is.  The environment
    that reaches the evaluation of factors, after it was handed through the inner functions, is that
    one. *)
Theorem entry_point_env : forall {val} all_flags (cap own cap' own' h t : @frame val) callers,
  (forall k f, nth_error callers k = Some f ->
     exists e, entry_env all_flags cap own (AInt (Z.of_nat k)) callers = Ok e /\ environment_of all_flags f e /\
       dmatrix_env all_flags cap own cap' own' h t (AInt (Z.of_nat k)) callers = Ok e) /\
  (forall e, entry_env all_flags cap own (AEnv e) callers = Ok e) /\
  (forall arg, dmatrix_env all_flags cap own cap' own' h t arg callers = entry_env all_flags cap own arg callers).
Proof.
  intros val all_flags cap own cap' own' h t callers.
  assert (D : forall arg, dmatrix_env all_flags cap own cap' own' h t arg callers = entry_env all_flags cap own arg callers).
  { intros arg. unfold dmatrix_env. now destruct (entry_env all_flags cap own arg callers). }
  split; [|split; [reflexivity|exact D]]. intros k f Hf.
  destruct (capture_int all_flags (Z.of_nat k) 1 cap (own :: callers)) as [_ H]. destruct (H (S k) ltac:(lia)) as [H1 _].
  destruct (H1 f Hf) as [e [H2 H3]]. exists e. split; [exact H2|]. split; [exact H3|]. rewrite D. exact H2.
Qed.
Print Assumptions entry_point_env.

(** C74, a limit: a stack that is too short by exactly one frame is not reported by the ValueError meant
    for it but by an AttributeError ([None] has no attribute [f_locals]). *)
Theorem too_deep_is_value_error_refuted : forall {val} all_flags (own : @frame val) callers,
  capture all_flags (AInt (Z.of_nat (length callers))) 0 (own :: callers) = Err AttributeError /\
  capture all_flags (AInt (Z.of_nat (length callers) + 1)) 0 (own :: callers) = Err (ValueError "call-stack is not that deep!").
Proof.
  intros val all_flags own callers. split.
  - destruct (capture_int all_flags (Z.of_nat (length callers)) 0 own callers) as [_ H]. destruct (H (length callers) ltac:(lia)) as [_ [H1 _]]. now apply H1.
  - destruct (capture_int all_flags (Z.of_nat (length callers) + 1) 0 own callers) as [_ H]. destruct (H (length callers + 1) ltac:(lia)) as [_ [_ H1]]. apply H1. lia.
Qed.
Print Assumptions too_deep_is_value_error_refuted.

(** A module that calls [f], which calls [capture]; one of the flags is a __future__ feature. *)
Definition ex_module_ns : @mapping nat := mkMap 1 (fun s => if String.eqb s "x" then Some 10 else if String.eqb s "f" then Some 11 else None).
Definition ex_module : @frame nat := mkFrame ex_module_ns ex_module_ns 0%N.
Definition ex_function : @frame nat := mkFrame (mkMap 2 (fun s => if String.eqb s "x" then Some 20 else None)) ex_module_ns 67%N.
Definition ex_own : @frame nat := mkFrame (mkMap 3 (fun _ => None)) (mkMap 4 (fun _ => None)) 0%N.
Example ex_capture :
  (exists e, capture 66%N (AInt 0) 0 [ex_own; ex_function; ex_module] = Ok e /\ env_namespace e "x" = Some 20 /\ env_namespace e "f" = Some 11 /\ ee_flags e = 66%N) /\
  (exists e, capture 66%N (AInt 0) 1 [ex_own; ex_function; ex_module] = Ok e /\ env_namespace e "x" = Some 10 /\ ee_flags e = 0%N) /\
  (exists e, entry_env 66%N ex_own ex_own (AInt 1) [ex_function; ex_module] = Ok e /\ env_namespace e "x" = Some 10) /\
  capture 66%N (AInt 1) 1 [ex_own; ex_function; ex_module] = Err AttributeError.
Proof. repeat split; try eexists; vm_compute; auto. Qed.

(** C75.  Two environments are equal if and only if they have the same flags and consist of the same
    mapping objects in the same order.  This is an equivalence, hashes agree with it, and equal environments
    give every name the same value. *)
Theorem environment_equality : forall {val} (a b : @evalenv val),
  (ee_eqb a b = true <-> same_objects a b) /\
  ee_eqb a a = true /\ ee_eqb b a = ee_eqb a b /\
  (forall c, ee_eqb a b = true -> ee_eqb b c = true -> ee_eqb a c = true) /\
  (forall {H : Type} (hash_tuple : N -> list nat -> H), ee_eqb a b = true -> ee_hash hash_tuple a = ee_hash hash_tuple b) /\
  (coherent (ee_namespaces a ++ ee_namespaces b) -> ee_eqb a b = true -> forall s, env_namespace a s = env_namespace b s).
Proof.
  intros val a b.
  assert (E : forall a b : @evalenv val, ee_eqb a b = true <-> ee_flags a = ee_flags b /\ namespace_ids a = namespace_ids b).
  { intros x y. unfold ee_eqb. now rewrite Bool.andb_true_iff, N.eqb_eq, ids_eqb_iff. }
  split; [apply ee_eqb_iff|]. split; [now apply E|]. split.
  { apply Bool.eq_iff_eq_true. rewrite !E. intuition congruence. }
  split; [intros c; rewrite !E; intuition congruence|]. split.
  - intros H hash_tuple. rewrite E. unfold ee_hash. now intros [-> ->].
  - intros Hc Hab s. apply ee_eqb_iff in Hab. now rewrite (same_coherent a b Hc Hab).
Qed.
Print Assumptions environment_equality.

(** C75.  Capturing the same function call twice gives equal environments; environments of two calls are
    only equal if they share their local variables; an environment with another namespace around it, or
    restricted to some names, differs from the original. *)
Theorem environment_identity : forall {val} all_flags (f g : @frame val) e e' x,
  environment_of all_flags f e -> environment_of all_flags g e' ->
  (f = g -> ee_eqb e e' = true) /\
  (ns_id (f_locals f) <> ns_id (f_locals g) -> ee_eqb e e' = false) /\
  (forall o, ee_with_outer all_flags e x = Ok o -> ee_eqb e o = false) /\
  (forall new names o, ee_subset all_flags new e names = Ok o -> ee_eqb e o = false).
Proof.
  intros val all_flags f g e e' x [H1 H2] [H3 H4].
  split; [|split; [|split]].
  - intros <-. apply ee_eqb_iff. split; [apply N.bits_inj; intros i; now rewrite H2, H4|]. rewrite H1, H3. repeat constructor.
  - intros Hn. destruct (ee_eqb e e') eqn:E; [|reflexivity]. apply ee_eqb_iff in E. destruct E as [_ E]. rewrite H1, H3 in E. inversion E; subst. congruence.
  - intros o. unfold ee_with_outer, new_evalenv. rewrite H1. unfold assert. destruct (N.eqb _ _); [|discriminate]. intros E. injection E as <-.
    unfold ee_eqb, namespace_ids. rewrite H1. cbn. now rewrite !Nat.eqb_refl, Bool.andb_false_r.
  - intros new nl o. unfold ee_subset. destruct (env_subset _ _) as [l|] eqn:El; [|discriminate]. cbn. destruct l as [|d l]; [discriminate|].
    unfold new_evalenv, assert. destruct (N.eqb _ _); [|discriminate]. intros E. injection E as <-. unfold ee_eqb, namespace_ids. rewrite H1. cbn. now rewrite Bool.andb_false_r, Bool.andb_false_r.
Qed.
Print Assumptions environment_identity.
Example ex_equality :
  exists a b c, capture 66%N (AInt 0) 0 [ex_own; ex_function; ex_module] = Ok a /\ capture 66%N (AInt 1) (-1) [ex_own; ex_function; ex_module] = Ok b /\
    capture 66%N (AInt 1) 0 [ex_own; ex_function; ex_module] = Ok c /\ ee_eqb a b = true /\ ee_eqb a c = false /\
    coherent (ee_namespaces a ++ ee_namespaces b).
Proof.
  do 3 eexists. repeat split; try (vm_compute; reflexivity). intros x y Hx Hy E. cbn in Hx, Hy.
  destruct Hx as [<-|[<-|[<-|[<-|[]]]]], Hy as [<-|[<-|[<-|[<-|[]]]]]; cbn in E; try discriminate E; reflexivity.
Qed.

(** C76.  [Q(name)] is the value of the variable of that name in the calling code: its local variables,
    then its global ones, else NameError.  Within a factor's code the local variables are the data, the
    transform objects and the environment kept by the factor; what [Q] then finds is what the expression
    model says. *)
Theorem quote_value : forall {val} all_flags (cap own : @frame val) name,
  (forall f callers, Q all_flags cap own name (f :: callers) = match seen_in f name with Some v => Ok v | None => Err NameError end) /\
  (forall {world op} (apply : op -> list val -> world -> result val * world) truth pybuiltins id1 id2 flags locals callers (w : world) q,
     vlookup locals "Q" = Some q ->
     sem (op := op) apply truth pybuiltins (PQuote name) (locals, w) = (Q all_flags cap own name (eval_frame id1 id2 locals flags :: callers), (locals, w))).
Proof.
  intros val all_flags cap own name. split; [intros; apply Q_ok|].
  intros world op apply truth pybuiltins id1 id2 flags locals callers w q Hq. rewrite Q_ok. cbn. unfold load. cbn. rewrite Hq. cbn. unfold seen_in, eval_frame, empty_ns. cbn.
  now destruct (vlookup locals name).
Qed.
Print Assumptions quote_value.

(** C76.  In a factor, writing variables of the data as [Q("...")] instead of by their names changes
    nothing: for two factors, whose code differs in this, evaluating gives the same value, error and
    effects. *)
Theorem quote_is_variable : forall {val world op : Type} (apply : op -> list val -> world -> result val * world) truth (pybuiltins : @namespace val) lex (parse : string -> result (@pyexpr val op)) stateful builtins code code' e st st' mentioned mentioned',
  memorize_passes_needed lex (ast_names_of parse) stateful builtins code e = Ok st -> ast_names_of parse code = Ok mentioned ->
  memorize_passes_needed lex (ast_names_of parse) stateful builtins code' e = Ok st' -> ast_names_of parse code' = Ok mentioned' ->
  forall expr expr' ns ns' (data objects : namespace) (w : world),
  names expr = Ok ns -> (forall s, In s ns -> In s mentioned \/ In s (map fst (fs_transforms st))) ->
  names expr' = Ok ns' -> (forall s, In s ns' -> In s mentioned' \/ In s (map fst (fs_transforms st'))) ->
  (forall o, In o (map fst (fs_transforms st)) \/ In o (map fst (fs_transforms st')) -> objects o <> None) ->
  vlookup (with_outer_namespace e builtins) "Q" <> None ->
  (forall s, In s (quoted expr) -> data s <> None) ->
  requoted (fun s => data s <> None) expr expr' ->
  env_eval apply truth pybuiltins (fs_env st') (vlookup (new_vld [data; objects])) expr' w =
  env_eval apply truth pybuiltins (fs_env st) (vlookup (new_vld [data; objects])) expr w.
Proof. intros until 4. now apply (quoted_eval apply truth pybuiltins lex parse stateful builtins code code' e st st' mentioned mentioned'). Qed.
Print Assumptions quote_is_variable.

(** C76, a limit: [Q("x")] does not find variables of the calling environment, although [x] does: only
    the variables named by the factor's code are kept.  Whatever the environment: without [x] in the data,
    the factor [Q("x")] is a NameError; in one where [x] is 5, the factor [x] is 5. *)
Theorem quote_finds_environment_refuted :
  (forall {val world op : Type} (apply : op -> list val -> world -> result val * world) truth (pybuiltins : @namespace val) lex (parse : string -> result (@pyexpr val op)) stateful builtins code e st x,
     parse code = Ok (PQuote x) -> x <> "Q" ->
     memorize_passes_needed lex (ast_names_of parse) stateful builtins code e = Ok st ->
     forall (data objects : namespace) (w : world), data x = None -> objects x = None ->
     fst (env_eval apply truth pybuiltins (fs_env st) (vlookup (new_vld [data; objects])) (PQuote x) w) = Err NameError) /\
  (let parse s := if String.eqb s "x" then Ok (PName (val := nat) (op := unit) "x") else Ok (PQuote "x") in
   let builtins : @namespace nat := fun s => if String.eqb s "Q" then Some 0 else None in
   let e : @env nat := [fun s => if String.eqb s "x" then Some 5 else None] in
   let run st expr := env_eval (fun (_ : unit) _ (w : unit) => (Err NotImplementedError, w)) (fun _ w => (Ok true, w)) empty_ns (fs_env st) (vlookup (new_vld [empty_ns; empty_ns])) expr tt in
   exists st st', memorize_passes_needed py_lex (ast_names_of parse) (fun _ => false) builtins "x" e = Ok st /\
     memorize_passes_needed py_lex (ast_names_of parse) (fun _ => false) builtins "Q('x')" e = Ok st' /\
     run st (PName "x") = (Ok 5, tt) /\ run st' (PQuote "x") = (Err NameError, tt)).
Proof.
  split.
  - intros val world op apply truth pybuiltins lex parse stateful builtins code e st x Hp Hx H data objects w Hd Ho.
    destruct (eval_code_lemma lex (ast_names_of parse) stateful builtins code e st H) as [m [toks [ms [A [B [C [D [E [F [G [I J]]]]]]]]]]].
    unfold ast_names_of in A. rewrite Hp in A. cbn in A. injection A as <-.
    unfold env_eval.
    assert (L : vlookup (eval_locals (fs_env st) (vlookup (new_vld [data; objects]))) x = None).
    { unfold eval_locals, new_vld. cbn. rewrite Hd, Ho, J. cbn. destruct (String.eqb "Q" x) eqn:E'; [apply String.eqb_eq in E'; congruence|].
      rewrite String.eqb_sym in E'. now rewrite ?E', ?Bool.orb_false_r. }
    revert L. generalize (eval_locals (fs_env st) (vlookup (new_vld [data; objects]))). intros l L. cbn. unfold load. cbn.
    destruct (vlookup l "Q") as [q|]; cbn; [now rewrite L|]. destruct (pybuiltins "Q"); cbn; [now rewrite L|reflexivity].
  - do 2 eexists. vm_compute. auto.
Qed.
Print Assumptions quote_finds_environment_refuted.

(** [Q("a b") + x], with the column ["a b"] in the data. *)
Example ex_quote :
  let apply (o : unit) (l : list nat) (w : nat) := (match l with [a; b] => Ok (a + b) | _ => Err (TypeError "") end, S w) in
  let data : @namespace nat := fun s => if String.eqb s "a b" then Some 3 else if String.eqb s "x" then Some 4 else None in
  let expr := PNode tt [PName "a b"; PName "x"] in
  let expr' := PNode tt [PQuote "a b"; PName "x"] in
  requoted (fun s => data s <> None) expr expr' /\ names expr' = Ok ["Q"; "x"] /\ quoted expr' = ["a b"] /\
  env_eval apply (fun _ w => (Ok true, w)) empty_ns [fun s => if String.eqb s "Q" then Some 9 else None] data expr' 0 = (Ok 7, 1).
Proof. cbn. split; [|vm_compute; auto]. constructor. constructor; [now constructor|]. constructor; [constructor|constructor]. Qed.
