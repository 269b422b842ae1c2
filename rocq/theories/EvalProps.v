(** Properties C10, C30, C31, C46, C47, C55 of patsy/eval.py (and user_util.py). *)
From Coq Require Import Ascii Sorted Permutation.
From Verif Require Import Base TokensModel TokensSpec BuildModel EvalModel EvalSpec EvalTopProofs EvalEnvProofs PyExprModel PyExprSpec PyExprProofs PyLexModel PyLexSpec EvalLexProofs EvalProofs EvalMarkProofs.
Open Scope string_scope.
Open Scope list_scope.

(** C31.  Whatever the tokenizer: if preparing a factor succeeds, the code to evaluate is the printed
    form of the original tokens in which exactly the direct calls of names bound to stateful transforms
    are replaced by the transform method of a new object of their own, whose name is not used in the code;
    the object is made from the value the name has in the environment; and the environment kept gives the
    names in the code the same values as before, and no other names. *)
Theorem stateful_calls_rewritten : forall {val} lex ast_names (stateful : val -> bool) builtins code e st,
  memorize_passes_needed lex ast_names stateful builtins code e = Ok st ->
  exists mentioned toks ms, ast_names code = Ok mentioned /\ lex code = Ok toks /\
    transform_calls toks (is_transform stateful builtins e mentioned) ms /\
    pretty_untokenize (rewritten toks ms) = Ok (fs_eval_code st) /\
    map fst (fs_transforms st) = objects ms /\ NoDup (objects ms) /\
    Forall2 (fun c p => vlookup (e ++ [builtins]) (snd c) = Some (snd p)) ms (fs_transforms st) /\
    (forall o, In o (objects ms) -> ~ referenced toks o) /\
    (forall s, vlookup (fs_env st) s = if str_in s mentioned then vlookup (e ++ [builtins]) s else None).
Proof. exact @eval_code_lemma. Qed.
Print Assumptions stateful_calls_rewritten.

(** C30.  For any tokenizer that reads the printed rewritten code (and the calls in it) back: preparing
    the factor succeeds, every transform object is in exactly one pass, no pass is empty, objects for calls
    inside the arguments of another call are in strictly earlier passes, passes are as early as possible,
    and memorizing evaluates exactly the argument list of the call. *)
Theorem transforms_innermost_first_any_tokenizer : forall {val} lex ast_names (stateful : val -> bool) builtins code e mentioned toks ms,
  ast_names code = Ok mentioned -> lex code = Ok toks ->
  transform_calls toks (is_transform stateful builtins e mentioned) ms ->
  punctuation_is_operators toks -> layout_ok toks ->
  (forall o, In o (objects ms) -> ~ referenced toks o) ->
  reads_back lex (rewritten toks ms) ->
  (forall pre o seg suf, rewritten toks ms = pre ++ method_of o "transform" ++ seg ++ suf -> argument_list seg suf ->
    reads_back lex (method_of o "memorize_chunk" ++ seg)) ->
  exists st, memorize_passes_needed lex ast_names stateful builtins code e = Ok st /\
    Permutation (concat (fs_pass_bins st)) (objects ms) /\ Forall (fun b => b <> []) (fs_pass_bins st) /\
    (forall o o' p q, in_pass (fs_pass_bins st) o p -> in_pass (fs_pass_bins st) o' q -> inside toks ms o o' -> q < p) /\
    (forall o p, in_pass (fs_pass_bins st) o (S p) -> exists o', in_pass (fs_pass_bins st) o' p /\ inside toks ms o o') /\
    (forall o, In o (objects ms) -> exists pre seg suf text,
       rewritten toks ms = pre ++ method_of o "transform" ++ seg ++ suf /\ argument_list seg suf /\
       dget String.eqb o (fs_memorize_code st) = Some text /\ pretty_untokenize (method_of o "memorize_chunk" ++ seg) = Ok text).
Proof. exact @passes_lemma. Qed.
Print Assumptions transforms_innermost_first_any_tokenizer.

(** C30.  The same without conditions on the tokenizer, for the tokenizer of PyLexModel and code without
    operators or numbers that run together. *)
Theorem transforms_innermost_first : forall {val} ast_names (stateful : val -> bool) builtins code e mentioned toks ms,
  ast_names code = Ok mentioned -> py_lex code = Ok toks -> neighbours_fit toks = true ->
  transform_calls toks (is_transform stateful builtins e mentioned) ms ->
  (forall o, In o (objects ms) -> ~ referenced toks o) ->
  exists st, memorize_passes_needed py_lex ast_names stateful builtins code e = Ok st /\
    Permutation (concat (fs_pass_bins st)) (objects ms) /\ Forall (fun b => b <> []) (fs_pass_bins st) /\
    (forall o o' p q, in_pass (fs_pass_bins st) o p -> in_pass (fs_pass_bins st) o' q -> inside toks ms o o' -> q < p) /\
    (forall o p, in_pass (fs_pass_bins st) o (S p) -> exists o', in_pass (fs_pass_bins st) o' p /\ inside toks ms o o') /\
    (forall o, In o (objects ms) -> exists pre seg suf text,
       rewritten toks ms = pre ++ method_of o "transform" ++ seg ++ suf /\ argument_list seg suf /\
       dget String.eqb o (fs_memorize_code st) = Some text /\ pretty_untokenize (method_of o "memorize_chunk" ++ seg) = Ok text).
Proof. exact @passes_py_lemma. Qed.
Print Assumptions transforms_innermost_first.

(** C30.  Given passes as in the two theorems before, every transform object gets all chunks of exactly
    one pass followed by the end of the memorizing, and it is given its first chunk only after all objects
    inside its call have finished. *)
Theorem transforms_memorized_in_order : forall {D} (data : nat -> list D) bins objs (ins : string -> string -> Prop),
  NoDup objs -> Permutation (concat bins) objs ->
  (forall o o' p q, in_pass bins o p -> in_pass bins o' q -> ins o o' -> q < p) ->
  (forall o, In o objs -> exists p, in_pass bins o p /\
     filter (about o) (object_calls data bins) = map (OChunk o) (data p) ++ [OFinish o]) /\
  (forall o o' pre d post, In o objs -> In o' objs -> ins o o' ->
     object_calls data bins = pre ++ OChunk o d :: post -> In (OFinish o') pre).
Proof. exact @schedule_lemma. Qed.
Print Assumptions transforms_memorized_in_order.

(** An example for these: [center] and [scale] are stateful transforms, [log] is not. *)
Definition ex_code : string := "scale(center(x) + log(center(y))) - z.center(1)".
Definition ex_toks : list (pytype * string) := Eval vm_compute in match py_lex ex_code with Ok l => l | Err _ => [] end.
Definition ex_builtins : @namespace nat := fun s => if String.eqb s "center" then Some 1 else if String.eqb s "scale" then Some 2 else None.
Definition ex_env : @env nat := [fun s => if String.eqb s "log" then Some 10 else None].
Definition ex_stateful (v : nat) : bool := Nat.ltb v 10.
Definition ex_names (code : string) : result (list string) := Ok ["scale"; "center"; "x"; "log"; "y"; "z"].
Definition ex_ms : list (nat * string) := [(0, "scale"); (2, "center"); (9, "center")].
Example ex_lexed : py_lex ex_code = Ok ex_toks.
Proof. vm_compute. reflexivity. Qed.
Example ex_transform_calls : transform_calls ex_toks (is_transform ex_stateful ex_builtins ex_env ["scale"; "center"; "x"; "log"; "y"; "z"]) ex_ms.
Proof.
  pose proof (calls_are_transform_calls ex_stateful ex_builtins ex_env ["scale"; "center"; "x"; "log"; "y"; "z"] _ ex_toks eq_refl) as H.
  replace ex_ms with (calls_from ex_stateful (vlookup (new_vld (match env_subset (with_outer_namespace ex_env ex_builtins)
    (visible ex_builtins ex_env ["scale"; "center"; "x"; "log"; "y"; "z"]) with Ok e => e | Err _ => [] end))) 0 false ex_toks); [exact H|vm_compute; reflexivity].
Qed.
Example ex_not_referenced : forall o, In o (objects ex_ms) -> ~ referenced ex_toks o.
Proof.
  intros o Ho Hr. assert (X : bare_ref_in (objects ex_ms) (annotate false ex_toks) = true) by (apply bare_ref_referenced; eauto). vm_compute in X. discriminate.
Qed.
Example ex_prepared :
  match memorize_passes_needed py_lex ex_names ex_stateful ex_builtins ex_code ex_env with
  | Ok st =>
      fs_eval_code st = "_patsy_stobj0__scale__.transform(_patsy_stobj1__center__.transform(x) + log(_patsy_stobj2__center__.transform(y))) - z.center(1)" /\
      fs_pass_bins st = [["_patsy_stobj1__center__"; "_patsy_stobj2__center__"]; ["_patsy_stobj0__scale__"]] /\
      fs_memorize_code st = [("_patsy_stobj0__scale__", "_patsy_stobj0__scale__.memorize_chunk(_patsy_stobj1__center__.transform(x) + log(_patsy_stobj2__center__.transform(y)))");
                             ("_patsy_stobj1__center__", "_patsy_stobj1__center__.memorize_chunk(x)");
                             ("_patsy_stobj2__center__", "_patsy_stobj2__center__.memorize_chunk(y)")]
  | Err _ => False
  end.
Proof. vm_compute. auto. Qed.
Example ex_theorem_applies : exists st, memorize_passes_needed py_lex ex_names ex_stateful ex_builtins ex_code ex_env = Ok st /\
  Permutation (concat (fs_pass_bins st)) (objects ex_ms).
Proof.
  destruct (transforms_innermost_first ex_names ex_stateful ex_builtins ex_code ex_env _ ex_toks ex_ms eq_refl ex_lexed eq_refl ex_transform_calls ex_not_referenced) as [st [A [B _]]]. eauto.
Qed.
Example ex_object_calls : object_calls (fun p => [10 * p; 10 * p + 1]) [["a"; "b"]; ["c"]] =
  [OChunk "a" 0; OChunk "b" 0; OChunk "a" 1; OChunk "b" 1; OFinish "a"; OFinish "b"; OChunk "c" 10; OChunk "c" 11; OFinish "c"].
Proof. vm_compute. reflexivity. Qed.

(** C46.  A name has the value given by the first namespace that defines it; adding a namespace after the
    others does not change the value of a defined name; assignments inside a formula change nothing but
    that name. *)
Theorem lookup_innermost : forall {val} (l : list (@namespace val)) s,
  (forall v, vlookup l s = Some v <-> exists l1 d l2, l = l1 ++ d :: l2 /\ Forall (fun d => d s = None) l1 /\ d s = Some v) /\
  (forall outer, vlookup (with_outer_namespace l outer) s = match vlookup l s with Some v => Some v | None => outer s end) /\
  (forall k v, vlookup (vset (new_vld l) k v) s = if String.eqb s k then Some v else vlookup l s).
Proof.
  intros val l s. split; [intros v; apply vlookup_spec|]. split.
  - intros outer. unfold with_outer_namespace. rewrite vlookup_app. destruct (vlookup l s); [reflexivity|]. cbn. now destruct (outer s).
  - intros k v. rewrite vlookup_vset by discriminate. reflexivity.
Qed.
Print Assumptions lookup_innermost.

(** C46.  A name evaluated in an environment: the inner names first (for a factor, the data and then the
    transform objects), then the environment, then Python's own builtins, else NameError. *)
Theorem name_resolution : forall {val world op : Type} (apply : op -> list val -> world -> result val * world) truth (pybuiltins : @namespace val),
  (forall (e : @env val) inner s (w : world), env_eval (op := op) apply truth pybuiltins e inner (PName s) w =
    (match inner s with
     | Some v => Ok v
     | None => match vlookup e s with
               | Some v => Ok v
               | None => match pybuiltins s with Some v => Ok v | None => Err NameError end
               end
     end, w)) /\
  (forall (st : @factor_state val) data objects s, vlookup (factor_locals st data objects) s =
    match data s with Some v => Some v | None => match objects s with Some v => Some v | None => vlookup (fs_env st) s end end).
Proof. intros. split; [intros; apply name_lookup|intros; apply factor_lookup]. Qed.
Print Assumptions name_resolution.
Example ex_resolution :
  let d1 : @namespace nat := fun s => if String.eqb s "x" then Some 1 else None in
  let d2 : @namespace nat := fun s => if String.eqb s "x" then Some 2 else if String.eqb s "y" then Some 3 else None in
  vlookup [d1; d2] "x" = Some 1 /\ vlookup [d1; d2] "y" = Some 3 /\ vlookup [d1; d2] "z" = None /\
  vlookup (vset (new_vld [d1; d2]) "x" 7) "x" = Some 7.
Proof. vm_compute. auto. Qed.

(** C46, a limit: a variable of the data does not hide a stateful transform of the same name when it is
    called.  With [center] in the data, [center(x)] still is the stateful transform, while [center] alone
    is the data. *)
Theorem data_hides_transform_refuted :
  exists st, memorize_passes_needed py_lex (fun _ => Ok ["center"; "x"]) ex_stateful ex_builtins "center(x) + center" [] = Ok st /\
    fs_eval_code st = "_patsy_stobj0__center__.transform(x) + center" /\
    forall data objects : @namespace nat, data "center" = Some 99 -> vlookup (factor_locals st data objects) "center" = Some 99.
Proof.
  eexists. split; [vm_compute; reflexivity|]. split; [reflexivity|]. intros data objects H. rewrite factor_lookup, H. reflexivity.
Qed.
Print Assumptions data_hides_transform_refuted.

(** C47.  Evaluating with the environment kept by a factor gives the same value, error and effects as with
    the whole environment, for every expression whose names are names of the factor's code or transform
    objects (such as the code to evaluate and to memorize), on any data.  Variables asked for by [Q("...")]
    must be in the data, or also be named in the code, or not be in the environment at all. *)
Theorem subset_preserves_value : forall {val world op : Type} (apply : op -> list val -> world -> result val * world) truth (pybuiltins : @namespace val) lex (parse : string -> result (@pyexpr val op)) stateful builtins code e st mentioned,
  memorize_passes_needed lex (ast_names_of parse) stateful builtins code e = Ok st ->
  ast_names_of parse code = Ok mentioned ->
  forall (expr : @pyexpr val op) ns, names expr = Ok ns -> (forall s, In s ns -> In s mentioned \/ In s (map fst (fs_transforms st))) ->
  forall (data objects : namespace) (w : world), (forall o, In o (map fst (fs_transforms st)) -> objects o <> None) ->
  (forall s, In s (quoted expr) -> data s <> None \/ In s mentioned \/ vlookup (with_outer_namespace e builtins) s = None) ->
  env_eval apply truth pybuiltins (fs_env st) (vlookup (new_vld [data; objects])) expr w =
  env_eval apply truth pybuiltins (with_outer_namespace e builtins) (vlookup (new_vld [data; objects])) expr w.
Proof. intros until 2. apply (subset_eval apply truth pybuiltins lex parse stateful builtins code e st mentioned); assumption. Qed.
Print Assumptions subset_preserves_value.

(** C47.  In general an expression's value only depends on the variables it names or quotes. *)
Theorem value_depends_on_names : forall {val world op : Type} (apply : op -> list val -> world -> result val * world) truth (pybuiltins : @namespace val) (expr : @pyexpr val op) ns,
  names expr = Ok ns -> forall (e1 e2 : @env val) inner1 inner2 (w : world),
  (forall s, In s ns \/ In s (quoted expr) -> vlookup (inner1 :: e1) s = vlookup (inner2 :: e2) s) ->
  env_eval apply truth pybuiltins e1 inner1 expr w = env_eval apply truth pybuiltins e2 inner2 expr w.
Proof.
  intros val world op apply truth pybuiltins expr ns Hn e1 e2 inner1 inner2 w H. unfold env_eval.
  destruct (sem_agree apply truth pybuiltins (ns ++ quoted expr) expr ns Hn (incl_appl _ (incl_refl ns)) (incl_appr _ (incl_refl _)) (eval_locals e1 inner1, w) (eval_locals e2 inner2, w)) as [A [B C]].
  - split; [|reflexivity]. split; [discriminate|]. split; [discriminate|]. intros s Hs. apply in_app_iff in Hs. now apply H.
  - destruct (sem _ _ _ expr (eval_locals e1 inner1, w)) as [r1 t1], (sem _ _ _ expr (eval_locals e2 inner2, w)) as [r2 t2]. cbn in *. congruence.
Qed.
Print Assumptions value_depends_on_names.
(** [(y := x + x) * y], with the world counting operations. *)
Example ex_value :
  let apply (o : bool) (l : list nat) (w : nat) := (match l with [a; b] => Ok (if o then a + b else a * b) | _ => Err (TypeError "") end, S w) in
  let expr := PNode false [PWalrus "y" (PNode true [PName "x"; PName "x"]); PName "y"] in
  let inner : @namespace nat := fun s => if String.eqb s "x" then Some 3 else None in
  names expr = Ok ["y"; "x"; "x"; "y"] /\
  env_eval apply (fun _ w => (Ok true, w)) (fun _ => None) [] inner expr 0 = (Ok 36, 2).
Proof. vm_compute. auto. Qed.

(** C10.  For any tokenizer: code with the same tokens has the same normal form; if the tokenizer reads the
    normal forms back, then only such code does, and normalising again changes nothing. *)
Theorem normal_form_any_tokenizer : forall gt c1 c2 t1 t2 toks1 toks2,
  tokens_of gt c1 toks1 -> tokens_of gt c2 toks2 ->
  (toks1 = toks2 -> normalize_token_spacing gt c1 = normalize_token_spacing gt c2) /\
  (normalize_token_spacing gt c1 = Ok t1 -> tokens_of gt t1 toks1 -> normalize_token_spacing gt t1 = Ok t1 /\
    (normalize_token_spacing gt c2 = Ok t2 -> tokens_of gt t2 toks2 -> (t1 = t2 <-> toks1 = toks2))).
Proof.
  intros gt c1 c2 t1 t2 toks1 toks2 H1 H2. split.
  - intros ->. exact (normalize_same_tokens gt c1 c2 toks2 H1 H2).
  - intros N1 B1. split; [exact (normalize_idem gt c1 t1 toks1 H1 N1 B1)|]. intros N2 B2. exact (normalize_iff gt c1 c2 t1 t2 toks1 toks2 H1 H2 N1 N2 B1 B2).
Qed.
Print Assumptions normal_form_any_tokenizer.

(** C10.  For the tokenizer of PyLexModel and code without operators or numbers that run together:
    normalising succeeds, keeps the tokens, is idempotent, and two factors are equal exactly when their
    code has the same tokens. *)
Theorem normal_form : forall c1 toks1, py_lex c1 = Ok toks1 -> neighbours_fit toks1 = true ->
  exists t1, normalize_token_spacing generate_tokens c1 = Ok t1 /\ py_lex t1 = Ok toks1 /\
    normalize_token_spacing generate_tokens t1 = Ok t1 /\
    forall c2 toks2, py_lex c2 = Ok toks2 -> neighbours_fit toks2 = true ->
      exists t2, normalize_token_spacing generate_tokens c2 = Ok t2 /\
        forall (C L : Type) ceqb leqb, factor_eqb (C := C) (L := L) ceqb leqb (KEval t1) (KEval t2) = true <-> toks1 = toks2.
Proof.
  intros c1 toks1 H1 F1. destruct (normalize_py c1 toks1 H1 F1) as [t1 [N1 [L1 I1]]]. exists t1. repeat split; auto.
  intros c2 toks2 H2 F2. destruct (normalize_py c2 toks2 H2 F2) as [t2 [N2 [L2 I2]]]. exists t2. split; [exact N2|]. intros C L ceqb leqb.
  cbn [factor_eqb]. rewrite String.eqb_eq, <- (normalize_eq_py c1 c2 toks1 toks2 H1 F1 H2 F2), N1, N2. split; congruence.
Qed.
Print Assumptions normal_form.
Example ex_normal : normalize_token_spacing generate_tokens "f( x,y )[ 1 : ]**-2  if  a else'b'" = Ok "f(x, y)[1:] ** -2 if a else 'b'" /\
  normalize_token_spacing generate_tokens "f(x , y)[1 :]** - 2 if a else 'b'" = Ok "f(x, y)[1:] ** -2 if a else 'b'" /\
  match py_lex "f( x,y )[ 1 : ]**-2  if  a else'b'" with Ok l => neighbours_fit l | Err _ => false end = true.
Proof. vm_compute. auto. Qed.

(** C10, a limit: spaces can matter after all. [1 .real] and [1.real] are different for Python but have
    the same normal form. *)
Theorem normal_form_number_attribute_refuted :
  exists c1 c2 toks1 toks2, py_lex c1 = Ok toks1 /\ py_lex c2 = Ok toks2 /\ toks1 <> toks2 /\
    normalize_token_spacing generate_tokens c1 = normalize_token_spacing generate_tokens c2.
Proof.
  exists "1 .real", "1.real". do 2 eexists. split; [vm_compute; reflexivity|]. split; [vm_compute; reflexivity|]. split; [discriminate|vm_compute; reflexivity].
Qed.
Print Assumptions normal_form_number_attribute_refuted.

(** C47.  The names patsy finds in the code of a factor are the names that stand in it, read or assigned to; code with
    a lambda or comprehension in it is refused. *)
Theorem code_names : forall {val op} (e : @pyexpr val op),
  match names e with
  | Ok ns => (forall s, In s ns <-> mentions s e) /\ ~ (exists l, part (PScope l) e)
  | Err _ => exists l, part (PScope l) e
  end.
Proof. intros val op e. exact (PyExprProofs.names_lemma e). Qed.
Print Assumptions code_names.
Example ex_code_names : names (@PIf nat nat (PCompare (PName "a") [(0, PName "b")]) (PWalrus "c" (PNode 1 [PQuote "d e"; PName "a"])) (PConst 3)) = Ok ["a"; "b"; "c"; "Q"; "a"].
Proof. reflexivity. Qed.

(** C10.  Where an operator starts, the tokenizer takes the longest operator of Python. *)
Theorem operators_longest : forall s, longest_operator s (operator_of s).
Proof. exact PyLexProofs.operator_longest_lemma. Qed.
Print Assumptions operators_longest.

(** The characters that names, numbers, exponents, strings and blanks are made of. *)
Theorem character_classes : forall c,
  (is_letter c = true <-> one_of (lower_letters ++ upper_letters ++ "_") c) /\ (is_digit c = true <-> one_of digits c) /\
  (name_char c = true <-> one_of (lower_letters ++ upper_letters ++ "_" ++ digits) c) /\
  (number_char c = true <-> one_of (lower_letters ++ upper_letters ++ "_" ++ digits ++ ".") c) /\
  (is_e c = true <-> one_of "eE" c) /\ (is_sign c = true <-> one_of "+-" c) /\
  (is_quote c = true <-> one_of "'""" c) /\ (is_backslash c = true <-> one_of "\" c) /\
  (is_blank c = true <-> In c [" "; "009"; "012"]%char).
Proof. exact PyLexProofs.character_classes_lemma. Qed.
Print Assumptions character_classes.

Example ex_operators : map operator_of ["**x"; "*x"; "//=3"; "...]"; "..x"; "$"] = [Some "**"; Some "*"; Some "//="; Some "..."; Some "."; None].
Proof. reflexivity. Qed.

(** C55.  Equality of factors is an equivalence and equal factors have equal hashes, so that a dict finds
    the first entry with an equal key; provided this is so for the contrasts and levels given. *)
Theorem factor_keys : forall {C L H} (ceqb : C -> C -> bool) (leqb : L -> L -> bool) chash lhash shash bhash (hash_tuple : list H -> H) heqb,
  (forall x, ceqb x x = true) -> (forall x y, ceqb x y = true -> ceqb y x = true) -> (forall x y z, ceqb x y = true -> ceqb y z = true -> ceqb x z = true) ->
  (forall x, leqb x x = true) -> (forall x y, leqb x y = true -> leqb y x = true) -> (forall x y z, leqb x y = true -> leqb y z = true -> leqb x z = true) ->
  (forall x y, ceqb x y = true -> chash x = chash y) -> (forall x y, leqb x y = true -> lhash x = lhash y) ->
  (forall h, heqb h h = true) ->
  let eqb := factor_eqb ceqb leqb in
  let hash := factor_hash chash lhash shash bhash hash_tuple in
  (forall x, eqb x x = true) /\ (forall x y, eqb x y = true -> eqb y x = true) /\ (forall x y z, eqb x y = true -> eqb y z = true -> eqb x z = true) /\
  (forall x y, eqb x y = true -> hash x = hash y) /\
  (forall c1 c2, eqb (KEval c1) (KEval c2) = true <-> c1 = c2) /\
  (forall n1 f1 c1 l1 n2 f2 c2 l2, eqb (KLookup n1 f1 c1 l1) (KLookup n2 f2 c2 l2) = true <-> n1 = n2 /\ f1 = f2 /\ ceqb c1 c2 = true /\ leqb l1 l2 = true) /\
  (forall c n f x l, eqb (KEval c) (KLookup n f x l) = false) /\
  forall (V : Type) (d : list (H * (factor_key * V))) h k, Forall (fun p => hash (fst (snd p)) = Ok (fst p)) d -> hash k = Ok h ->
    hashed_get ceqb leqb heqb h k d = match find (fun p => eqb (fst (snd p)) k) d with Some (_, (_, v)) => Some v | None => None end.
Proof.
  intros C L H ceqb leqb chash lhash shash bhash hash_tuple heqb C1 C2 C3 L1 L2 L3 HC HL HH eqb hash.
  destruct (factor_eqb_equiv ceqb leqb C1 C2 C3 L1 L2 L3) as [E1 [E2 E3]]. repeat split; auto.
  - intros x y E. exact (factor_hash_eq ceqb leqb chash lhash shash bhash hash_tuple HC HL x y E).
  - apply String.eqb_eq.
  - intros ->. apply String.eqb_refl.
  - cbn in H0. rewrite !andb_true_iff, String.eqb_eq in H0. tauto.
  - cbn in H0. rewrite !andb_true_iff, eqb_true_iff in H0. tauto.
  - cbn in H0. rewrite !andb_true_iff in H0. tauto.
  - cbn in H0. rewrite !andb_true_iff in H0. tauto.
  - intros [-> [-> [A B]]]. cbn. now rewrite String.eqb_refl, eqb_reflx, A, B.
  - intros V d h k Hd Hk. exact (hashed_get_lemma ceqb leqb chash lhash shash bhash hash_tuple heqb HC HL HH d h k Hd Hk).
Qed.
Print Assumptions factor_keys.
Example ex_keys : let eqb := factor_eqb Nat.eqb Nat.eqb in
  eqb (KLookup "x" true 0 1) (KLookup "x" true 0 1) = true /\ eqb (KLookup "x" true 0 1) (KLookup "x" false 0 1) = false /\
  eqb (KEval "x") (KLookup "x" false 0 0) = false /\
  factor_hash (C := nat) (L := nat) (fun c => Ok c) (fun l => Ok l) String.length (fun b : bool => if b then 1 else 0) (fold_right Nat.add 0) (KLookup "x" true 0 1) = Ok 15.
Proof. vm_compute. auto. Qed.
