(** Model of patsy/eval.py: variable lookup, environments, and the preparation of a factor's code for
    stateful transforms.

    Python's own tokenizer, parser and evaluator are not part of /repo: [lex] stands for
    [python_tokenize] (patsy/tokens.py:25-64, the tokens without their origins; it is run eagerly here,
    so an error in the middle of the text shows up at once) and [ast_names] for [ast_names]
    (eval.py:100-117, modelled on syntax trees in PyExprModel). *)
From Verif Require Import Base TokensModel BuildModel.
Open Scope string_scope.
Open Scope list_scope.

Notation ptok := (pytype * string)%type.

(** * Namespaces *)
Section Env.
Context {val : Type}.
(** A dict-like object that is only read: a dict, a DataFrame, ... *)
Definition namespace := string -> option val.
(** eval.py:50-56 [VarLookupDict.__getitem__]. *)
Fixpoint vlookup (dicts : list namespace) (key : string) : option val :=
  match dicts with
  | [] => None
  | d :: r => match d key with Some v => Some v | None => vlookup r key end
  end.
(** eval.py:47-48: a zeroth, private dict comes in front. *)
Definition empty_ns : namespace := fun _ => None.
Definition new_vld (dicts : list namespace) : list namespace := empty_ns :: dicts.
(** eval.py:58-59 [__setitem__]: into the zeroth dict. *)
Definition ns_set (d : namespace) (key : string) (v : val) : namespace := fun k => if String.eqb k key then Some v else d k.
Definition vset (vld : list namespace) (key : string) (v : val) : list namespace :=
  match vld with [] => [] | d :: r => ns_set d key v :: r end.

(** eval.py:145-175 [EvalEnvironment]: its namespaces, innermost first. (The __future__ flags are only
    passed on; not modelled.) *)
Definition env := list namespace.
(** eval.py:162-167 *)
Definition with_outer_namespace (e : env) (outer : namespace) : env := e ++ [outer].
(** eval.py:178: what the code evaluated by [eval] sees as its local variables. *)
Definition eval_locals (e : env) (inner : namespace) : list namespace := new_vld (inner :: e).
(** eval.py:253-258 [subset]: a dict with the values found now. *)
Definition of_dict (d : list (string * val)) : namespace := fun k => dget String.eqb k d.
Definition env_subset (e : env) (names : list string) : result env :=
  let* items := mapM (fun name => match vlookup (new_vld e) name with
                                  | Some v => Ok (name, v)
                                  | None => Err KeyError
                                  end) names in
  Ok [of_dict (dict_of String.eqb items)].
End Env.

(** * Tokens of a factor *)
Definition is_name (t : ptok) : bool := match fst t with PNAME => true | _ => false end.
Definition text_is (s : string) (t : ptok) : bool := String.eqb (snd t) s.

(** eval.py:730-740 [annotated_tokens]: each token with [bare_ref] and [bare_funcall].  The
    PushbackAdapter is only used to look at the next token. *)
Fixpoint annotate (prev_was_dot : bool) (l : list ptok) : list (ptok * (bool * bool)) :=
  match l with
  | [] => []
  | t :: r =>
      let ref := negb prev_was_dot && is_name t in
      let call := ref && match r with u :: _ => text_is "(" u | [] => false end in
      (t, (ref, call)) :: annotate (text_is "." t) r
  end.

(** eval.py:797-804 [_FuncallCapturer]. *)
Record capturer := mkCap { cap_func : list string; cap_tokens : list ptok; cap_depth : Z; cap_started : bool; cap_done : bool }.
(** eval.py:799-804 *)
Definition new_capturer (t : ptok) : capturer := mkCap [snd t] [t] 0 false false.
(** eval.py:806-822 [add_token] *)
Definition add_token (c : capturer) (t : ptok) : result capturer :=
  if cap_done c then Ok c
  else
    let tokens := cap_tokens c ++ [t] in
    let d := if opens (snd t) then (cap_depth c + 1)%Z else cap_depth c in
    let d := if closes (snd t) then (d - 1)%Z else d in
    assert (0 <=? d)%Z
    (let* sf := (if cap_started c then Ok (true, cap_func c)
                 else if text_is "(" t then Ok (true, cap_func c)
                 else assert (is_name t || text_is "." t) (Ok (false, cap_func c ++ [snd t]))) in
     let (started, func) := sf in
     Ok (mkCap func tokens d started (started && (d =? 0)%Z))).

(** [s[k:]] *)
Fixpoint drop_chars (k : nat) (s : string) : string :=
  match k, s with S k, String _ s => drop_chars k s | _, _ => s end.

Section Factor.
Context {val : Type}.
Variable lex : string -> result (list ptok).
Variable ast_names : string -> result (list string).
(** [hasattr(value, "__patsy_stateful_transform__")] *)
Variable stateful : val -> bool.
(** eval.py:449 [_builtins_dict] *)
Variable builtins : @namespace val.

Definition annotated_tokens (code : string) : result (list (ptok * (bool * bool))) :=
  let* l := lex code in Ok (annotate false l).
(** eval.py:763-767 [has_bare_variable_reference] *)
Definition bare_ref_in (names : list string) (l : list (ptok * (bool * bool))) : bool :=
  existsb (fun a => fst (snd a) && str_in (snd (fst a)) names) l.
Definition has_bare_variable_reference (names : list string) (code : string) : result bool :=
  let* l := annotated_tokens code in Ok (bare_ref_in names l).

(** eval.py:770-776 [replace_bare_funcalls]; [replacer] has a state of its own. *)
Section Replace.
Context {T : Type} (replacer : T -> string -> T * string).
Fixpoint replace_tokens (st : T) (l : list (ptok * (bool * bool))) : T * list ptok :=
  match l with
  | [] => (st, [])
  | ((ty, tok), (ref, call)) :: r =>
      let (st', tok') := if ref && call then replacer st tok else (st, tok) in
      let (fin, rest) := replace_tokens st' r in (fin, (ty, tok') :: rest)
  end.
Definition replace_bare_funcalls (st : T) (code : string) : result (T * string) :=
  let* l := annotated_tokens code in
  let (fin, toks) := replace_tokens st l in
  let* text := pretty_untokenize toks in Ok (fin, text).
End Replace.

(** eval.py:511-520 [new_name_maker]; the state is the counter and [state["transforms"]].  A new
    transform object is represented by what made it. *)
Definition obj_name (i : nat) (tok : string) : string :=
  ("_patsy_stobj" ++ nat_str i ++ "__" ++ tok ++ "__")%string.
Definition new_name_maker (ns : @namespace val) (st : nat * list (string * val)) (tok : string)
  : (nat * list (string * val)) * string :=
  match ns tok with
  | Some v => if stateful v
              then ((S (fst st), dset String.eqb (obj_name (fst st) tok) v (snd st)), (obj_name (fst st) tok ++ ".transform")%string)
              else (st, tok)
  | None => (st, tok)
  end.

(** eval.py:827-837 [capture_obj_method_calls] *)
Fixpoint capture_loop (obj : string) (caps : list capturer) (l : list (ptok * (bool * bool))) : result (list capturer) :=
  match l with
  | [] => Ok caps
  | (t, (ref, _)) :: r =>
      let* caps' := mapM (fun c => add_token c t) caps in
      capture_loop obj (if ref && text_is obj t then caps' ++ [new_capturer t] else caps') r
  end.
Definition capture_obj_method_calls (obj code : string) : result (list (string * string)) :=
  let* l := annotated_tokens code in
  let* caps := capture_loop obj [] l in
  mapM (fun c => let* text := pretty_untokenize (cap_tokens c) in Ok (String.concat "" (cap_func c), text)) caps.

(** eval.py:535-546: the code that memorizes one chunk. *)
Definition memorize_code_for (eval_code obj : string) : result string :=
  let* calls := capture_obj_method_calls obj eval_code in
  match calls with
  | [(name, code)] =>
      assert (String.eqb name (obj ++ ".transform"))
      (assert (String.prefix (name ++ "(") code)
        (Ok (obj ++ ".memorize_chunk" ++ drop_chars (String.length name) code)%string))
  | _ => Err AssertionError
  end.

(** eval.py:563-574: sorting the objects into passes; sets as lists without repetitions. *)
Fixpoint pass_bins (fuel : nat) (memorize_code : list (string * string)) (unsorted : list string) : result (list (list string)) :=
  match unsorted with
  | [] => Ok []
  | _ =>
      match fuel with
      | 0 => Err OutOfFuel
      | S fuel =>
          let* ready := mapM (fun o =>
              let* code := lookup (dget String.eqb o memorize_code) in
              let* b := has_bare_variable_reference (filter (fun x => negb (String.eqb x o)) unsorted) code in
              Ok (o, negb b)) unsorted in
          let bin := map fst (filter snd ready) in
          match bin with
          | [] => Err AssertionError
          | _ =>
              let* rest := pass_bins fuel memorize_code (filter (fun x => negb (str_in x bin)) unsorted) in
              Ok (bin :: rest)
          end
      end
  end.

Record factor_state := mkFS {
  fs_transforms : list (string * val);
  fs_env : @env val;
  fs_eval_code : string;
  fs_memorize_code : list (string * string);
  fs_pass_bins : list (list string) }.

(** eval.py:497-577 [EvalFactor.memorize_passes_needed].  Lines 528-532 mean to raise PatsyError but
    use the undefined name [token]: a NameError. *)
Definition memorize_passes_needed (code : string) (e : env) : result factor_state :=
  let e := with_outer_namespace e builtins in
  let* mentioned := ast_names code in
  let names := filter (fun n => match vlookup (new_vld e) n with Some _ => true | None => false end) mentioned in
  let* e := env_subset e names in
  let* r := replace_bare_funcalls (new_name_maker (vlookup (new_vld e))) (0, []) code in
  let '((_, transforms), eval_code) := r in
  let* clash := has_bare_variable_reference (map fst transforms) code in
  if clash then Err NameError
  else
    let* codes := mapM (fun p => let* c := memorize_code_for eval_code (fst p) in Ok (fst p, c)) transforms in
    let memorize_code := dict_of String.eqb codes in
    let* bins := pass_bins (List.length transforms) memorize_code (map fst transforms) in
    Ok (mkFS transforms e eval_code memorize_code bins).

(** eval.py:580-588 [_eval]: the local variables of the evaluated code: data, then the transform
    objects, then the environment. [objects] gives the transform objects by name. *)
Definition factor_locals (st : factor_state) (data objects : namespace) : list namespace :=
  eval_locals (fs_env st) (vlookup (new_vld [data; objects])).

End Factor.

(** * EvalFactor objects *)
Section Normal.
(** [tokenize.generate_tokens] (Python's own), without positions; its tokens include NEWLINE and ENDMARKER. *)
Variable generate_tokens : string -> result (list ptok).
(** tokens.py:177-179 [normalize_token_spacing]; eval.py:480: the code of [EvalFactor(code)]. *)
Definition normalize_token_spacing (code : string) : result string :=
  let* toks := generate_tokens code in pretty_untokenize toks.
End Normal.

(** eval.py:488-495 and user_util.py:218-239: equality and hash of the two factor classes.  [C] and [L]
    stand for contrast and levels arguments (including [None]), with their own [==] and [hash] (which
    fails for unhashable values); [hash_tuple] combines the hashes of the parts.  Factors of other
    classes are not modelled. *)
Section FactorKey.
Context {C L H : Type} (ceqb : C -> C -> bool) (leqb : L -> L -> bool).
Variable chash : C -> result H.
Variable lhash : L -> result H.
Variable shash : string -> H.
Variable bhash : bool -> H.
Variable hash_tuple : list H -> H.
Inductive factor_key :=
  | KEval (code : string)
  | KLookup (varname : string) (force_categorical : bool) (contrast : C) (levels : L).
Definition factor_eqb (a b : factor_key) : bool :=
  match a, b with
  | KEval c1, KEval c2 => String.eqb c1 c2
  | KLookup n1 f1 c1 l1, KLookup n2 f2 c2 l2 => String.eqb n1 n2 && Bool.eqb f1 f2 && ceqb c1 c2 && leqb l1 l2
  | _, _ => false
  end.
(** The classes themselves are hashed as part of the tuples; [shash] of their names here. *)
Definition factor_hash (a : factor_key) : result H :=
  match a with
  | KEval c => Ok (hash_tuple [shash "EvalFactor"; shash c])
  | KLookup n f c l =>
      let* hc := chash c in
      let* hl := lhash l in
      Ok (hash_tuple [shash "LookupFactor"; shash n; bhash f; hc; hl])
  end.
(** A Python dict lookup: the first entry with equal hash and equal key. *)
Fixpoint hashed_get {V : Type} (heqb : H -> H -> bool) (h : H) (k : factor_key) (d : list (H * (factor_key * V))) : option V :=
  match d with
  | [] => None
  | (h', (k', v)) :: r => if heqb h' h && factor_eqb k' k then Some v else hashed_get heqb h k r
  end.
End FactorKey.


(** eval.py:590-596 [EvalFactor.memorize_chunk] and [memorize_finish]: the calls made on the transform
    objects, one pass after the other (MemorizeProps shows that this is the order of the passes).
    [data p] are the chunks of pass [p]. *)
Section Passes.
Context {D : Type}.
Inductive ocall := OChunk (o : string) (d : D) | OFinish (o : string).
Definition memorize_chunk_calls (bin : list string) (d : D) : list ocall := map (fun o => OChunk o d) bin.
Definition memorize_finish_calls (bin : list string) : list ocall := map OFinish bin.
Definition object_calls (data : nat -> list D) (bins : list (list string)) : list ocall :=
  flat_map (fun p => flat_map (memorize_chunk_calls (snd p)) (data (fst p)) ++ memorize_finish_calls (snd p))
    (combine (seq 0 (List.length bins)) bins).
End Passes.
