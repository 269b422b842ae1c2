(** Environments taken from the call stack: patsy/eval.py:145-274 [EvalEnvironment] and its use by the
    functions that take an [eval_env] argument, and [Q] (patsy/builtins.py:57-98).

    The interpreter's frames are not part of /repo.  A frame is represented by what patsy reads of it:
    the mapping of its local variables, the one of its global variables, and the compiler flags of its
    code.  A mapping is an object with an identity; [ns_get] is what it holds at the time it is looked
    into.  That [frame.f_locals] is the same object each time it is asked for is true of CPython up to
    version 3.12 for function frames and of module frames always. *)
From Verif Require Import Base BuildModel EvalModel.
From Coq Require Import NArith ZArith.
Open Scope string_scope.
Open Scope list_scope.

Section Frames.
Context {val : Type}.
(** A mapping object. *)
Record mapping := mkMap { ns_id : nat; ns_get : @namespace val }.
Record frame := mkFrame { f_locals : mapping; f_globals : mapping; co_flags : N }.
(** eval.py:27-40 [_ALL_FUTURE_FLAGS], which depends on the version of Python. *)
Variable all_flags : N.

(** eval.py:151-154 [EvalEnvironment.__init__]. *)
Record evalenv := mkEE { ee_namespaces : list mapping; ee_flags : N }.
Definition new_evalenv (namespaces : list mapping) (flags : N) : result evalenv :=
  assert (N.eqb (N.ldiff flags all_flags) 0) (Ok (mkEE namespaces flags)).
(** The environment as EvalModel has it. *)
Definition env_of (e : evalenv) : @env val := map ns_get (ee_namespaces e).
(** eval.py:156-160 [namespace], asked for a name: [None] is a KeyError. *)
Definition env_namespace (e : evalenv) : @namespace val := vlookup (new_vld (env_of e)).
(** eval.py:162-167 [with_outer_namespace] *)
Definition ee_with_outer (e : evalenv) (outer : mapping) : result evalenv :=
  new_evalenv (ee_namespaces e ++ [outer]) (ee_flags e).
(** eval.py:253-258 [subset]: a new dict, at address [new]. *)
Definition ee_subset (new : nat) (e : evalenv) (names : list string) : result evalenv :=
  let* l := env_subset (env_of e) names in
  match l with
  | d :: _ => new_evalenv [mkMap new d] (ee_flags e)
  | [] => Err AssertionError                    (* never: [env_subset] makes one dict *)
  end.

(** The [eval_env] argument: an environment, an integer, anything else. *)
Inductive env_arg := AEnv (e : evalenv) | AInt (z : Z) | AOther.
(** eval.py:235-238: going up [n] frames; the stack is a list with the current frame first, and no frame
    ([None]) is the empty list. *)
Fixpoint walk (n : nat) (stack : list frame) : result (list frame) :=
  match n with
  | 0 => Ok stack
  | S n => match stack with [] => Err (ValueError "call-stack is not that deep!") | _ :: r => walk n r end
  end.
(** eval.py:181-251 [EvalEnvironment.capture]; the first frame of [stack] is its own. *)
Definition capture (arg : env_arg) (reference : Z) (stack : list frame) : result evalenv :=
  match arg with
  | AEnv e => Ok e
  | AInt z =>
      let* rest := walk (Z.to_nat (z + reference + 1)) stack in
      match rest with
      | f :: _ => new_evalenv [f_locals f; f_globals f] (N.land (co_flags f) all_flags)
      | [] => Err AttributeError                (* eval.py:239: [None.f_locals] *)
      end
  | AOther => Err (TypeError "Parameter 'eval_env' must be either an integer or an instance of patsy.EvalEnvironment.")
  end.

(** highlevel.py:102, 122, 293, 316 and build.py:736: the environment used by [incr_dbuilder],
    [incr_dbuilders], [dmatrix], [dmatrices] and [design_matrix_builders].  [callers] are the frames of
    the calling function, its caller, and so on; [own] is the frame of the function called and [cap] that
    of [capture]. *)
Definition entry_env (cap own : frame) (arg : env_arg) (callers : list frame) : result evalenv :=
  capture arg 1 (cap :: own :: callers).
(** highlevel.py:293-295, 163-165, 55-61 and build.py:736: [dmatrix] hands its environment down to
    [design_matrix_builders] (through [_do_highlevel_design] and [_try_incr_builders]), which captures
    again. *)
Definition dmatrix_env (cap own cap' own' h t : frame) (arg : env_arg) (callers : list frame) : result evalenv :=
  let* e := entry_env cap own arg callers in
  entry_env cap' own' (AEnv e) (t :: h :: own :: callers).

(** builtins.py:92-98 [Q]; [own] is its frame. *)
Definition Q (cap own : frame) (name : string) (callers : list frame) : result val :=
  let* e := capture (AInt 1) 0 (cap :: own :: callers) in
  match env_namespace e name with Some v => Ok v | None => Err NameError end.
(** eval.py:179: the frame of the code evaluated by [EvalEnvironment.eval]: its local variables are a
    VarLookupDict, its global variables an empty dict (in which Python puts [__builtins__], not modelled). *)
Definition eval_frame (id1 id2 : nat) (locals : list (@namespace val)) (flags : N) : frame :=
  mkFrame (mkMap id1 (vlookup locals)) (mkMap id2 empty_ns) flags.

(** eval.py:260-261 [_namespace_ids] *)
Definition namespace_ids (e : evalenv) : list nat := map ns_id (ee_namespaces e).
Fixpoint ids_eqb (a b : list nat) : bool :=
  match a, b with
  | [], [] => true
  | x :: a, y :: b => Nat.eqb x y && ids_eqb a b
  | _, _ => false
  end.
(** eval.py:263-268 [__eq__] for two environments. *)
Definition ee_eqb (a b : evalenv) : bool := N.eqb (ee_flags a) (ee_flags b) && ids_eqb (namespace_ids a) (namespace_ids b).
(** eval.py:273-274 [__hash__]; [hash_tuple] combines the hash of the class, the flags and the identities. *)
Definition ee_hash {H : Type} (hash_tuple : N -> list nat -> H) (e : evalenv) : H := hash_tuple (ee_flags e) (namespace_ids e).
End Frames.
