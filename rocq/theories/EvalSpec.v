(** What the preparation of a factor's code should do, in terms of the tokens of the code. *)
From Coq Require Import Sorted.
From Verif Require Import Base TokensModel TokensSpec EvalModel.
Open Scope string_scope.
Open Scope list_scope.

(** The name [s] stands at position [i], is not an attribute of anything, and is directly called. *)
Definition called_at (toks : list ptok) (i : nat) (s : string) : Prop :=
  nth_error toks i = Some (PNAME, s) /\
  (exists t, nth_error toks (S i) = Some t /\ snd t = "(") /\
  (forall j t, i = S j -> nth_error toks j = Some t -> snd t <> ".").

(** [ms] lists the positions and names of the calls of names satisfying [is_tr], from left to right. *)
Definition transform_calls (toks : list ptok) (is_tr : string -> Prop) (ms : list (nat * string)) : Prop :=
  StronglySorted lt (map fst ms) /\ forall i s, In (i, s) ms <-> called_at toks i s /\ is_tr s.

(** The object for the call at position [i] if there is one: the [k]-th call (from 0) of a transform
    named [s] gets the object _patsy_stobj{k}__{s}__. *)
Fixpoint object_at (k : nat) (ms : list (nat * string)) (i : nat) : option string :=
  match ms with
  | [] => None
  | (j, s) :: r => if Nat.eqb j i then Some (obj_name k s) else object_at (S k) r i
  end.
Definition objects (ms : list (nat * string)) : list string :=
  map (fun p => obj_name (fst p) (snd (snd p))) (combine (seq 0 (List.length ms)) ms).

(** The tokens with every such name replaced by [object.method]. *)
Definition method_of (o m : string) : list ptok := [(PNAME, o); (POTHER, "."); (PNAME, m)].
Definition rewritten (toks : list ptok) (ms : list (nat * string)) : list ptok :=
  flat_map (fun p => match object_at 0 ms (fst p) with
                     | Some o => method_of o "transform"
                     | None => [snd p]
                     end) (combine (seq 0 (List.length toks)) toks).

(** Brackets opened minus brackets closed. *)
Fixpoint depth (l : list ptok) : Z :=
  match l with
  | [] => 0
  | t :: r => ((if opens (snd t) then 1 else 0) - (if closes (snd t) then 1 else 0) + depth r)%Z
  end.
(** Position [j] is inside the parentheses of the call at position [i]: none of the tokens after [i] and
    before [j] closes the bracket opened right after [i]. *)
Definition within (toks : list ptok) (i j : nat) : Prop :=
  exists before f between g after, toks = before ++ f :: between ++ g :: after /\
    List.length before = i /\ List.length (before ++ f :: between) = j /\ between <> [] /\
    forall b1 t b2, between = b1 ++ t :: b2 -> (0 < depth (b1 ++ [t]))%Z.

(** The call for which object [o'] was made is inside the arguments of the call for which [o] was made. *)
Definition inside (toks : list ptok) (ms : list (nat * string)) (o o' : string) : Prop :=
  exists i j, object_at 0 ms i = Some o /\ object_at 0 ms j = Some o' /\ within toks i j.

(** Only operators are spelled like a dot or an opening or closing bracket. *)
Definition punctuation_is_operators (toks : list ptok) : Prop :=
  forall ty s, In (ty, s) toks -> opens s = true \/ closes s = true \/ s = "." -> ty = POTHER.

(** [seg], followed by [suf], is the bracketed argument list of a call: it starts with an opening
    parenthesis and ends where this is closed (or at the end of the tokens if it never is). *)
Definition argument_list (seg suf : list ptok) : Prop :=
  (exists t r, seg = t :: r /\ snd t = "(") /\
  (forall a t b, seg = a ++ t :: b -> a <> [] -> (0 < depth a)%Z) /\
  (depth seg = 0%Z \/ suf = []).

(** The tokenizer reads the printed text of these tokens back as these tokens. *)
Definition reads_back (lex : string -> result (list ptok)) (toks : list ptok) : Prop :=
  forall text, pretty_untokenize toks = Ok text -> lex text = Ok toks.

(** The name is used as a variable (not as an attribute). *)
Definition referenced (toks : list ptok) (s : string) : Prop :=
  exists i, nth_error toks i = Some (PNAME, s) /\ forall j t, i = S j -> nth_error toks j = Some t -> snd t <> ".".

(** Object [o] is memorized in pass [p]. *)
Definition in_pass (bins : list (list string)) (o : string) (p : nat) : Prop :=
  exists bin, nth_error bins p = Some bin /\ In o bin.

(** No token about blocks or blank lines: the code is one logical line. *)
Definition layout_ok (l : list ptok) : Prop := forall ty s, In (ty, s) l -> ty <> PINDENT /\ ty <> PDEDENT /\ ty <> PNL.

(** The name is mentioned in the code and bound to a stateful transform by the environment or, after
    it, patsy's builtins. *)
Definition is_transform {val} (stateful : val -> bool) (builtins : @namespace val) (e : @env val) (mentioned : list string) (s : string) : Prop :=
  In s mentioned /\ exists v, vlookup (e ++ [builtins]) s = Some v /\ stateful v = true.

(** The tokens with text of some code. *)
Definition tokens_of (generate_tokens : string -> result (list ptok)) (code : string) (l : list ptok) : Prop :=
  exists toks, generate_tokens code = Ok toks /\ l = filter has_text toks.

(** The call concerns object [o]. *)
Definition about {D} (o : string) (c : @ocall D) : bool := match c with OChunk o' _ | OFinish o' => String.eqb o' o end.
