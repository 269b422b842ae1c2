(** Memorization passes: what each factor sees, and how often the data is read. *)
From Verif Require Import Base BuildModel MemorizeModel MemorizeSpec MemorizeProofs.
From Coq Require Import Permutation.
Open Scope string_scope.
Open Scope list_scope.
Open Scope nat_scope.

(** A factor asking for [k] passes gets exactly the calls [calls_for data k f], whatever other factors
    ask for, and its final state is the result of these calls.  The data is read once per pass, as often
    as the greediest factor needs and no more. *)
Theorem memorize_calls : forall {F S D : Type} (feqb : F -> F -> bool), (forall f g, feqb f g = true <-> f = g) ->
  forall (passes : F -> result (S * Z)) (chunk : F -> S -> nat -> D -> result S) (finish : F -> S -> nat -> result S)
    (data : nat -> list D) (order : nat -> list F -> list F), (forall n l, Permutation (order n l) l) ->
  forall fuel factors states log, NoDup factors ->
  (forall f s k, In f factors -> passes f = Ok (s, k) -> Z.to_nat k <= fuel) ->
  factors_memorize feqb passes chunk finish data order fuel factors = Ok (states, log) ->
  exists k : F -> Z,
    (forall f, In f factors -> exists s s', passes f = Ok (s, k f) /\
       filter (concerns feqb f) log = calls_for data (Z.to_nat (k f)) f /\
       run chunk finish s (calls_for data (Z.to_nat (k f)) f) = Ok s' /\ dget feqb f states = Some s') /\
    (let n := list_max (map (fun f => Z.to_nat (k f)) factors) in
     let needed p := filter (fun f => Z.ltb (Z.of_nat p) (k f)) factors in
     log = flat_map (fun p => (EIter p :: flat_map (fun d => map (fun f => EChunk f p d) (order p (needed p))) (data p))
                              ++ map (fun f => EFinish f p) (order p (needed p))) (seq 0 n) /\
     filter is_iter log = map (fun p => EIter p) (seq 0 n)).
Proof. intros F S D feqb H1 passes chunk finish data order H2. exact (memorize_lemma feqb H1 passes chunk finish data order H2). Qed.
Print Assumptions memorize_calls.

(** Memorization succeeds if and only if every factor on its own would. *)
Theorem memorize_succeeds_iff : forall {F S D : Type} (feqb : F -> F -> bool), (forall f g, feqb f g = true <-> f = g) ->
  forall (passes : F -> result (S * Z)) (chunk : F -> S -> nat -> D -> result S) (finish : F -> S -> nat -> result S)
    (data : nat -> list D) (order : nat -> list F -> list F), (forall n l, Permutation (order n l) l) ->
  forall fuel factors, NoDup factors ->
  (forall f s k, In f factors -> passes f = Ok (s, k) -> Z.to_nat k <= fuel) ->
  ((exists r, factors_memorize feqb passes chunk finish data order fuel factors = Ok r) <->
   forall f, In f factors -> exists s k s', passes f = Ok (s, k) /\ run chunk finish s (calls_for data (Z.to_nat k) f) = Ok s').
Proof. intros F S D feqb H1 passes chunk finish data order H2. exact (memorize_succeeds feqb H1 passes chunk finish data order H2). Qed.
Print Assumptions memorize_succeeds_iff.

(** An error is one raised by a factor's own method, never by the loop. *)
Theorem memorize_errors : forall {F S D : Type} (feqb : F -> F -> bool), (forall f g, feqb f g = true <-> f = g) ->
  forall (passes : F -> result (S * Z)) (chunk : F -> S -> nat -> D -> result S) (finish : F -> S -> nat -> result S)
    (data : nat -> list D) (order : nat -> list F -> list F), (forall n l, Permutation (order n l) l) ->
  forall fuel factors e, NoDup factors ->
  (forall f s k, In f factors -> passes f = Ok (s, k) -> Z.to_nat k <= fuel) ->
  factors_memorize feqb passes chunk finish data order fuel factors = Err e ->
  exists f, In f factors /\ (passes f = Err e \/ exists s k, passes f = Ok (s, k) /\ run chunk finish s (calls_for data (Z.to_nat k) f) = Err e).
Proof. intros F S D feqb H1 passes chunk finish data order H2. exact (memorize_fails feqb H1 passes chunk finish data order H2). Qed.
Print Assumptions memorize_errors.

(** Three factors asking for 0, 2 and 1 passes, data in two chunks; the second pass goes through the
    set in another order. *)
Definition exm_passes (f : string) : result (list nat * Z) :=
  Ok ([], if String.eqb f "x" then 0 else if String.eqb f "scale(center(y))" then 2 else 1)%Z.
Definition exm_chunk (_ : string) (s : list nat) (p : nat) (d : nat) : result (list nat) := Ok (s ++ [10 * p + d]).
Definition exm_finish (_ : string) (s : list nat) (p : nat) : result (list nat) := Ok (s ++ [100 * S p]).
Definition exm_order (p : nat) (l : list string) := if Nat.eqb p 0 then rev l else l.
Example memorize_ex :
  factors_memorize String.eqb exm_passes exm_chunk exm_finish (fun _ => [1; 2]) exm_order 2 ["x"; "scale(center(y))"; "center(z)"] =
  Ok ([("x", []); ("scale(center(y))", [1; 2; 100; 11; 12; 200]); ("center(z)", [1; 2; 100])],
      [EIter 0; EChunk "center(z)" 0 1; EChunk "scale(center(y))" 0 1; EChunk "center(z)" 0 2; EChunk "scale(center(y))" 0 2;
       EFinish "center(z)" 0; EFinish "scale(center(y))" 0;
       EIter 1; EChunk "scale(center(y))" 1 1; EChunk "scale(center(y))" 1 2; EFinish "scale(center(y))" 1]).
Proof. vm_compute. reflexivity. Qed.
Example memorize_ex_hyps : NoDup ["x"; "scale(center(y))"; "center(z)"] /\ (forall n l, Permutation (exm_order n l) l) /\
  forall f s k, In f ["x"; "scale(center(y))"; "center(z)"] -> exm_passes f = Ok (s, k) -> Z.to_nat k <= 2.
Proof.
  split; [|split].
  - repeat constructor; cbn; intuition discriminate.
  - intros n l. unfold exm_order. destruct (Nat.eqb n 0); [apply Permutation_sym, Permutation_rev|apply Permutation_refl].
  - intros f s k [<-|[<-|[<-|[]]]] H; vm_compute in H; injection H as _ <-; cbn; auto.
Qed.
