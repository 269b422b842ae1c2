(** Specification for contrast selection. *)
From Coq Require Import Sorted Permutation.
From Verif Require Import Base.

(** * Subsets, as increasing lists of positions *)
Definition positions (k : nat) (s : list nat) : Prop := StronglySorted lt s /\ Forall (fun i => i < k) s.

(** Lexicographic order. *)
Inductive lex : list nat -> list nat -> Prop :=
| lex_nil y b : lex [] (y :: b)
| lex_head x y a b : x < y -> lex (x :: a) (y :: b)
| lex_tail x a b : lex a b -> lex (x :: a) (x :: b).
(** Shorter first, then lexicographic. *)
Definition shortlex (a b : list nat) : Prop :=
  length a < length b \/ (length a = length b /\ lex a b).

(** The items of [l] at positions [s]. *)
Definition pick_at {A} (l : list A) (s : list nat) (t : list A) : Prop :=
  Forall2 (fun i x => nth_error l i = Some x) s t.

(** * Codings *)
Section Coding.
Context {F : Type}.

(** What a coding (factor -> full-rank?) stands for: a full-rank factor is "without
    the factor, plus the factor's contrast", so it covers the set [S] of factors iff
    [S] contains every factor coded by contrast only, and otherwise any of its
    full-rank factors. *)
Definition covers (c : list (F * bool)) (S : list F) : Prop :=
  (forall f, In f S -> exists b, In (f, b) c) /\ (forall f, In (f, false) c -> In f S).

Definition same_factors (a b : list F) : Prop := forall f, In f a <-> In f b.

Definition exactly_one {X} (P : X -> Prop) (l : list X) : Prop :=
  exists p x q, l = p ++ x :: q /\ P x /\ Forall (fun y => ~ P y) (p ++ q).

(** [S] consists of categorical factors of the term [t]. *)
Definition sub_of (is_numeric : F -> bool) (t S : list F) : Prop :=
  forall f, In f S -> In f t /\ is_numeric f = false.
(** ... and no earlier term has it. *)
Definition new_at (is_numeric : F -> bool) (terms : list (list F)) (i : nat) (S : list F) : Prop :=
  (exists t, nth_error terms i = Some t /\ sub_of is_numeric t S) /\
  forall j t, j < i -> nth_error terms j = Some t -> ~ sub_of is_numeric t S.

(** The hash of sets of contrast-coded factors drawn from [fs] depends on the set only
    and has no collisions. *)
Definition collision_free (hash : list (bool * F) -> Z) (fs : list F) : Prop :=
  forall a b, incl a fs -> incl b fs -> NoDup a -> NoDup b ->
    (hash (map (fun f => (false, f)) a) = hash (map (fun f => (false, f)) b) <-> same_factors a b).

(** * Simplification
    Subterms are sets of (full-rank?, factor) pairs, as lists in any order. *)
Definition proper (s : list (bool * F)) : Prop := NoDup (map snd s).
(** [long] is [short] together with the factor [f], coded as [b]. *)
Definition extends (b : bool) (f : F) (short long : list (bool * F)) : Prop :=
  ~ In f (map snd short) /\ Permutation long ((b, f) :: short).
(** One simplification: [short] and a later [short + f-] become [short + f+], at the
    place of the latter. *)
Inductive merge : list (list (bool * F)) -> list (list (bool * F)) -> Prop :=
| merge_intro pre short mid long post f new :
    extends false f short long -> extends true f short new ->
    merge (pre ++ short :: mid ++ long :: post) (pre ++ mid ++ new :: post).
Inductive merges : nat -> list (list (bool * F)) -> list (list (bool * F)) -> Prop :=
| merges_nil l : merges 0 l l
| merges_cons n a b c : merge a b -> merges n b c -> merges (S n) a c.
(** A subterm followed later by itself plus one factor. *)
Definition has_pair (b : bool) (l : list (list (bool * F))) : Prop :=
  exists pre short mid long post f, l = pre ++ short :: mid ++ long :: post /\ extends b f short long.
(** The set of factors [S] is one of those a subterm stands for. *)
Definition stands_for (s : list (bool * F)) (S : list F) : Prop :=
  covers (map (fun e => (snd e, fst e)) s) S.
Definition disjoint (l : list (list (bool * F))) : Prop :=
  ForallOrdPairs (fun a b => ~ exists S, stands_for a S /\ stands_for b S) l.

(** Column counts. *)
Fixpoint prodn {X} (w : X -> nat) (l : list X) : nat :=
  match l with [] => 1 | x :: r => w x * prodn w r end.
Fixpoint sumn {X} (w : X -> nat) (l : list X) : nat :=
  match l with [] => 0 | x :: r => w x + sumn w r end.

(** [Ss] lists, once each, the sets of categorical factors contained in some term. *)
Definition lists_subsets (is_numeric : F -> bool) (terms Ss : list (list F)) : Prop :=
  Forall (@NoDup F) Ss /\
  (forall i j a b, nth_error Ss i = Some a -> nth_error Ss j = Some b -> same_factors a b -> i = j) /\
  (forall S, (exists S', In S' Ss /\ same_factors S S') <-> (exists t, In t terms /\ sub_of is_numeric t S)).
End Coding.
