(** Linear algebra vocabulary for the rank theorem (C21): sums, products, invertible
    matrices, independence and span, over any commutative ring. *)
From Coq Require Import Ring_theory.
From Verif Require Import Base.

Section Lin.
Context {R : Type} (rO rI : R) (radd rmul : R -> R -> R).

Fixpoint rsum {X} (h : X -> R) (l : list X) : R :=
  match l with [] => rO | x :: r => radd (h x) (rsum h r) end.
Fixpoint rprod {X} (h : X -> R) (l : list X) : R :=
  match l with [] => rI | x :: r => rmul (h x) (rprod h r) end.

Definition kron (i j : nat) : R := if Nat.eqb i j then rI else rO.

(** n x n matrices as functions of row and column. *)
Definition is_inverse (n : nat) (A B : nat -> nat -> R) : Prop :=
  (forall i j, i < n -> j < n -> rsum (fun k => rmul (A i k) (B k j)) (seq 0 n) = kron i j) /\
  (forall i j, i < n -> j < n -> rsum (fun k => rmul (B i k) (A k j)) (seq 0 n) = kron i j).
Definition invertible (n : nat) (A : nat -> nat -> R) : Prop := exists B, is_inverse n A B.

(** [1 | C]: the constant column followed by the columns of [C]. *)
Definition with_const (C : nat -> nat -> R) (i j : nat) : R :=
  match j with 0 => rI | S k => C i k end.

(** Vectors indexed by the points (rows) satisfying [ok]. *)
Section Span.
Context {P : Type} (ok : P -> Prop).
Definition comb (coeffs : list R) (cols : list (P -> R)) (p : P) : R :=
  rsum (fun x => rmul (fst x) (snd x p)) (List.combine coeffs cols).
(** No non-trivial linear combination vanishes on all points. *)
Definition independent (cols : list (P -> R)) : Prop :=
  forall coeffs, length coeffs = length cols -> (forall p, ok p -> comb coeffs cols p = rO) ->
    Forall (fun c => c = rO) coeffs.
Definition in_span (cols : list (P -> R)) (Y : P -> R) : Prop :=
  exists coeffs, length coeffs = length cols /\ forall p, ok p -> Y p = comb coeffs cols p.
End Span.
End Lin.

(** Categorical models.  A point assigns a level number to every factor. *)
Section Model.
Context {F : Type} {R : Type} (rO rI : R) (radd rmul : R -> R -> R).
Variable nlev : F -> nat.                         (* number of levels *)
Variable ncol : F -> bool -> nat.                 (* columns: full-rank? *)
Variable M : F -> bool -> nat -> nat -> R.        (* contrast matrices: level, column *)

(** The contract on the codings of one factor: the contrast together with the constant,
    and the full-rank coding, are invertible matrices. *)
Definition good_coding (f : F) : Prop :=
  ncol f true = nlev f /\ S (ncol f false) = nlev f /\
  invertible rO rI radd rmul (nlev f) (with_const rI (M f false)) /\
  invertible rO rI radd rmul (nlev f) (M f true).

Definition legit (fs : list F) (rho : F -> nat) : Prop := forall f, In f fs -> rho f < nlev f.

(** The column of a coding with column numbers [ks]. *)
Fixpoint coding_col (c : list (F * bool)) (ks : list nat) (rho : F -> nat) : R :=
  match c, ks with
  | (f, b) :: c, k :: ks => rmul (M f b (rho f) k) (coding_col c ks rho)
  | _, _ => rI
  end.
(** All column numbers, leftmost varying fastest. *)
Fixpoint combos (ns : list nat) : list (list nat) :=
  match ns with
  | [] => [[]]
  | n :: ns => flat_map (fun r => map (fun k => k :: r) (seq 0 n)) (combos ns)
  end.
Definition coding_cols (c : list (F * bool)) : list ((F -> nat) -> R) :=
  map (coding_col c) (combos (map (fun p => ncol (fst p) (snd p)) c)).

(** [Y] is a function of the factors in [fs] satisfying [p] only (on legitimate points). *)
Definition depends_on (all fs : list F) (Y : (F -> nat) -> R) : Prop :=
  forall r1 r2, legit all r1 -> legit all r2 -> (forall f, In f fs -> r1 f = r2 f) -> Y r1 = Y r2.

(** The space of the model: sums of functions of the categorical factors of each term. *)
Definition model_space (all : list F) (cats : list (list F)) (ok : (F -> nat) -> Prop) (Y : (F -> nat) -> R) : Prop :=
  exists Ys, Forall2 (depends_on all) cats Ys /\ forall rho, ok rho -> Y rho = rsum rO radd (fun y => y rho) Ys.

(** The data has a row for every combination of levels of the factors [all]. *)
Definition complete_data (all : list F) (ok : (F -> nat) -> Prop) : Prop :=
  (forall rho, ok rho -> legit all rho) /\
  (forall rho, legit all rho -> exists r, ok r /\ forall f, In f all -> r f = rho f).
End Model.
