(** What the built-in contrast codings are supposed to be. *)
From Coq Require Import Sorted Permutation.
From Verif Require Import Base NumModel ContrastModel RankSpec.
Open Scope nat_scope.

Notation qsum := (rsum 0%Qc Qcplus).
(** The mean of [mu 0 ... mu (n-1)]. *)
Definition mean (n : nat) (mu : nat -> Qc) : Qc := (qsum mu (seq 0 n) / qn n)%Qc.

(** The matrix [m] has [n] rows and [p] columns and these entries. *)
Definition matrix_is (n p : nat) (entry : nat -> nat -> Qc) (m : mat) : Prop :=
  length m = n /\ Forall (fun row => length row = p) m /\
  forall i j, i < n -> j < p -> get m i j = entry i j.

(** The [k]-th level other than level [r]. *)
Definition other (r k : nat) : nat := if k <? r then k else S k.

(** The coefficients [b0] (constant) and [b] (contrast columns) reproduce level means [mu]. *)
Definition fits (n : nat) (C : nat -> nat -> Qc) (mu : nat -> Qc) (b0 : Qc) (b : nat -> Qc) : Prop :=
  forall i, i < n -> (mu i = b0 + qsum (fun k => C i k * b k) (seq 0 (n - 1)))%Qc.

(** Entries, row = level. *)
Definition treatment_entry (r i k : nat) : Qc := if i =? other r k then 1%Qc else 0%Qc.
Definition sum_entry (r i k : nat) : Qc := if i =? r then (Qcopp 1)%Qc else if i =? other r k then 1%Qc else 0%Qc.
Definition helmert_entry (i k : nat) : Qc := if i <=? k then (Qcopp 1)%Qc else if i =? S k then qn (S k) else 0%Qc.
Definition diff_entry (n i k : nat) : Qc :=
  if i <=? k then (qz (Z.of_nat (S k) - Z.of_nat n) / qn n)%Qc else (qn (S k) / qn n)%Qc.

Definition ones_first (C : nat -> nat -> Qc) (i j : nat) : Qc := with_const 1%Qc C i j.

(** A sorting permutation, possibly unstable. *)
Definition sorts (argsort : list nat -> list nat) : Prop :=
  forall l, Permutation (argsort l) (seq 0 (length l)) /\ StronglySorted Nat.le (map (fun p => nth p l 0) (argsort l)).

(** Column of zeros sum. *)
Definition columns_sum_to_zero (n : nat) (C : nat -> nat -> Qc) : Prop :=
  forall k, k < n - 1 -> qsum (fun i => C i k) (seq 0 n) = 0%Qc.

(** Reference lookup, as documented: a level equal to the reference wins (the first one);
    otherwise an integer counts from the start, or from the end if negative. *)
Definition level_at {L} (leqb : L -> L -> bool) (as_int : L -> option Z) (levels : list L) (ref : L) (i : nat) : Prop :=
  (exists y, nth_error levels i = Some y /\ leqb y ref = true /\
     forall j z, j < i -> nth_error levels j = Some z -> leqb z ref = false)
  \/ (Forall (fun y => leqb y ref = false) levels /\
      exists z, as_int ref = Some z /\ i < length levels /\
        (Z.of_nat i = z \/ (z < 0 /\ Z.of_nat i = z + Z.of_nat (length levels))%Z)).

Notation qinvertible := (invertible 0%Qc 1%Qc Qcplus Qcmult).

Section Codings.
Context {L : Type} (leqb : L -> L -> bool) (as_int : L -> option Z) (readable : L -> string).
(** The [k]-th of [p] suffixes is "[" prefix, the text of level number [pos k], "]". *)
Definition suffixes_are (prefix : string) (levels : list L) (pos : nat -> nat) (p : nat) (names : list string) : Prop :=
  length names = p /\ forall k, k < p -> exists x, nth_error levels (pos k) = Some x /\ nth_error names k = Some ("[" ++ prefix ++ readable x ++ "]")%string.
(** The position of the reference level. *)
Definition ref_pos (ref : option L) (dflt : nat) (levels : list L) (r : nat) : Prop :=
  match ref with None => r = dflt | Some x => level_at leqb as_int levels x r end.

(** The entries of the contrast columns, for reference position [r]. *)
Definition entry_of (b : builtin L) (n r : nat) : nat -> nat -> Qc :=
  match b with Treatment _ => treatment_entry r | Sum _ => sum_entry r | Helmert => helmert_entry | Diff => diff_entry n end.
Definition ref_of (b : builtin L) (levels : list L) (r : nat) : Prop :=
  match b with
  | Treatment ref => ref_pos ref 0 levels r
  | Sum omit => ref_pos omit (length levels - 1) levels r
  | _ => True
  end.
Definition prefix_of (b : builtin L) : string :=
  match b with Treatment _ => "T." | Sum _ => "S." | Helmert => "H." | Diff => "D." end.
Definition named_of (b : builtin L) (r k : nat) : nat :=
  match b with Treatment _ | Sum _ => other r k | Helmert => S k | Diff => k end.

(** The names of the columns of the full coding [full], given those of the reduced coding. *)
Definition full_names (b : builtin L) (levels : list L) (reduced full : list string) : Prop :=
  match b with
  | Treatment _ => full = map (fun x => "[" ++ readable x ++ "]")%string levels
  | Sum _ => full = "[mean]"%string :: reduced
  | Helmert => full = "[H.intercept]"%string :: reduced
  | Diff => full = map (fun x => "[D." ++ readable x ++ "]")%string levels
  end.
End Codings.
