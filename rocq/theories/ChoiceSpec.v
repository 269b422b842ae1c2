(** Nested calls, and texts that read as NaN. *)
From Coq Require Import Ascii.
From Verif Require Import Base CategoricalModel.
Open Scope nat_scope.
Open Scope string_scope.
Open Scope list_scope.

(** The last value that was given, if any. *)
Inductive last_given {A} : list (option A) -> option A -> Prop :=
  | lg_none l : Forall (fun x => x = None) l -> last_given l None
  | lg_some l a r : Forall (fun x => x = None) r -> last_given (l ++ Some a :: r) (Some a).

(** Blanks as for [str.strip] (ASCII only). *)
Definition blank (s : string) : Prop :=
  Forall (fun c => In (nat_of_ascii c) [9; 10; 11; 12; 13; 28; 29; 30; 31; 32]) (list_ascii_of_string s).
(** What Python's [float] turns into NaN: blanks, perhaps a sign, the three letters in any case, blanks. *)
Definition reads_nan (s : string) : Prop :=
  exists pre sign n1 a n2 post, s = (pre ++ sign ++ n1 ++ a ++ n2 ++ post)%string /\ blank pre /\ blank post /\
    In sign [""; "+"; "-"] /\ In n1 ["n"; "N"] /\ In a ["a"; "A"] /\ In n2 ["n"; "N"].
