(** What balanced designs, first origins and trimmed numbers are. *)
From Coq Require Import Ascii ZArith QArith.
From Verif Require Import Base BuildModel MiscModel.
Open Scope nat_scope.
Open Scope string_scope.
Open Scope list_scope.

(** * Tables *)
(** Row [i] of a table given by its named columns, and the first [n] rows. *)
Definition row_at (data : list (string * list string)) (i : nat) : list (string * string) :=
  map (fun nc => (fst nc, nth i (snd nc) "")) data.
Definition table_rows (data : list (string * list string)) (n : nat) : list (list (string * string)) :=
  map (row_at data) (seq 0 n).
Definition cell_eq_dec : forall a b : string * string, {a = b} + {a <> b}.
Proof. decide equality; apply string_dec. Defined.
Definition times_in (row : list (string * string)) (rows : list (list (string * string))) : nat :=
  count_occ (list_eq_dec cell_eq_dec) rows row.
(** The level numbered [pick f] for each factor [f]. *)
Definition combination (names : list string) (pick : string -> nat) : list (string * string) :=
  map (fun f => (f, String.append f (nat_str (pick f)))) names.
Definition valid_pick (kwargs : list (string * Z)) (pick : string -> nat) : Prop :=
  forall f n, In (f, n) kwargs -> (1 <= Z.of_nat (pick f) <= n)%Z.
Definition design_size (kwargs : list (string * Z)) : nat := fold_right Nat.mul 1 (map (fun kn => Z.to_nat (snd kn)) kwargs).

(** * Origins *)
(** The origin an argument stands for, if any. *)
Definition meant_origin (a : orig_arg) : option origin :=
  match a with
  | OrigIs o | OrigObj (Some (OrigIs o)) => Some o
  | _ => None
  end.
Fixpoint first_some {A} (l : list (option A)) : option A :=
  match l with [] => None | Some x :: _ => Some x | None :: r => first_some r end.

(** * Decimal numbers *)
Fixpoint zeros_str (n : nat) : string := match n with 0 => "" | S n => String "0" (zeros_str n) end.
Definition contains (c : ascii) (s : string) : Prop := In c (list_ascii_of_string s).
(** [s'] is [s] without its last [z] characters, zeros after the point, and without the point if [dot]. *)
Definition trimmed (z : nat) (dot : bool) (s s' : string) : Prop :=
  if dot then s = String.append s' (String "." (zeros_str z))
  else s = String.append s' (zeros_str z) /\ contains "." s'.
Definition count_char (c : ascii) (s : string) : nat := count_occ ascii_dec (list_ascii_of_string s) c.

Definition digit (c : ascii) : option Z :=
  let n := Z.of_N (N_of_ascii c) in if ((48 <=? n) && (n <=? 57))%Z then Some (n - 48)%Z else None.
(** [acc] followed by the digits of [s], without a point. *)
Fixpoint digits (acc : Z) (s : string) : option Z :=
  match s with
  | EmptyString => Some acc
  | String c r => match digit c with Some d => digits (10 * acc + d) r | None => None end
  end.
(** The digits of [acc] followed by those of [s], in which a point may occur. *)
Fixpoint decimal (acc : Q) (s : string) : option Q :=
  match s with
  | EmptyString => Some acc
  | String c r =>
      if Ascii.eqb c "." then match digits 0 r with
                              | Some f => Some (acc + inject_Z f / inject_Z (10 ^ Z.of_nat (String.length r)))%Q
                              | None => None end
      else match digit c with Some d => decimal (10 * acc + inject_Z d)%Q r | None => None end
  end.
(** The number that a sign and digits with a point stand for. *)
Definition number (s : string) : option Q :=
  match s with
  | String "-" r => option_map Qopp (decimal 0 r)
  | String "+" r => decimal 0 r
  | _ => decimal 0 s
  end.
(** What is trimmed: digits, signs and a point, and nothing else. *)
Definition plain_number (s : string) : Prop :=
  contains "." s /\ forall c, contains c s -> c = "."%char \/ c = "+"%char \/ c = "-"%char \/ digit c <> None.
Definition same_number (a b : option Q) : Prop :=
  match a, b with Some x, Some y => (x == y)%Q | None, None => True | _, _ => False end.

(** * Demo data *)
Definition starts_in (letters : string) (s : string) : Prop :=
  match s with EmptyString => False | String c _ => In c (list_ascii_of_string letters) end.
Definition cat_name := starts_in "abcdefghijklmn".
Definition num_name := starts_in "pqrstuvwxyz".
