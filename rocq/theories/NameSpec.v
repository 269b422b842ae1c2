(** Names that do not clash. *)
From Coq Require Import Ascii.
From Verif Require Import Base DescModel FormulaModel BuildModel BuildSpec.
Open Scope string_scope.
Open Scope list_scope.

(** * Text *)
Definition opens (c : ascii) : bool := (Ascii.eqb c "(" || Ascii.eqb c "[" || Ascii.eqb c "{")%char.
Definition closes (c : ascii) : bool := (Ascii.eqb c ")" || Ascii.eqb c "]" || Ascii.eqb c "}")%char.
(** How many brackets are open after [s], with [d] open before; [None] if more are closed than are open. *)
Fixpoint depth (d : nat) (s : string) : option nat :=
  match s with
  | EmptyString => Some d
  | String c r =>
      if opens c then depth (S d) r
      else if closes c then match d with O => None | S d' => depth d' r end
      else depth d r
  end.
(** The same, but [None] also if there is a colon outside of all brackets. *)
Fixpoint scan (d : nat) (s : string) : option nat :=
  match s with
  | EmptyString => Some d
  | String c r =>
      if opens c then scan (S d) r
      else if closes c then match d with O => None | S d' => scan d' r end
      else if (Ascii.eqb c ":" && Nat.eqb d 0)%char then None
      else scan d r
  end.
(** All brackets are closed, and colons are in brackets only. *)
Definition bare (s : string) : Prop := s <> "" /\ scan 0 s = Some 0.

(** The text of a factor that cannot be taken for something else in a name: its brackets are closed, it has
    no colon outside of them, it does not end like an indexed variable, and is not "Intercept". *)
Definition plain (f : factor) : Prop := bare f /\ (forall r, f <> r ++ "]")%string /\ f <> "Intercept".
(** A suffix in square brackets, which are not closed before its end. *)
Definition bracketed (s : string) : Prop := exists inner, s = ("[" ++ inner ++ "]")%string /\ depth 0 inner = Some 0.

Section Names.
Context {V : Type}.
(** [fis] are the infos of the factors of [terms]: numeric as in [num_cols], or categorical, with a contrast
    matrix for either coding. *)
Definition typed (num_cols : list (factor * nat)) (code_cm : factor -> bool -> result (@ctr V)) (fis : finfos) (terms : list term) : Prop :=
  forall f, In f (concat terms) -> exists fi, dget String.eqb f fis = Some fi /\ fi_factor fi = f /\
    match fi_kind fi with
    | FNum n => dget String.eqb f num_cols = Some n
    | FCat k => dget String.eqb f num_cols = None /\ forall full, exists c, code_cm f full = Ok c /\ length (ct_rows c) = k
    end.
(** No two terms are equal, and no term has a factor twice. *)
Definition different_terms (terms : list term) : Prop :=
  Forall (@NoDup factor) terms /\ ForallOrdPairs (fun t u => term_eqb t u = false) terms.

Definition column_label (fis : finfos) (id : @column_id V) : string := label fis (snd (fst id)) (snd id).
(** Columns have different names, terms have different names, and where a column is called like a term, it is
    that term's only column. *)
Definition clear_names (fis : finfos) (cs : list (term * list (@subterm_info V))) : Prop :=
  NoDup (map (column_label fis) (columns_of fis cs)) /\ NoDup (map (fun p => term_name (fst p)) cs) /\
  forall t ss id, In (t, ss) cs -> In id (columns_of fis cs) -> column_label fis id = term_name t -> columns_of_term fis (t, ss) = [id].

(** The suffixes of the contrast matrices are different and bracketed. *)
Definition plain_suffixes (code_cm : factor -> bool -> result (@ctr V)) (fs : list factor) : Prop :=
  forall f full c, In f fs -> code_cm f full = Ok c -> NoDup (ct_suffixes c) /\ Forall bracketed (ct_suffixes c).
End Names.
