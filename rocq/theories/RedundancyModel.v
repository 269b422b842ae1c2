(** Model of patsy/redundancy.py: which contrast coding each categorical factor of each
    term gets. *)
From Verif Require Import Base PySort.

(** * Subsets (redundancy.py:149-170) *)

(** [enumerate] *)
Definition enumerate {A} (l : list A) : list (nat * A) := List.combine (seq 0 (length l)) l.

(** [<] on tuples of (idx, obj): the indexes in one list are distinct, so the objects
    are never compared; only the indexes are kept here. *)
Fixpoint tuple_ltb (a b : list nat) : bool :=
  match a, b with
  | _, [] => false
  | [], _ :: _ => true
  | x :: a, y :: b => if Nat.eqb x y then tuple_ltb a b else Nat.ltb x y
  end.

(** redundancy.py:149-170 [_subsets_sorted]; [helper] calls [_subsets_sorted] (not
    itself) on the tail of the enumerated tuple, so the recursion is at a different
    type; [n] bounds its depth (the length suffices). *)
Fixpoint subsets_sorted_n (n : nat) {A} (tupl : list A) : list (list A) :=
  match n with
  | 0 => []
  | S n =>
      let expanded := enumerate tupl in
      let helper := match expanded with
        | [] => [[]]
        | obj :: rest => flat_map (fun subset => [subset; obj :: subset]) (subsets_sorted_n n rest)
        end in
      let by_entries := py_sort (fun a b => tuple_ltb (map fst a) (map fst b)) helper in
      let by_length := py_sort (fun a b => Nat.ltb (length a) (length b)) by_entries in
      map (map snd) by_length
  end.
Definition subsets_sorted {A} (tupl : list A) : list (list A) :=
  subsets_sorted_n (S (length tupl)) tupl.

(** * Subterms *)
Section Redundancy.
(** Factors: any hashable Python objects, compared with [==]. *)
Context {F : Type} (feqb : F -> F -> bool).

(** redundancy.py:48-78 [_ExpandedFactor]: (includes_intercept, factor). *)
Notation efactor := (bool * F)%type.
(** redundancy.py:62-67 [_ExpandedFactor.__eq__]. *)
Definition ef_eqb (a b : efactor) : bool := Bool.eqb (fst b) (fst a) && feqb (snd b) (snd a).

(** redundancy.py:81-85 [_Subterm]: a frozenset of expanded factors, here a list
    without duplicates. *)
Notation subterm := (list (bool * F)).
Definition ef_in (e : efactor) (s : subterm) : bool := existsb (ef_eqb e) s.
Definition set_add (e : efactor) (s : subterm) : subterm := if ef_in e s then s else s ++ [e].
Definition mk_subterm (es : list efactor) : subterm := fold_left (fun s e => set_add e s) es [].

(** redundancy.py:87-91 [_Subterm.can_absorb]. *)
Definition can_absorb (self other : subterm) : bool :=
  Z.eqb (Z.of_nat (length self) - Z.of_nat (length other)) 1 &&
  forallb (fun e => ef_in e self) other.

(** redundancy.py:93-100 [_Subterm.absorb]. *)
Definition absorb (self other : subterm) : result subterm :=
  let diff := filter (fun e => negb (ef_in e other)) self in
  match diff with
  | [e] => assert (negb (fst e)) (Ok (set_add (true, snd e) other))
  | _ => Err AssertionError
  end.

(** redundancy.py:192-194, the inner loop for one [short_subterm]: the first absorber
    among [rest] is replaced by the new subterm. *)
Fixpoint absorb_into (short : subterm) (rest : list subterm) : result (option (list subterm)) :=
  match rest with
  | [] => Ok None
  | long :: r =>
      if can_absorb long short then let* new := absorb long short in Ok (Some (new :: r))
      else let* o := absorb_into short r in
           Ok (match o with Some r' => Some (long :: r') | None => None end)
  end.
(** redundancy.py:188-198 [_simplify_one_subterm]: [Some l] is the list after one
    simplification (Python mutates it and returns True), [None] means False. *)
Fixpoint simplify_one (subterms : list subterm) : result (option (list subterm)) :=
  match subterms with
  | [] => Ok None
  | short :: rest =>
      let* o := absorb_into short rest in
      match o with
      | Some rest' => Ok (Some rest')
      | None => let* o' := simplify_one rest in
                Ok (match o' with Some r => Some (short :: r) | None => None end)
      end
  end.
(** redundancy.py:201-203 [_simplify_subterms]; [fuel] bounds the number of rounds. *)
Fixpoint simplify_n (fuel : nat) (subterms : list subterm) : result (list subterm) :=
  match fuel with
  | 0 => Err OutOfFuel
  | S fuel =>
      let* o := simplify_one subterms in
      match o with Some l => simplify_n fuel l | None => Ok subterms end
  end.
Definition simplify (subterms : list subterm) : result (list subterm) :=
  simplify_n (S (length subterms)) subterms.

(** [subterm in used_subterms]: a CPython set compares the stored full hash first and
    then calls [__eq__].  redundancy.py:105-106 [_Subterm.__eq__] compares
    [self.efactors] with itself, so it is always True between subterms: membership is
    equality of hashes (redundancy.py:102-103).  [hash] is that hash function. *)
Variable hash : subterm -> Z.
Definition in_used (s : subterm) (used : list subterm) : bool :=
  existsb (fun u => Z.eqb (hash u) (hash s)) used.
(** [used_subterms.update(subterms)] *)
Definition update_used (used subterms : list subterm) : list subterm :=
  fold_left (fun us s => if in_used s us then us else us ++ [s]) subterms used.

(** redundancy.py:254-257: the dict for one subterm, as its list of items (if a
    factor occurs twice the later item wins; the theorems show it does not). *)
Definition coding := list (F * bool).
Definition dict_set (d : coding) (k : F) (v : bool) : coding :=
  if existsb (fun p => feqb (fst p) k) d
  then map (fun p => if feqb (fst p) k then (fst p, v) else p) d
  else d ++ [(k, v)].
Definition factor_coding (s : subterm) : coding :=
  fold_left (fun d e => dict_set d (snd e) (fst e)) s [].

(** redundancy.py:241-259 [pick_contrasts_for_term]; [is_numeric f] is
    [f in numeric_factors].  Returns the codings and the updated set. *)
Definition pick_contrasts_for_term (factors : list F) (is_numeric : F -> bool) (used : list subterm)
  : result (list coding * list subterm) :=
  let categorical_factors := filter (fun f => negb (is_numeric f)) factors in
  let subterms := filter (fun s => negb (in_used s used))
    (map (fun subset => mk_subterm (map (fun f => (false, f)) subset)) (subsets_sorted categorical_factors)) in
  let used' := update_used used subterms in
  let* simplified := simplify subterms in
  Ok (map factor_coding simplified, used').

(** build.py:655-662: the terms of one bucket are processed in order with one
    [used_subterms] set. *)
Fixpoint pick_all (terms : list (list F)) (is_numeric : F -> bool) (used : list subterm)
  : result (list (list coding)) :=
  match terms with
  | [] => Ok []
  | t :: r =>
      let* p := pick_contrasts_for_term t is_numeric used in
      let* cs := pick_all r is_numeric (snd p) in
      Ok (fst p :: cs)
  end.
End Redundancy.
