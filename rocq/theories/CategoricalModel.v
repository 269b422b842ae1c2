(** Model of patsy/categorical.py, of the value tests of patsy/missing.py, of [SortAnythingKey]
    (patsy/util.py) and of [_examine_factor_types] (patsy/build.py). *)
From Coq Require Import Ascii QArith.
From Verif Require Import Base TokensModel PySort BuildModel.
Open Scope nat_scope.
Open Scope string_scope.
Open Scope list_scope.

(** * Values *)
(** The Python objects that can occur as single data values.  Floats are rationals, infinities, or NaN
    objects (with an identity).  [VObj] are objects (identified by class and number) with the default [==] and no ordering. *)
Inductive pval :=
  | VBool (b : bool)
  | VInt (z : Z)
  | VFloat (q : Q)
  | VInf (neg : bool)
  | VNan (id : nat)
  | VStr (s : string)
  | VNone
  | VTuple (l : list pval)
  | VObj (cls : string) (id : nat) (hashable : bool).

Inductive num := Fin (q : Q) | PInf | NInf | NaN.
Definition to_num (v : pval) : option num :=
  match v with
  | VBool b => Some (Fin (if b then 1%Q else 0%Q))
  | VInt z => Some (Fin (inject_Z z))
  | VFloat q => Some (Fin q)
  | VInf neg => Some (if neg then NInf else PInf)
  | VNan _ => Some NaN
  | _ => None
  end.
Definition num_eqb (a b : num) : bool :=
  match a, b with
  | Fin p, Fin q => Qeq_bool p q
  | PInf, PInf | NInf, NInf => true
  | _, _ => false
  end.
Definition Qlt_bool (p q : Q) : bool := negb (Qle_bool q p).
Definition num_ltb (a b : num) : bool :=
  match a, b with
  | NaN, _ | _, NaN => false
  | Fin p, Fin q => Qlt_bool p q
  | NInf, NInf => false
  | NInf, _ => true
  | _, NInf => false
  | PInf, _ => false
  | _, PInf => true
  end.
Fixpoint str_ltb (a b : string) : bool :=
  match a, b with
  | _, EmptyString => false
  | EmptyString, String _ _ => true
  | String c r, String d s => (N_of_ascii c <? N_of_ascii d)%N || Ascii.eqb c d && str_ltb r s
  end.

(** Being the same key of a set or dict: [a is b or a == b]. *)
Fixpoint key_eqb (a b : pval) : bool :=
  match a, b with
  | VNan i, VNan j => Nat.eqb i j
  | VStr s, VStr t => String.eqb s t
  | VNone, VNone => true
  | VTuple l, VTuple m =>
      (fix go (l m : list pval) : bool :=
         match l, m with
         | [], [] => true
         | x :: l, y :: m => key_eqb x y && go l m
         | _, _ => false
         end) l m
  | VObj c i h, VObj d j k => Nat.eqb i j && String.eqb c d && Bool.eqb h k
  | _, _ => match to_num a, to_num b with Some x, Some y => num_eqb x y | _, _ => false end
  end.
(** [a == b] *)
Definition py_eqb (a b : pval) : bool := match a with VNan _ => false | _ => key_eqb a b end.

(** [a < b]; [None] for TypeError.  (Tuples are compared at the first place where they differ.) *)
Fixpoint python_lt (a b : pval) : option bool :=
  match a, b with
  | VStr s, VStr t => Some (str_ltb s t)
  | VTuple l, VTuple m =>
      (fix go (l m : list pval) : option bool :=
         match l, m with
         | _, [] => Some false
         | [], _ => Some true
         | x :: l, y :: m => if key_eqb x y then go l m else python_lt x y
         end) l m
  | _, _ => match to_num a, to_num b with Some x, Some y => Some (num_ltb x y) | _, _ => None end
  end.

(** [hash(v)] does not fail. *)
Fixpoint hashable (v : pval) : bool :=
  match v with
  | VTuple l => forallb hashable l
  | VObj _ _ h => h
  | _ => true
  end.
(** [v.__class__.__name__] *)
Definition class_name (v : pval) : string :=
  match v with
  | VBool _ => "bool" | VInt _ => "int" | VFloat _ | VInf _ | VNan _ => "float" | VStr _ => "str"
  | VNone => "NoneType" | VTuple _ => "tuple" | VObj c _ _ => c
  end.

(** * SortAnythingKey *)
Section Sort.
(** [id(v)], the address of the object. *)
Variable addr : pval -> nat.
(** util.py:597-617 [SortAnythingKey.__lt__]. *)
Definition sort_key_lt (a b : pval) : bool :=
  match python_lt a b with
  | Some r => r
  | None =>
      match python_lt a (VInt 0) with
      | Some _ => true
      | None =>
          match python_lt b (VInt 0) with
          | Some _ => false
          | None =>
              if py_eqb a b then false
              else str_ltb (class_name a) (class_name b) || String.eqb (class_name a) (class_name b) && Nat.ltb (addr a) (addr b)
          end
      end
  end.
(** categorical.py:183-184: [levels.sort(key=SortAnythingKey)]. *)
Definition sort_levels (l : list pval) : list pval := py_sort sort_key_lt l.
End Sort.

(** * Missing values *)
Definition is_space (c : ascii) : bool := (N_of_ascii c =? 32)%N || (9 <=? N_of_ascii c)%N && (N_of_ascii c <=? 13)%N || (28 <=? N_of_ascii c)%N && (N_of_ascii c <=? 31)%N.
Definition lower (c : ascii) : ascii := if (65 <=? N_of_ascii c)%N && (N_of_ascii c <=? 90)%N then ascii_of_N (N_of_ascii c + 32) else c.
Fixpoint lstrip (s : string) : string := match s with String c r => if is_space c then lstrip r else s | _ => s end.
Fixpoint all_space (s : string) : bool := match s with String c r => is_space c && all_space r | EmptyString => true end.
(** [float(s)] is NaN: the text nan in any case, with a sign and blanks around it. *)
Definition nan_text (s : string) : bool :=
  let s := lstrip s in
  let s := match s with String c r => if Ascii.eqb c "+" || Ascii.eqb c "-" then r else s | _ => s end in
  match s with
  | String a (String b (String c r)) => Ascii.eqb (lower a) "n" && Ascii.eqb (lower b) "a" && Ascii.eqb (lower c) "n" && all_space r
  | _ => false
  end.
(** util.py:650-656 [safe_scalar_isnan].  [float] of an integer that rounds to 2^1024 or more raises
    OverflowError, which is not caught. *)
Definition safe_scalar_isnan (v : pval) : result bool :=
  match v with
  | VNan _ => Ok true
  | VStr s => Ok (nan_text s)
  | VInt z => if Z.leb (2 ^ 1024 - 2 ^ 970) (Z.abs z) then Err OverflowError else Ok false
  | _ => Ok false
  end.
(** missing.py:121-130 [is_categorical_NA]; [nan_is_na] and [none_is_na] tell whether "NaN" and "None"
    are in [NA_types]. *)
Record na_types := mkNA { nan_is_na : bool; none_is_na : bool }.
Definition is_categorical_NA (na : na_types) (v : pval) : result bool :=
  let* nan := if nan_is_na na then safe_scalar_isnan v else Ok false in
  Ok (nan || none_is_na na && match v with VNone => true | _ => false end).

(** * Categorical data *)
Section Categorical.
(** The type of contrasts given to [C]. *)
Context {C : Type}.

(** What a factor can evaluate to (apart from boxes made by [C]); 0-d arrays, contrast attributes of
    other objects and the index of pandas objects are not modelled.  [numeric] tells whether the dtype
    numpy's [asarray] finds for the data is a number.
    - [DPandas]: pandas Categorical, its categories and codes
    - [DBools]: an array of booleans with the given number of dimensions
    - [DSeq]: another 1-dimensional thing
    - [DScalar]: something that cannot be iterated over, or a string
    - [DArray]: another array with more than one dimension, and its second dimension *)
Inductive cdata :=
  | DPandas (categories : list pval) (codes : list Z)
  | DBools (ndim : nat) (l : list bool)
  | DSeq (numeric : bool) (l : list pval)
  | DScalar (numeric : bool) (v : pval)
  | DArray (numeric : bool) (ndim ncols : nat).
(** categorical.py:60-64 [_CategoricalBox] with its levels and contrast, or other data. *)
Inductive value :=
  | Boxed (d : cdata) (contrast : option C) (levels : option (list pval))
  | Plain (d : cdata).

(** categorical.py:69-111 [C]. *)
Definition C_box (v : value) (contrast : option C) (levels : option (list pval)) : value :=
  match v with
  | Boxed d c l => Boxed d (match contrast with None => c | _ => contrast end) (match levels with None => l | _ => levels end)
  | Plain d => Boxed d contrast levels
  end.

(** categorical.py:132-140 [guess_categorical]. *)
Definition guess_categorical (v : value) : bool :=
  match v with
  | Boxed _ _ _ => true
  | Plain (DPandas _ _) => true
  | Plain (DBools _ _) => true
  | Plain (DSeq n _) | Plain (DScalar n _) | Plain (DArray n _ _) => negb n
  end.

(** categorical.py:159-171 [_categorical_shape_fix]: the values to iterate over; iterating over a pandas
    Categorical gives the categories, and NaN for the code -1. *)
Definition shape_fix (d : cdata) : result (list pval) :=
  match d with
  | DPandas categories codes => Ok (map (fun z => if Z.ltb z 0 then VNan 0 else nth (Z.to_nat z) categories VNone) codes)
  | DBools ndim l => if Nat.ltb 1 ndim then Err (PatsyError "categorical data cannot be >1-dimensional" None) else Ok (map VBool l)
  | DSeq _ l => Ok l
  | DScalar _ v => Ok [v]
  | DArray _ _ _ => Err (PatsyError "categorical data cannot be >1-dimensional" None)
  end.

(** A set: its elements in insertion order. *)
Definition set_mem (v : pval) (s : list pval) : bool := existsb (fun u => key_eqb u v) s.
Definition set_add (s : list pval) (v : pval) : list pval := if set_mem v s then s else s ++ [v].
(** categorical.py:231: [level_set == set([True, False])]. *)
Definition is_bools (s : list pval) : bool :=
  Nat.eqb (List.length s) 2 && set_mem (VBool true) s && set_mem (VBool false) s.

(** categorical.py:174-180 [CategoricalSniffer.__init__]. *)
Record sniffer := mkSniffer { sn_contrast : option C; sn_levels : option (list pval); sn_set : list pval }.
Definition new_sniffer : sniffer := mkSniffer None None [].

Section Sniff.
Variable na : na_types.
Variable org : option origin.
(** categorical.py:214-227: the body of the loop. *)
Definition sniff_value (s : list pval) (v : pval) : result (list pval) :=
  let* missing := is_categorical_NA na v in
  if missing then Ok s
  else match v with
       | VBool _ => Ok (set_add (set_add s (VBool true)) (VBool false))
       | _ => if hashable v then Ok (set_add s v)
              else Err (PatsyError "Error interpreting categorical data: all items must be hashable" org)
       end.
(** categorical.py:201-231, after unboxing. *)
Definition sniff_data (st : sniffer) (d : cdata) : result (sniffer * bool) :=
  match d with
  | DPandas categories _ => Ok (mkSniffer (sn_contrast st) (Some categories) (sn_set st), true)
  | DBools _ _ => Ok (mkSniffer (sn_contrast st) (sn_levels st) [VBool true; VBool false], true)
  | _ =>
      let* values := shape_fix d in
      let* s := foldM sniff_value values (sn_set st) in
      Ok (mkSniffer (sn_contrast st) (sn_levels st) s, is_bools s)
  end.
(** categorical.py:189-231 [sniff]. *)
Definition sniff (st : sniffer) (v : value) : result (sniffer * bool) :=
  match v with
  | Boxed d contrast levels =>
      match levels with
      | Some l => Ok (mkSniffer contrast (Some l) (sn_set st), true)
      | None => sniff_data (mkSniffer contrast (sn_levels st) (sn_set st)) d
      end
  | Plain d => sniff_data st d
  end.
End Sniff.

Section Levels.
Variable addr : pval -> nat.
(** [list(set)]: the elements in hash order. *)
Variable hash_order : list pval -> list pval.
(** categorical.py:182-187 [levels_contrast]. *)
Definition levels_contrast (st : sniffer) : list pval * option C :=
  (match sn_levels st with Some l => l | None => sort_levels addr (hash_order (sn_set st)) end, sn_contrast st).
End Levels.

(** [tuple1 == tuple2] *)
Definition tuple_eqb (a b : list pval) : bool := key_eqb (VTuple a) (VTuple b).
(** categorical.py:352-357: [dict(zip(levels, range(len(levels))))]. *)
Definition level_to_int (levels : list pval) : list (pval * nat) :=
  dict_of key_eqb (combine levels (seq 0 (List.length levels))).
(** categorical.py:366-391: the body of the loop. *)
Definition code_value (na : na_types) (org : option origin) (table : list (pval * nat)) (v : pval) : result Z :=
  let* missing := is_categorical_NA na v in
  if missing then Ok (-1)%Z
  else if negb (hashable v) then Err (PatsyError "Error converting data to categorical: encountered unhashable value" org)
  else match dget key_eqb v table with
       | Some i => Ok (Z.of_nat i)
       | None => Err (PatsyError "Error converting data to categorical: observation does not match any of the expected levels" org)
       end.
(** categorical.py:327-396 [categorical_to_int]. *)
Definition categorical_to_int (v : value) (levels : list pval) (na : na_types) (org : option origin) : result (list Z) :=
  let code (d : cdata) : result (list Z) :=
    let* values := shape_fix d in
    if negb (forallb hashable levels) then Err (PatsyError "Error interpreting categorical data: all items must be hashable" org)
    else
      let table := level_to_int levels in
      let slow := mapM (code_value na org table) values in
      match d with
      | DBools _ l =>
          let* f := lookup (dget key_eqb (VBool false) table) in
          if Nat.eqb f 0 then
            let* t := lookup (dget key_eqb (VBool true) table) in
            if Nat.eqb t 1 then Ok (map (fun b : bool => if b then 1%Z else 0%Z) l) else slow
          else slow
      | _ => slow
      end in
  match v with
  | Plain (DPandas categories codes) =>
      if tuple_eqb categories levels then Ok codes else Err (PatsyError "mismatching levels" org)
  | Plain d => code d
  | Boxed d _ blevels =>
      match blevels with
      | Some l => if tuple_eqb l levels then code d else Err (PatsyError "mismatching levels" org)
      | None => code d
      end
  end.
End Categorical.

(** * Factor types *)
Section Examine.
Context {C F D : Type} (feqb : F -> F -> bool).
Local Notation value := (@value C).
Local Notation sniffer := (@sniffer C).
(** [factor.eval] after memorization, and [factor.origin]. *)
Variable eval : F -> D -> result value.
Variable origin_of : F -> option origin.
Variable na : na_types.
(** The order in which the [n]-th round goes through the set of factors. *)
Variable order : nat -> list F -> list F.

Record examined := mkEx { ex_num : list (F * nat); ex_cat : list (F * sniffer); ex_needed : list F }.
Definition remove (f : F) (l : list F) : list F := filter (fun g => negb (feqb g f)) l.

(** build.py:505-509: [atleast_2d_column_default], [_max_allowed_dim] and [shape[1]]. *)
Definition column_count (org : option origin) (v : value) : result nat :=
  match v with
  | Plain (DArray _ ndim ncols) =>
      if Nat.ltb 2 ndim then Err (PatsyError "factor evaluates to an array of too high dimension" org) else Ok ncols
  | _ => Ok 1
  end.
(** build.py:491-511: one factor and one chunk of data. *)
Definition examine_step (d : D) (st : examined) (f : F) : result examined :=
  let* v := eval f d in
  let known := dget feqb f (ex_cat st) in
  if match known with Some _ => true | None => false end || guess_categorical v then
    let sn := match known with Some sn => sn | None => new_sniffer end in
    let* (sn', finished) := sniff na (origin_of f) sn v in
    Ok (mkEx (ex_num st) (dset feqb f sn' (ex_cat st)) (if finished then remove f (ex_needed st) else ex_needed st))
  else
    let* n := column_count (origin_of f) v in
    Ok (mkEx (dset feqb f n (ex_num st)) (ex_cat st) (remove f (ex_needed st))).
(** build.py:489-513. *)
Fixpoint examine_chunks (round : nat) (chunks : list D) (st : examined) : result examined :=
  match chunks with
  | [] => Ok st
  | d :: r =>
      let* st := foldM (examine_step d) (order round (ex_needed st)) st in
      match ex_needed st with [] => Ok st | _ => examine_chunks (S round) r st end
  end.
(** build.py:485-518 [_examine_factor_types]; the dicts returned. *)
Definition examine_factor_types (addr : pval -> nat) (hash_order : list pval -> list pval) (factors : list F) (chunks : list D)
    : result (list (F * nat) * list (F * (list pval * option C))) :=
  let* st := examine_chunks 0 chunks (mkEx [] [] factors) in
  Ok (ex_num st, map (fun p => (fst p, levels_contrast addr hash_order (snd p))) (ex_cat st)).
End Examine.
