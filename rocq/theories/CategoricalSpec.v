(** What levels, codes and factor types should be. *)
From Coq Require Import Ascii QArith.
From Verif Require Import Base BuildModel CategoricalModel.
Open Scope nat_scope.
Open Scope string_scope.
Open Scope list_scope.

(** Two values are the same for Python's sets and dicts. *)
Definition same (a b : pval) : Prop := key_eqb a b = true.
Definition is_bool (v : pval) : Prop := exists b, v = VBool b.

(** The value counts as missing: NaN (or a text that reads as NaN, see the findings), None. *)
Definition missing (na : na_types) (v : pval) : Prop :=
  (nan_is_na na = true /\ ((exists i, v = VNan i) \/ exists s, v = VStr s /\ nan_text s = true)) \/
  (none_is_na na = true /\ v = VNone).
(** Testing the value for NaN does not overflow. *)
Definition testable (na : na_types) (v : pval) : Prop :=
  forall z, v = VInt z -> nan_is_na na = true -> (Z.abs z < 2 ^ 1024 - 2 ^ 970)%Z.

(** [w] is one of the levels of the data: it occurs (not missing), or it is a boolean and some boolean
    occurs. *)
Definition level_of (na : na_types) (values : list pval) (w : pval) : Prop :=
  exists v, In v values /\ ~ missing na v /\ (same v w \/ is_bool v /\ (same (VBool true) w \/ same (VBool false) w)).
(** No two entries are the same. *)
Definition distinct (l : list pval) : Prop := forall a x b y c, l = a ++ x :: b ++ y :: c -> ~ same x y.
(** [levels] lists the levels of the data, each once. *)
Definition levels_exact (na : na_types) (values levels : list pval) : Prop :=
  distinct levels /\ forall w, (exists l, In l levels /\ same l w) <-> level_of na values w.

(** The data is not a mixture of both of zero (or False) and one (or True) with something else. *)
Definition zero_one_pure (na : na_types) (values : list pval) : Prop :=
  level_of na values (VBool true) -> level_of na values (VBool false) ->
  forall w, level_of na values w -> same (VBool true) w \/ same (VBool false) w.

(** * Sorting *)
(** Numbers, strings, None and objects of other classes: everything but NaN and tuples. *)
Definition sortable (v : pval) : Prop :=
  match v with VNan _ | VTuple _ => False | VObj c _ _ => c <> "str" | _ => True end.
Definition is_number (v : pval) : Prop := to_num v <> None.
Definition is_object (v : pval) : Prop := match v with VNone | VObj _ _ _ => True | _ => False end.
(** Different objects among the values have different addresses. *)
Definition addresses (addr : pval -> nat) (l : list pval) : Prop :=
  forall a b, In a l -> In b l -> is_object a -> is_object b -> addr a = addr b -> a = b.
Definition num_le (x y : num) : Prop :=
  match x, y with
  | NInf, NInf | NInf, Fin _ | NInf, PInf | Fin _, PInf | PInf, PInf => True
  | Fin p, Fin q => (p <= q)%Q
  | _, _ => False
  end.
(** The name of the type, for values that are no numbers. *)
Definition type_name (v : pval) : string :=
  match v with VNone => "NoneType" | VStr _ => "str" | VTuple _ => "tuple" | VObj c _ _ => c | _ => "" end.
(** [a] may come before [b] among levels: numbers ascending, then the others by the names of their types,
    strings in the order of their characters. *)
Definition before (a b : pval) : Prop :=
  match to_num a, to_num b with
  | Some x, Some y => num_le x y
  | Some _, None => True
  | None, Some _ => False
  | None, None => match a, b with VStr s, VStr t => String.compare s t <> Gt | _, _ => String.compare (type_name a) (type_name b) <> Gt end
  end.
(** Tuples that have numbers (not NaN) and strings in the same places. *)
Inductive kind := KNumber | KText.
Definition of_kind (k : kind) (v : pval) : Prop :=
  match k with KNumber => is_number v /\ (forall i, v <> VNan i) | KText => exists s, v = VStr s end.
Definition tuple_of (ks : list kind) (v : pval) : Prop := exists l, v = VTuple l /\ Forall2 of_kind ks l.
(** The first place where they differ decides. *)
Inductive lex_before : list pval -> list pval -> Prop :=
  | lex_end : lex_before [] []
  | lex_less x y l m : before x y -> ~ same x y -> lex_before (x :: l) (y :: m)
  | lex_same x y l m : same x y -> lex_before l m -> lex_before (x :: l) (y :: m).
Definition tuple_before (a b : pval) : Prop := exists l m, a = VTuple l /\ b = VTuple m /\ lex_before l m.
(** Numbers and strings. *)
Definition plain_value (v : pval) : Prop := (is_number v /\ forall i, v <> VNan i) \/ exists s, v = VStr s.
(** The two lists have the same elements, each once. *)
Definition same_levels (l m : list pval) : Prop :=
  distinct l /\ distinct m /\ forall w, (exists x, In x l /\ same x w) <-> exists y, In y m /\ same y w.

(** * Codes *)
(** [z] is the code of [v]: -1 if it is missing, else the position of the level it is the same as (the
    last such level, should there be several). *)
Definition coded (na : na_types) (levels : list pval) (v : pval) (z : Z) : Prop :=
  (missing na v /\ z = (-1)%Z) \/
  (~ missing na v /\ exists a l b, levels = a ++ l :: b /\ same l v /\ (forall x, In x b -> ~ same x v) /\ z = Z.of_nat (List.length a)).

(** The values categorical data consists of. *)
Inductive consists_of : cdata -> list pval -> Prop :=
  | CoBools n l : n <= 1 -> consists_of (DBools n l) (map VBool l)
  | CoSeq n l : consists_of (DSeq n l) l
  | CoScalar n v : consists_of (DScalar n v) [v]
  | CoPandas cats codes l :
      Forall2 (fun z v => (z < 0)%Z /\ v = VNan 0 \/ (0 <= z)%Z /\ nth_error cats (Z.to_nat z) = Some v) codes l ->
      consists_of (DPandas cats codes) l.
Definition is_pandas (d : cdata) : Prop := exists cats codes, d = DPandas cats codes.

(** A factor's value in one chunk has these values and does not declare the levels. *)
Inductive chunk_values {C : Type} : @value C -> list pval -> Prop :=
  | CvPlain d l : consists_of d l -> ~ is_pandas d -> (forall n, d <> DBools n []) -> chunk_values (Plain d) l
  | CvBoxed d c l : consists_of d l -> ~ is_pandas d -> (forall n, d <> DBools n []) -> chunk_values (Boxed d c None) l.
(** The values of the factor in each chunk. *)
Definition data_of {C F D : Type} (eval : F -> D -> result (@value C)) (f : F) (chunks : list D) (ls : list (list pval)) : Prop :=
  Forall2 (fun d l => exists v, eval f d = Ok v /\ chunk_values v l) chunks ls.
(** The first chunk looks categorical. *)
Definition starts_categorical {C F D : Type} (eval : F -> D -> result (@value C)) (f : F) (chunks : list D) : Prop :=
  exists d r v, chunks = d :: r /\ eval f d = Ok v /\ guess_categorical v = true.
(** The values can be used as levels. *)
Definition usable (na : na_types) (v : pval) : Prop := testable na v /\ (missing na v \/ hashable v = true).

(** * Factor types *)
Section Types.
Context {C F D : Type}.
Variable eval : F -> D -> result (@value C).
Variable origin_of : F -> option origin.
Variable na : na_types.
(** The state of the sniffer after looking at the chunks up to the first after which it is confident. *)
Fixpoint look (f : F) (chunks : list D) (sn : @sniffer C) : result (@sniffer C) :=
  match chunks with
  | [] => Ok sn
  | d :: r => let* v := eval f d in
              let* (sn', finished) := sniff na (origin_of f) sn v in
              if finished then Ok sn' else look f r sn'
  end.
(** Numerical data and its number of columns: not boxed, a numeric dtype (booleans are not), at most two
    dimensions. *)
Inductive numerical : @value C -> nat -> Prop :=
  | nu_seq l : numerical (Plain (DSeq true l)) 1
  | nu_scalar x : numerical (Plain (DScalar true x)) 1
  | nu_array ndim ncols : ndim <= 2 -> numerical (Plain (DArray true ndim ncols)) ncols.
(** Numerical data of too many dimensions. *)
Inductive too_deep : @value C -> Prop :=
  | td_array ndim ncols : 2 < ndim -> too_deep (Plain (DArray true ndim ncols)).
Inductive ftype := TNum (columns : nat) | TCat (sn : @sniffer C).
(** The type of one factor: the first chunk decides between numeric and categorical. *)
Definition type_of (f : F) (chunks : list D) : result (option ftype) :=
  match chunks with
  | [] => Ok None
  | d :: _ =>
      let* v := eval f d in
      if guess_categorical v then let* sn := look f chunks new_sniffer in Ok (Some (TCat sn))
      else let* n := column_count (origin_of f) v in Ok (Some (TNum n))
  end.
End Types.
