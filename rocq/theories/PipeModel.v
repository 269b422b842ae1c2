(** Model of the whole way from a formula and data to design matrices: [design_matrix_builders]
    (patsy/build.py), [_eval_factor] on what a factor returns, [NAAction.__init__] (patsy/missing.py),
    [DesignInfo.from_array] and [DesignMatrix.__new__] (patsy/design_info.py) and patsy/highlevel.py.
    It is put together from the models of the parts (MemorizeModel, CategoricalModel, BuildModel,
    FormulaModel). *)
From Verif Require Import Base OriginModel TokensModel ParseFormulaModel RedundancyModel UtilModel DescModel FormulaModel BuildModel MemorizeModel CategoricalModel.
Open Scope nat_scope.
Open Scope string_scope.
Open Scope list_scope.

(** * NAAction *)
Record na_action := mkAction { na_on : on_na; na_what : na_types }.
(** missing.py:91-122 [NAAction.__init__] with a list of strings for [NA_types]. *)
Definition new_action (on_NA : string) (types : list string) : result na_action :=
  let* act := (if String.eqb on_NA "raise" then Ok NARaise
               else if String.eqb on_NA "drop" then Ok NADrop
               else Err (ValueError "invalid on_NA action")) in
  if forallb (fun t => String.eqb t "None" || String.eqb t "NaN") types
  then Ok (mkAction act (mkNA (existsb (fun t => String.eqb t "NaN") types) (existsb (fun t => String.eqb t "None") types)))
  else Err (ValueError "invalid NA_type").
(** The argument [NA_action]: a string or a NAAction. *)
Inductive na_arg := NAStr (s : string) | NAObj (a : na_action).
(** build.py:737-738 and 932-933. *)
Definition get_action (a : na_arg) : result na_action :=
  match a with NAStr s => new_action s ["None"; "NaN"] | NAObj a => Ok a end.

Section Pipe.
(** Numbers, index labels, contrasts, states of factors, data objects. *)
Context {V I C S D : Type}.
Variables (vone : V) (vmul : V -> V -> V) (visnan : V -> bool) (ilabel : nat -> I) (ieqb : I -> I -> bool).

(** What [factor.eval] returns: what it is as categorical data; what [atleast_2d_column_default] makes
    of it (dimensions, columns, whether the dtype is a number, rows); its index if it is a pandas object. *)
Record fobj := mkObj {
  o_value : @value C;
  o_ndim : nat; o_ncols : nat; o_isnum : bool; o_rows : list (list V);
  o_index : option (list I) }.

(** The methods of a factor (eval.py models the ones of EvalFactor: EvalModel), in a fixed evaluation
    environment. *)
Variable passes : factor -> result (S * Z).
Variable chunk : factor -> S -> nat -> D -> result S.
Variable finish : factor -> S -> nat -> result S.
Variable eval : factor -> S -> D -> result fobj.
Variable origin_of : factor -> option origin.
(** [code_contrast_matrix(coding, levels, contrast, default=Treatment)] (ContrastModel); the flag is
    [coding] being true. *)
Variable code_cm : list pval -> option C -> bool -> result (@ctr V).
(** Hashes and orders of sets, which Python leaves open: of sets of subterms, of the set of all factors,
    in the passes of memorization, in the rounds of type detection, of sets of levels; and addresses. *)
Variable hash : list (bool * factor) -> Z.
Variable set_order : list factor -> list factor.
Variables order_mem order_exam : nat -> list factor -> list factor.
Variable addr : pval -> nat.
Variable hash_order : list pval -> list pval.
(** The index of a data object that is a DataFrame. *)
Variable df_index : D -> option (list I).

(** A DesignInfo together with what its FactorInfo objects (by identity) know: the state and the categories. *)
Definition known := list (nat * (S * list pval)).
Record design := mkDesign { ds_info : @design_info V; ds_known : known }.

(** * build.py:737-796 [design_matrix_builders] *)
(** build.py:739-742: the set of all factors. *)
Definition all_factors (termlists : list (list term)) : list factor :=
  set_order (uniqueify_list String.eqb (concat (map (@concat factor) termlists))).
(** A bound on the number of memorization passes: the largest number asked for (see MemorizeModel). *)
Definition pass_bound (factors : list factor) : nat :=
  list_max (map (fun f => match passes f with Ok (_, k) => Z.to_nat k | Err _ => 0 end) factors).
(** The events that stand for a call of [data_iter_maker]. *)
Definition is_iteration (e : @event factor D) : bool := match e with EIter _ => true | _ => false end.
(** build.py:752-773: the FactorInfo for the factor with the given place in the set. *)
Definition new_info (num : list (factor * nat)) (cat : list (factor * (list pval * option C))) (p : nat * factor) : result finfo :=
  match dget String.eqb (snd p) num with
  | Some n => Ok (mkFI (fst p) (snd p) (FNum n))
  | None =>
      match dget String.eqb (snd p) cat with
      | Some (levels, _) => Ok (mkFI (fst p) (snd p) (FCat (List.length levels)))
      | None => Err AssertionError
      end
  end.
Definition new_known (states : list (factor * S)) (cat : list (factor * (list pval * option C))) (p : nat * factor)
    : result (nat * (S * list pval)) :=
  let* s := lookup (dget String.eqb (snd p) states) in
  Ok (fst p, (s, match dget String.eqb (snd p) cat with Some (levels, _) => levels | None => [] end)).
(** build.py:664-667: the contrast matrix of a factor. *)
Definition contrast_for (cat : list (factor * (list pval * option C))) (f : factor) (full : bool) : result (@ctr V) :=
  let* p := lookup (dget String.eqb f cat) in code_cm (fst p) (snd p) full.
(** build.py:693-796; [data n] is what the [n]-th call of [data_iter_maker] goes through. *)
Definition design_matrix_builders (data : nat -> list D) (na : na_arg) (termlists : list (list term)) : result (list design) :=
  let* act := get_action na in
  let factors := all_factors termlists in
  let* (states, log) := factors_memorize String.eqb passes chunk finish data order_mem (pass_bound factors) factors in
  let evalv (f : factor) (d : D) := let* s := lookup (dget String.eqb f states) in let* o := eval f s d in Ok (o_value o) in
  let* (num, cat) := examine_factor_types String.eqb evalv origin_of (na_what act) order_exam addr hash_order factors
                       (data (List.length (filter is_iteration log))) in
  let numbered := List.combine (seq 0 (List.length factors)) factors in
  let* infos := mapM (new_info num cat) numbered in
  let* kn := mapM (new_known states cat) numbered in
  let fis := map (fun fi => (fi_factor fi, fi)) infos in
  let* dis := mapM (design_for num (contrast_for cat) hash fis) termlists in
  Ok (map (fun d => mkDesign d kn) dis).

(** * build.py:66-94 [_eval_factor] *)
Definition eval_info (kn : known) (na : na_types) (d : D) (fi : finfo) : result (@evaluated V I) :=
  let* (s, categories) := lookup (dget Nat.eqb (fi_id fi) kn) in
  let* o := eval (fi_factor fi) s d in
  let* r := (match fi_kind fi with
             | FNum _ => Ok (RawNum (o_ndim o) (o_ncols o) (o_isnum o) (o_rows o) (o_index o))
             | FCat _ => let* codes := categorical_to_int (o_value o) categories na (origin_of (fi_factor fi)) in
                         Ok (RawCodes codes (o_index o))
             end) in
  eval_factor visnan origin_of (nan_is_na na) fi r.
(** build.py:861-1022 [build_design_matrices]. *)
Definition build (ds : list design) (d : D) (na : na_arg) (want_df : bool) : result (list (@dmat V) * option (list I)) :=
  let* act := get_action na in
  build_design_matrices vone vmul ilabel ieqb origin_of (eval_info (concat (map ds_known ds)) (na_what act) d) (df_index d) (na_on act) want_df
    (map ds_info ds).

(** * Explicit matrices *)
(** An array_like: as [atleast_2d_column_default] leaves it.  [a_columns]: for a pandas object, whether its
    columns (for a Series: its name, or 0) have an integer dtype, and [str] of each of them.  [a_info]: the
    attribute [design_info] if there is one (that it might be something else than a DesignInfo is not
    modelled).  [a_index] is given for pandas objects only. *)
Inductive dtype := DInt | DFloat | DOther.
Record array := mkArr {
  a_ndim : nat; a_mat : @dmat V; a_dtype : dtype;
  a_index : option (list I); a_columns : option (bool * list string);
  a_info : option design; a_is_dm : bool }.
(** [np.asarray(x, dtype=float)] on an integer. *)
Variable upcast : V -> V.
(** An entry of an array of objects that are not numbers. *)
Variable vobj : V.

(** design_info.py:703-713: the names. *)
Definition array_names (prefix : string) (a : array) : list string :=
  match a_columns a with
  | Some (is_int, names) => if is_int then map (fun s => prefix ++ s)%string names else names
  | None => map (fun i => prefix ++ nat_str i)%string (seq 0 (List.length (m_cols (a_mat a))))
  end.
(** design_info.py:684-713 [DesignInfo.from_array]. *)
Definition from_array (prefix : string) (a : array) : result design :=
  match a_info a with
  | Some d => Ok d
  | None =>
      if Nat.ltb 2 (a_ndim a) then Err (ValueError "design matrix can't have >2 dimensions")
      else let* di := mk_design_info (array_names prefix a) None None in Ok (mkDesign di [])
  end.

(** What is returned: the numbers, the design_info, and for a DataFrame its index. *)
Record matrix := mkMx { x_mat : @dmat V; x_design : design; x_index : option (list I) }.
Definition map_mat (f : V -> V) (m : @dmat V) : @dmat V := mkMat (m_rows m) (map (map f) (m_cols m)).
(** design_info.py:1126-1171 [DesignMatrix.__new__] with a design_info. *)
Definition to_design_matrix (a : array) (d : design) : result matrix :=
  match (if a_is_dm a then a_info a else None) with
  | Some own => Ok (mkMx (a_mat a) own None)
  | None =>
      let m := match a_dtype a with DInt => map_mat upcast (a_mat a) | _ => a_mat a end in
      check (negb (Nat.ltb 2 (a_ndim a))) "DesignMatrix must be 2d"
      (check (Nat.eqb (List.length (column_names (ds_info d))) (List.length (m_cols m))) "wrong number of column names for design matrix"
      (check (match a_dtype a with DOther => false | _ => true end) "design matrix must be real-valued floating point"
      (Ok (mkMx m d None))))
  end.
(** highlevel.py:192-197: making a DataFrame with the column names. *)
Definition to_data_frame (a : array) (d : design) : result matrix :=
  check (negb (Nat.ltb 2 (a_ndim a))) "Must pass 2-d input"
  (check (Nat.eqb (List.length (column_names (ds_info d))) (List.length (m_cols (a_mat a)))) "Length mismatch"
  (Ok (mkMx (a_mat a) d (Some (match a_index a with Some i => i | None => map ilabel (seq 0 (m_rows (a_mat a))) end))))).

(** * highlevel.py *)
(** A member of a tuple. *)
Inductive side := SDesign (d : design) | SNone | SArray (a : array).
(** The argument [formula_like].  [FTuple n]: a tuple of length [n], not 2.  [FMethod r]: an object with a
    method [__patsy_get_model_desc__]; [r] is what calling it gives, [None] if that is no ModelDesc. *)
Inductive formula_like :=
  | FDesign (d : design)
  | FPair (l r : side)
  | FTuple (n : nat)
  | FStr (s : string)
  | FDesc (md : model_desc)
  | FMethod (r : result (option model_desc))
  | FArray (a : array).

(** [ModelDesc.from_formula] on a string: the tokens of Python's tokenizer (and the error it ends in) given
    to the model of the parser and evaluator. *)
Variable tokenize : string -> list pytok * option exn.
Variable norm : string -> string.
Variable is_float : string -> bool.
Definition formula_desc (s : string) : result model_desc :=
  let (it, tail) := tokenize s in from_formula norm is_float it tail.

(** highlevel.py:53-62: the designs of a ModelDesc. *)
Definition desc_builders (data : nat -> list D) (na : na_arg) (md : model_desc) : result (option (design * design)) :=
  let* ds := design_matrix_builders data na [lhs_termlist md; rhs_termlist md] in
  match ds with
  | [l; r] => Ok (Some (l, r))
  | _ => Err AssertionError
  end.
(** highlevel.py:31-63 [_try_incr_builders]. *)
Definition try_incr_builders (fl : formula_like) (data : nat -> list D) (na : na_arg) : result (option (design * design)) :=
  match fl with
  | FDesign d =>
      let* ds := design_matrix_builders data na [[]] in
      match ds with
      | l :: _ => Ok (Some (l, d))
      | [] => Err IndexError
      end
  | FPair (SDesign l) (SDesign r) => Ok (Some (l, r))
  | FMethod r =>
      let* o := r in
      match o with
      | Some md => desc_builders data na md
      | None => Err (PatsyError "bad value from __patsy_get_model_desc__" None)
      end
  | FStr s => let* md := formula_desc s in desc_builders data na md
  | FDesc md => desc_builders data na md
  | FPair _ _ | FTuple _ | FArray _ => Ok None
  end.

(** highlevel.py:66-112 [incr_dbuilder] *)
Definition incr_dbuilder (fl : formula_like) (data : nat -> list D) (na : na_arg) : result design :=
  let* o := try_incr_builders fl data na in
  match o with
  | None => Err (PatsyError "bad formula-like object" None)
  | Some (l, r) =>
      if Nat.ltb 0 (List.length (column_names (ds_info l)))
      then Err (PatsyError "encountered outcome variables for a model that does not expect them" None)
      else Ok r
  end.
(** highlevel.py:115-130 [incr_dbuilders] *)
Definition incr_dbuilders (fl : formula_like) (data : nat -> list D) (na : na_arg) : result (design * design) :=
  let* o := try_incr_builders fl data na in
  match o with
  | None => Err (PatsyError "bad formula-like object" None)
  | Some (l, r) =>
      if Nat.eqb (List.length (column_names (ds_info l))) 0
      then Err (PatsyError "model is missing required outcome variables" None)
      else Ok (l, r)
  end.

(** The argument [return_type]. *)
Inductive rtype := RMatrix | RDataFrame | RUnknown.
Variable have_pandas : bool.
(** highlevel.py:190-203 [_regularize_matrix]: the matrix and the original index. *)
Definition regularize (rt : rtype) (prefix : string) (a : array) : result (matrix * option (list I)) :=
  let* d := from_array prefix a in
  let* m := (match rt with RDataFrame => to_data_frame a d | _ => to_design_matrix a d end) in
  Ok (m, a_index a).
(** A tuple's member as an array: [np.asarray] makes a 0-dimensional array of an object that is not an
    array (design_info.py:446-458: a DesignInfo has itself as [design_info]). *)
Definition side_array (s : side) : array :=
  match s with
  | SArray a => a
  | SNone => mkArr 2 (mkMat 1 [[vobj]]) DOther None None None false
  | SDesign d => mkArr 2 (mkMat 1 [[vobj]]) DOther None None (Some d) false
  end.
(** highlevel.py:178-180 with util.py:89-99 [asarray_or_pandas]: a pandas object is made anew, without its
    [design_info]. *)
Definition lone_array (a : array) : array :=
  match a_index a with
  | Some _ => mkArr (a_ndim a) (a_mat a) (a_dtype a) (a_index a) (a_columns a) None false
  | None => a
  end.
(** highlevel.py:202: [np.zeros((n, 0), dtype=float)] *)
Definition no_columns (n : nat) : array := mkArr 2 (mkMat n []) DFloat None None None false.
(** highlevel.py:171-227: explicit matrices. *)
Definition explicit (rt : rtype) (lhs : side) (rhs : array) : result (matrix * matrix) :=
  let* (r, ri) := regularize rt "x" rhs in
  let* (l, li) := regularize rt "y" (match lhs with SNone => no_columns (m_rows (x_mat r)) | _ => side_array lhs end) in
  if negb (Nat.eqb (m_rows (x_mat l)) (m_rows (x_mat r)))
  then Err (PatsyError "shape mismatch: outcome matrix and predictor matrix have different numbers of rows" None)
  else if match ri, li with Some i, Some j => negb (list_eqb ieqb i j) | _, _ => false end
  then Err (PatsyError "index mismatch: outcome and predictor have incompatible indexes" None)
  else Ok (match rt with
           | RDataFrame =>
               match ri, li with
               | Some _, None => (mkMx (x_mat l) (x_design l) (x_index r), r)
               | None, Some _ => (l, mkMx (x_mat r) (x_design r) (x_index l))
               | _, _ => (l, r)
               end
           | _ => (l, r)
           end).
(** highlevel.py:150-227 [_do_highlevel_design] *)
Definition highlevel_design (fl : formula_like) (d : D) (na : na_arg) (rt : rtype) : result (matrix * matrix) :=
  if match rt with RDataFrame => negb have_pandas | _ => false end
  then Err (PatsyError "pandas.DataFrame was requested, but pandas is not installed" None)
  else if match rt with RUnknown => true | _ => false end
  then Err (PatsyError "unrecognized output type, should be 'matrix' or 'dataframe'" None)
  else
    let* o := try_incr_builders fl (fun _ => [d]) na in
    match o with
    | Some (l, r) =>
        let* (ms, labels) := build [l; r] d na (match rt with RDataFrame => true | _ => false end) in
        match ms with
        | [ml; mr] => Ok (mkMx ml l labels, mkMx mr r labels)
        | _ => Err AssertionError
        end
    | None =>
        match fl with
        | FTuple _ => Err (PatsyError "don't know what to do with a matrices tuple of this length" None)
        | FPair l r => explicit rt l (side_array r)
        | FArray a => explicit rt SNone (lone_array a)
        | _ => Err AssertionError
        end
    end.
(** highlevel.py:230-301 [dmatrix] *)
Definition dmatrix (fl : formula_like) (d : D) (na : na_arg) (rt : rtype) : result matrix :=
  let* (l, r) := highlevel_design fl d na rt in
  if negb (Nat.eqb (List.length (m_cols (x_mat l))) 0)
  then Err (PatsyError "encountered outcome variables for a model that does not expect them" None)
  else Ok r.
(** highlevel.py:304-322 [dmatrices] *)
Definition dmatrices (fl : formula_like) (d : D) (na : na_arg) (rt : rtype) : result (matrix * matrix) :=
  let* (l, r) := highlevel_design fl d na rt in
  if Nat.eqb (List.length (m_cols (x_mat l))) 0
  then Err (PatsyError "model is missing required outcome variables" None)
  else Ok (l, r).
End Pipe.
