(** Model of patsy/build.py (from evaluated factors to design matrices), of
    patsy/missing.py [NAAction.handle_NA] and of patsy/design_info.py
    ([SubtermInfo], [DesignInfo]).

    Numbers are an arbitrary type [V] with a one and a multiplication about which
    nothing is assumed, so everything proved here holds for floats, with rounding,
    infinities and NaN included.  An ndarray is its list of rows (2-d) or entries
    (1-d); a 2-d array also carries its number of columns, which a list of zero
    rows would lose.  Factors are strings (DescModel). *)
From Coq Require Import DecimalString.
From Verif Require Import Base PySort RedundancyModel UtilModel DescModel FormulaModel.

(** A Python dict or OrderedDict: items in insertion order; setting an existing key
    keeps its place and the original key object. *)
Section Dict.
Context {K A : Type} (eqb : K -> K -> bool).
Fixpoint dget (k : K) (d : list (K * A)) : option A :=
  match d with
  | [] => None
  | (k', v) :: r => if eqb k' k then Some v else dget k r
  end.
Fixpoint dset (k : K) (v : A) (d : list (K * A)) : list (K * A) :=
  match d with
  | [] => [(k, v)]
  | (k', v') :: r => if eqb k' k then (k', v) :: r else (k', v') :: dset k v r
  end.
Definition dict_of (l : list (K * A)) : list (K * A) :=
  fold_left (fun d p => dset (fst p) (snd p) d) l [].
Definition dmem (k : K) (d : list (K * A)) : bool :=
  match dget k d with Some _ => true | None => false end.
End Dict.

(** [d[k]] *)
Definition lookup {A} (o : option A) : result A :=
  match o with Some a => Ok a | None => Err KeyError end.

(** [str(n)] for a natural number. *)
Definition nat_str (n : nat) : string := NilEmpty.string_of_uint (Nat.to_uint n).

(** itertools.product over ranges: the rightmost position varies fastest. *)
Fixpoint iproduct (ranges : list (list nat)) : list (list nat) :=
  match ranges with
  | [] => [[]]
  | l :: rest => flat_map (fun i => map (cons i) (iproduct rest)) l
  end.

(** build.py:219-223 [_column_combinations]. *)
Definition column_combinations (columns_per_factor : list nat) : list (list nat) :=
  map (@rev nat) (iproduct (map (seq 0) (rev columns_per_factor))).

(** [set(a) == set(b)] on factors. *)
Definition set_eqb (a b : list factor) : bool := subset_eqb a b && subset_eqb b a.

(** design_info.py:40-130 [FactorInfo]: what the code below looks at.  [fi_id] is the
    identity of the object: FactorInfo defines no [__eq__] or [__hash__], so both
    [is] and dict lookup use it. *)
Inductive fkind := FNum (num_columns : nat) | FCat (ncategories : nat).
Record finfo := mkFI { fi_id : nat; fi_factor : factor; fi_kind : fkind }.

Section Build.
Context {V : Type}.
Variable vone : V.
Variable vmul : V -> V -> V.
Variable visnan : V -> bool.
(** Labels of a pandas index; [np.arange] makes integer ones. *)
Context {I : Type}.
Variable ilabel : nat -> I.
Variable ieqb : I -> I -> bool.
(** [factor.origin] *)
Variable origin_of : factor -> option origin.

(** contrasts.py:40-46 [ContrastMatrix]: the rows of the matrix and the suffixes.  The
    constructor checks [matrix.shape[1] == len(column_suffixes)], so the number of
    columns is the number of suffixes. *)
Record ctr := mkCtr { ct_rows : list (list V); ct_suffixes : list string }.
Definition ct_ncols (c : ctr) : nat := List.length (ct_suffixes c).

(** design_info.py:211-226 [SubtermInfo]. *)
Record subterm_info := mkSI {
  si_factors : list factor;
  si_contrasts : list (factor * ctr);
  si_ncols : nat }.

(** Values of factors as build.py:934-948 leaves them: a 2-d array of numbers or a 1-d
    array of category codes. *)
Inductive fvalue := VNum (ncols : nat) (rows : list (list V)) | VCat (codes : list Z).
Definition vrows (v : fvalue) : nat :=
  match v with VNum _ r => List.length r | VCat c => List.length c end.

Definition finfos := list (factor * finfo).

(** build.py:239-247 [_subterm_column_combinations]; for a categorical factor without
    a contrast matrix [num_columns] is None and [range(None)] fails. *)
Definition factor_columns (fis : finfos) (s : subterm_info) (f : factor) : result nat :=
  match dget String.eqb f (si_contrasts s) with
  | Some c => Ok (ct_ncols c)
  | None =>
      let* fi := lookup (dget String.eqb f fis) in
      match fi_kind fi with
      | FNum n => Ok n
      | FCat _ => Err (TypeError "range(None)")
      end
  end.
Definition subterm_column_combinations (fis : finfos) (s : subterm_info) : result (list (list nat)) :=
  let* cpf := mapM (factor_columns fis s) (si_factors s) in Ok (column_combinations cpf).

(** build.py:257-269: one piece of a column name. *)
Definition name_piece (fis : finfos) (s : subterm_info) (p : factor * nat) : result string :=
  let (f, idx) := p in
  let* fi := lookup (dget String.eqb f fis) in
  match fi_kind fi with
  | FNum n =>
      if Nat.ltb 1 n then Ok (f ++ "[" ++ nat_str idx ++ "]")%string
      else assert (Nat.eqb idx 0) (Ok f)
  | FCat _ =>
      let* c := lookup (dget String.eqb f (si_contrasts s)) in
      match nth_error (ct_suffixes c) idx with
      | Some suffix => Ok (f ++ suffix)%string
      | None => Err IndexError
      end
  end.
(** build.py:255-272: the name for one combination. *)
Definition column_name (fis : finfos) (s : subterm_info) (combo : list nat) : result string :=
  let* pieces := mapM (name_piece fis s) (combine (si_factors s) combo) in
  Ok (match pieces with [] => "Intercept"%string | _ => String.concat ":" pieces end).
(** build.py:250-274 [_subterm_column_names_iter], run to its end. *)
Definition subterm_column_names (fis : finfos) (s : subterm_info) : result (list string) :=
  let* combos := subterm_column_combinations fis s in
  let* names := mapM (column_name fis s) combos in
  assert (Nat.eqb (List.length names) (si_ncols s)) (Ok names).

(** [a[i]] for a row. *)
Definition index {A} (l : list A) (i : nat) : result A :=
  match nth_error l i with Some a => Ok a | None => Err IndexError end.

(** [out[:, i] *= contribution] (the shapes are equal because of the row checks; if
    they were not numpy would raise, except for broadcasting one row, not modelled). *)
Definition mul_into (acc contribution : list V) : result (list V) :=
  if Nat.eqb (List.length acc) (List.length contribution)
  then Ok (map (fun p => vmul (fst p) (snd p)) (combine acc contribution))
  else Err (ValueError "operands could not be broadcast together").

(** build.py:283-297: what one factor contributes to a column. *)
Definition contribution (fis : finfos) (s : subterm_info) (values : list (factor * fvalue))
    (f : factor) (idx : nat) : result (list V) :=
  let* fi := lookup (dget String.eqb f fis) in
  match fi_kind fi with
  | FCat _ =>
      let* c := lookup (dget String.eqb f (si_contrasts s)) in
      let* v := lookup (dget String.eqb f values) in
      match v with
      | VCat codes =>
          if existsb (fun z => Z.ltb z 0) codes
          then Err (PatsyError "can't build a design matrix containing missing values" None) (* the origin is left out *)
          else mapM (fun z => let* row := index (ct_rows c) (Z.to_nat z) in index row idx) codes
      | VNum _ _ => Err (TypeError "category codes expected")
      end
  | FNum n =>
      let* v := lookup (dget String.eqb f values) in
      match v with
      | VNum nc rows => assert (Nat.eqb nc n) (mapM (fun row => index row idx) rows)
      | VCat _ => Err IndexError
      end
  end.
(** build.py:283-297: one column, starting from ones. *)
Definition build_column (fis : finfos) (s : subterm_info) (values : list (factor * fvalue))
    (nrows : nat) (combo : list nat) : result (list V) :=
  foldM (fun acc p => let* c := contribution fis s values (fst p) (snd p) in mul_into acc c)
    (combine (si_factors s) combo) (repeat vone nrows).
(** build.py:277-297 [_build_subterm] on a slice of [num_columns] columns: columns not
    reached by the loop keep their ones, and a combination beyond the slice is out of
    bounds. *)
Definition build_subterm (fis : finfos) (s : subterm_info) (values : list (factor * fvalue))
    (nrows : nat) : result (list (list V)) :=
  let* combos := subterm_column_combinations fis s in
  let* cols := mapM (build_column fis s values nrows) combos in
  if Nat.leb (List.length cols) (si_ncols s)
  then Ok (cols ++ repeat (repeat vone nrows) (si_ncols s - List.length cols))
  else Err IndexError.

(** * Which contrasts: build.py:627-690 [_make_subterm_infos] *)
Section MakeSubterms.
(** [num_column_counts] *)
Variable num_cols : list (factor * nat).
Definition is_num (f : factor) : bool := dmem String.eqb f num_cols.
(** [cat_levels_contrasts[factor]] followed by [code_contrast_matrix(coding, levels,
    contrast, default=Treatment)]; which matrix that is, is modelled in ContrastModel. *)
Variable code_cm : factor -> bool -> result ctr.
(** [hash] of the subterms used for redundancy (RedundancyModel). *)
Variable hash : list (bool * factor) -> Z.

(** build.py:632-639: the frozenset of the numeric factors of a term. *)
Definition bucket_of (t : term) : list factor := filter is_num t.
Definition bucket_eqb (a b : list factor) : bool := subset_eqb b a && subset_eqb a b.

(** build.py:630-639. [term_buckets.setdefault(bucket, []).append(term)]; as nothing is
    removed, [bucket_ordering] is the key order of the OrderedDict [term_buckets]. *)
Fixpoint bucket_add (t : term) (d : list (list factor * list term)) : list (list factor * list term) :=
  match d with
  | [] => [(bucket_of t, [t])]
  | (b, ts) :: r => if bucket_eqb b (bucket_of t) then (b, ts ++ [t]) :: r else (b, ts) :: bucket_add t r
  end.
Definition buckets (terms : list term) : list (list factor * list term) :=
  fold_left (fun d t => bucket_add t d) terms [].

(** build.py:640-644: the bucket without numeric factors comes first. *)
Definition empty_first (d : list (list factor * list term)) : list (list factor * list term) :=
  filter (fun p => bucket_eqb (fst p) []) d ++ filter (fun p => negb (bucket_eqb (fst p) [])) d.

(** build.py:652 [bucket_terms.sort(key=lambda t: len(t.factors))]. *)
Definition by_degree (ts : list term) : list term :=
  py_sort (fun a b => Nat.ltb (List.length a) (List.length b)) ts.

(** build.py:663-686: the SubtermInfo for one coding of a term. *)
Definition subterm_for (t : term) (c : list (factor * bool)) : result subterm_info :=
  let* p := foldM (fun st f =>
      let '(fs, cms, n) := st in
      match dget String.eqb f num_cols with
      | Some k => Ok (fs ++ [f], cms, n * k)
      | None =>
          match dget String.eqb f c with
          | Some b => let* m := code_cm f b in
              Ok (fs ++ [f], dset String.eqb f m cms, n * ct_ncols m)
          | None => Ok (fs, cms, n)
          end
      end) t ([], [], 1) in
  let '(fs, cms, n) := p in Ok (mkSI fs cms n).

(** build.py:655-687: one term of a bucket. *)
Definition infos_for_term (t : term) (used : list (list (bool * factor)))
  : result (list subterm_info * list (list (bool * factor))) :=
  let* p := pick_contrasts_for_term String.eqb hash t is_num used in
  let* sis := mapM (subterm_for t) (fst p) in
  Ok (sis, snd p).
Fixpoint infos_for_bucket (ts : list term) (used : list (list (bool * factor)))
  : result (list (term * list subterm_info)) :=
  match ts with
  | [] => Ok []
  | t :: r =>
      let* p := infos_for_term t used in
      let* rest := infos_for_bucket r (snd p) in
      Ok ((t, fst p) :: rest)
  end.
Fixpoint list_term_eqb (a b : list term) : bool :=
  match a, b with
  | [], [] => true
  | x :: a', y :: b' => term_eqb x y && list_term_eqb a' b'
  | _, _ => false
  end.
Definition make_subterm_infos (terms : list term) : result (list (term * list subterm_info)) :=
  let order := empty_first (buckets terms) in
  let* per_bucket := mapM (fun p => infos_for_bucket (by_degree (snd p)) []) order in
  let items := concat per_bucket in
  let d := dict_of term_eqb items in
  assert (list_term_eqb (map fst items) (map fst d)) (Ok d).
End MakeSubterms.

(** * DesignInfo *)
Definition pslice := (nat * nat)%type.

Record design_info := mkDI {
  di_columns : list (string * nat);                       (* column_name_indexes *)
  di_infos : option finfos;                               (* factor_infos *)
  di_codings : option (list (term * list subterm_info));  (* term_codings *)
  di_term_slices : option (list (term * pslice));
  di_name_slices : list (string * pslice) }.

(** design_info.py:414-417 [column_names]. *)
Definition column_names (d : design_info) : list string := map fst (di_columns d).

(** [raise ValueError] unless [b]. *)
Definition check {A} (b : bool) (msg : string) (k : result A) : result A :=
  if b then k else Err (ValueError msg).

(** design_info.py:318-343: the checks of one subterm. *)
Definition check_subterm (fis : finfos) (s : subterm_info) : result unit :=
  let* p := foldM (fun st f =>
      let '(exp_cols, cats) := st in
      let* fi := lookup (dget String.eqb f fis) in
      match fi_kind fi with
      | FNum n => Ok (exp_cols * n, cats)
      | FCat ncat =>
          let* c := lookup (dget String.eqb f (si_contrasts s)) in
          check (Nat.eqb (List.length (ct_rows c)) ncat) "Mismatched contrast matrix for factor"
            (Ok (exp_cols * ct_ncols c, f :: cats))
      end) (si_factors s) (1, []) in
  check (set_eqb (snd p) (map fst (si_contrasts s))) "Mismatch between contrast_matrices and categorical factors"
    (check (Nat.eqb (fst p) (si_ncols s)) "Unexpected num_columns" (Ok tt)).

(** design_info.py:288-343: the checks done when factor infos are given. *)
Definition check_codings (fis : finfos) (codings : list (term * list subterm_info)) : result unit :=
  check (forallb (fun p => forallb (fun s => subset_eqb (si_factors s) (fst p)) (snd p)) codings)
    "unexpected factors in subterm"
  (check (set_eqb (concat (map fst codings)) (map fst fis))
    "Provided Term objects and factor_infos do not match"
  (check (forallb (fun p => String.eqb (fst p) (fi_factor (snd p))) fis)
    "mismatched factor_info.factor"
  (let* _ := mapM (fun p => mapM (check_subterm fis) (snd p)) codings in Ok tt))).

(** design_info.py:356-363: consecutive slices. *)
Definition term_columns (ss : list subterm_info) : nat := fold_left (fun n s => n + si_ncols s) ss 0.
Fixpoint slices_from (idx : nat) (codings : list (term * list subterm_info)) : list (term * pslice) * nat :=
  match codings with
  | [] => ([], idx)
  | (t, ss) :: r =>
      let n := term_columns ss in
      let (rest, fin) := slices_from (idx + n) r in
      ((t, (idx, idx + n)) :: rest, fin)
  end.

Definition pslice_eqb (a b : pslice) : bool := Nat.eqb (fst a) (fst b) && Nat.eqb (snd a) (snd b).
Fixpoint list_eqb {A} (eqb : A -> A -> bool) (a b : list A) : bool :=
  match a, b with
  | [], [] => true
  | x :: a', y :: b' => eqb x y && list_eqb eqb a' b'
  | _, _ => false
  end.

(** design_info.py:387-392: [slice_.indices(n)] clips both ends at [n]. *)
Fixpoint covers_from (n covered : nat) (ss : list pslice) : option nat :=
  match ss with
  | [] => Some covered
  | (a, b) :: r => if Nat.eqb (Nat.min a n) covered then covers_from n (Nat.min b n) r else None
  end.

(** design_info.py:346-370: term_slices and term_name_slices. *)
Definition mk_slices (names : list string) (ncolumns : nat) (codings : option (list (term * list subterm_info)))
  : result (option (list (term * pslice)) * list (string * pslice)) :=
  match codings with
  | None =>
      Ok (None, dict_of String.eqb (combine names (map (fun i => (i, i + 1)) (seq 0 (List.length names)))))
  | Some cs =>
      let (sl, idx) := slices_from 0 cs in
      let d := dict_of term_eqb sl in
      check (Nat.eqb idx ncolumns) "mismatch between column_names and columns coded by given terms"
        (Ok (Some d, dict_of String.eqb (map (fun p => (term_name (fst p), snd p)) d)))
  end.

(** design_info.py:276-401 [DesignInfo.__init__] (the type checks of its arguments are
    not modelled). *)
Definition mk_design_info (names : list string) (infos : option finfos)
    (codings : option (list (term * list subterm_info))) : result design_info :=
  let columns := dict_of String.eqb (combine names (seq 0 (List.length names))) in
  let* _ := (match infos, codings with
      | None, None => Ok tt
      | Some fis, Some cs => check_codings fis cs
      | _, _ => Err (ValueError "Must specify either both or neither of factor_infos= and term_codings=")
      end) in
  let* p := mk_slices names (List.length columns) codings in
  let (tsl, nsl) := p in
  assert (match tsl with Some d => list_eqb pslice_eqb (map snd d) (map snd nsl) | None => true end)
  (match covers_from (List.length names) 0 (map snd nsl) with
   | None => Err AssertionError
   | Some covered =>
       assert (Nat.eqb covered (List.length names))
       (check (forallb (fun p => match dget String.eqb (fst p) nsl with
                                 | Some s => pslice_eqb s (snd p, snd p + 1)
                                 | None => true
                                 end) columns)
          "term/column name collision"
          (Ok (mkDI columns infos codings tsl nsl)))
   end).

(** design_info.py:460-504 [DesignInfo.slice].  [CSlice] is any slice object, given back as
    it is; [CInt] any integer (which may be negative). *)
Inductive colspec := CSlice (a b : Z) | CInt (z : Z) | CTerm (t : term) | CName (s : string).
Definition zslice (p : pslice) : Z * Z := (Z.of_nat (fst p), Z.of_nat (snd p)).
Definition di_slice (d : design_info) (c : colspec) : result (Z * Z) :=
  match c with
  | CSlice a b => Ok (a, b)
  | CInt z => Ok (z, (z + 1)%Z)
  | CTerm t =>
      match di_term_slices d with
      | Some sl => match dget term_eqb t sl with
                   | Some p => Ok (zslice p)
                   | None => Err (PatsyError "unknown column specified" None)
                   end
      | None => Err (PatsyError "unknown column specified" None)
      end
  | CName s =>
      match dget String.eqb s (di_name_slices d) with
      | Some p => Ok (zslice p)
      | None => match dget String.eqb s (di_columns d) with
                | Some i => Ok (zslice (i, i + 1))
                | None => Err (PatsyError "unknown column specified" None)
                end
      end
  end.

(** [l[a:b]] *)
Definition take_slice {A} (p : pslice) (l : list A) : list A := firstn (snd p - fst p) (skipn (fst p) l).

(** design_info.py:645-681 [DesignInfo.subset] with a list of names and terms (a formula
    string is first turned into the list of the names of its right-hand terms,
    design_info.py:639-643, see [subset_formula]). *)
Inductive which := WName (s : string) | WTerm (t : term).
Definition minimal_names (d : design_info) (w : which) : result (list string) :=
  match w with
  | WName s => let* p := lookup (dget String.eqb s (di_name_slices d)) in Ok (take_slice p (column_names d))
  | WTerm _ => Err KeyError
  end.
Definition which_term (codings : list (term * list subterm_info)) (w : which) : result term :=
  match w with
  | WName s => lookup (dget String.eqb s (dict_of String.eqb (map (fun p => (term_name (fst p), fst p)) codings)))
  | WTerm t => Ok t
  end.
Definition subset (d : design_info) (ws : list which) : result design_info :=
  match di_codings d, di_infos d, di_term_slices d with
  | Some codings, Some fis, Some slices =>
      let* p := foldM (fun st w =>
          let '(names, nfis, ncod) := st in
          let* t := which_term codings w in
          let* s := lookup (dget term_eqb t slices) in
          let* nfis' := foldM (fun a f => let* fi := lookup (dget String.eqb f fis) in
                                          Ok (dset String.eqb f fi a)) t nfis in
          let* ss := lookup (dget term_eqb t codings) in
          Ok (names ++ take_slice s (column_names d), nfis', dset term_eqb t ss ncod)) ws ([], [], []) in
      let '(names, nfis, ncod) := p in
      mk_design_info names (Some nfis) (Some ncod)
  | _, _, _ =>
      let* names := mapM (minimal_names d) ws in mk_design_info (concat names) None None
  end.
(** design_info.py:639-643: [which_terms] given as the ModelDesc of a formula string. *)
Definition subset_formula (d : design_info) (md : model_desc) : result design_info :=
  match lhs_termlist md with
  | [] => subset d (map (fun t => WName (term_name t)) (rhs_termlist md))
  | _ => Err (PatsyError "right-hand-side-only formula required" None)
  end.

(** * design_matrix_builders, after the factor types are known: build.py:749-796.
    [fis] is the dict [factor_infos]. *)
Definition design_for (num_cols : list (factor * nat)) (code_cm : factor -> bool -> result ctr)
    (hash : list (bool * factor) -> Z) (fis : finfos) (termlist : list term) : result design_info :=
  let* d := make_subterm_infos num_cols code_cm hash termlist in
  assert (forallb (fun t => term_in t termlist) (map fst d) && forallb (fun t => term_in t (map fst d)) termlist)
  (let* this := foldM (fun a f => let* fi := lookup (dget String.eqb f fis) in Ok (dset String.eqb f fi a))
                  (concat termlist) [] in
   let* names := mapM (fun p => mapM (subterm_column_names fis) (snd p)) d in
   mk_design_info (concat (map (@concat string) names)) (Some this) (Some d)).

(** * build.py:799-831 [_build_design_matrix].  A matrix is its number of rows and its columns. *)
Record dmat := mkMat { m_rows : nat; m_cols : list (list V) }.

Definition build_design_matrix (fis : finfos) (codings : list (term * list subterm_info))
    (ncolumns : nat) (ftv : list (finfo * fvalue)) : result (bool * dmat) :=
  let mine := filter (fun p => match dget String.eqb (fi_factor (fst p)) fis with
                               | Some fi => Nat.eqb (fi_id fi) (fi_id (fst p))
                               | None => false
                               end) ftv in
  let* num_rows := foldM (fun nr p => match nr with
      | None => Ok (Some (vrows (snd p)))
      | Some n => assert (Nat.eqb n (vrows (snd p))) (Ok nr)
      end) mine None in
  let factor_to_values := dict_of String.eqb (map (fun p => (fi_factor (fst p), snd p)) mine) in
  let need_reshape := match num_rows with None => true | Some _ => false end in
  let n := match num_rows with None => 1 | Some n => n end in
  let* colss := mapM (fun p => mapM (fun s => build_subterm fis s factor_to_values n) (snd p)) codings in
  let cols := concat (map (@concat (list V)) colss) in
  assert (Nat.eqb (List.length cols) ncolumns) (Ok (need_reshape, mkMat n cols)).

(** * build.py:842-858 [_CheckMatch.check]. *)
Definition check_match {A} (eqb : A -> A -> bool) (msg : string) (org : option origin) (seen : option A) (v : A) : result (option A) :=
  match seen with
  | None => Ok (Some v)
  | Some u => if eqb u v then Ok seen else Err (PatsyError msg org)
  end.

(** build.py:66-94 [_eval_factor], given what [factor.eval] returned: for a numeric factor the
    array (after [atleast_2d_column_default]) with its number of dimensions, whether its dtype is
    numeric, and its index if it is a pandas object (a Series has become a DataFrame, which has no
    [dtype] to show in the error message); for a categorical factor the codes made by
    [categorical_to_int] (modelled in CategoricalModel). [nan_is_na] is ["NaN" in NA_types]. *)
Inductive raw :=
| RawNum (ndim ncols : nat) (is_number : bool) (rows : list (list V)) (idx : option (list I))
| RawCodes (codes : list Z) (idx : option (list I)).
Record evaluated := mkEv { ev_value : fvalue; ev_isna : list bool; ev_index : option (list I) }.
Definition eval_factor (nan_is_na : bool) (fi : finfo) (r : raw) : result evaluated :=
  match fi_kind fi, r with
  | FNum n, RawNum ndim nc isnum rows idx =>
      let org := origin_of (fi_factor fi) in
      if Nat.ltb 2 ndim then Err (PatsyError ("factor '" ++ fi_factor fi ++ "' evaluates to an " ++ nat_str ndim ++ "-dimensional array; I only handle arrays with dimension <= 2") org)
      else if negb (Nat.eqb nc n)
      then Err (PatsyError ("when evaluating factor " ++ fi_factor fi ++ ", I got " ++ nat_str n ++ " columns instead of the " ++ nat_str nc ++ " I was expecting") org)
      else if negb isnum then
        match idx with
        | None => Err (PatsyError ("when evaluating numeric factor " ++ fi_factor fi ++ ", I got non-numeric data") org)
        | Some _ => Err AttributeError
        end
      else Ok (mkEv (VNum nc rows) (map (fun row => nan_is_na && existsb visnan row) rows) idx)
  | FCat _, RawCodes codes idx => Ok (mkEv (VCat codes) (map (fun z => Z.eqb z (-1)) codes) idx)
  | _, _ => Err (TypeError "unexpected value")
  end.

(** missing.py:146-192 [NAAction.handle_NA].  The arrays given to it are factor values and
    possibly an index. *)
Inductive on_na := NADrop | NARaise.
Inductive arr := AVal (v : fvalue) | AIdx (l : list I).
Definition arows (a : arr) : nat := match a with AVal v => vrows v | AIdx l => List.length l end.
(** [l[mask]] *)
Fixpoint mask_keep {A} (mask : list bool) (l : list A) : list A :=
  match mask, l with
  | b :: m, x :: r => if b then x :: mask_keep m r else mask_keep m r
  | _, _ => []
  end.
Definition amask (mask : list bool) (a : arr) : result arr :=
  if Nat.eqb (List.length mask) (arows a)
  then Ok (match a with
           | AVal (VNum n rows) => AVal (VNum n (mask_keep mask rows))
           | AVal (VCat codes) => AVal (VCat (mask_keep mask codes))
           | AIdx l => AIdx (mask_keep mask l)
           end)
  else Err IndexError.
Definition or_into (acc m : list bool) : result (list bool) :=
  if Nat.eqb (List.length acc) (List.length m)
  then Ok (map (fun p => fst p || snd p) (combine acc m))
  else Err (ValueError "operands could not be broadcast together").
Definition handle_NA (act : on_na) (values : list arr) (is_NAs : list (list bool)) (origins : list (option origin)) : result (list arr) :=
  assert (Nat.eqb (List.length values) (List.length is_NAs) && Nat.eqb (List.length is_NAs) (List.length origins))
  (match values, is_NAs with
   | [], _ => Ok []
   | _, [] => Err IndexError
   | _, m0 :: _ =>
       match act with
       | NARaise =>
           match find (fun p => existsb (fun b => b) (fst p)) (combine is_NAs origins) with
           | Some (_, org) => Err (PatsyError "factor contains missing values" org)
           | None => Ok values
           end
       | NADrop =>
           let* total := foldM or_into is_NAs (repeat false (List.length m0)) in
           mapM (amask (map negb total)) values
       end
   end).

(** build.py:929-972: evaluating the factors of all designs, each FactorInfo once. *)
Definition eval_state := (list (finfo * evaluated) * option nat * option (list I))%type.
Definition fi_eqb (a b : finfo) : bool := Nat.eqb (fi_id a) (fi_id b).
Definition eval_one (ev : finfo -> result evaluated) (st : eval_state) (fi : finfo) : result eval_state :=
  let '(d, rows, idx) := st in
  if dmem fi_eqb fi d then Ok st
  else
    let* e := ev fi in
    let org := origin_of (fi_factor fi) in
    let* rows' := check_match Nat.eqb "Number of rows mismatch" org rows (vrows (ev_value e)) in
    let* idx' := match ev_index e with
                 | Some i => check_match (list_eqb ieqb) "Index mismatch" org idx i
                 | None => Ok idx
                 end in
    Ok (d ++ [(fi, e)], rows', idx').

(** What build_design_matrices sees of a design: [factor_infos], [term_codings], number of columns
    (None for a minimal DesignInfo, whose [factor_infos.values()] is an AttributeError). *)
Definition builder := (finfos * list (term * list subterm_info) * nat)%type.
Definition builder_of (d : design_info) : result builder :=
  match di_infos d, di_codings d with
  | Some fis, Some cs => Ok (fis, cs, List.length (di_columns d))
  | _, _ => Err (TypeError "NoneType has no attribute values")
  end.

Definition repeat_rows (n : nat) (m : dmat) : dmat :=
  mkMat n (map (fun c => match c with [] => [] | x :: _ => repeat x n end) (m_cols m)).
Fixpoint split_last {A} (l : list A) : option (list A * A) :=
  match l with
  | [] => None
  | x :: r => match split_last r with None => Some ([], x) | Some (a, y) => Some (x :: a, y) end
  end.
Fixpoint values_of (l : list arr) : result (list fvalue) :=
  match l with
  | [] => Ok []
  | AVal v :: r => let* vs := values_of r in Ok (v :: vs)
  | AIdx _ :: _ => Err (TypeError "index among the values")
  end.

(** build.py:861-1022 [build_design_matrices].  [df] is the index of [data] if it is a DataFrame (as
    long as its number of rows); [want_df] is [return_type == "dataframe"]; the result is the list of
    matrices and, for data frames, the index put on them ([None]: pandas numbers the rows). *)
Definition build_design_matrices (ev : finfo -> result evaluated) (df : option (list I)) (act : on_na)
    (want_df : bool) (dis : list design_info) : result (list dmat * option (list I)) :=
  let* bs := mapM builder_of dis in
  let st0 : eval_state := ([], option_map (@List.length I) df, df) in
  let* st := foldM (fun st b => foldM (eval_one ev) (map snd (fst (fst b))) st) bs st0 in
  let '(d, rows, idx) := st in
  let values := map (fun p => AVal (ev_value (snd p))) d in
  let masks := map (fun p => ev_isna (snd p)) d in
  let with_index := match rows with Some n => if want_df then Some n else None | None => None end in
  let index := match idx, rows with
               | Some i, _ => i
               | None, Some n => map ilabel (seq 0 n)
               | None, None => []
               end in
  let values := match with_index with Some _ => values ++ [AIdx index] | None => values end in
  let masks := match with_index with Some _ => masks ++ [repeat false (List.length index)] | None => masks end in
  let origins := map (fun p => origin_of (fi_factor (fst p))) d in
  let origins := match with_index with Some _ => origins ++ [None] | None => origins end in
  let* nv := handle_NA act values masks origins in
  let num_rows := match nv with a :: _ => Some (arows a) | [] => rows end in
  let* p := (match with_index with
             | Some _ => match split_last nv with
                         | Some (a, AIdx i) => Ok (a, Some i)
                         | _ => Err IndexError
                         end
             | None => Ok (nv, idx)
             end) in
  let (nv, index) := p in
  let* vs := values_of nv in
  let ftv := combine (map fst d) vs in
  let* results := mapM (fun b => build_design_matrix (fst (fst b)) (snd (fst b)) (snd b) ftv) bs in
  let* ms := mapM (fun r : bool * dmat =>
      if fst r then
        assert (Nat.eqb (m_rows (snd r)) 1)
        (match num_rows with
         | Some n => Ok (repeat_rows n (snd r))
         | None => Err (PatsyError "I can't tell how many rows the design matrix should have!" None)
         end)
      else Ok (snd r)) results in
  Ok (ms, if want_df then index else None).
End Build.
