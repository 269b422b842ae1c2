(** Specification for building design matrices (C20, C23-C28, C36, C37). *)
From Coq Require Import Sorted Permutation.
From Verif Require Import Base RankSpec DescModel FormulaModel BuildModel.

(** The place of a combination of column numbers when the leftmost factor varies fastest. *)
Fixpoint radix (c counts : list nat) : nat :=
  match c, counts with
  | i :: c, n :: counts => i + n * radix c counts
  | _, _ => 0
  end.
Definition in_range (c counts : list nat) : Prop := Forall2 lt c counts.
Fixpoint product_of (l : list nat) : nat := match l with [] => 1 | n :: r => n * product_of r end.

(** A dict has each key once. *)
Fixpoint distinct_keys {K A} (eqb : K -> K -> bool) (d : list (K * A)) : Prop :=
  match d with
  | [] => True
  | (k, _) :: r => (forall p, In p r -> eqb k (fst p) = false) /\ distinct_keys eqb r
  end.

(** The positions in a slice. *)
Definition positions_in (p : nat * nat) : list nat := seq (fst p) (snd p - fst p).

Section Spec.
Context {V : Type} (vone : V) (vmul : V -> V -> V) {I : Type}.
Notation ctr := (@ctr V).
Notation subterm_info := (@subterm_info V).
Notation evaluated := (@evaluated V I).
Notation design_info := (@design_info V).

(** How many columns a factor has in a subterm. *)
Definition count_of (fis : finfos) (s : subterm_info) (f : factor) : nat :=
  match dget String.eqb f (si_contrasts s) with
  | Some c => ct_ncols c
  | None => match dget String.eqb f fis with
            | Some fi => match fi_kind fi with FNum n => n | FCat _ => 0 end
            | None => 0
            end
  end.
Definition counts_of (fis : finfos) (s : subterm_info) : list nat := map (count_of fis s) (si_factors s).

(** The label of column number [i] of a factor: [name] or [name[i]] for a numeric factor with one or
    several columns, [name] followed by the contrast's suffix for a categorical one. *)
Definition piece (fis : finfos) (s : subterm_info) (f : factor) (i : nat) : string :=
  match dget String.eqb f fis with
  | Some fi =>
      match fi_kind fi with
      | FNum n => if Nat.leb n 1 then f else (f ++ "[" ++ nat_str i ++ "]")%string
      | FCat _ => match dget String.eqb f (si_contrasts s) with
                  | Some c => (f ++ nth i (ct_suffixes c) "")%string
                  | None => ""
                  end
      end
  | None => ""
  end.
Definition label (fis : finfos) (s : subterm_info) (c : list nat) : string :=
  match si_factors s with
  | [] => "Intercept"%string
  | _ => String.concat ":" (map (fun p => piece fis s (fst p) (snd p)) (combine (si_factors s) c))
  end.

(** The columns of a design: for every term and subterm, every combination. *)
Definition column_id := (term * subterm_info * list nat)%type.
Definition columns_of_term (fis : finfos) (p : term * list subterm_info) : list column_id :=
  flat_map (fun s => map (fun c => (fst p, s, c)) (combos (counts_of fis s))) (snd p).
Definition columns_of (fis : finfos) (cs : list (term * list subterm_info)) : list column_id :=
  flat_map (columns_of_term fis) cs.

(** What factor [f] contributes to column [i] of a subterm in row [k]: its value, or the entry of the
    contrast matrix for the category in that row.  [val f] are the factor's values. *)
Definition contrib (fis : finfos) (s : subterm_info) (val : factor -> option (@fvalue V)) (f : factor) (i k : nat) : option V :=
  match dget String.eqb f fis, val f with
  | Some fi, Some v =>
      match fi_kind fi, v with
      | FNum _, VNum _ rows => match nth_error rows k with Some row => nth_error row i | None => None end
      | FCat _, VCat codes =>
          match dget String.eqb f (si_contrasts s), nth_error codes k with
          | Some c, Some z =>
              if Z.ltb z 0 then None
              else match nth_error (ct_rows c) (Z.to_nat z) with Some row => nth_error row i | None => None end
          | _, _ => None
          end
      | _, _ => None
      end
  | _, _ => None
  end.
(** One times the first, times the second, ... *)
Definition product (xs : list (option V)) : option V :=
  fold_left (fun acc x => match acc, x with Some a, Some b => Some (vmul a b) | _, _ => None end) xs (Some vone).
Definition entry (fis : finfos) (val : factor -> option (@fvalue V)) (id : column_id) (k : nat) : option V :=
  let '(_, s, c) := id in
  product (map (fun p => contrib fis s val (fst p) (snd p) k) (combine (si_factors s) c)).

(** The values of the factors of a design, as evaluated. *)
Definition values_in (fis : finfos) (ev : finfo -> result evaluated) (f : factor) : option (@fvalue V) :=
  match dget String.eqb f fis with
  | Some fi => match ev fi with Ok e => Some (ev_value e) | Err _ => None end
  | None => None
  end.

(** Designs that the constructor accepts (with factor infos). *)
Definition constructed (d : design_info) : Prop :=
  exists names fis cs, mk_design_info names (Some fis) (Some cs) = Ok d /\
    distinct_keys String.eqb fis /\ distinct_keys term_eqb cs.
Definition infos_of (d : design_info) : finfos := match di_infos d with Some f => f | None => [] end.
Definition codings_of (d : design_info) : list (term * list subterm_info) :=
  match di_codings d with Some c => c | None => [] end.
(** All FactorInfo objects of a list of designs. *)
Definition all_infos (dis : list design_info) : list finfo := flat_map (fun d => map snd (infos_of d)) dis.
(** Equal identities mean the same object. *)
Definition identities (l : list finfo) : Prop :=
  forall a b, In a l -> In b l -> fi_id a = fi_id b -> a = b.
(** An evaluation fits its factor: right kind, right number of columns, one missingness flag and one
    index label (if any) per row. *)
Definition fits (fi : finfo) (e : evaluated) : Prop :=
  List.length (ev_isna e) = vrows (ev_value e) /\
  (forall i, ev_index e = Some i -> List.length i = vrows (ev_value e)) /\
  match fi_kind fi, ev_value e with
  | FNum n, VNum nc _ => nc = n
  | FCat _, VCat _ => True
  | _, _ => False
  end.

(** Row [k] is missing in some of the evaluations. *)
Definition missing_in (es : list evaluated) (k : nat) : bool :=
  existsb (fun e => nth k (ev_isna e) false) es.
(** The rows kept, out of [n]. *)
Definition kept (act : on_na) (es : list evaluated) (n : nat) : list nat :=
  match act with
  | NARaise => seq 0 n
  | NADrop => filter (fun k => negb (missing_in es k)) (seq 0 n)
  end.
(** The evaluations of a list of factors (those that succeed). *)
Definition evals (ev : finfo -> result evaluated) (l : list finfo) : list evaluated :=
  flat_map (fun fi => match ev fi with Ok e => [e] | Err _ => [] end) l.

(** Every factor, and the data frame if there is one, has [n] rows. *)
Definition rows_are (df : option (list I)) (es : list evaluated) (n : nat) : Prop :=
  (forall i, df = Some i -> List.length i = n) /\ forall e, In e es -> vrows (ev_value e) = n.
(** All row labels present are [full]; if there are none, [full] numbers the rows. *)
Definition labels_are (ilabel : nat -> I) (df : option (list I)) (es : list evaluated) (n : nat) (full : list I) : Prop :=
  (forall i, df = Some i -> i = full) /\ (forall e i, In e es -> ev_index e = Some i -> i = full) /\
  (df = None -> (forall e, In e es -> ev_index e = None) -> full = map ilabel (seq 0 n)).
(** The items of [l] at the positions [ks]. *)
Definition pick {A} (l : list A) (ks : list nat) : list A :=
  flat_map (fun k => match nth_error l k with Some x => [x] | None => [] end) ks.
(** A matrix has the columns of the design [d], with the entries for the data rows [ks]. *)
Definition matrix_is (ev : finfo -> result evaluated) (ks : list nat) (d : design_info) (m : @dmat V) : Prop :=
  m_rows m = List.length ks /\
  Forall2 (fun id col => map Some col = map (entry (infos_of d) (values_in (infos_of d) ev) id) ks)
    (columns_of (infos_of d) (codings_of d)) (m_cols m).
(** Where the columns of a term are, according to [design_info.slice(term)]. *)
Definition term_at (d : design_info) (t : term) : list nat :=
  match di_slice d (CTerm t) with
  | Ok (a, b) => seq (Z.to_nat a) (Z.to_nat (b - a))
  | Err _ => []
  end.
(** A member of [subset]'s argument selects the term with that name, or the equal term. *)
Definition selects (w : which) (t : term) : Prop :=
  match w with
  | WName s => term_name t = s
  | WTerm t' => term_eqb t t' = true
  end.
(** What building should return. *)
Definition built (ilabel : nat -> I) (ev : finfo -> result evaluated) (df : option (list I)) (act : on_na) (want_df : bool)
    (dis : list design_info) (ms : list (@dmat V)) (labels : option (list I)) : Prop :=
  let es := evals ev (all_infos dis) in
  exists n full, rows_are df es n /\ labels_are ilabel df es n full /\
    (act = NARaise -> forall k, k < n -> missing_in es k = false) /\
    (es = [] -> df = None -> dis = []) /\
    Forall2 (matrix_is ev (kept act es n)) dis ms /\
    (if want_df
     then (es = [] /\ df = None /\ labels = None) \/ (~ (es = [] /\ df = None) /\ labels = Some (pick full (kept act es n)))
     else labels = None).

(** A subterm that goes with the factor infos. *)
Definition factor_ok (fis : finfos) (s : subterm_info) (f : factor) : Prop :=
  exists fi, dget String.eqb f fis = Some fi /\
    match fi_kind fi with
    | FNum n => dget String.eqb f (si_contrasts s) = None
    | FCat ncat => exists c, dget String.eqb f (si_contrasts s) = Some c /\ length (ct_rows c) = ncat
    end.
Definition subterm_ok (fis : finfos) (s : subterm_info) : Prop :=
  (forall f, In f (si_factors s) -> factor_ok fis s f) /\ product_of (counts_of fis s) = si_ncols s.
(** The values of the factors [fs] go with the infos and have [n] rows. *)
Definition value_fits (fi : finfo) (n : nat) (v : @fvalue V) : Prop :=
  vrows v = n /\
  match fi_kind fi, v with
  | FNum m, VNum nc _ => nc = m
  | FCat _, VCat _ => True
  | _, _ => False
  end.
Definition values_fit (fis : finfos) (values : list (factor * @fvalue V)) (n : nat) (fs : list factor) : Prop :=
  forall f, In f fs -> exists fi v, dget String.eqb f fis = Some fi /\ dget String.eqb f values = Some v /\ value_fits fi n v.

(** Contrast matrices are rectangular; numeric rows have all their columns; codes are -1 (exactly where
    the factor is missing) or number a category. *)
Definition proper_design (d : design_info) : Prop :=
  forall t ss s f c row, In (t, ss) (codings_of d) -> In s ss -> In (f, c) (si_contrasts s) -> In row (ct_rows c) -> length row = ct_ncols c.
Definition proper_value (fi : finfo) (e : evaluated) : Prop :=
  match ev_value e, fi_kind fi with
  | VNum nc rows, _ => forall row, In row rows -> length row = nc
  | VCat codes, FCat ncat => forall k z, nth_error codes k = Some z ->
      (nth k (ev_isna e) false = true /\ z = (-1)%Z) \/ (nth k (ev_isna e) false = false /\ (0 <= z < Z.of_nat ncat)%Z)
  | _, _ => True
  end.

(** * Row-wise evaluation (C26) *)
Section Rows.
Context {D : Type}.
Variables (gnum : finfo -> D -> list V) (gcat : finfo -> D -> Z) (gna : finfo -> D -> bool) (carries : finfo -> bool) (lab : D -> I).
(** Every row of a factor's value is made from the corresponding row of the data; [carries fi] if the
    value is a pandas object, with the data's row labels. *)
Definition row_ev (rows : list D) (fi : finfo) : result evaluated :=
  Ok (mkEv (match fi_kind fi with FNum n => VNum n (map (gnum fi) rows) | FCat _ => VCat (map (gcat fi) rows) end)
           (map (gna fi) rows) (if carries fi then Some (map lab rows) else None)).
End Rows.
(** One matrix on top of another. *)
Definition vstack (m m' : @dmat V) : @dmat V :=
  mkMat (m_rows m + m_rows m') (map (fun p => fst p ++ snd p) (combine (m_cols m) (m_cols m'))).
Definition vstacks (ms ms' : list (@dmat V)) : list (@dmat V) := map (fun p => vstack (fst p) (snd p)) (combine ms ms').
(** The results for the chunks, stacked. *)
Inductive stacked : list (list (@dmat V)) -> list (@dmat V) -> Prop :=
| stacked_one ms : stacked [ms] ms
| stacked_more ms mss all : stacked mss all -> stacked (ms :: mss) (vstacks ms all).

(** Rows [ks] of a value or of row labels. *)
Definition vpick (ks : list nat) (v : (@fvalue V)) : @fvalue V :=
  match v with VNum nc rows => VNum nc (pick rows ks) | VCat codes => VCat (pick codes ks) end.
Definition apick (ks : list nat) (a : @arr V I) : @arr V I :=
  match a with AVal v => AVal (vpick ks v) | AIdx l => AIdx (pick l ks) end.
(** The rows that stay when the rows marked in any of the masks are dropped. *)
Definition kept_by (act : on_na) (masks : list (list bool)) (n : nat) : list nat :=
  match act with
  | NARaise => seq 0 n
  | NADrop => filter (fun k => negb (existsb (fun m => nth k m false) masks)) (seq 0 n)
  end.
(** The arguments of DesignInfo are dicts. *)
Definition dicts (infos : option finfos) (codings : option (list (term * list subterm_info))) : Prop :=
  match infos with Some f => distinct_keys String.eqb f | None => True end /\
  match codings with Some c => distinct_keys term_eqb c | None => True end.
End Spec.

(** * Order of the terms (C23) *)
Section Order.
Variable numeric : factor -> Prop.
(** Two terms have the same numeric factors. *)
Definition same_bucket (a b : term) : Prop := forall f, numeric f -> (In f a <-> In f b).
Definition no_numeric (a : term) : Prop := forall f, In f a -> ~ numeric f.
(** [a] stands before [b] in [l]. *)
Definition before {A} (l : list A) (a b : A) : Prop := exists p q r, l = p ++ a :: q ++ b :: r.
(** The bucket of [a] shows up in [l] before that of [b]. *)
Definition bucket_first (l : list term) (a b : term) : Prop :=
  exists p a' q, l = p ++ a' :: q /\ same_bucket a' a /\ forall t, In t p -> ~ same_bucket t b.
Definition comes_before (requested : list term) (a b : term) : Prop :=
  (same_bucket a b /\ (List.length a < List.length b \/ (List.length a = List.length b /\ before requested a b))) \/
  (~ same_bucket a b /\ (no_numeric a \/ (~ no_numeric b /\ bucket_first requested a b))).
End Order.
