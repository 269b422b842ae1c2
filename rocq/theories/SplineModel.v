(** Model of patsy/mgcv_cubic_splines.py and patsy/splines.py, in exact arithmetic. *)
From Coq Require Import ZArith Qround.
From Verif Require Import Base NumModel PySort StateModel LinModel.
Open Scope nat_scope.
Open Scope list_scope.

(** * numpy operations *)
Definition qltb (a b : Qc) : bool := if Qclt_le_dec a b then true else false.
Definition qleb (a b : Qc) : bool := negb (qltb b a).
(** [a % p] for floats and [p > 0]. *)
Definition qfloor (q : Qc) : Z := Qfloor (this q).
Definition qmod (a p : Qc) : Qc := (a - p * qz (qfloor (a / p)))%Qc.
(** np.min, np.max of a non-empty vector. *)
Definition qmin2 (a b : Qc) : Qc := if qltb b a then b else a.
Definition qmax2 (a b : Qc) : Qc := if qltb a b then b else a.
Definition np_min (l : list Qc) : Qc := match l with [] => 0%Qc | x :: r => fold_left qmin2 r x end.
Definition np_max (l : list Qc) : Qc := match l with [] => 0%Qc | x :: r => fold_left qmax2 r x end.
(** np.searchsorted(knots, x) for sorted [knots]: how many come before the first that is not below [x]. *)
Fixpoint searchsorted (knots : list Qc) (x : Qc) : nat :=
  match knots with
  | [] => 0
  | k :: r => if qltb k x then S (searchsorted r x) else 0
  end.
(** np.sort, np.unique. *)
Definition np_sort (l : list Qc) : list Qc := py_sort qltb l.
Fixpoint dedup (l : list Qc) : list Qc :=
  match l with
  | x :: (y :: _) as r => if Qc_eq_bool x y then dedup r else x :: dedup r
  | _ => l
  end.
Definition np_unique (l : list Qc) : list Qc := dedup (np_sort l).
(** np.linspace(a, b, n)[1:-1], for [n >= 2] points. *)
Definition linspace_inner (a b : Qc) (inner : nat) : list Qc :=
  map (fun i => (a + (b - a) * qn i / qn (inner + 1))%Qc) (seq 1 inner).
(** np.percentile(x, p) of a non-empty vector: linear interpolation between the two nearest ranks. *)
Definition percentile (x : list Qc) (p : Qc) : Qc :=
  let s := np_sort x in
  let pos := (p / qz 100 * qn (List.length s - 1))%Qc in
  let i := Z.to_nat (qfloor pos) in
  let lo := nth i s 0%Qc in
  let hi := nth (Nat.min (i + 1) (List.length s - 1)) s 0%Qc in
  (lo + (hi - lo) * (pos - qn i))%Qc.

(** * Cyclic mapping and intervals *)
(** mgcv_cubic_splines.py:61-81 [_map_cyclic] *)
Definition map_cyclic (x : list Qc) (lbound ubound : Qc) : result (list Qc) :=
  if qleb ubound lbound then Err (ValueError "Invalid argument: lbound should be less than ubound")
  else
    let x := map (fun v => if qltb ubound v then (lbound + qmod (v - ubound) (ubound - lbound))%Qc else v) x in
    Ok (map (fun v => if qltb v lbound then (ubound - qmod (lbound - v) (ubound - lbound))%Qc else v) x).
(** mgcv_cubic_splines.py:226-250 [_find_knots_lower_bounds] *)
Definition find_lower (x : Qc) (knots : list Qc) : Z :=
  let size := Z.of_nat (List.length knots) in
  let lb := (Z.of_nat (searchsorted knots x) - 1)%Z in
  let lb := if (lb =? -1)%Z then 0%Z else lb in
  if (lb =? size - 1)%Z then (size - 2)%Z else lb.

(** * Tensor product *)
(** mgcv_cubic_splines.py:168-177, for one row of the output ([tp[:, i]] is assigned row by row).  The negative
    indices -i into [tp] are the positions [length tp - i]. *)
Definition tp_get (tp : list Qc) (i : nat) : Qc := nth (List.length tp - i) tp 0%Qc.
Definition tp_set (tp : list Qc) (i : nat) (v : Qc) : list Qc := set_nth tp (List.length tp - i) v.
(** Lines 173-175: [t] from [-filled] to -1, [p] growing. *)
Definition tp_block (filled : nat) (xj : Qc) (st : list Qc * nat) : list Qc * nat :=
  fold_left (fun st t => (tp_set (fst st) (snd st) (tp_get (fst st) t * xj)%Qc, snd st - 1)) (rev (seq 1 filled)) st.
(** Lines 169-176: one marginal. *)
Definition tp_marginal (st : list Qc * nat) (row : list Qc) : list Qc * nat :=
  let '(tp, filled) := st in
  let p := filled * List.length row in
  (fst (fold_left (fun st xj => tp_block filled xj st) row (tp, p)), filled * List.length row).
(** Lines 166-178, given the rows of the marginals. *)
Definition tp_row (rows : list (list Qc)) : list Qc :=
  let ncols := fold_left Nat.mul (map (@List.length Qc) rows) 1 in
  let last := List.last rows [] in
  let tp := repeat 0%Qc (ncols - List.length last) ++ last in
  fst (fold_left tp_marginal (rev (removelast rows)) (tp, List.length last)).
(** mgcv_cubic_splines.py:139-179 [_row_tensor_product]; a matrix is given with its number of columns (the
    dimension check of lines 157-159 is in the type).  Matrices without columns are not modelled. *)
Definition row_tensor_product (dms : list (nat * mat)) : result (nat * mat) :=
  match dms with
  | [] => Err (ValueError "Tensor product arrays sequence should not be empty.")
  | (_, d0) :: _ =>
      let nrows := List.length d0 in
      if forallb (fun dm => Nat.eqb (List.length (snd dm)) nrows) dms then
        Ok (fold_left Nat.mul (map fst dms) 1,
            map (fun i => tp_row (map (fun dm => nth i (snd dm) []) dms)) (seq 0 nrows))
      else Err (ValueError "Tensor product arguments should have same number of rows.")
  end.

(** * Knots *)
(** mgcv_cubic_splines.py:397-490 [_get_all_sorted_knots] *)
Definition all_sorted_knots (x : list Qc) (n_inner : option Z) (inner : option (list Qc)) (lower upper : option Qc) : result (list Qc) :=
  let* lb := match lower with
             | Some l => Ok l
             | None => match x with [] => Err (ValueError "Cannot set lower exterior knot location") | _ => Ok (np_min x) end
             end in
  let* ub := match upper with
             | Some u => Ok u
             | None => match x with [] => Err (ValueError "Cannot set upper exterior knot location") | _ => Ok (np_max x) end
             end in
  if qltb ub lb then Err (ValueError "lower_bound > upper_bound")
  else
    let* p := match inner, n_inner with
      | None, Some n =>
          if (n <? 0)%Z then Err (ValueError "Invalid requested number of inner knots")
          else
            let x := np_unique (filter (fun v => qleb lb v && qleb v ub) x) in
            match x with
            | [] => if (n =? 0)%Z then Ok ([], n) else Err (ValueError "No data values between the bounds")
            | _ => Ok (map (percentile x) (linspace_inner 0%Qc (qz 100) (Z.to_nat n)), n)
            end
      | Some ks, _ =>
          let ks := np_unique ks in
          let size := Z.of_nat (List.length ks) in
          if match n_inner with Some n => negb (n =? size)%Z | None => false end
          then Err (ValueError "Needed number of inner knots does not match provided number of inner knots")
          else if existsb (fun k => qltb k lb) ks then Err (ValueError "Some knot values fall below lower bound")
          else if existsb (fun k => qltb ub k) ks then Err (ValueError "Some knot values fall above upper bound")
          else Ok (ks, size)
      | None, None => Err (ValueError "Must specify either 'n_inner_knots' or 'inner_knots'.")
      end in
    let all := np_unique (lb :: ub :: fst p) in
    if (Z.of_nat (List.length all) =? snd p + 2)%Z then Ok all
    else Err (ValueError "Unable to compute n_inner_knots + 2 distinct knots").

(** * Base functions *)
Definition diffs (knots : list Qc) : list Qc := map2 Qcminus (tl knots) knots.
(** mgcv_cubic_splines.py:253-287 [_compute_base_functions] at one point. *)
Definition base_functions (x : Qc) (knots : list Qc) : Qc * Qc * Qc * Qc * nat :=
  let j := Z.to_nat (find_lower x knots) in
  let hj := nth j (diffs knots) 0%Qc in
  let xj1_x := (nth (j + 1) knots 0 - x)%Qc in
  let x_xj := (x - nth j knots 0)%Qc in
  let ajm := (xj1_x / hj)%Qc in
  let ajp := (x_xj / hj)%Qc in
  let cjm_3 := if qltb (np_max knots) x then 0%Qc else (xj1_x * xj1_x * xj1_x / (qz 6 * hj))%Qc in
  let cjm := (cjm_3 - hj * xj1_x / qz 6)%Qc in
  let cjp_3 := if qltb x (np_min knots) then 0%Qc else (x_xj * x_xj * x_xj / (qz 6 * hj))%Qc in
  let cjp := (cjp_3 - hj * x_xj / qz 6)%Qc in
  (ajm, ajp, cjm, cjp, j).

(** The matrix that scipy's (1, 1)-banded storage stands for. *)
Definition banded (ab : mat) (n : nat) : mat :=
  map (fun i => map (fun j => if Nat.eqb i j then get ab 1 j
                              else if Nat.eqb j (i + 1) then get ab 0 j
                              else if Nat.eqb i (j + 1) then get ab 2 j else 0%Qc) (seq 0 n)) (seq 0 n).
(** mgcv_cubic_splines.py:42-47 *)
Definition natural_banded (knots : list Qc) : mat :=
  let h := diffs knots in
  let ul := map (fun q => q / qz 6)%Qc (tl (removelast h)) in
  [0%Qc :: ul; map (fun q => q / qz 3)%Qc (map2 Qcplus (removelast h) (tl h)); ul ++ [0%Qc]].
(** mgcv_cubic_splines.py:48-51: row [i] of [d]. *)
Definition natural_d (knots : list Qc) : result mat :=
  let h := diffs knots in
  let n := List.length knots in
  foldM (fun d i =>
           let* d := set_entry d i i (1 / nth i h 0)%Qc in
           let* d := set_entry d i (i + 2) (1 / nth (i + 1) h 0)%Qc in
           set_entry d i (i + 1) (- get d i i - get d i (i + 2))%Qc)
        (seq 0 (n - 2)) (zeros (n - 2) n).
(** mgcv_cubic_splines.py:25-55 [_get_natural_f]; line 46 needs rows of equal length. *)
Definition natural_f (knots : list Qc) : result mat :=
  let n := List.length knots in
  let ab := natural_banded knots in
  let* _ := if forallb (fun r => Nat.eqb (List.length r) (List.length (hd [] ab))) ab then Ok tt
            else Err (ValueError "setting an array element with a sequence") in
  let* d := natural_d knots in
  let* fm := np_solve (banded ab (n - 2)) n d in
  Ok (repeat 0%Qc n :: fm ++ [repeat 0%Qc n]).
(** mgcv_cubic_splines.py:111-133: the two matrices of the cyclic case, assigned in order. *)
Definition cyclic_b (knots : list Qc) : result mat :=
  let h := diffs knots in
  let n := List.length knots - 1 in
  let* b := set_entry (zeros n n) 0 0 ((nth (n - 1) h 0 + nth 0 h 0) / qz 3)%Qc in
  let* b := set_entry b 0 (n - 1) (nth (n - 1) h 0 / qz 6)%Qc in
  let* b := set_entry b (n - 1) 0 (nth (n - 1) h 0 / qz 6)%Qc in
  foldM (fun b i =>
           let* b := set_entry b i i ((nth (i - 1) h 0 + nth i h 0) / qz 3)%Qc in
           let* b := set_entry b i (i - 1) (nth (i - 1) h 0 / qz 6)%Qc in
           set_entry b (i - 1) i (nth (i - 1) h 0 / qz 6)%Qc) (seq 1 (n - 1)) b.
Definition cyclic_d (knots : list Qc) : result mat :=
  let h := diffs knots in
  let n := List.length knots - 1 in
  let* d := set_entry (zeros n n) 0 0 (- (1) / nth 0 h 0 - 1 / nth (n - 1) h 0)%Qc in
  let* d := set_entry d 0 (n - 1) (1 / nth (n - 1) h 0)%Qc in
  let* d := set_entry d (n - 1) 0 (1 / nth (n - 1) h 0)%Qc in
  foldM (fun d i =>
           let* d := set_entry d i i (- (1) / nth (i - 1) h 0 - 1 / nth i h 0)%Qc in
           let* d := set_entry d i (i - 1) (1 / nth (i - 1) h 0)%Qc in
           set_entry d (i - 1) i (1 / nth (i - 1) h 0)%Qc) (seq 1 (n - 1)) d.
(** mgcv_cubic_splines.py:101-136 [_get_cyclic_f] *)
Definition cyclic_f (knots : list Qc) : result mat :=
  let* b := cyclic_b knots in let* d := cyclic_d knots in np_solve b (List.length knots - 1) d.

(** mgcv_cubic_splines.py:313-350 [_get_free_crs_dmatrix]; [i] is the identity matrix. *)
Definition free_crs_dmatrix (x knots : list Qc) (cyclic : bool) : result mat :=
  let* x := if cyclic then map_cyclic x (np_min knots) (np_max knots) else Ok x in
  let n := if cyclic then List.length knots - 1 else List.length knots in
  let* f := if cyclic then cyclic_f knots else natural_f knots in
  Ok (map (fun v =>
        let '(ajm, ajp, cjm, cjp, j) := base_functions v knots in
        let j1 := if cyclic && Nat.eqb (j + 1) n then 0 else j + 1 in
        map (fun c => (ajm * get (eye n) j c + ajp * get (eye n) j1 c + cjm * get f j c + cjp * get f j1 c)%Qc) (seq 0 n)) x).

(** * Constraints *)
(** scipy.linalg.qr of a matrix with [n] rows: a square [q] and an upper triangular [r] with [q r] the matrix. *)
Section Qr.
Variable qr : nat -> mat -> result (mat * mat).
(** mgcv_cubic_splines.py:290-310 [_absorb_constraints]; the number of columns comes with each matrix. *)
Definition absorb_constraints (dm cn : nat * mat) : result (nat * mat) :=
  let m := List.length (snd cn) in
  let* p := qr (fst cn) (transpose (fst cn) (snd cn)) in
  if Nat.eqb (fst dm) (fst cn)
  then Ok (fst cn - m, matmul (snd dm) (fst cn - m) (map (skipn m) (fst p)))
  else Err (ValueError "shapes not aligned").
Definition absorb_opt (dm : nat * mat) (cn : option (nat * mat)) : result (nat * mat) :=
  match cn with None => Ok dm | Some c => absorb_constraints dm c end.

(** * cr() and cc() *)
(** The constraints argument: None, 'center', or a 2-d array with its number of columns (np.atleast_2d makes a
    vector a single row). *)
Inductive constr := NoConstraint | Centering | Constraint (ncols : nat) (rows : mat).
Record crs_args := mkCrsArgs { crs_df : option Z; crs_knots : option (list Qc); crs_lower : option Qc; crs_upper : option Qc; crs_constr : constr }.
Record crs := mkCrs { crs_all_knots : list Qc; crs_cons : option (nat * mat) }.
(** mgcv_cubic_splines.py:622-628, 702-708: a number, a vector, or a 2-d array with one column. *)
Definition as_vector (x : arr) : result (list Qc) :=
  match x with
  | A0 q => Ok [q]
  | A1 l => Ok l
  | A2 k rows => if Nat.eqb k 1 then Ok (column rows 0) else Err (ValueError "Input must be 1-d, or a 2-d column vector.")
  end.
(** mgcv_cubic_splines.py:540-552 [_get_centering_constraint_from_dmatrix].  Without rows the code gets NaNs,
    which scipy's qr refuses; the model stops here. *)
Definition centering_row (n : nat) (dm : mat) : result (nat * mat) :=
  match dm with
  | [] => Err (ValueError "array must not contain infs or NaNs")
  | _ => Ok (n, [map (fun s => s / qn (List.length dm))%Qc (col_sums n dm)])
  end.
Definition crs_dim (cyclic : bool) (knots : list Qc) : nat := List.length knots - (if cyclic then 1 else 0).
(** mgcv_cubic_splines.py:632-690 [memorize_finish], given all the data. *)
Definition crs_finish (cyclic : bool) (a : crs_args) (x : list Qc) : result crs :=
  match crs_df a, crs_knots a with
  | None, None => Err (ValueError "Must specify either 'df' or 'knots'.")
  | _, _ =>
      let n_constraints := match crs_constr a with NoConstraint => 0 | Centering => 1 | Constraint _ rows => List.length rows end in
      let* n_inner := match crs_df a with
        | None => Ok None
        | Some df =>
            let min_df := if negb cyclic && Nat.eqb n_constraints 0 then 2%Z else 1%Z in
            if (df <? min_df)%Z then Err (ValueError "'df' must be greater than or equal to")
            else
              let n := (df - 2 + Z.of_nat n_constraints)%Z in
              Ok (Some (if cyclic then n + 1 else n)%Z)
        end in
      let* knots := all_sorted_knots x n_inner (crs_knots a) (crs_lower a) (crs_upper a) in
      match crs_constr a with
      | NoConstraint => Ok (mkCrs knots None)
      | c =>
          let* cn := match c with
            | Constraint k rows => Ok (k, rows)
            | _ => let* dm := free_crs_dmatrix x knots cyclic in centering_row (crs_dim cyclic knots) dm
            end in
          if Nat.eqb (fst cn) (crs_dim cyclic knots) then Ok (mkCrs knots (Some cn))
          else Err (ValueError "Constraints array should have a column for each parameter")
      end
  end.
(** mgcv_cubic_splines.py:604-630 [memorize_chunk]: [_tmp] is empty ([None]) or has the arguments and the
    pieces of data. *)
Definition crs_chunk (a : crs_args) (tmp : option (crs_args * list (list Qc))) (x : arr) : result (option (crs_args * list (list Qc))) :=
  let* v := as_vector x in
  Ok (Some (a, match tmp with Some (_, xs) => xs ++ [v] | None => [v] end)).
(** mgcv_cubic_splines.py:604-690: [memorize_chunk] for each piece of data, then [memorize_finish], which
    concatenates them (line 638). *)
Definition crs_memorize (cyclic : bool) (a : crs_args) (xs : list arr) : result crs :=
  let* tmp := foldM (crs_chunk a) xs None in
  match tmp with
  | None => Err KeyError
  | Some (a, xs) => crs_finish cyclic a (concat xs)
  end.
(** mgcv_cubic_splines.py:354-376 [_get_crs_dmatrix] and 692-716 [transform] *)
Definition crs_transform (cyclic : bool) (st : crs) (x : arr) : result (nat * mat) :=
  let* v := as_vector x in
  let* dm := free_crs_dmatrix v (crs_all_knots st) cyclic in
  absorb_opt (crs_dim cyclic (crs_all_knots st), dm) (crs_cons st).

(** * te() *)
Record te := mkTe { te_cons_arg : option constr; te_sum : option (list Qc); te_count : nat }.
Definition te_init := mkTe None None 0.
(** mgcv_cubic_splines.py:952-971 [TE.memorize_chunk] *)
Definition te_chunk (c : constr) (st : te) (args : list arr) : result te :=
  let c := match te_cons_arg st with Some c => c | None => c end in
  match c with
  | Centering =>
      let* tp := row_tensor_product (map to_2d args) in
      let total := col_sums (fst tp) (snd tp) in
      let s := match te_sum st with Some s => s | None => repeat 0%Qc (fst tp) end in
      let* t := broadcast (List.length s) total in
      Ok (mkTe (Some c) (Some (vadd s t)) (te_count st + List.length (snd tp)))
  | _ => Ok (mkTe (Some c) (te_sum st) (te_count st))
  end.
(** mgcv_cubic_splines.py:973-987 [TE.memorize_finish]; dividing by a zero count gives NaNs, which scipy's qr
    refuses later; the model stops here. *)
Definition te_finish (st : te) : result (option (nat * mat)) :=
  match te_cons_arg st with
  | None => Err KeyError
  | Some NoConstraint => Ok None
  | Some (Constraint k rows) => Ok (Some (k, rows))
  | Some Centering =>
      match te_sum st with
      | None => Err KeyError
      | Some s => if Nat.eqb (te_count st) 0 then Err (ValueError "array must not contain infs or NaNs")
                  else Ok (Some (List.length s, [map (fun q => q / qn (te_count st))%Qc s]))
      end
  end.
Definition te_memorize (c : constr) (chunks : list (list arr)) : result (option (nat * mat)) :=
  let* st := foldM (te_chunk c) chunks te_init in te_finish st.
(** mgcv_cubic_splines.py:379-391 [_get_te_dmatrix] and 989-999 [TE.transform] *)
Definition te_transform (cn : option (nat * mat)) (args : list arr) : result (nat * mat) :=
  let* tp := row_tensor_product (map to_2d args) in absorb_opt tp cn.
End Qr.
