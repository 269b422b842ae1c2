(** Model of patsy/splines.py, in exact arithmetic. *)
From Coq Require Import ZArith.
From Verif Require Import Base NumModel PySort StateModel LinModel SplineModel.
Open Scope nat_scope.
Open Scope list_scope.

(** * scipy.interpolate.splev *)
(** Trusted: FITPACK's splev.f and fpbspl.f.  The interval number of [x], from [l] up: where [x] is below the
    next knot, or the last of the intervals.  (The Fortran code starts at the interval of the previous point
    and may also go down; with sorted knots it arrives at the same interval.) *)
Fixpoint find_interval (steps : nat) (knots : list Qc) (x : Qc) (l : nat) : nat :=
  match steps with
  | 0 => l
  | S steps => if qleb (nth (l + 1) knots 0%Qc) x then find_interval steps knots x (l + 1) else l
  end.
(** One round of fpbspl: from the [j] nonzero B-splines of degree [j - 1] at [x] to the [j + 1] of degree [j]. *)
Definition bspl_step (knots : list Qc) (x : Qc) (l j : nat) (h : list Qc) : list Qc :=
  let f := map (fun i => let hi := nth (l + i + 1) knots 0%Qc in let lo := nth (l + i + 1 - j) knots 0%Qc in
                         if Qc_eq_bool hi lo then 0%Qc else (nth i h 0 / (hi - lo))%Qc) (seq 0 j) in
  vadd (map (fun i => nth i f 0 * (nth (l + i + 1) knots 0 - x))%Qc (seq 0 j) ++ [0%Qc])
       (0%Qc :: map (fun i => nth i f 0 * (x - nth (l + i + 1 - j) knots 0))%Qc (seq 0 j)).
Definition bspl (knots : list Qc) (x : Qc) (l degree : nat) : list Qc :=
  fold_left (fun h j => bspl_step knots x l j h) (seq 1 degree) [1%Qc].
(** splev(x, (knots, coefs, degree)) at one point; [coefs] has [length knots - degree - 1] entries. *)
Definition splev (x : Qc) (knots coefs : list Qc) (degree : nat) : Qc :=
  let n_bases := List.length knots - (degree + 1) in
  let l := find_interval (n_bases - 1 - degree) knots x degree in
  dot (bspl knots x l degree) (skipn (l - degree) coefs).

(** * The basis *)
(** splines.py:19-63 [_eval_bspline_basis]: the number of columns, and the matrix.  scipy refuses degrees above 5. *)
Definition unit_vec (n i : nat) : list Qc := map (fun j => if Nat.eqb i j then 1%Qc else 0%Qc) (seq 0 n).
Definition eval_basis (x knots : list Qc) (degree : nat) : result (nat * mat) :=
  let knots := np_sort knots in
  match x with
  | [] => Err (ValueError "zero-size array to reduction operation minimum which has no identity")
  | _ =>
      if qltb (np_min x) (np_min knots) || qltb (np_max knots) (np_max x)
      then Err NotImplementedError
      else
        let n_bases := List.length knots - (degree + 1) in
        if Nat.ltb 5 degree then Err (ValueError "0<=k<=5 must hold")
        else Ok (n_bases, map (fun v => map (fun i => splev v knots (unit_vec n_bases i) degree) (seq 0 n_bases)) x)
  end.

(** * bs() *)
Record bs_args := mkBsArgs { bs_df : option Z; bs_knots : option (list Qc); bs_degree : Z; bs_intercept : bool; bs_lower : option Qc; bs_upper : option Qc }.
Record bs := mkBs { bs_deg : nat; bs_all_knots : list Qc }.
(** [[a, b] * n] *)
Fixpoint repeat_pair (a b : Qc) (n : nat) : list Qc := match n with 0 => [] | S n => a :: b :: repeat_pair a b n end.
(** splines.py:66-72 [_R_compat_quantile] of equally spaced probabilities. *)
Definition quantile_knots (x : list Qc) (n : nat) : result (list Qc) :=
  match x, n with
  | [], S _ => Err IndexError
  | _, _ => Ok (map (fun q => percentile x (qz 100 * q)%Qc) (linspace_inner 0%Qc 1%Qc n))
  end.
(** splines.py:179-261 [BS.memorize_finish] for integer degrees and counts, given all the data. *)
Definition bs_finish (a : bs_args) (x : list Qc) : result bs :=
  if (bs_degree a <? 0)%Z then Err (ValueError "degree must be greater than 0")
  else
    let order := (bs_degree a + 1)%Z in
    let* inner := match bs_df a, bs_knots a with
      | None, None => Err (ValueError "must specify either df or knots")
      | Some df, ks =>
          let n := (if bs_intercept a then df - order else df - order + 1)%Z in
          if (n <? 0)%Z then Err (ValueError "df is too small for degree")
          else match ks with
               | Some ks => if (Z.of_nat (List.length ks) =? n)%Z then Ok ks else Err (ValueError "df implies another number of knots")
               | None => quantile_knots x (Z.to_nat n)
               end
      | None, Some ks => Ok ks
      end in
    let* lower := match bs_lower a with
      | Some l => Ok l
      | None => match x with [] => Err (ValueError "zero-size array") | _ => Ok (np_min x) end
      end in
    let* upper := match bs_upper a with
      | Some u => Ok u
      | None => match x with [] => Err (ValueError "zero-size array") | _ => Ok (np_max x) end
      end in
    if qltb upper lower then Err (ValueError "lower_bound > upper_bound")
    else if existsb (fun k => qltb k lower) inner then Err (ValueError "some knot values fall below lower bound")
    else if existsb (fun k => qltb upper k) inner then Err (ValueError "some knot values fall above upper bound")
    else Ok (mkBs (Z.to_nat (bs_degree a)) (np_sort (repeat_pair lower upper (Z.to_nat order) ++ inner))).
(** splines.py:150-177 [memorize_chunk]: [_tmp] is empty ([None]) or has the arguments and the pieces of
    data. *)
Definition bs_chunk (a : bs_args) (tmp : option (bs_args * list (list Qc))) (x : arr) : result (option (bs_args * list (list Qc))) :=
  let* v := as_vector x in
  Ok (Some (a, match tmp with Some (_, xs) => xs ++ [v] | None => [v] end)).
(** splines.py:150-261: [memorize_chunk] for each piece of data, then [memorize_finish], which concatenates
    them. *)
Definition bs_memorize (a : bs_args) (xs : list arr) : result bs :=
  let* tmp := foldM (bs_chunk a) xs None in
  match tmp with
  | None => Err KeyError
  | Some (a, xs) => bs_finish a (concat xs)
  end.
(** splines.py:263-280 [BS.transform]; line 34 asserts the data to be one-dimensional. *)
Definition bs_transform (a : bs_args) (st : bs) (x : arr) : result (nat * mat) :=
  let* v := match as_vector x with Ok v => Ok v | Err _ => Err AssertionError end in
  let* b := eval_basis v (bs_all_knots st) (bs_deg st) in
  if bs_intercept a then Ok b else Ok (fst b - 1, map (@tl Qc) (snd b)).
