(** patsy/contrasts.py: the polynomial coding Poly.

    The numbers are those of any ordered field with square roots, such as the real numbers, as unit vectors
    need irrational entries. *)
From Verif Require Import Base BuildModel.
Open Scope nat_scope.
Open Scope string_scope.
Open Scope list_scope.

Section Poly.
Context {K : Type} (kO kI : K) (kadd kmul ksub kdiv : K -> K -> K) (keqb : K -> K -> bool).
(** np.sqrt and np.sign. *)
Variable sqrt sgn : K -> K.
(** np.linalg.qr of a square matrix (a list of rows). *)
Variable qr : list (list K) -> result (list (list K) * list (list K)).

(** np.sum of a vector, [float(n)] and [x ** n]. *)
Definition ksum (l : list K) : K := fold_right kadd kO l.
Fixpoint kn (n : nat) : K := match n with 0 => kO | S n => kadd (kn n) kI end.
Fixpoint kpow (x : K) (n : nat) : K := match n with 0 => kI | S n => kmul x (kpow x n) end.
(** [m[i, j]] *)
Definition entry (m : list (list K)) (i j : nat) : K := nth j (nth i m []) kO.
(** A matrix with [n] rows and [p] columns by its entries. *)
Definition tabulate (n p : nat) (f : nat -> nat -> K) : list (list K) := map (fun i => map (f i) (seq 0 p)) (seq 0 n).

(** contrasts.py:273 [scores -= scores.mean()] *)
Definition center_scores (scores : list K) : list K :=
  let mean := kdiv (ksum scores) (kn (length scores)) in
  map (fun x => ksub x mean) scores.
(** contrasts.py:274: the centered scores raised to the powers 0, ..., n-1. *)
Definition raw_poly (n : nat) (scores : list K) : list (list K) :=
  tabulate n n (fun i j => kpow (nth i (center_scores scores) kO) j).
(** What [self.scores] holds after a call of [_code_either].  [np.asarray(scores, dtype=float)]
    (contrasts.py:262) makes a copy of a list, but returns an array of floats as it is, so that line 273
    writes into the array of the user. *)
Definition scores_after (float_array : bool) (scores : list K) : list K :=
  if float_array then center_scores scores else scores.
(** contrasts.py:276: [q *= np.sign(np.diag(r))], column by column. *)
Definition fix_signs (n : nat) (q r : list (list K)) : list (list K) :=
  tabulate n n (fun i j => kmul (entry q i j) (sgn (entry r j j))).
(** contrasts.py:277: [q /= np.sqrt(np.sum(q**2, axis=1))].  The sums run along the rows, and numpy divides
    column [j] by the [j]-th of them.  Where the code divides by zero it gets NaNs; the model stops. *)
Definition row_norm (n : nat) (q : list (list K)) (i : nat) : K :=
  sqrt (ksum (map (fun j => kmul (entry q i j) (entry q i j)) (seq 0 n))).
Definition normalize (n : nat) (q : list (list K)) : result (list (list K)) :=
  if existsb (fun i => keqb (row_norm n q i) kO) (seq 0 n) then Err (ValueError "division by zero")
  else Ok (tabulate n n (fun i j => kdiv (entry q i j) (row_norm n q j))).
(** contrasts.py:279: [q[:, 0] = 1] *)
Definition ones_column (n : nat) (q : list (list K)) : list (list K) :=
  tabulate n n (fun i j => match j with 0 => kI | _ => entry q i j end).
(** contrasts.py:280-282 *)
Definition poly_names (n : nat) : list string :=
  firstn n ([".Constant"; ".Linear"; ".Quadratic"; ".Cubic"] ++ map (fun i => ("^" ++ nat_str i)%string) (seq 4 (n - 4))).
(** contrasts.py:257-288 [Poly._code_either]: matrix and column suffixes, for [n] levels.  Without levels the
    mean is NaN and assigning to column 0 fails. *)
Definition poly_code (scores : option (list K)) (intercept : bool) (n : nat) : result (list (list K) * list string) :=
  let s := match scores with None => map kn (seq 0 n) | Some s => s end in
  if negb (Nat.eqb (length s) n) then Err (PatsyError "number of levels does not match number of scores" None)
  else if Nat.eqb n 0 then Err IndexError
  else
    let* p := qr (raw_poly n s) in
    let* q := normalize n (fix_signs n (fst p) (snd p)) in
    let q := ones_column n q in
    Ok (if intercept then (q, poly_names n) else (map (skipn 1) q, skipn 1 (poly_names n))).
End Poly.
