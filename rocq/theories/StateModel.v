(** Model of the transforms of patsy/state.py, in exact arithmetic. *)
From Verif Require Import Base NumModel.
Open Scope nat_scope.
Open Scope list_scope.

(** Numeric data: a scalar, a vector, or a 2-d array with its number of columns.  (pandas objects are
    treated like the arrays they hold; more than two dimensions are not modelled.) *)
Inductive arr := A0 (q : Qc) | A1 (l : list Qc) | A2 (ncols : nat) (rows : mat).
(** util.py:191-203 [atleast_2d_column_default]: the columns and the rows. *)
Definition to_2d (x : arr) : nat * mat :=
  match x with
  | A0 q => (1, [[q]])
  | A1 l => (1, map (fun q => [q]) l)
  | A2 k rows => (k, rows)
  end.
(** util.py:292-307 [pandas_friendly_reshape] to the shape of [x]. *)
Definition reshape_like (x : arr) (m : mat) : result arr :=
  match x with
  | A0 _ => match m with [[q]] => Ok (A0 q) | _ => Err (ValueError "cannot reshape") end
  | A1 l => if Nat.eqb (List.length (concat m)) (List.length l) then Ok (A1 (concat m)) else Err (ValueError "cannot reshape")
  | A2 k _ => Ok (A2 k m)
  end.

Fixpoint map2 {A B C} (f : A -> B -> C) (l : list A) (m : list B) : list C :=
  match l, m with
  | x :: l, y :: m => f x y :: map2 f l m
  | _, _ => []
  end.
(** numpy's broadcasting of the vector [v] against one with [k] entries. *)
Definition broadcast (k : nat) (v : list Qc) : result (list Qc) :=
  if Nat.eqb (List.length v) k then Ok v
  else match v with [q] => Ok (repeat q k) | _ => Err (ValueError "operands could not be broadcast together") end.
Definition vadd := map2 Qcplus.
Definition vsub := map2 Qcminus.
(** [np.sum(x, 0)] *)
Definition col_sums (k : nat) (rows : mat) : list Qc := fold_left vadd rows (repeat 0%Qc k).

(** * Center *)
(** state.py:102-104 [Center.__init__] *)
Record center := mkCenter { c_sum : option (list Qc); c_count : nat }.
Definition center_init := mkCenter None 0.
(** state.py:106-114 [Center.memorize_chunk] *)
Definition center_chunk (st : center) (x : arr) : result center :=
  let (k, rows) := to_2d x in
  let count := c_count st + List.length rows in
  let total := col_sums k rows in
  match c_sum st with
  | None => Ok (mkCenter (Some total) count)
  | Some s => let* t := broadcast (List.length s) total in Ok (mkCenter (Some (vadd s t)) count)
  end.
(** state.py:119-131 [Center.transform]; [None / 0] is a TypeError.  Where the code divides by a zero count
    it gets NaNs; the model stops.  A single column against several means broadcasts in the subtraction and
    fails in the reshape; the model fails in the first step. *)
Definition center_transform (st : center) (x : arr) : result arr :=
  match c_sum st with
  | None => Err (TypeError "unsupported operand type(s)")
  | Some s =>
      if Nat.eqb (c_count st) 0 then Err (ValueError "division by zero")
      else
        let mean := map (fun q => q / qn (c_count st))%Qc s in
        let (k, rows) := to_2d x in
        let* mean := broadcast k mean in
        reshape_like x (map (fun r => vsub r mean) rows)
  end.

(** * Standardize *)
(** state.py:160-163 [Standardize.__init__] *)
Record standardize := mkStd { s_n : nat; s_mean : option (list Qc); s_M2 : list Qc }.
Definition std_init := mkStd 0 None [].
(** state.py:171-175: one row. *)
Definition std_row (st : nat * (list Qc * list Qc)) (row : list Qc) : result (nat * (list Qc * list Qc)) :=
  let '(n, (mean, M2)) := st in
  let n := S n in
  let* row := broadcast (List.length mean) row in
  let delta := vsub row mean in
  let mean := vadd mean (map (fun d => d / qn n)%Qc delta) in
  Ok (n, (mean, vadd M2 (map2 Qcmult delta (vsub row mean)))).
(** state.py:165-175 [Standardize.memorize_chunk] *)
Definition std_chunk (st : standardize) (x : arr) : result standardize :=
  let (k, rows) := to_2d x in
  let start := match s_mean st with Some m => (m, s_M2 st) | None => (repeat 0%Qc k, repeat 0%Qc k) end in
  let* r := foldM std_row rows (s_n st, start) in
  Ok (mkStd (fst r) (Some (fst (snd r))) (snd (snd r))).

Section Transform.
(** [np.sqrt] *)
Variable sqrt : Qc -> Qc.
(** state.py:180-190 [Standardize.transform].  Where the code divides by zero or takes the root of a
    negative number it gets NaNs or infinities; the model stops. *)
Definition std_transform (st : standardize) (x : arr) (center rescale : bool) (ddof : nat) : result arr :=
  let (k, rows) := to_2d x in
  match s_mean st with
  | None => if center || rescale then Err (TypeError "unsupported operand type(s)") else reshape_like x rows
  | Some mean =>
      let* rows := if center then let* m := broadcast k mean in Ok (map (fun r => vsub r m) rows) else Ok rows in
      let* rows :=
        if rescale then
          if Nat.leb (s_n st) ddof then Err (ValueError "division by zero")
          else
            let* d := broadcast k (map (fun q => sqrt (q / qn (s_n st - ddof)))%Qc (s_M2 st)) in
            if existsb (fun q => Qc_eq_bool q 0%Qc) d then Err (ValueError "division by zero")
            else Ok (map (fun r => map2 Qcdiv r d) rows)
        else Ok rows in
      reshape_like x rows
  end.
End Transform.
