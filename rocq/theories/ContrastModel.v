(** patsy/contrasts.py: the built-in codings; Poly is in PolyModel. *)
From Verif Require Import Base NumModel.

Open Scope list_scope.

Section Contrasts.
(** Levels: Python objects; [leqb] is [==], [as_int] gives the value of an [int]
    (isinstance(x, int)), [readable] is contrasts.py:72-83 [_obj_to_readable_str]. *)
Context {L : Type} (leqb : L -> L -> bool) (as_int : L -> option Z) (readable : L -> string).

(** contrasts.py:20-47 [ContrastMatrix]. *)
Record contrast := mkContrast { cm_matrix : mat; cm_suffixes : list string }.
(** contrasts.py:40-44: the number of columns is given separately because a matrix
    with no rows still has a column count in numpy. *)
Definition mk_contrast (ncols : nat) (m : mat) (suffixes : list string) : result contrast :=
  if Nat.eqb ncols (length suffixes) then Ok (mkContrast m suffixes)
  else Err (PatsyError "matrix and column_suffixes don't conform" None).

(** contrasts.py:107-108 [_name_levels]. *)
Definition name_strs (prefix : string) (names : list string) : list string :=
  map (fun s => "[" ++ prefix ++ s ++ "]")%string names.
Definition name_levels (prefix : string) (levels : list L) : list string := name_strs prefix (map readable levels).

(** contrasts.py:115-116 [_dummy_code]. *)
Definition dummy_code (levels : list L) : result contrast :=
  mk_contrast (length levels) (eye (length levels)) (name_levels "" levels).

(** [levels.index(x)] for [x in levels]. *)
Fixpoint index_of (x : L) (levels : list L) : option nat :=
  match levels with
  | [] => None
  | y :: r => if leqb y x then Some 0 else option_map S (index_of x r)
  end.
(** contrasts.py:118-127 [_get_level]. *)
Definition get_level (levels : list L) (ref : L) : result nat :=
  match index_of ref levels with
  | Some i => Ok i
  | None =>
      match as_int ref with
      | Some z =>
          let z := if (z <? 0)%Z then (z + Z.of_nat (length levels))%Z else z in
          if ((0 <=? z) && (z <? Z.of_nat (length levels)))%Z then Ok (Z.to_nat z)
          else Err (PatsyError "specified level is out of range" None)
      | None => Err (PatsyError "specified level not found" None)
      end
  end.

(** np.empty((n, n-1)), np.eye(n-1) and the like fail for n = 0. *)
Definition pred_dim (n : nat) : result nat :=
  match n with 0 => Err (ValueError "negative dimensions are not allowed") | S m => Ok m end.

(** contrasts.py:174-190 [Treatment]. *)
Definition treatment_full := dummy_code.
Definition treatment_reduced (reference : option L) (levels : list L) : result contrast :=
  let* r := match reference with None => Ok 0 | Some x => get_level levels x end in
  let* m := pred_dim (length levels) in
  mk_contrast m (firstn r (eye m) ++ zeros 1 m ++ skipn r (eye m))
    (name_levels "T." (firstn r levels ++ skipn (r + 1) levels)).

(** contrasts.py:398-403 [Sum._omit_i]. *)
Definition omit_i (omit : option L) (levels : list L) : result nat :=
  match omit with None => let* m := pred_dim (length levels) in Ok m | Some x => get_level levels x end.
(** contrasts.py:405-413 [Sum._sum_contrast]. *)
Definition sum_contrast (omit : option L) (levels : list L) : result mat :=
  let* r := omit_i omit levels in
  let* m := pred_dim (length levels) in
  Ok (firstn r (eye m) ++ [repeat (Qcopp 1%Qc) m] ++ skipn r (eye m)).
(** contrasts.py:421-425. *)
Definition sum_reduced (omit : option L) (levels : list L) : result contrast :=
  let* mx := sum_contrast omit levels in
  let* r := omit_i omit levels in
  mk_contrast (length levels - 1) mx (name_levels "S." (firstn r levels ++ skipn (r + 1) levels)).
(** contrasts.py:415-419. *)
Definition sum_full (omit : option L) (levels : list L) : result contrast :=
  let* c := sum_reduced omit levels in
  mk_contrast (S (length levels - 1)) (with_ones (cm_matrix c)) ("[mean]"%string :: cm_suffixes c).

(** contrasts.py:492-513 [Helmert._helmert_contrast]: [contr[1:][diag] = arange] writes
    through the view, i.e. to row [i + 1]. *)
Definition helmert_contrast (levels : list L) : result mat :=
  let n := length levels in
  let* m := pred_dim n in
  let* c := assign (zeros n m) (map (fun p => (S (fst p), snd p)) (diag_indices m)) (map qn (arange 1 n)) in
  assign_scalar c (triu_indices m) (Qcopp 1%Qc).
(** contrasts.py:515-524. *)
Definition helmert_full (levels : list L) : result contrast :=
  let* mx := helmert_contrast levels in
  mk_contrast (S (length levels - 1)) (with_ones mx) (name_strs "H." ("intercept"%string :: map readable (skipn 1 levels))).
Definition helmert_reduced (levels : list L) : result contrast :=
  let* mx := helmert_contrast levels in
  mk_contrast (length levels - 1) mx (name_levels "H." (skipn 1 levels)).

(** np.argsort with the default kind, which is not stable: any function returning a
    sorting permutation. *)
Variable argsort : list nat -> list nat.
(** contrasts.py:564-581 [Diff._diff_contrast]. *)
Definition diff_contrast (levels : list L) : result mat :=
  let n := length levels in
  let* m := pred_dim n in
  let int_range := arange 1 n in
  let at_ord (l : list nat) (ord : list nat) := map (fun p => nth p l 0) ord in
  let upper_int := np_repeat int_range int_range in
  let row_i := map fst (triu_indices m) in
  let col_i := map snd (triu_indices m) in
  let col_order := argsort col_i in
  let* c := assign (zeros n m) (List.combine (at_ord row_i col_order) (at_ord col_i col_order))
              (map (fun u => (qz (Z.of_nat u - Z.of_nat n) / qn n)%Qc) upper_int) in
  let lower_int := np_repeat int_range (rev int_range) in
  let row_i := map fst (tril_indices m) in
  let col_i := map snd (tril_indices m) in
  let col_order := argsort col_i in
  assign c (List.combine (map S (at_ord row_i col_order)) (at_ord col_i col_order))
    (map (fun u => (qn u / qn n)%Qc) lower_int).
(** contrasts.py:583-589. *)
Definition diff_full (levels : list L) : result contrast :=
  let* mx := diff_contrast levels in
  mk_contrast (S (length levels - 1)) (with_ones mx) (name_levels "D." levels).
Definition diff_reduced (levels : list L) : result contrast :=
  let* mx := diff_contrast levels in
  mk_contrast (length levels - 1) mx (name_levels "D." (firstn (length levels - 1) levels)).
End Contrasts.

(** The built-in coding classes and the dispatch at contrasts.py:639-642
    [code_contrast_matrix]. *)
Section Builtin.
Context {L : Type} (leqb : L -> L -> bool) (as_int : L -> option Z) (readable : L -> string).
Variable argsort : list nat -> list nat.
Inductive builtin := Treatment (reference : option L) | Sum (omit : option L) | Helmert | Diff.
Definition code_with_intercept (b : builtin) (levels : list L) : result contrast :=
  match b with
  | Treatment _ => treatment_full readable levels
  | Sum o => sum_full leqb as_int readable o levels
  | Helmert => helmert_full readable levels
  | Diff => diff_full readable argsort levels
  end.
Definition code_without_intercept (b : builtin) (levels : list L) : result contrast :=
  match b with
  | Treatment r => treatment_reduced leqb as_int readable r levels
  | Sum o => sum_reduced leqb as_int readable o levels
  | Helmert => helmert_reduced readable levels
  | Diff => diff_reduced readable argsort levels
  end.
End Builtin.
Arguments builtin : clear implicits.
