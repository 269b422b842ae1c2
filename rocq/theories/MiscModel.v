(** Model of patsy/user_util.py:18-145 (balanced, demo_data), patsy/__init__.py:30-69 (PatsyError) and
    patsy/design_info.py:1055-1085 (_format_float_column). *)
From Coq Require Import Ascii ZArith.
From Verif Require Import Base OriginModel PySort CategoricalModel BuildModel.
Open Scope string_scope.
Open Scope list_scope.

(** * balanced *)
(** [range(1, n + 1)] *)
Definition range1 (n : Z) : list nat := seq 1 (Z.to_nat n).
(** itertools.product: the rightmost position varies fastest. *)
Fixpoint product {A} (ls : list (list A)) : list (list A) :=
  match ls with
  | [] => [[]]
  | l :: rest => flat_map (fun x => map (cons x) (product rest)) l
  end.
(** [zip( *rows )]: as many tuples as the shortest row has entries; none without rows. *)
Definition zip_star (rows : list (list string)) : list (list string) :=
  match rows with
  | [] => []
  | r :: rs => map (fun j => map (fun r => nth j r "") rows) (seq 0 (fold_left Nat.min (map (@List.length string) rs) (List.length r)))
  end.
(** [l * n] *)
Definition list_times {A} (l : list A) (n : Z) : list A := List.concat (repeat l (Z.to_nat n)).
(** user_util.py:46-51: [sorted(kwargs)] and the names of the levels. *)
Definition level_names (name : string) (count : Z) : list string := map (fun i => name ++ nat_str i)%string (range1 count).
(** user_util.py:45-56 [balanced]; [kwargs] is the dict of the factors' level counts. *)
Definition balanced (kwargs : list (string * Z)) (rep : Z) : list (string * list string) :=
  let names := py_sort str_ltb (map fst kwargs) in
  let levels := map (fun name => level_names name (match dget String.eqb name kwargs with Some n => n | None => 0%Z end)) names in
  let values := zip_star (product levels) in
  dict_of String.eqb (List.combine names (map (fun value => list_times value rep) values)).

(** * demo_data *)
Section Demo.
Context {V : Type}.
(** What [r.normal(size=n)] returns as its [i]-th answer. *)
Variable normal : nat -> nat -> V.
Inductive demo_col := DCat (l : list string) | DNum (v : V).
(** user_util.py:126-132: the names sorted into categorical and numerical. *)
Definition demo_name (st : list (string * Z) * list string) (nlevels : Z) (name : string) : result (list (string * Z) * list string) :=
  match name with
  | EmptyString => Err IndexError
  | String c _ =>
      if existsb (Ascii.eqb c) (list_ascii_of_string "abcdefghijklmn") then Ok (dset String.eqb name nlevels (fst st), snd st)
      else if existsb (Ascii.eqb c) (list_ascii_of_string "pqrstuvwxyz")
           then Ok (fst st, if existsb (String.eqb name) (snd st) then snd st else snd st ++ [name])
      else Err (PatsyError ("bad name " ++ name) None)
  end.
(** user_util.py:115-145 [demo_data]; [extra] tells whether there are other keyword arguments.  [np.ceil] of
    the quotient is taken exactly.  A quotient by 0 is NaN or infinite, which int() rejects. *)
Definition demo_data (names : list string) (nlevels min_rows : Z) (extra : bool) : result (list (string * demo_col)) :=
  if extra then Err (TypeError "unexpected keyword arguments")
  else
    let* st := foldM (fun st name => demo_name st nlevels name) names ([], []) in
    let size := fold_left Z.mul (map snd (fst st)) 1%Z in
    if (size =? 0)%Z then (if (min_rows =? 0)%Z then Err (ValueError "cannot convert float NaN to integer") else Err OverflowError)
    else
      let rep := (- ((- min_rows) / size))%Z in
      let num_rows := (rep * size)%Z in
      let data := map (fun nc => (fst nc, DCat (snd nc))) (balanced (fst st) rep) in
      foldM (fun data iname =>
               if (num_rows <? 0)%Z then Err (ValueError "negative dimensions are not allowed")
               else Ok (dset String.eqb (snd iname) (DNum (normal (fst iname) (Z.to_nat num_rows))) data))
            (List.combine (seq 0 (List.length (snd st))) (py_sort str_ltb (snd st))) data.
End Demo.

(** * PatsyError *)
(** What may be passed as an origin: an Origin, or any object, with or without an [origin] attribute. *)
Inductive orig_arg := OrigIs (o : origin) | OrigObj (attr : option orig_arg).
(** __init__.py:59-69 [PatsyError.set_origin] (an Origin has no [origin] attribute). *)
Definition err_set_origin (cur : option origin) (arg : orig_arg) : option origin :=
  match cur with
  | Some o => Some o
  | None =>
      let arg := match arg with OrigObj (Some a) => a | _ => arg end in
      match arg with OrigIs o => Some o | OrigObj _ => None end
  end.
(** __init__.py:47-51 [PatsyError.__init__] followed by calls of [set_origin]. *)
Definition err_history (first : orig_arg) (later : list orig_arg) : option origin :=
  fold_left err_set_origin later (err_set_origin None first).
Definition nl : string := String "010"%char "".
(** __init__.py:53-57 [PatsyError.__str__] *)
Definition err_str (msg : string) (o : option origin) : string :=
  match o with
  | None => msg
  | Some o => let (l1, l2) := caretize o 4 in String.append msg (String.append nl (String.append l1 (String.append nl l2)))
  end.

(** * _format_float_column *)
(** design_info.py:1064-1073: the strings the loop may shorten. *)
Definition simple_float (s : string) : bool :=
  forallb (fun c => existsb (Ascii.eqb c) (list_ascii_of_string "+-0123456789.")) (list_ascii_of_string s)
  && existsb (Ascii.eqb "."%char) (list_ascii_of_string s).
(** [s.endswith(c)] for one character, and [s[:-1]]. *)
Fixpoint ends_with (c : ascii) (s : string) : bool :=
  match s with
  | EmptyString => false
  | String d EmptyString => Ascii.eqb d c
  | String _ r => ends_with c r
  end.
Fixpoint chop (s : string) : string :=
  match s with
  | EmptyString => EmptyString
  | String _ EmptyString => EmptyString
  | String d r => String d (chop r)
  end.
(** design_info.py:1075-1084: the loop, on the pairs of mask and string. *)
Fixpoint strip_loop (fuel : nat) (strip : ascii) (col : list (bool * string)) : result (list (bool * string)) :=
  match fuel with
  | 0 => Err OutOfFuel
  | S fuel =>
      if forallb (fun ms : bool * string => negb (fst ms) || ends_with strip (snd ms)) col
      then strip_loop fuel strip (map (fun ms : bool * string => if fst ms then (true, chop (snd ms)) else ms) col)
      else if Ascii.eqb strip "0"%char then strip_loop fuel "."%char col
      else Ok col
  end.
(** design_info.py:1059-1085 [_format_float_column], on the strings that the % operator gives. *)
Definition format_column (col : list string) : result (list string) :=
  let masked := map (fun s => (simple_float s, s)) col in
  if existsb fst masked then
    let fuel := fold_right Nat.max 0 (map String.length col) + 3 in
    let* r := strip_loop fuel "0"%char masked in Ok (map snd r)
  else Ok col.
