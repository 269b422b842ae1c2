(** Model of how a DesignMatrix is shown: patsy/design_info.py:1175-1262 (DesignMatrix._repr_pretty_) and
    patsy/util.py:475-505 (_MiniPPrinter, _mini_pretty).

    Strings are sequences of one-byte characters; Python's [len] is their length.  What ["%.5f" % (x,)] and
    [repr] of a string return is Python's affair: [fmt] and [repr_str] are arbitrary functions. *)
From Coq Require Import ZArith Ascii.
From Verif Require Import Base UtilModel BuildModel MiscModel.
Open Scope string_scope.
Open Scope list_scope.

(** What may be asked of a printer. *)
Inductive pp_call := PText (s : string) | PBreakable (s : string) | PBegin (n : nat) (s : string) | PEnd (n : nat) (s : string).
(** util.py:480-490: the methods of [_MiniPPrinter]; each writes its text, nothing is indented. *)
Definition written (c : pp_call) : string := match c with PText s | PBreakable s | PBegin _ s | PEnd _ s => s end.
(** util.py:476-478, 498-505 [_mini_pretty] *)
Definition mini_pretty (calls : list pp_call) : string := fold_left (fun out c => out ++ written c)%string calls "".

(** [s.rjust(width)] *)
Fixpoint spaces (n : nat) : string := match n with 0 => "" | S n => String " "%char (spaces n) end.
Definition rjust (s : string) (width : nat) : string := (spaces (width - String.length s) ++ s)%string.
(** [repr] of a list of strings. *)
Definition repr_list (repr_str : string -> string) (l : list string) : string := ("[" ++ String.concat ", " (map repr_str l) ++ "]")%string.

Section Repr.
Context {V : Type}.
Variable fmt : V -> string.             (* "%.5f" % (x,) *)
Variable repr_str : string -> string.   (* repr of a str *)

(** design_info.py:1189-1193 *)
Definition MAX_TOTAL_WIDTH := 78%Z.
Definition SEP := 2.
Definition INDENT := 2.
Definition MAX_ROWS := 30.

(** design_info.py:1207-1212 [max_width] *)
Definition max_width (col : list string) : nat := fold_left Nat.max (map String.length col) 0.
(** design_info.py:1197-1199, 1220: the width of a line. *)
Definition line_width (ncols : nat) (widths : list nat) : Z :=
  (Z.of_nat INDENT + Z.of_nat SEP * (Z.of_nat ncols - 1) + Z.of_nat (fold_left Nat.add widths 0%nat))%Z.
(** design_info.py:1195-1223: the formatted columns and their widths, if they are to be printed. *)
Definition table (names : list string) (m : @dmat V) : result (option (list (list string) * list nat)) :=
  let ncols := List.length (m_cols m) in
  let name_widths := map String.length names in
  if (line_width ncols name_widths <=? MAX_TOTAL_WIDTH)%Z then
    let* formatted := mapM (fun col => format_column (map fmt (firstn MAX_ROWS col))) (m_cols m) in
    let widths := map (fun p => Nat.max (fst p) (snd p)) (List.combine name_widths (map max_width formatted)) in
    if (line_width ncols widths <? MAX_TOTAL_WIDTH)%Z then Ok (Some (formatted, widths)) else Ok None
  else Ok None.
(** design_info.py:1227-1232: the table; [zip( *formatted_cols )] are its rows. *)
Definition table_calls (names : list string) (rows : nat) (t : list (list string) * list nat) : list pp_call :=
  flat_map (fun row => [PText (String.concat (spaces SEP) (map (fun p => rjust (snd p) (fst p)) (List.combine (snd t) row))); PText nl])
           (names :: zip_star (fst t))
  ++ (if Nat.ltb MAX_ROWS rows then [PText ("[" ++ nat_str (rows - MAX_ROWS) ++ " rows omitted]"); PText nl] else []).
(** design_info.py:1236-1241 *)
Definition column_calls (names : list string) : list pp_call :=
  [PBegin 2 "Columns:"; PBreakable nl; PText (repr_list repr_str names); PEnd 2 ""; PBreakable nl].
(** design_info.py:1245-1253 *)
Definition term_call (ns : string * pslice) : list pp_call :=
  let '(name, (start, stop)) := ns in
  (if Nat.eqb start 0 then [] else [PBreakable ", "]) ++
  [PText (repr_str name);
   PText (" (" ++ (if Nat.eqb (stop - start) 1 then "column " ++ nat_str start
                   else "columns " ++ nat_str start ++ ":" ++ nat_str stop) ++ ")")]%string.
(** design_info.py:1175-1262 [_repr_pretty_], for a matrix that has a design_info. *)
Definition dm_repr (d : @design_info V) (m : @dmat V) : result string :=
  let names := column_names d in
  let* t := table names m in
  Ok (mini_pretty (
    [PBegin INDENT ("DesignMatrix with shape (" ++ nat_str (m_rows m) ++ ", " ++ nat_str (List.length (m_cols m)) ++ ")"); PBreakable nl]
    ++ (match t with Some t => table_calls names (m_rows m) t | None => column_calls names end)
    ++ [PBegin 2 "Terms:"; PBreakable nl] ++ flat_map term_call (di_name_slices d) ++ [PEnd 2 ""]
    ++ (if (match t with None => true | Some _ => Nat.ltb MAX_ROWS (m_rows m) end)
        then [PBreakable nl; PText "(to view full data, use np.asarray(this_obj))"] else [])
    ++ [PEnd INDENT ""])).
End Repr.
