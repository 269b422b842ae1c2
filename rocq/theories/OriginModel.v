(** Model of patsy/origin.py. *)
From Verif Require Import Base.

(** origin.py:70 [min([o.start for o in origins])] on a non-empty list. *)
Definition min_list (x : nat) (l : list nat) : nat := fold_left Nat.min l x.
(** origin.py:71 [max([o.end for o in origins])]. *)
Definition max_list (x : nat) (l : list nat) : nat := fold_left Nat.max l x.

(** origin.py:59-65: drop the [None]s.  An argument object is represented by
    its origin (the [obj.origin] step of lines 61-62 is done by the caller). *)
Fixpoint keep_some {A} (l : list (option A)) : list A :=
  match l with
  | [] => []
  | None :: r => keep_some r
  | Some x :: r => x :: keep_some r
  end.

(** origin.py:42-72 [Origin.combine].  [assert len(codes) == 1] is line 69. *)
Definition combine (objs : list (option origin)) : result (option origin) :=
  match keep_some objs with
  | [] => Ok None
  | o :: os =>
      assert (forallb (fun o' => String.eqb (o_code o') (o_code o)) os)
        (Ok (Some (mkOrigin (o_code o)
                     (min_list (o_start o) (map o_start os))
                     (max_list (o_end o) (map o_end os)))))
  end.

(** origin.py:74-77 [relevant_code]: [self.code[self.start:self.end]]
    (non-negative indices, as produced by the tokenizers). *)
Definition relevant_code (o : origin) : string :=
  String.substring (o_start o) (o_end o - o_start o) (o_code o).

(** Python's [s * n] for a one-character string. *)
Fixpoint repeat_str (s : string) (n : nat) : string :=
  match n with 0 => EmptyString | S n => String.append s (repeat_str s n) end.

(** origin.py:93-110 [caretize]. *)
Definition caretize (o : origin) (indent : nat) : string * string :=
  (String.append (repeat_str " " indent) (o_code o),
   String.append (repeat_str " " indent)
     (String.append (repeat_str " " (o_start o)) (repeat_str "^" (o_end o - o_start o)))).
