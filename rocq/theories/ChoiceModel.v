(** patsy/contrasts.py: which coding a [contrast] argument stands for. *)
From Verif Require Import Base NumModel BuildModel ContrastModel.
Open Scope nat_scope.
Open Scope string_scope.
Open Scope list_scope.

Section Choice.
Context {L : Type}.
(** What may be given as contrast, as far as code_contrast_matrix can tell: *)
Inductive coder : Type :=
  | CallIt (value : result coder)     (** callable, such as a class; what calling it does *)
  | CodeMatrix (c : contrast)         (** a ContrastMatrix *)
  | Numbers (shape : list nat) (m : mat)  (** np.asarray makes an array of numbers of it; [m] is it when 2-dimensional *)
  | Coder (full reduced : list L -> result contrast)  (** its methods code_with_intercept, code_without_intercept *)
  | OtherObject.                      (** anything else, also None *)
(** contrasts.py:627-642 [code_contrast_matrix].  The last case is an AttributeError in Python. *)
Definition code_contrast_matrix (intercept : bool) (levels : list L) (arg default : option coder) : result contrast :=
  let c := match arg with None => match default with None => OtherObject | Some d => d end | Some c => c end in
  let* c := match c with CallIt r => r | _ => Ok c end in
  match c with
  | CodeMatrix m => Ok m
  | Numbers shape m =>
      match nth_error shape 1 with
      | None => Err IndexError
      | Some p => mk_contrast p m (name_strs "custom" (map nat_str (seq 0 p)))
      end
  | Coder full reduced => if intercept then full levels else reduced levels
  | CallIt _ | OtherObject => Err (TypeError "object has no attribute 'code_with_intercept'")
  end.
End Choice.
Arguments coder : clear implicits.
