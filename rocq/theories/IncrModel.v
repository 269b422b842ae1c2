(** The transforms that come with patsy as classes of stateful transforms (FitModel): objects with
    [__init__], [memorize_chunk], [memorize_finish] and [transform] (patsy/state.py:92-193,
    splines.py:145-280, mgcv_cubic_splines.py:597-999).  The data is given in positional arguments; the other
    arguments are constants. *)
From Coq Require Import ZArith.
From Verif Require Import Base NumModel StateModel LinModel SplineModel BsModel FitModel.
Open Scope nat_scope.
Open Scope list_scope.

(** The states of objects of these classes. *)
Inductive tstate :=
  | ObCenter (s : center)
  | ObStandardize (s : standardize)
  | ObBsTmp (tmp : option (bs_args * list (list Qc)))
  | ObBs (s : bs)
  | ObCrsTmp (tmp : option (crs_args * list (list Qc)))
  | ObCrs (s : crs)
  | ObTeTmp (s : te)
  | ObTe (cn : option (nat * mat)).
Definition bad_call {A} : result A := Err (TypeError "bad call").
Definition matrix_value (r : result (nat * mat)) : result arr := let* m := r in Ok (A2 (fst m) (snd m)).

(** state.py:102-135 *)
Definition center_class : @tclass arr tstate := mkClass
  (ObCenter center_init)
  (fun s args => match s, args with ObCenter s, [x] => let* s := center_chunk s x in Ok (ObCenter s) | _, _ => bad_call end)
  (fun s => Ok s)
  (fun s args => match s, args with ObCenter s, [x] => center_transform s x | _, _ => bad_call end).
(** state.py:161-193 *)
Definition standardize_class (sqrt : Qc -> Qc) (center rescale : bool) (ddof : nat) : @tclass arr tstate := mkClass
  (ObStandardize std_init)
  (fun s args => match s, args with ObStandardize s, [x] => let* s := std_chunk s x in Ok (ObStandardize s) | _, _ => bad_call end)
  (fun s => Ok s)
  (fun s args => match s, args with ObStandardize s, [x] => std_transform sqrt s x center rescale ddof | _, _ => bad_call end).
(** splines.py:145-280; line 180: [self._tmp["args"]] *)
Definition bs_class (a : bs_args) : @tclass arr tstate := mkClass
  (ObBsTmp None)
  (fun s args => match s, args with ObBsTmp t, [x] => let* t := bs_chunk a t x in Ok (ObBsTmp t) | _, _ => bad_call end)
  (fun s => match s with ObBsTmp (Some (a, xs)) => let* b := bs_finish a (concat xs) in Ok (ObBs b) | ObBsTmp None => Err KeyError | _ => bad_call end)
  (fun s args => match s, args with ObBs b, [x] => matrix_value (bs_transform a b x) | _, _ => bad_call end).
Section Qr.
Variable qr : nat -> mat -> result (mat * mat).
(** mgcv_cubic_splines.py:597-716 *)
Definition crs_class (cyclic : bool) (a : crs_args) : @tclass arr tstate := mkClass
  (ObCrsTmp None)
  (fun s args => match s, args with ObCrsTmp t, [x] => let* t := crs_chunk a t x in Ok (ObCrsTmp t) | _, _ => bad_call end)
  (fun s => match s with ObCrsTmp (Some (a, xs)) => let* c := crs_finish cyclic a (concat xs) in Ok (ObCrs c) | ObCrsTmp None => Err KeyError | _ => bad_call end)
  (fun s args => match s, args with ObCrs c, [x] => matrix_value (crs_transform qr cyclic c x) | _, _ => bad_call end).
(** mgcv_cubic_splines.py:948-999 *)
Definition te_class (c : constr) : @tclass arr tstate := mkClass
  (ObTeTmp te_init)
  (fun s args => match s with ObTeTmp t => let* t := te_chunk c t args in Ok (ObTeTmp t) | _ => bad_call end)
  (fun s => match s with ObTeTmp t => let* cn := te_finish t in Ok (ObTe cn) | _ => bad_call end)
  (fun s args => match s with ObTe cn => matrix_value (te_transform qr cn args) | _ => bad_call end).
End Qr.

(** Values in general: the transforms take them through np.asarray and give arrays (state.py:107, 120-124,
    167, 186; splines.py:31, 170; mgcv_cubic_splines.py:622, 702, 957, 992). *)
Section Values.
Context {val St : Type}.
Variable as_arr : val -> result arr.
Variable of_arr : arr -> val.
Definition on_values (c : @tclass arr St) : @tclass val St := mkClass
  (c_new c)
  (fun s args => let* xs := mapM as_arr args in c_chunk c s xs)
  (c_finish c)
  (fun s args => let* xs := mapM as_arr args in let* y := c_transform c s xs in Ok (of_arr y)).
End Values.
