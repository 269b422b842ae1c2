(** C102: designs and matrices made together, and apart. *)
From Coq Require Import ZArith QArith Permutation.
From Verif Require Import Base DescModel FormulaModel BuildModel BuildSpec MemorizeModel MemorizeSpec RedundancySpec CategoricalModel CategoricalSpec PipeModel PipeSpec
  PipeSeedSpec EntrySpec PipeErrSpec IncrProps ArrangeSpec DropSpec ApartProofs.
Open Scope string_scope.
Open Scope list_scope.
Open Scope nat_scope.

(** C102.  Designs made together, some of them made apart: the same designs. *)
Theorem designs_apart : forall {V I C S D : Type} (passes : factor -> result (S * Z)) (chunk : factor -> S -> nat -> D -> result S) (finish : factor -> S -> nat -> result S)
  (eval : factor -> S -> D -> result (@fobj V I C)) (origin_of : factor -> option origin) (code_cm : list pval -> option C -> bool -> result (@ctr V))
  (w : run_of_python) (chunks : list D) na (tls : list (list term)) js ds,
  let builders := design_matrix_builders passes chunk finish eval origin_of code_cm (py_hash w) (py_set_order w) (py_order_mem w) (py_order_exam w) (py_addr w) (py_hash_order w) in
  lawful tls w -> builders (fun _ => chunks) na tls = Ok ds ->
  exists ds', builders (fun _ => chunks) na (pick tls js) = Ok ds' /\ Forall2 same_design (pick ds js) ds'.
Proof. intros V I C S D passes chunk finish eval origin_of code_cm w chunks na tls js ds builders. now apply apart_builders. Qed.
Print Assumptions designs_apart.

(** They can be made together if each can be made alone. *)
Theorem designs_together : forall {V I C S D : Type} (passes : factor -> result (S * Z)) (chunk : factor -> S -> nat -> D -> result S) (finish : factor -> S -> nat -> result S)
  (eval : factor -> S -> D -> result (@fobj V I C)) (origin_of : factor -> option origin) (code_cm : list pval -> option C -> bool -> result (@ctr V))
  (w : run_of_python) (chunks : list D) na (tls : list (list term)),
  let builders := design_matrix_builders passes chunk finish eval origin_of code_cm (py_hash w) (py_set_order w) (py_order_mem w) (py_order_exam w) (py_addr w) (py_hash_order w) in
  lawful tls w -> tls <> [] ->
  ((exists ds, builders (fun _ => chunks) na tls = Ok ds) <-> forall tl, In tl tls -> exists ds, builders (fun _ => chunks) na [tl] = Ok ds).
Proof.
  intros V I C S D passes chunk finish eval origin_of code_cm w chunks na tls builders L Hne. split.
  - intros [ds E] tl Ht. apply In_nth_error in Ht. destruct Ht as [j Hj].
    destruct (apart_builders passes chunk finish eval origin_of code_cm w chunks na tls [j] ds L E) as [ds' [E' _]]. unfold pick in E'. cbn [flat_map] in E'. rewrite Hj in E'. eauto.
  - now apply together_builders.
Qed.
Print Assumptions designs_together.

(** The matrices: a matrix made together with others is the one made apart, without the rows that are dropped
    because of the others. *)
Theorem matrices_apart : forall {V I C S D : Type} (vone : V) (vmul : V -> V -> V) (visnan : V -> bool) (ilabel : nat -> I) (ieqb : I -> I -> bool)
  (passes : factor -> result (S * Z)) (chunk : factor -> S -> nat -> D -> result S) (finish : factor -> S -> nat -> result S)
  (eval : factor -> S -> D -> result (@fobj V I C)) (origin_of : factor -> option origin) (code_cm : list pval -> option C -> bool -> result (@ctr V)) (df_index : D -> option (list I))
  (w : run_of_python) (chunks : list D) na (tls : list (list term)) js ds d na' want n r,
  let builders := design_matrix_builders passes chunk finish eval origin_of code_cm (py_hash w) (py_set_order w) (py_order_mem w) (py_order_exam w) (py_addr w) (py_hash_order w) in
  let build := build vone vmul visnan ilabel ieqb eval origin_of df_index in
  (forall a b, ieqb a b = true <-> a = b) -> indexed eval -> (forall f s d o, eval f s d = Ok o -> tidy o) ->
  (forall levels c full m, code_cm levels c full = Ok m -> forall row, In row (ct_rows m) -> length row = ct_ncols m) ->
  lawful tls w -> builders (fun _ => chunks) na tls = Ok ds -> (factors_of (pick tls js) <> [] \/ df_index d <> None) ->
  has_rows eval df_index ds d n -> build ds d na' want = Ok r ->
  exists ds' act r' rows, builders (fun _ => chunks) na (pick tls js) = Ok ds' /\ get_action na' = Ok act /\ build ds' d na' want = Ok r' /\
    let stay ds := staying eval visnan origin_of act ds d n in
    positions (stay ds') (stay ds) rows /\
    Forall2 (fun m m' => m_rows m = length rows /\ m_rows m' = length (stay ds') /\ m_cols m = map (fun col => pick col rows) (m_cols m')) (pick (fst r) js) (fst r') /\
    (labelled eval df_index ds' d -> snd r = option_map (fun l => pick l rows) (snd r')).
Proof.
  intros V I C S D vone vmul visnan ilabel ieqb passes chunk finish eval origin_of code_cm df_index w chunks na tls js ds d na' want n r builders build Hi Hx Ht Hc L Eb Hs Hr Hb.
  exact (apart_matrices vone vmul visnan ilabel ieqb Hi passes chunk finish eval origin_of code_cm df_index Hx w chunks Ht Hc na tls js ds d na' want n r L Eb Hs Hr Hb).
Qed.
Print Assumptions matrices_apart.

(** So the right-hand side of a formula has the design it has without the left-hand side; and the right-hand matrix
    is the one without the left-hand side, except for rows dropped because of the left-hand side. *)
Theorem right_side_alone : forall {V I C S D : Type} (vone : V) (vmul : V -> V -> V) (visnan : V -> bool) (ilabel : nat -> I) (ieqb : I -> I -> bool)
  (passes : factor -> result (S * Z)) (chunk : factor -> S -> nat -> D -> result S) (finish : factor -> S -> nat -> result S)
  (eval : factor -> S -> D -> result (@fobj V I C)) (origin_of : factor -> option origin) (code_cm : list pval -> option C -> bool -> result (@ctr V)) (df_index : D -> option (list I))
  (w : run_of_python) (chunks : list D) na (md md' : model_desc) l r,
  let desc := desc_builders passes chunk finish eval origin_of code_cm (py_hash w) (py_set_order w) (py_order_mem w) (py_order_exam w) (py_addr w) (py_hash_order w) in
  let build := build vone vmul visnan ilabel ieqb eval origin_of df_index in
  (forall a b, ieqb a b = true <-> a = b) -> indexed eval -> (forall f s d o, eval f s d = Ok o -> tidy o) ->
  (forall levels c full m, code_cm levels c full = Ok m -> forall row, In row (ct_rows m) -> length row = ct_ncols m) ->
  lawful [lhs_termlist md; rhs_termlist md] w -> lhs_termlist md' = [] -> rhs_termlist md' = rhs_termlist md ->
  desc (fun _ => chunks) na md = Ok (Some (l, r)) ->
  exists e r', desc (fun _ => chunks) na md' = Ok (Some (e, r')) /\ same_design r r' /\
    forall d na' want n res, (factors_of [rhs_termlist md] <> [] \/ df_index d <> None) -> has_rows eval df_index [l; r] d n -> build [l; r] d na' want = Ok res ->
      exists act ml mr me mr' labels rows, get_action na' = Ok act /\ fst res = [ml; mr] /\ build [e; r'] d na' want = Ok ([me; mr'], labels) /\
        positions (staying eval visnan origin_of act [e; r'] d n) (staying eval visnan origin_of act [l; r] d n) rows /\
        m_rows mr = length rows /\ m_cols mr = map (fun col => pick col rows) (m_cols mr') /\
        (labelled eval df_index [e; r'] d -> snd res = option_map (fun x => pick x rows) labels).
Proof.
  intros V I C S D vone vmul visnan ilabel ieqb passes chunk finish eval origin_of code_cm df_index w chunks na md md' l r desc build Hi Hx Ht Hc L El Er Ed.
  apply PipeHighProofs.desc_builders_ok in Ed.
  destruct (right_alone vone vmul visnan ilabel ieqb Hi passes chunk finish eval origin_of code_cm df_index Hx w chunks Ht Hc na _ _ l r L Ed) as [e [r' [E [Hsd G]]]].
  exists e, r'. split; [|split; [exact Hsd|exact G]]. unfold desc, desc_builders. rewrite El, Er, E. reflexivity.
Qed.
Print Assumptions right_side_alone.

(** * Example *)
(** Rows have a category [a], which may be missing, and a number [b]: in [a ~ b] row 1 is dropped. *)
Definition prow := (pval * Q)%type.
Definition peval (f : factor) (_ : unit) (d : list prow) : result (@fobj Q nat unit) :=
  if String.eqb f "a" then Ok (mkObj (Plain (DSeq false (map fst d))) 1 1 false [] None)
  else Ok (mkObj (Plain (DArray true 1 1)) 1 1 true (map (fun r => [snd r]) d) (Some (map (fun k => 10 * k) (seq 0 (length d))))).
Definition pbuilders := design_matrix_builders (fun _ => Ok (tt, 0%Z)) (fun _ s _ _ => Ok s) (fun _ s _ => Ok s) peval (fun _ => None) zcm
  (py_hash zrun) (py_set_order zrun) (py_order_mem zrun) (py_order_exam zrun) (py_addr zrun) (py_hash_order zrun).
Definition pbuild := build 1%Q Qmult (fun _ => false) (fun n => n) Nat.eqb peval (fun _ => None) (fun _ : list prow => None).
Definition pd : list prow := [(VStr "u", 5%Q); (VNone, 6%Q); (VStr "w", 7%Q)].
Definition ptls : list (list term) := [[["a"]]; [[]; ["b"]]].
Definition pds tls := match pbuilders (fun _ => [pd]) (NAStr "drop") tls with Ok ds => ds | Err _ => [] end.
Example apart_ex :
  (let* ds := pbuilders (fun _ => [pd]) (NAStr "drop") ptls in pbuild ds pd (NAStr "drop") true) = Ok ([mkMat 2 [[1; 0]; [0; 1]]; mkMat 2 [[1; 1]; [5; 7]]]%Q, Some [0; 20]) /\
  (let* ds := pbuilders (fun _ => [pd]) (NAStr "drop") (pick ptls [1]) in pbuild ds pd (NAStr "drop") true) = Ok ([mkMat 3 [[1; 1; 1]; [5; 6; 7]]]%Q, Some [0; 10; 20]).
Proof. split; vm_compute; reflexivity. Qed.
Example apart_hyps : indexed peval /\ (forall f s d o, peval f s d = Ok o -> tidy o) /\
  (forall levels c full m, zcm levels c full = Ok m -> forall row, In row (ct_rows m) -> length row = ct_ncols m) /\
  lawful ptls zrun /\ (exists ds, pbuilders (fun _ => [pd]) (NAStr "drop") ptls = Ok ds) /\ factors_of (pick ptls [1]) <> [] /\ has_rows peval (fun _ => None) (pds ptls) pd 3.
Proof.
  split; [|split; [|split; [|split; [|split; [|split]]]]].
  - intros f s d o i. unfold peval. destruct (String.eqb f "a"); intros [= <-]; cbn; [discriminate|]. intros [= <-]. split; [now rewrite !map_length, seq_length|].
    intros cats na org codes. cbn. destruct (forallb hashable cats); discriminate.
  - intros f s d o. unfold peval. destruct (String.eqb f "a"); intros [= <-]; (split; [|split; [exact Logic.I|discriminate]]); cbn; [intros row []|].
    intros row Hr. apply in_map_iff in Hr. now destruct Hr as [x [<- _]].
  - intros levels c full m. unfold zcm. destruct full; intros [= <-]; cbn [ct_rows ct_ncols ct_suffixes]; intros row Hr; apply in_map_iff in Hr; destruct Hr as [i [<- _]]; unfold ct_ncols; cbn; rewrite !map_length, seq_length; [reflexivity|].
    destruct levels; cbn; [reflexivity|lia].
  - apply zrun_lawful. repeat apply Forall_cons; try apply Forall_nil; intros f [<-|[]]; cbn; auto.
  - eexists. vm_compute. reflexivity.
  - discriminate.
  - split; [discriminate|]. intros fi o [Hfi [s [c [_ E]]]]. revert E. assert (F : fi = mkFI 0 "a" (FCat 2) \/ fi = mkFI 1 "b" (FNum 1)) by (vm_compute in Hfi |- *; destruct Hfi as [<-|[<-|[]]]; auto).
    destruct F as [-> | ->]; cbn; intros [= <-]; reflexivity.
Qed.
