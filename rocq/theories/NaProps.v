(** C105: NA_action="raise" and NA_action="drop". *)
From Coq Require Import ZArith QArith Permutation.
From Verif Require Import Base TokensModel ParseFormulaModel NumModel DescModel FormulaModel BuildModel BuildSpec MemorizeModel CategoricalModel PipeModel PipeSpec PipeSeedSpec IncrProps DropProps NaProofs.
Open Scope string_scope.
Open Scope list_scope.
Open Scope nat_scope.

(** C105.  Two NA actions with the same idea of what is missing, one that raises and one that drops.  The designs are
    the same.  Whatever matrices "raise" gives, "drop" gives too.  Where "drop" gives matrices, "raise" gives the same
    ones, or complains about one of the factors: then that factor is missing somewhere, and "drop" has left out rows. *)
Theorem raise_or_drop : forall {V I C S D : Type} (vone : V) (vmul : V -> V -> V) (visnan : V -> bool) (ilabel : nat -> I) (ieqb : I -> I -> bool)
  (passes : factor -> result (S * Z)) (chunk : factor -> S -> nat -> D -> result S) (finish : factor -> S -> nat -> result S)
  (eval : factor -> S -> D -> result (@fobj V I C)) (origin_of : factor -> option origin) (code_cm : list pval -> option C -> bool -> result (@ctr V))
  hash set_order order_mem order_exam addr hash_order (df_index : D -> option (list I)) (raise drop : na_arg) (w : na_types),
  let builders := design_matrix_builders passes chunk finish eval origin_of code_cm hash set_order order_mem order_exam addr hash_order in
  let build := build vone vmul visnan ilabel ieqb eval origin_of df_index in
  (forall a b, ieqb a b = true <-> a = b) -> indexed eval ->
  get_action raise = Ok (mkAction NARaise w) -> get_action drop = Ok (mkAction NADrop w) ->
  (forall data tls, builders data raise tls = builders data drop tls) /\
  (forall ds d want r, designs_ok ds -> build ds d raise want = Ok r -> build ds d drop want = Ok r) /\
  (forall ds d want ms labels, designs_ok ds -> build ds d drop want = Ok (ms, labels) ->
     build ds d raise want = Ok (ms, labels) \/
     exists fi e, In fi (all_infos (map ds_info ds)) /\ eval_info visnan eval origin_of (concat (map ds_known ds)) w d fi = Ok e /\ In true (ev_isna e) /\
       build ds d raise want = Err (PatsyError "factor contains missing values" (origin_of (fi_factor fi))) /\
       forall m, In m ms -> m_rows m < vrows (ev_value e)).
Proof.
  intros V I C S D vone vmul visnan ilabel ieqb passes chunk finish eval origin_of code_cm hash set_order order_mem order_exam addr hash_order df_index raise drop w builders build Hi Hx Hr Hd.
  split; [|split].
  - intros data tls. exact (builders_na _ _ _ _ _ _ _ _ _ _ _ _ _ _ _ Hr Hd data tls).
  - intros ds d want r. exact (drop_of_raise vone vmul visnan ilabel ieqb Hi eval origin_of df_index Hx raise drop w Hr Hd ds d want r).
  - intros ds d want ms labels. exact (raise_of_drop vone vmul visnan ilabel ieqb Hi eval origin_of df_index Hx raise drop w Hr Hd ds d want ms labels).
Qed.
Print Assumptions raise_or_drop.

(** The same for [dmatrices] and [dmatrix] and everything that can be given for a formula. *)
Theorem raise_or_drop_formula : forall {V I C S D : Type} (vone : V) (vmul : V -> V -> V) (visnan : V -> bool) (ilabel : nat -> I) (ieqb : I -> I -> bool)
  (passes : factor -> result (S * Z)) (chunk : factor -> S -> nat -> D -> result S) (finish : factor -> S -> nat -> result S)
  (eval : factor -> S -> D -> result (@fobj V I C)) (origin_of : factor -> option origin) (code_cm : list pval -> option C -> bool -> result (@ctr V))
  hash set_order order_mem order_exam addr hash_order (df_index : D -> option (list I)) (upcast : V -> V) (vobj : V) (tokenize : string -> list pytok * option exn) norm is_float have_pandas
  (raise drop : na_arg) (w : na_types),
  let dmatrices := dmatrices vone vmul visnan ilabel ieqb passes chunk finish eval origin_of code_cm hash set_order order_mem order_exam addr hash_order df_index upcast vobj tokenize norm is_float have_pandas in
  let dmatrix := dmatrix vone vmul visnan ilabel ieqb passes chunk finish eval origin_of code_cm hash set_order order_mem order_exam addr hash_order df_index upcast vobj tokenize norm is_float have_pandas in
  (forall a b, ieqb a b = true <-> a = b) -> indexed eval ->
  (forall l, Permutation (set_order l) l) -> (forall n l, Permutation (order_mem n l) l) -> (forall n l, Permutation (order_exam n l) l) ->
  get_action raise = Ok (mkAction NARaise w) -> get_action drop = Ok (mkAction NADrop w) ->
  forall fl d rt, proper_input fl ->
  (forall r, dmatrices fl d raise rt = Ok r -> dmatrices fl d drop rt = Ok r) /\
  (forall r, dmatrix fl d raise rt = Ok r -> dmatrix fl d drop rt = Ok r) /\
  (forall l r, dmatrices fl d drop rt = Ok (l, r) -> dmatrices fl d raise rt = Ok (l, r) \/
     exists fi e, In fi (all_infos [ds_info (x_design l); ds_info (x_design r)]) /\
       eval_info visnan eval origin_of (ds_known (x_design l) ++ ds_known (x_design r)) w d fi = Ok e /\ In true (ev_isna e) /\
       m_rows (x_mat l) < vrows (ev_value e) /\ m_rows (x_mat r) < vrows (ev_value e) /\
       dmatrices fl d raise rt = Err (PatsyError "factor contains missing values" (origin_of (fi_factor fi)))) /\
  (forall r, dmatrix fl d drop rt = Ok r -> dmatrix fl d raise rt = Ok r \/
     exists f, dmatrix fl d raise rt = Err (PatsyError "factor contains missing values" (origin_of f))).
Proof.
  intros V I C S D vone vmul visnan ilabel ieqb passes chunk finish eval origin_of code_cm hash set_order order_mem order_exam addr hash_order df_index upcast vobj tokenize norm is_float have_pandas raise drop w
    dms dm Hi Hx H1 H2 H3 Hr Hd fl d rt Hp.
  pose proof (highlevel_drop_of_raise vone vmul visnan ilabel ieqb Hi passes chunk finish eval origin_of code_cm hash set_order order_mem order_exam addr hash_order df_index upcast vobj tokenize norm is_float have_pandas H1 H2 H3 Hx raise drop w Hr Hd fl d rt) as A.
  pose proof (highlevel_raise_of_drop vone vmul visnan ilabel ieqb Hi passes chunk finish eval origin_of code_cm hash set_order order_mem order_exam addr hash_order df_index upcast vobj tokenize norm is_float have_pandas H1 H2 H3 Hx raise drop w Hr Hd fl d rt) as B.
  unfold dms, dm, PipeModel.dmatrices, PipeModel.dmatrix. match type of A with forall r, _ -> ?x = _ -> ?y = _ => set (hr := x) in *; set (hd := y) in * end. clearbody hr hd.
  split; [|split; [|split]].
  - intros r. destruct hr as [p|]; cbn [bind]; [|discriminate]. rewrite (A p Hp eq_refl). intros H. exact H.
  - intros r. destruct hr as [p|]; cbn [bind]; [|discriminate]. rewrite (A p Hp eq_refl). intros H. exact H.
  - intros l r. destruct hd as [[l0 r0]|]; cbn [bind]; [|discriminate]. intros H. destruct (B l0 r0 Hp eq_refl) as [->|[fi [e [B1 [B2 [B3 [B4 [B5 B6]]]]]]]]; [left; exact H|right].
    destruct (Nat.eqb _ 0); [discriminate|]. injection H as <- <-. exists fi, e. rewrite B6. repeat (split; [assumption|]). reflexivity.
  - intros r. destruct hd as [[l0 r0]|]; cbn [bind]; [|discriminate]. intros H. destruct (B l0 r0 Hp eq_refl) as [->|[fi [e [B1 [B2 [B3 [B4 [B5 B6]]]]]]]]; [left; exact H|right].
    exists (fi_factor fi). rewrite B6. reflexivity.
Qed.
Print Assumptions raise_or_drop_formula.

(** * Examples *)
(** The rows of DropProps: with every value there, and with one missing. *)
Definition complete : list drow := [(VStr "p", VStr "u", qz 1); (VStr "q", VStr "w", qz 2); (VStr "p", VStr "w", qz 9)].
Definition nresult na tl (d : list drow) := let* ds := dbuilders (fun _ => [d]) na [tl] in dbuild ds d na false.
Example raise_or_drop_hyps : get_action (NAStr "raise") = Ok (mkAction NARaise (mkNA true true)) /\ get_action (NAStr "drop") = Ok (mkAction NADrop (mkNA true true)) /\ indexed deval.
Proof. split; [reflexivity|]. split; [reflexivity|]. exact (proj1 drop_hyps). Qed.
Example raise_same : exists r, nresult (NAStr "raise") [["b"]; ["center(x)"]] complete = Ok r /\ nresult (NAStr "drop") [["b"]; ["center(x)"]] complete = Ok r.
Proof. eexists. split; vm_compute; reflexivity. Qed.
Example raise_differs : nresult (NAStr "raise") [["b"]; ["center(x)"]] d1 = Err (PatsyError "factor contains missing values" None) /\
  exists m, nresult (NAStr "drop") [["b"]; ["center(x)"]] d1 = Ok ([m], None) /\ m_rows m = 2 /\ length d1 = 3.
Proof. split; [vm_compute; reflexivity|]. eexists. split; [vm_compute; reflexivity|]. split; reflexivity. Qed.
