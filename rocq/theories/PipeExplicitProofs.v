(** What becomes of the design_info of explicit matrices. *)
From Verif Require Import Base UtilModel DescModel FormulaModel ParseFormulaModel BuildModel BuildSpec BuildProofs BuildDesignProofs MemorizeModel MemorizeSpec CategoricalModel CategoricalSpec PipeModel PipeSpec PipeProofs PipeHighProofs.
Open Scope nat_scope.

Section Explicit.
Context {V I S : Type}.
Variables (ilabel : nat -> I) (ieqb : I -> I -> bool) (upcast : V -> V) (vobj : V).
Local Notation array := (@array V I S).
Local Notation regularize := (regularize ilabel upcast).
Lemma to_matrix_info (a : array) d m : (forall own, a_is_dm a = true -> a_info a = Some own -> own = d) -> to_design_matrix upcast a d = Ok m -> x_design m = d.
Proof.
  intros Ha. unfold to_design_matrix. destruct (a_is_dm a); [destruct (a_info a) as [own|]|]; intros H; [injection H as <-; cbn; auto| |];
    (apply check_ok in H; destruct H as [_ H]; apply check_ok in H; destruct H as [_ H]; apply check_ok in H; destruct H as [_ H]; injection H as <-; reflexivity).
Qed.
Lemma to_frame_info (a : array) d m : to_data_frame ilabel a d = Ok m -> x_design m = d.
Proof. unfold to_data_frame. intros H. apply check_ok in H. destruct H as [_ H]. apply check_ok in H. destruct H as [_ H]. injection H as <-. reflexivity. Qed.
(** The design is the one the array has, or else a new one. *)
Lemma regularize_info rt p (a : array) m i : regularize rt p a = Ok (m, i) ->
  match a_info a with
  | Some d => x_design m = d
  | None => ds_known (x_design m) = [] /\ mk_design_info (array_names p a) None None = Ok (ds_info (x_design m))
  end.
Proof.
  unfold PipeModel.regularize. destruct (from_array p a) as [d|] eqn:Ed; [|discriminate]. cbn [bind]. intros H.
  assert (Ha : forall own, a_is_dm a = true -> a_info a = Some own -> own = d) by (intros own _ Ho; unfold from_array in Ed; rewrite Ho in Ed; congruence).
  assert (E : x_design m = d).
  { destruct rt; cbn [bind] in H.
    - destruct (to_design_matrix upcast a d) as [m'|] eqn:Em; [|discriminate]. injection H as <- _. eapply to_matrix_info; eassumption.
    - destruct (to_data_frame ilabel a d) as [m'|] eqn:Em; [|discriminate]. injection H as <- _. eapply to_frame_info; eassumption.
    - destruct (to_design_matrix upcast a d) as [m'|] eqn:Em; [|discriminate]. injection H as <- _. eapply to_matrix_info; eassumption. }
  rewrite E. unfold from_array in Ed. destruct (a_info a) as [d'|]; [congruence|]. destruct (Nat.ltb 2 (a_ndim a)); [discriminate|].
  destruct (mk_design_info (array_names p a) None None) as [di|] eqn:Ei; [|discriminate]. injection Ed as <-. split; reflexivity.
Qed.
Lemma explicit_designs rt (lhs : @side V I S) (rhs : array) l r : explicit ilabel ieqb upcast vobj rt lhs rhs = Ok (l, r) ->
  exists mr ri ml li, regularize rt "x" rhs = Ok (mr, ri) /\ regularize rt "y" (match lhs with SNone => no_columns (m_rows (x_mat mr)) | _ => side_array vobj lhs end) = Ok (ml, li) /\
    x_design l = x_design ml /\ x_design r = x_design mr.
Proof.
  unfold explicit. destruct (regularize rt "x" rhs) as [[mr ri]|]; [|discriminate]. cbn [bind]. destruct (regularize rt "y" _) as [[ml li]|] eqn:El; [|discriminate]. cbn [bind].
  destruct (negb _); [discriminate|]. destruct (match ri with Some _ => _ | None => false end); [discriminate|]. intros H. exists mr, ri, ml, li. split; [reflexivity|]. split; [exact El|].
  destruct rt; [|destruct ri, li|]; injection H as <- <-; auto.
Qed.
Lemma design_rejected p (d : @design V S) m i : regularize RMatrix p (side_array vobj (SDesign d)) <> Ok (m, i).
Proof.
  cbn. unfold to_design_matrix. cbn. unfold check. destruct (Nat.eqb _ _); cbn; discriminate.
Qed.
Lemma none_rejected p (m : @matrix V I S) i : regularize RMatrix p (side_array vobj (@SNone V I S)) <> Ok (m, i).
Proof.
  intros H. unfold PipeModel.regularize, from_array, mk_design_info in H. cbn in H. unfold to_design_matrix, check in H. cbn in H. rewrite String.eqb_refl in H. cbn in H. discriminate.
Qed.
End Explicit.
