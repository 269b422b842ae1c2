(** What the arguments of C() mean (C73), and which texts are missing values (C33). *)
From Coq Require Import Ascii QArith Qcanon.
From Verif Require Import Base NumModel BuildModel ContrastModel CategoricalModel CategoricalSpec MiscProofs ChoiceModel ChoiceSpec ChoiceProofs.
Open Scope nat_scope.
Open Scope string_scope.
Open Scope list_scope.

(** C(... C(C(x, c1, l1), c2, l2) ...): for contrast and levels separately, the outermost one given counts. *)
Theorem nested_C : forall (C : Type) (d : @cdata) (args : list (option C * option (list pval))) c1 l1,
  exists c l, fold_left (fun v a => C_box v (fst a) (snd a)) args (C_box (Plain d) c1 l1) = Boxed d c l /\
    last_given (c1 :: map fst args) c /\ last_given (l1 :: map snd args) l.
Proof.
  intros C d args c1 l1. exists (fold_left override (map fst args) c1), (fold_left override (map snd args) l1).
  split; [|split; apply overrides]. cbn [C_box]. revert c1 l1. induction args as [|a args IH]; intros c1 l1; [reflexivity|]. cbn. apply IH.
Qed.
Print Assumptions nested_C.

(** ... and there is only one such. *)
Theorem outermost_unique : forall (A : Type) (l : list (option A)) x y, last_given l x -> last_given l y -> x = y.
Proof. intros A l x y. apply last_given_unique. Qed.
Print Assumptions outermost_unique.

(** Boxing in C never loses or changes the data, and always makes it categorical. *)
Theorem C_is_categorical : forall (C : Type) (v : @value C) c l, guess_categorical (C_box v c l) = true.
Proof. intros C [d c l|d] c' l'; reflexivity. Qed.
Print Assumptions C_is_categorical.

(** A matrix is used as it is, for both kinds of coding and whatever the levels are. *)
Theorem matrix_contrast_as_given : forall (L : Type) intercept (levels : list L) default c,
  code_contrast_matrix intercept levels (Some (CodeMatrix c)) default = Ok c /\
  forall n p m, exists c', code_contrast_matrix intercept levels (Some (Numbers [n; p] m)) default = Ok c' /\
    cm_matrix c' = m /\ length (cm_suffixes c') = p /\ NoDup (cm_suffixes c') /\
    forall j, j < p -> nth j (cm_suffixes c') "" = ("[custom" ++ nat_str j ++ "]")%string.
Proof.
  intros L intercept levels default c. split; [reflexivity|]. intros n p m. cbn. unfold mk_contrast, name_strs. rewrite !map_length, seq_length, Nat.eqb_refl.
  eexists. split; [reflexivity|]. cbn [cm_matrix cm_suffixes]. split; [reflexivity|]. rewrite !map_length, seq_length. split; [reflexivity|]. rewrite map_map. split.
  - apply NoDup_map_inj; [|apply seq_NoDup]. intros x y _ _ H. apply nat_str_inj.
    assert (G : forall a b, (a ++ "]")%string = (b ++ "]")%string -> a = b).
    { induction a as [|ca a IH]; intros [|cb b] E; auto; cbn in E.
      - injection E as _ E. destruct b; discriminate.
      - injection E as _ E. destruct a; discriminate.
      - injection E as -> E. f_equal. auto. }
    apply G. cbn in H. now injection H as H.
  - intros j Hj. rewrite (nth_indep _ "" ("[custom" ++ nat_str 0 ++ "]")%string) by (rewrite map_length, seq_length; lia).
    change (nth j (map (fun x => ("[custom" ++ nat_str x ++ "]")%string) (seq 0 p)) ("[custom" ++ nat_str 0 ++ "]")%string = ("[custom" ++ nat_str j ++ "]")%string).
    rewrite (map_nth (fun x => ("[custom" ++ nat_str x ++ "]")%string)), seq_nth by lia. reflexivity.
Qed.
Print Assumptions matrix_contrast_as_given.

(** None stands for the default, a class or function for what it returns, and a coding is asked for the
    kind of coding that is wanted. *)
Theorem contrast_argument_meaning : forall (L : Type) (levels : list L) d full reduced intercept default,
  code_contrast_matrix intercept levels None (Some d) = code_contrast_matrix intercept levels (Some d) None /\
  code_contrast_matrix true levels (Some (Coder full reduced)) default = full levels /\
  code_contrast_matrix false levels (Some (Coder full reduced)) default = reduced levels /\
  forall r, (forall r', r <> Ok (CallIt r')) ->
    code_contrast_matrix intercept levels (Some (CallIt r)) default =
    match r with Ok c => code_contrast_matrix intercept levels (Some c) default | Err e => Err e end.
Proof. intros L levels d full reduced intercept default. repeat split. intros [[r'|c|s m|f g|]|e] H; try reflexivity. destruct (H r' eq_refl). Qed.
Print Assumptions contrast_argument_meaning.

(** A function that returns a class is not called again. *)
Theorem contrast_called_twice_refuted : forall (L : Type) intercept (levels : list L) default (r : result (coder L)),
  exists e, code_contrast_matrix intercept levels (Some (CallIt (Ok (CallIt r)))) default = Err e.
Proof. intros. eexists. reflexivity. Qed.
Print Assumptions contrast_called_twice_refuted.

(** With a given matrix, full-rank and reduced-rank coding are the same, so one of them has the wrong number
    of columns. *)
Theorem matrix_contrast_ranks_refuted : forall (L : Type) (levels : list L) default n p m full reduced, levels <> [] ->
  code_contrast_matrix true levels (Some (Numbers [n; p] m)) default = Ok full ->
  code_contrast_matrix false levels (Some (Numbers [n; p] m)) default = Ok reduced ->
  ~ (length (cm_suffixes full) = length levels /\ length (cm_suffixes reduced) = length levels - 1).
Proof.
  intros L levels default n p m full reduced Hl H1 H2 [E1 E2]. change (code_contrast_matrix false levels (Some (Numbers [n; p] m)) default) with (code_contrast_matrix true levels (Some (Numbers [n; p] m)) default) in H2.
  rewrite H1 in H2. injection H2 as <-. destruct levels; [easy|]. cbn in *. lia.
Qed.
Print Assumptions matrix_contrast_ranks_refuted.

(** A text counts as missing exactly if Python's float() reads it as NaN. *)
Theorem missing_texts : forall na s, is_categorical_NA na (VStr s) = Ok true <-> nan_is_na na = true /\ reads_nan s.
Proof.
  intros na s. unfold is_categorical_NA. rewrite <- nan_text_spec. destruct (nan_is_na na); cbn; rewrite andb_false_r, ?orb_false_r.
  - split; [intros H; injection H as ->; auto|intros [_ ->]; reflexivity].
  - split; [discriminate|intros [H _]; discriminate].
Qed.
Print Assumptions missing_texts.

Example ex_nested : exists c l,
  fold_left (fun v a => C_box v (fst a) (snd a)) [(None, Some [VStr "b"; VStr "a"]); (Some 2, None); (None, None)] (C_box (Plain (DSeq false [VStr "a"])) (Some 1) None) = Boxed (DSeq false [VStr "a"]) c l /\
  c = Some 2 /\ l = Some [VStr "b"; VStr "a"].
Proof. eexists _, _. split; [reflexivity|]. split; reflexivity. Qed.
Example ex_custom :
  code_contrast_matrix true [1; 2; 3] (Some (CallIt (Ok (Numbers [3; 1] [[0%Qc]; [1%Qc]; [Q2Qc 2]])))) None = Ok (mkContrast [[0%Qc]; [1%Qc]; [Q2Qc 2]] ["[custom0]"]).
Proof. reflexivity. Qed.
Example ex_missing_text : is_categorical_NA (mkNA true true) (VStr " -NaN ") = Ok true /\ is_categorical_NA (mkNA true true) (VStr "nano") = Ok false.
Proof. split; reflexivity. Qed.
