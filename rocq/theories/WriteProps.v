(** C85: constraints on the columns of a design, written as text. *)
From Coq Require Import Ascii.
From Verif Require Import Base InfixModel InfixSpec InfixProofs DescModel NumModel BuildModel BuildSpec BuildInfoProofs BuildProps ConstraintModel ConstraintSpec
  ConstraintLexProofs ConstraintProofs ConstraintTopProofs ConstraintProps WriteModel WriteSpec WriteProofs.
Open Scope nat_scope.
Open Scope list_scope.

(** C85.  Linear equations between expressions in the columns, written with parentheses and joined by commas, are
    accepted and mean what they say. *)
Theorem written_constraint : forall (V : Type) names infos codings (d : @design_info V) first more,
  dicts infos codings -> mk_design_info names infos codings = Ok d -> readable_names names ->
  Forall (proper_equation names) (first :: more) ->
  exists lc, design_constraint d (LikeString (written_system first more)) = Ok lc /\ lc_names lc = names /\ well_shaped lc /\
    forall beta, satisfies lc beta <-> Forall (solves beta) (first :: more).
Proof.
  intros V names infos codings d first more Hd E Hr H. destruct (term_slices_partition_columns _ _ _ _ _ Hd E) as [N [Hnd _]].
  unfold design_constraint. rewrite N. exact (written_accepted names first more Hnd Hr H).
Qed.
Print Assumptions written_constraint.

(** C85.  So every matrix of rational numbers without a zero row, and every right-hand side, can be given as text;
    the text says the same as the matrix. *)
Theorem matrix_as_text : forall (V : Type) names infos codings (d : @design_info V) row k rows ks,
  dicts infos codings -> mk_design_info names infos codings = Ok d -> readable_names names ->
  List.length rows = List.length ks ->
  Forall (fun r => List.length r = List.length names /\ existsb (fun q => negb (Qc_eq_bool q 0%Qc)) r = true) (row :: rows) ->
  exists lc lc', design_constraint d (LikePair (row :: rows) (k :: ks)) = Ok lc /\
    design_constraint d (LikeString (written_system (row_equation names row k) (map (fun p => row_equation names (fst p) (snd p)) (List.combine rows ks)))) = Ok lc' /\
    forall beta, satisfies lc beta <-> satisfies lc' beta.
Proof.
  intros V names infos codings d row k rows ks Hd E Hr L H. destruct (term_slices_partition_columns _ _ _ _ _ Hd E) as [N [Hnd _]].
  unfold design_constraint. rewrite N. set (more := map (fun p => row_equation names (fst p) (snd p)) (List.combine rows ks)).
  assert (P : Forall (proper_equation names) (row_equation names row k :: more)).
  { inversion H as [|r rs [H1 H2] Hrs]; subst. constructor; [now apply row_proper|]. unfold more. apply Forall_forall. intros q Hq. apply in_map_iff in Hq. destruct Hq as [[r c] [<- Hq]].
    apply in_combine_l in Hq. rewrite Forall_forall in Hrs. destruct (Hrs r Hq). now apply row_proper. }
  destruct (written_accepted names (row_equation names row k) more Hnd Hr P) as [lc' [E' [_ [_ S']]]].
  pose proof (matrix_constraint_meaning names (row :: rows) (Some (k :: ks))) as M. cbn beta zeta iota in M.
  destruct (linear_constraint (LikePair (row :: rows) (k :: ks)) names) as [lc|e]; [|exfalso].
  - exists lc, lc'. split; [reflexivity|]. split; [exact E'|]. intros beta. destruct M as [_ [_ M]]. rewrite M, S'. clear - L H. inversion H as [|r rs [H1 _] Hrs]; subst.
    assert (X : forall rows ks, List.length rows = List.length ks -> Forall (fun r => List.length r = List.length names /\ existsb (fun q => negb (Qc_eq_bool q 0%Qc)) r = true) rows ->
      (Forall2 (fun row c => dot row (map beta names) = c) rows ks <-> Forall (solves beta) (map (fun p => row_equation names (fst p) (snd p)) (List.combine rows ks)))).
    { clear. induction rows as [|r rows IH]; intros [|c ks] L H; try discriminate; [split; constructor|]. inversion H as [|r' rs [H1 _] Hrs]; subst. cbn [List.combine map fst snd].
      specialize (IH ks (f_equal pred L) Hrs). split; intros F; inversion F; subst; constructor; try (now apply IH); now apply (row_solves beta names r _ H1). }
    specialize (X rows ks L Hrs). fold more in X. split; intros F; inversion F; subst; constructor; try (now apply X); now apply (row_solves beta names row _ H1).
  - destruct M as [_ M]. apply M. split; [|split]; [|discriminate|cbn; lia]. cbn [lc_coefs lc_names]. eapply Forall_impl; [|exact H]. intros r [Hl _]. exact Hl.
Qed.
Print Assumptions matrix_as_text.

(** C85.  The name of a column alone says that its parameter is zero, whatever other columns there are, if it does
    not start with a digit, an operator or a parenthesis. *)
Theorem column_name_constraint : forall (V : Type) names infos codings (d : @design_info V) n,
  dicts infos codings -> mk_design_info names infos codings = Ok d -> In n names -> readable_start n ->
  exists lc, design_constraint d (LikeString n) = Ok lc /\ forall beta, satisfies lc beta <-> beta n = 0%Qc.
Proof.
  intros V names infos codings d n Hd E Hn R. destruct (term_slices_partition_columns _ _ _ _ _ Hd E) as [N [Hnd _]]. unfold design_constraint. rewrite N.
  pose proof (name_reads names n Hn R) as Rd. pose proof (accepts_lemma names n _ Hnd Rd Logic.I) as A.
  destruct (linear_constraint (LikeString n) names) as [lc|e] eqn:El.
  - exists lc. split; [reflexivity|]. destruct (strings_meaning names [n] lc) as [cs [F [_ [_ S]]]]; [discriminate|exact El|].
    intros beta. rewrite S. inversion F as [|x y l l' R' F']; subst. inversion F'; subst. rewrite (constraint_reading_unique _ _ _ _ R' Rd).
    cbn [holds val]. unfold tok_is. cbn [tok tk_type ttext tk_extra]. cbn [ttype_eqb String.eqb Ascii.eqb Bool.eqb].
    split; [intros X; inversion X as [|a b H1 H2]; subst; apply some_inj; exact H1|intros X; constructor; [change (Some (beta n) = Some 0%Qc); now rewrite X|constructor]].
  - exfalso. apply A. split; [exact Logic.I|]. intros C. specialize (C (fun _ => 0%Qc) (fun _ => 1%Qc)). cbn [val] in C. unfold tok_is in C. cbn [tok tk_type ttext tk_extra] in C.
    cbn [ttype_eqb String.eqb Ascii.eqb Bool.eqb] in C. apply some_inj in C. discriminate C.
Qed.
Print Assumptions column_name_constraint.

(** Finding: not so if it starts with an operator; the text may then silently constrain another column. *)
Theorem column_name_constraint_refuted : exists (d : @design_info Z) lc, mk_design_info ["x"; "-x"]%string None None = Ok d /\
  In "-x"%string (column_names d) /\ design_constraint d (LikeString "-x") = Ok lc /\
  forall beta, satisfies lc beta <-> beta "x"%string = 0%Qc.
Proof.
  destruct (mk_design_info ["x"; "-x"]%string (V := Z) None None) as [d|] eqn:E; [|vm_compute in E; discriminate].
  assert (N : column_names d = ["x"; "-x"]%string) by (vm_compute in E; injection E as <-; reflexivity).
  unfold design_constraint. exists d. rewrite N. set (c := CUn (tok "-x" (TName "-") "-" 0) (CAtom (tok "-x" (TName "VARIABLE") "x" 1))).
  assert (Rd : reads ["x"; "-x"]%string "-x" c).
  { split; [apply tokenize_ok_iff; vm_compute; reflexivity|]. eapply v_un; [discriminate|apply (declares_op _ _ 100%Z); cbn; auto 12|apply atom_valid; cbn; auto|constructor]. }
  destruct (linear_constraint (LikeString "-x") ["x"; "-x"]%string) as [lc|] eqn:El; [|vm_compute in El; discriminate].
  exists lc. split; [reflexivity|]. split; [cbn; auto|]. split; [reflexivity|]. destruct (strings_meaning ["x"; "-x"]%string ["-x"]%string lc) as [cs [F [_ [_ S]]]]; [discriminate|exact El|].
  intros beta. rewrite S. inversion F as [|x y l l' R' F']; subst. inversion F'; subst. rewrite (constraint_reading_unique _ _ _ _ R' Rd).
  assert (H : holds beta c <-> beta "x"%string = 0%Qc).
  { unfold c. cbn [holds val]. unfold tok_is. cbn [tok tk_type ttext tk_extra]. cbn [ttype_eqb String.eqb Ascii.eqb Bool.eqb option_map]. split; intros X.
    - apply some_inj in X. assert (beta "x"%string = - - beta "x"%string)%Qc as -> by ring. rewrite X. ring.
    - rewrite X. f_equal. }
  rewrite <- H. split; [intros X; now inversion X|intros X; constructor; [exact X|constructor]].
Qed.
Print Assumptions column_name_constraint_refuted.

(** * Examples *)
Lemma readable_check names : forallb (fun n => match n with EmptyString => false | String c _ => negb (is_digit c) && negb (existsb (Ascii.eqb c) (list_ascii_of_string "(),=+-*/")) end) names = true ->
  forallb (fun n => forallb (fun m => negb (String.prefix (n ++ ")") m)) names) names = true -> readable_names names.
Proof.
  intros H1 H2. rewrite forallb_forall in H1, H2. split.
  - apply Forall_forall. intros n Hn. specialize (H1 n Hn). destruct n as [|c n]; [discriminate|]. apply andb_true_iff in H1. destruct H1 as [D P]. split; [now apply negb_true_iff|].
    intros F. apply negb_true_iff in P. unfold is_punct in F. cbn in F. repeat destruct F as [F|F]; try contradiction; injection F as <-; discriminate P.
  - intros n m Hn Hm F. specialize (H2 n Hn). rewrite forallb_forall in H2. specialize (H2 m Hm). apply prefix_iff in F. rewrite F in H2. discriminate.
Qed.
Definition wx : string := "a[T.q]:x[0]".
Definition wy : string := "x[1]".
Definition weq1 : expr * expr := (EAdd (EMul (ENum 3) (EVar wx)) (EDiv (EVar wy) (ENum 2)), ESub (ENum 7) (EVar wy)).
Definition weq2 : expr * expr := (EVar "Intercept", ENeg (ENum 4)).
Example written_ex : written_system weq1 [weq2] = "(((3)*(a[T.q]:x[0]))+((x[1])/(2)))=((7)-(x[1])),(Intercept)=(-(4))"%string.
Proof. vm_compute. reflexivity. Qed.
Example written_accepted_ex : match design_constraint exd (LikeString (written_system weq1 [weq2])) with
  | Ok lc => lcon_view lc = ([[0 # 1; 0 # 1; 0 # 1; 0 # 1; 3 # 2; 3 # 1; 0 # 1; 0 # 1; 0 # 1]; [1 # 1; 0 # 1; 0 # 1; 0 # 1; 0 # 1; 0 # 1; 0 # 1; 0 # 1; 0 # 1]], [7 # 1; -4 # 1])%Q
  | Err _ => False end.
Proof. vm_compute. reflexivity. Qed.
Example readable_ex : readable_names (column_names exd).
Proof. apply readable_check; vm_compute; reflexivity. Qed.
Example proper_ex : Forall (proper_equation (column_names exd)) [weq1; weq2].
Proof.
  assert (N : forall q x, value (fun _ => 0%Qc) (ESub (fst q) (snd q)) <> value (fun y => if String.eqb x y then 1%Qc else 0%Qc) (ESub (fst q) (snd q)) -> ~ fixed (ESub (fst q) (snd q))) by (intros q x H F; apply H, F).
  constructor; [|constructor; [|constructor]].
  - split; [vm_compute; tauto|]. split; [vm_compute; tauto|]. split; [|split]; [| |apply (N _ wy); vm_compute; discriminate].
    + cbn. split; [split; [exact Logic.I|split; [exact Logic.I|left; intros b1 b2; reflexivity]]|]. split; [exact Logic.I|]. split; [exact Logic.I|]. split; [intros b1 b2; reflexivity|].
      intros F. specialize (F (fun _ => 0%Qc)). vm_compute in F. discriminate.
    + cbn. auto.
  - split; [vm_compute; tauto|]. split; [vm_compute; tauto|]. split; [exact Logic.I|]. split; [exact Logic.I|]. apply (N _ "Intercept"%string). vm_compute. discriminate.
Qed.
Example row_text_ex : written_equation (row_equation ["x"; "y"]%string [Q2Qc (-3 # 4); 0%Qc] (Q2Qc (5 # 1))) =
  "((((-(3))/(4))*(x))+((((0)/(1))*(y))+(0)))=((5)/(1))"%string.
Proof. vm_compute. reflexivity. Qed.
