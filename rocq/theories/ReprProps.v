(** C84: how design matrices are shown. *)
From Coq Require Import ZArith Ascii Lia.
From Verif Require Import Base UtilModel DescModel FormulaModel BuildModel BuildSpec BuildInfoProofs BuildProps MiscModel MiscSpec MiscFmtProofs ReprModel ReprSpec ReprProofs.
Open Scope string_scope.
Open Scope list_scope.
Open Scope nat_scope.

Lemma starts_after ss : forall a b, consecutive a ss b -> forall p, In p ss -> a <= fst p.
Proof.
  induction ss as [|[x y] ss IH]; intros a b H p Hp; [contradiction|]. destruct H as [-> [H1 H2]]. destruct Hp as [<-|Hp]; [reflexivity|]. specialize (IH _ _ H2 p Hp). lia.
Qed.
Lemma starts_zero (l : list (string * (nat * nat))) n : consecutive 0 (map snd l) n -> (match l with [] => True | (_, (a, b)) :: _ => a < b end) ->
  forall i ns, nth_error l i = Some ns -> (fst (snd ns) = 0 <-> i = 0).
Proof.
  destruct l as [|[s [a b]] l]; cbn [map snd consecutive]; [intros _ _ [|i] ns; discriminate|]. intros [-> [_ H]] Hb [|i] ns Hi; cbn in Hi; [injection Hi as <-; cbn; tauto|].
  apply nth_error_In in Hi. apply (in_map snd) in Hi. pose proof (starts_after _ _ _ H _ Hi). split; [lia|discriminate].
Qed.

(** C84.  The text consists of: the shape; the table of the first thirty rows, if its lines have less than 78 places, and
    otherwise the names of the columns; the terms with their columns; and a note if anything was left out. *)
Theorem matrix_shown : forall (V : Type) (fmt : V -> string) repr_str names infos codings (d : @design_info V) (m : @dmat V),
  (forall v, count_char "." (fmt v) <= 1) ->
  dicts infos codings -> mk_design_info names infos codings = Ok d ->
  (match di_name_slices d with [] => True | (_, (a, b)) :: _ => a < b end) ->
  rectangular m -> List.length names = List.length (m_cols m) ->
  exists texts widths main, Forall2 (shown fmt) (m_cols m) texts /\ List.length widths = List.length names /\
    (forall j name col w, nth_error names j = Some name -> nth_error texts j = Some col -> nth_error widths j = Some w -> least_width (name :: col) w) /\
    (if Nat.ltb (places widths) 78 then table_shown names texts widths m main else main = list_shown repr_str names) /\
    dm_repr fmt repr_str d m = Ok (text (
      ("DesignMatrix with shape (" ++ nat_str (m_rows m) ++ ", " ++ nat_str (List.length (m_cols m)) ++ ")")%string
      :: main ++ ["Terms:"; listing (map (span_text repr_str) (di_name_slices d))]
      ++ (if Nat.ltb (places widths) 78 && Nat.leb (m_rows m) 30 then [] else ["(to view full data, use np.asarray(this_obj))"]))).
Proof.
  intros V fmt repr_str names infos codings d m Hf Hd E Hfirst Hm Hn. destruct (term_slices_partition_columns _ _ _ _ _ Hd E) as [En _].
  destruct (mk_inv _ _ _ _ Hd E) as [_ [_ [_ [_ [Hc _]]]]]. pose proof (repr_text fmt repr_str Hf d m Hm) as R. rewrite En in R. apply R; [exact Hn|].
  eapply starts_zero; eassumption.
Qed.
Print Assumptions matrix_shown.

(** C84.  No line of a table is longer than 75 characters, and all are equally long. *)
Theorem table_lines_fit : forall widths cells line, table_line widths cells line -> places widths < 78 ->
  String.length line + 2 <= Nat.max 2 (places widths) /\ String.length line <= 75 /\
  forall cells' line', table_line widths cells' line' -> String.length line' = String.length line.
Proof.
  intros widths cells line H Hp. pose proof (line_length _ _ _ H) as L. unfold places in *. split; [|split].
  - destruct widths; cbn [List.length] in *; lia.
  - lia.
  - intros cells' line' H'. apply line_length in H'. congruence.
Qed.
Print Assumptions table_lines_fit.

(** * Examples *)
Definition zfmt (z : Z) : string := if Z.ltb z 0 then "nan" else (nat_str (Z.to_nat z) ++ ".50000")%string.
Definition quoted (s : string) : string := ("'" ++ s ++ "'")%string.
Definition exsmall : @dmat Z := mkMat 2 [[1;1]; [0;0]; [0;1]; [10;-1]; [20;21]; [0;0]; [0;11]; [0;0]; [0;21]]%Z.
Example shown_wide_ex : dm_repr zfmt quoted exd exm = Ok (text
  ["DesignMatrix with shape (3, 9)"; "Columns:";
   "['Intercept', 'a[T.q]', 'a[T.r]', 'x[0]', 'x[1]', 'a[T.q]:x[0]', 'a[T.r]:x[0]', 'a[T.q]:x[1]', 'a[T.r]:x[1]']";
   "Terms:"; "'Intercept' (column 0), 'a' (columns 1:3), 'x' (columns 3:5), 'a:x' (columns 5:9)"; "(to view full data, use np.asarray(this_obj))"]).
Proof. vm_compute. reflexivity. Qed.
Definition exnarrow : @design_info Z := match mk_design_info ["Intercept"; "x"] None None with Ok d => d | Err _ => mkDI [] None None None [] end.
Example shown_table_ex : dm_repr zfmt quoted exnarrow (mkMat 3 [[1; 1; -1]; [10; 200; 3]]%Z) = Ok (text
  ["DesignMatrix with shape (3, 2)"; "Intercept      x"; "      1.5   10.5"; "      1.5  200.5"; "      nan    3.5"; "Terms:"; "'Intercept' (column 0), 'x' (column 1)"]).
Proof. vm_compute. reflexivity. Qed.
Lemma no_points n : count_char "." (nat_str n) = 0.
Proof. unfold nat_str. generalize (Nat.to_uint n). intros u. unfold count_char. induction u; cbn; auto. Qed.
Example shown_hyps : (forall v, count_char "." (zfmt v) <= 1) /\ dicts (V := Z) None None /\ mk_design_info ["Intercept"; "x"] None None = Ok exnarrow /\
  (match di_name_slices exnarrow with [] => True | (_, (a, b)) :: _ => a < b end) /\ rectangular (mkMat 3 [[1; 1; -1]; [10; 200; 3]]%Z).
Proof.
  split; [|split; [|split; [|split]]].
  - intros v. unfold zfmt. destruct (v <? 0)%Z; [vm_compute; lia|]. rewrite count_app, no_points. vm_compute. lia.
  - split; exact Logic.I.
  - vm_compute. reflexivity.
  - vm_compute. lia.
  - intros col [<-|[<-|[]]]; reflexivity.
Qed.

(** Finding: if the first term has no columns (a numerical factor with no columns), the next term follows it without
    a comma. *)
Definition exzero : result (@design_info Z) :=
  mk_design_info ["x"] (Some [("e"%string, mkFI 1 "e" (FNum 0)); ("x"%string, mkFI 2 "x" (FNum 1))])
    (Some [(["e"%string], [mkSI ["e"%string] [] 0]); (["x"%string], [mkSI ["x"%string] [] 1])]).
Theorem terms_listed_refuted : exists (d : @design_info Z) (m : @dmat Z), exzero = Ok d /\ rectangular m /\ List.length (column_names d) = List.length (m_cols m) /\
  dm_repr zfmt quoted d m = Ok (text ["DesignMatrix with shape (1, 1)"; "  x"; "7.5"; "Terms:"; "'e' (columns 0:0)'x' (column 0)"]) /\
  listing (map (span_text quoted) (di_name_slices d)) = "'e' (columns 0:0), 'x' (column 0)".
Proof.
  destruct exzero as [d|] eqn:E; [|vm_compute in E; discriminate]. exists d, (mkMat 1 [[7%Z]]). vm_compute in E. injection E as <-.
  split; [reflexivity|]. split; [intros col [<-|[]]; reflexivity|]. split; [reflexivity|]. split; vm_compute; reflexivity.
Qed.
Print Assumptions terms_listed_refuted.
