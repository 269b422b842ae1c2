(** C99: what [repr] shows of a term or a model description is Python for it. *)
From Coq Require Import Ascii.
From Verif Require Import Base BuildModel OriginModel InfixModel DescModel DescSpec ShowModel ShowSpec ShowProofs.
Open Scope string_scope.
Open Scope list_scope.

(** The text of every object patsy shows: the class name, and the arguments and labelled arguments set apart by commas. *)
Theorem repr_text : forall printable o, printer_known o = true ->
  exists depth, forall n, depth <= n -> py_repr printable n o = Ok (shown (str_repr printable) o).
Proof. intros printable o H. exists (3 * height o + 2). intros n Hn. exact (proj1 (repr_shown printable o H n Hn)). Qed.
Print Assumptions repr_text.

(** If it is made of strings, lists and such objects alone, Python reads the text back as that very expression. *)
Theorem repr_is_expression : forall printable o, made_of_calls o = true ->
  exists depth, forall n, depth <= n -> exists text, py_repr printable n o = Ok text /\ read_expr text = Some (calls o).
Proof.
  intros printable o H. destruct (repr_text printable o (calls_known o H)) as [d Hd]. exists d. intros n Hn. eexists. split; [exact (Hd n Hn)|]. now apply read_shown.
Qed.
Print Assumptions repr_is_expression.

(** Model descriptions: the text, what it evaluates to, and that no other description has it. *)
Theorem desc_repr_evaluates : forall printable d n, 17 <= n ->
  let text := desc_text (str_repr printable) d in
  py_repr printable n (show_desc d) = Ok text /\
  (exists t, read_expr text = Some t /\ forall norm, proper_desc norm d -> build_desc norm t = Some d) /\
  (forall e, py_repr printable n (show_desc e) = Ok text -> e = d).
Proof.
  intros printable d n Hn text.
  assert (A : forall e, py_repr printable n (show_desc e) = Ok (shown (str_repr printable) (show_desc e))).
  { intros e. pose proof (heights_desc e). apply (repr_shown printable (show_desc e)); [apply calls_known, desc_calls|lia]. }
  split; [unfold text; rewrite A, desc_shown; reflexivity|]. split.
  - exists (calls (show_desc d)). unfold text. rewrite <- desc_shown. split; [apply read_shown, desc_calls|]. intros norm H. now apply proper_built.
  - intros e H. rewrite A in H. assert (H' : shown (str_repr printable) (show_desc e) = shown (str_repr printable) (show_desc d)) by (rewrite (desc_shown _ d); fold text; congruence). apply desc_calls_inj.
    pose proof (read_shown printable _ (desc_calls e)) as R1. pose proof (read_shown printable _ (desc_calls d)) as R2. rewrite H' in R1. congruence.
Qed.
Print Assumptions desc_repr_evaluates.

Theorem term_repr_evaluates : forall printable t n, 11 <= n ->
  let text := term_text (str_repr printable) t in
  py_repr printable n (show_term t) = Ok text /\
  (exists e, read_expr text = Some e /\ forall norm, NoDup t -> (forall f, In f t -> norm f = f) -> build_term norm e = Some t) /\
  (forall u, py_repr printable n (show_term u) = Ok text -> u = t).
Proof.
  intros printable t n Hn text.
  assert (A : forall e, py_repr printable n (show_term e) = Ok (shown (str_repr printable) (show_term e))).
  { intros e. pose proof (heights e). apply (repr_shown printable (show_term e)); [apply calls_known, term_calls|lia]. }
  split; [unfold text; rewrite A, term_shown; reflexivity|]. split.
  - exists (calls (show_term t)). unfold text. rewrite <- term_shown. split; [apply read_shown, term_calls|]. intros norm. now apply term_built.
  - intros e H. rewrite A in H. assert (H' : shown (str_repr printable) (show_term e) = shown (str_repr printable) (show_term t)) by (rewrite (term_shown _ t); fold text; congruence). apply term_calls_inj.
    pose proof (read_shown printable _ (term_calls e)) as R1. pose proof (read_shown printable _ (term_calls t)) as R2. rewrite H' in R1. congruence.
Qed.
Print Assumptions term_repr_evaluates.

(** The description of a formula, if normalising normal code changes nothing (C10). *)
Theorem formula_repr_evaluates : forall printable norm tree d n, (forall s, norm (norm s) = norm s) -> from_tree norm tree = Ok d -> 17 <= n ->
  exists text t, py_repr printable n (show_desc d) = Ok text /\ read_expr text = Some t /\ build_desc norm t = Some d.
Proof.
  intros printable norm tree d n Hid H Hn. destruct (desc_repr_evaluates printable d n Hn) as [A [[t [B C]] _]]. do 2 eexists. split; [exact A|]. split; [exact B|].
  apply C. exact (formula_proper norm tree d Hid H).
Qed.
Print Assumptions formula_repr_evaluates.

(** Strings: the literal Python writes is read as the string, and ends where it ends. *)
Theorem str_repr_reads : forall printable s r, match r with String c _ => is_q c = false | "" => True end ->
  exists q t, (str_repr printable s ++ r = String q t)%string /\ is_q q = true /\ opens q t = Some (s, r).
Proof.
  intros printable s r Hr. do 2 eexists. split; [reflexivity|]. split; [apply quote_is_q|].
  fold (String.append (escaped printable (quote_for s) s ++ String (quote_for s) "") r). rewrite app_str_assoc. apply opens_escaped; [apply quote_is_q|exact Hr].
Qed.
Print Assumptions str_repr_reads.

(** The other objects patsy shows, and what of them. *)
Theorem objects_shown : forall printable, let q := str_repr printable in
  forall o text,
  (exists factors dict k, o = show_subterm factors dict k /\ text = subterm_text q factors dict k) \/
  (exists f k, o = show_factor_info f (inl k) /\ text = numerical_text q f k) \/
  (exists f cats, o = show_factor_info f (inr cats) /\ text = categorical_text q f cats) \/
  (exists names infos codings, o = show_design names infos codings /\ text = design_text q names infos codings) \/
  (exists names coefs constants, o = show_constraint names coefs constants /\ text = constraint_text q names coefs constants) \/
  (exists matrix suffixes, o = show_contrast matrix suffixes /\ text = contrast_text q matrix suffixes) \/
  (exists variable, o = show_lookup variable /\ text = lookup_text q variable) \/
  (exists dicts, o = show_lookup_dict dicts /\ text = lookup_dict_text dicts) ->
  exists depth, forall n, depth <= n -> py_repr printable n o = Ok text.
Proof.
  intros printable q o text H.
  assert (K : forall o, printer_known o = true -> exists depth, forall n, depth <= n -> py_repr printable n o = Ok (shown q o)) by exact (repr_text printable).
  assert (F : forall l, map (shown q) (map show_factor l) = map (factor_text q) l) by (intros l; rewrite map_map; reflexivity).
  assert (N : forall l, map (shown q) (map OStr l) = map q l) by (intros l; rewrite map_map; reflexivity).
  assert (D : forall l, map (shown q) (map OText l) = l) by (intros l; rewrite map_map; apply map_id).
  assert (KF : forall l, forallb printer_known (map show_factor l) = true) by (induction l; auto).
  assert (KN : forall l, forallb printer_known (map OStr l) = true) by (induction l; auto).
  assert (KD : forall l, forallb printer_known (map OText l) = true) by (induction l; auto).
  assert (E : printer_known o = true /\ shown q o = text).
  { destruct H as [H|[H|[H|[H|[H|[H|[H|H]]]]]]].
    - destruct H as [l [dict [k [-> ->]]]]. cbn [show_subterm printer_known forallb shown map]. rewrite KF, F. split; [reflexivity|]. unfold subterm_text. cbn [app map String.concat]. rewrite !app_str_assoc. reflexivity.
    - destruct H as [f [k [-> ->]]]. split; [reflexivity|]. cbn. rewrite !app_str_assoc. reflexivity.
    - destruct H as [f [k [-> ->]]]. split; [reflexivity|]. cbn. rewrite !app_str_assoc. reflexivity.
    - destruct H as [l [dict [k [-> ->]]]]. cbn [show_design printer_known forallb shown map]. rewrite KN, N. split; [reflexivity|]. unfold design_text. cbn [app map String.concat]. rewrite !app_str_assoc. reflexivity.
    - destruct H as [l [dict [k [-> ->]]]]. cbn [show_constraint printer_known forallb shown map]. rewrite KN, N. split; [reflexivity|]. unfold constraint_text. cbn [app map String.concat]. rewrite !app_str_assoc. reflexivity.
    - destruct H as [m [l [-> ->]]]. cbn [show_contrast printer_known forallb shown map]. rewrite KN, N. split; [reflexivity|]. unfold contrast_text. cbn [app map String.concat]. rewrite !app_str_assoc. reflexivity.
    - destruct H as [v [-> ->]]. split; reflexivity.
    - destruct H as [l [-> ->]]. cbn [show_lookup_dict printer_known forallb shown map]. rewrite KD, D. split; [reflexivity|]. unfold lookup_dict_text. cbn [app map String.concat]. rewrite !app_str_assoc. reflexivity. }
  destruct E as [E <-]. exact (K o E).
Qed.
Print Assumptions objects_shown.

(** An origin shows all of the code, with the marked part between arrows, and where that is. *)
Theorem origin_shown : forall o, o_start o <= o_end o -> o_end o <= String.length (o_code o) ->
  exists before marked after, o_code o = (before ++ marked ++ after)%string /\ String.length before = o_start o /\ String.length marked = o_end o - o_start o /\
    origin_repr o = ("<Origin " ++ before ++ "->" ++ marked ++ "<-" ++ after ++ " (" ++ nat_str (o_start o) ++ "-" ++ nat_str (o_end o) ++ ")>")%string.
Proof.
  intros [code a b]. cbn [o_start o_end o_code]. intros H1 H2.
  assert (L : forall s n m, n + m <= String.length s -> String.length (substring n m s) = m).
  { induction s as [|c s IH]; intros [|n] [|m] H; cbn in H |- *; try lia; try reflexivity.
    - f_equal. apply (IH 0 m). lia.
    - apply (IH n 0). lia.
    - apply (IH n (S m)). lia. }
  assert (J : forall s n m, n + m <= String.length s -> substring n (String.length s - n) s = (substring n m s ++ substring (n + m) (String.length s - (n + m)) s)%string).
  { induction s as [|c s IH]; intros [|n] [|m] H; cbn [String.length] in H; try lia; try reflexivity.
    - cbn. f_equal. specialize (IH 0 m). cbn in IH. rewrite Nat.sub_0_r in IH. apply IH. lia.
    - cbn. rewrite Nat.add_0_r. specialize (IH n 0). rewrite Nat.add_0_r in IH. apply IH. lia.
    - change (substring (S n) (String.length (String c s) - S n) (String c s)) with (substring n (String.length s - n) s).
      change (substring (S n) (S m) (String c s)) with (substring n (S m) s). change (substring (S n + S m) (String.length (String c s) - (S n + S m)) (String c s)) with (substring (n + S m) (String.length s - (n + S m)) s). apply IH. lia. }
  assert (W : forall s, substring 0 (String.length s) s = s) by (induction s as [|c s IH]; cbn; [reflexivity|now rewrite IH]).
  exists (substring 0 a code), (substring a (b - a) code), (substring b (String.length code - b) code). split; [|split; [|split]].
  - rewrite <- (W code) at 1. pose proof (J code 0 a) as J1. rewrite Nat.sub_0_r in J1. rewrite J1 by lia. cbn [Nat.add]. f_equal. rewrite (J code a (b - a)) by lia. now replace (a + (b - a)) with b by lia.
  - apply L. lia.
  - apply L. lia.
  - reflexivity.
Qed.
Print Assumptions origin_shown.
(** What patsy's evaluator makes of a part of a formula cannot be shown: [repr] never comes back. *)
Theorem intermediate_repr_refuted : forall printable e n, py_repr printable n (show_intermediate e) = Err OutOfFuel.
Proof. intros printable e n. exact (proj1 (delegate_loops printable _ n)). Qed.
Print Assumptions intermediate_repr_refuted.

Definition ascii_only (c : ascii) : bool := false.
Definition shown_ex : model_desc := MkModelDesc [["y"]] [[]; ["x"; "Q('it''s')"]; ["C(a, ""b"")"]].
Example desc_repr_ex : py_repr ascii_only 17 (show_desc shown_ex)
  = Ok "ModelDesc(lhs_termlist=[Term([EvalFactor('y')])], rhs_termlist=[Term([]), Term([EvalFactor('x'), EvalFactor(""Q('it''s')"")]), Term([EvalFactor('C(a, ""b"")')])])".
Proof. vm_compute. reflexivity. Qed.
Example desc_repr_back : match py_repr ascii_only 17 (show_desc shown_ex) with Ok s => match read_expr s with Some t => build_desc (fun s => s) t | None => None end | Err _ => None end = Some shown_ex.
Proof. vm_compute. reflexivity. Qed.
Example proper_ex : proper_desc (fun s => s) shown_ex.
Proof.
  split; [|split].
  - intros t Ht. split; [|reflexivity]. cbn in Ht. repeat (destruct Ht as [<-|Ht]; [repeat constructor; cbn; intuition discriminate|]). contradiction.
  - intros [|[|]] [|[|]]; cbn; intros; try discriminate; reflexivity.
  - unfold no_repeats. apply (proj1 (DescTopProofs.distinct_nth _)). unfold UtilSpec.distinct. repeat constructor.
Qed.
Example str_repr_ex : str_repr ascii_only (String "010" (String """" (String "'" (String "\" (String "233" ""))))) = "'\n""\'\\\xe9'".
Proof. vm_compute. reflexivity. Qed.
Example factor_info_repr : py_repr ascii_only 20 (show_factor_info "x" (inl 2))
  = Ok "FactorInfo(factor=EvalFactor('x'), type='numerical', state=<factor state>, num_columns=2)".
Proof. vm_compute. reflexivity. Qed.
Example design_repr : py_repr ascii_only 20 (show_design ["Intercept"; "x"] "{}" "{}")
  = Ok "DesignInfo(['Intercept', 'x'], factor_infos={}, term_codings={})".
Proof. vm_compute. reflexivity. Qed.
Example origin_repr_ex : origin_repr (mkOrigin "y ~ a + b" 4 5) = "<Origin y ~ ->a<- + b (4-5)>".
Proof. vm_compute. reflexivity. Qed.
Example objects_shown_ex : py_repr ascii_only 20 (show_constraint ["a"; "b"] "array([[1., 0.]])" "array([[2.]])") = Ok "LinearConstraint(['a', 'b'], array([[1., 0.]]), array([[2.]]))" /\
  py_repr ascii_only 20 (show_subterm ["a"; "x"] "{}" 3) = Ok "SubtermInfo(factors=[EvalFactor('a'), EvalFactor('x')], contrast_matrices={}, num_columns=3)".
Proof. split; vm_compute; reflexivity. Qed.
