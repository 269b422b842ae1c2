(** C79: the entries of design matrices from the values of the factors.  C80: errors in factors. *)
From Coq Require Import ZArith Sorted Permutation.
From Verif Require Import Base DescModel FormulaModel BuildModel BuildSpec MemorizeModel MemorizeSpec MemorizeProofs MemorizeProps CategoricalModel CategoricalSpec PipeModel PipeSpec PipeProofs
  FitModel FitSpec FitProofs FitProps EntryModel EntrySpec EntryProofs EntryFitProofs.
Open Scope string_scope.
Open Scope list_scope.
Open Scope nat_scope.

(** C79.  For any factor objects, terms and data, in training and later: each entry of each matrix is the product
    of what the factors of its subterm contribute to this row of the data, where the contribution of a factor
    follows from its value (the number, or the row of the contrast matrix that belongs to the level).  The rows
    are those in which no factor of these designs is missing. *)
Theorem matrix_entries : forall {V I C S D : Type} (vone : V) (vmul : V -> V -> V) (visnan : V -> bool) (ilabel : nat -> I) (ieqb : I -> I -> bool)
  (passes : factor -> result (S * Z)) (chunk : factor -> S -> nat -> D -> result S) (finish : factor -> S -> nat -> result S) (eval : factor -> S -> D -> result (@fobj V I C))
  (origin_of : factor -> option origin) (code_cm : list pval -> option C -> bool -> result (@ctr V)) (hash : list (bool * factor) -> Z)
  (set_order : list factor -> list factor) (order_mem order_exam : nat -> list factor -> list factor) (addr : pval -> nat) (hash_order : list pval -> list pval) (df_index : D -> option (list I)),
  (forall a b, ieqb a b = true <-> a = b) ->
  (forall l, Permutation (set_order l) l) -> (forall n l, Permutation (order_mem n l) l) -> (forall n l, Permutation (order_exam n l) l) ->
  indexed eval ->
  forall (data : nat -> list D) na tls ds used d na' w ms labels,
  let value_is f g := exists s, trained passes chunk finish data f s /\ forall d, g d = eval f s d in
  design_matrix_builders passes chunk finish eval origin_of code_cm hash set_order order_mem order_exam addr hash_order data na tls = Ok ds ->
  incl used ds ->
  (forall f g o, In f (factors_in used) -> value_is f g -> g d = Ok o -> proper_codes (o_value o)) ->
  build vone vmul visnan ilabel ieqb eval origin_of df_index used d na' w = Ok (ms, labels) ->
  exists act act' n ks, get_action na = Ok act /\ get_action na' = Ok act' /\
    rows_used visnan origin_of addr hash_order value_is (na_what act) (exam_chunks passes data (factors_of tls)) (na_what act') d (df_index d) (factors_in used) n ks /\
    (na_on act' = NARaise -> ks = seq 0 n) /\
    Forall2 (fun x m => entries_are vone vmul origin_of addr hash_order code_cm value_is (na_what act) (exam_chunks passes data (factors_of tls)) (na_what act') d ks (ds_info x) m) used ms.
Proof.
  intros V I C S D vone vmul visnan ilabel ieqb passes chunk finish eval origin_of code_cm hash set_order order_mem order_exam addr hash_order df_index Hi Hs Hm He Hx data na tls ds used d na' w ms labels value_is Hb Hu Hp Hr.
  refine (entries_lemma vone vmul visnan ilabel ieqb Hi passes chunk finish eval origin_of code_cm hash set_order order_mem order_exam addr hash_order df_index Hs Hm He Hx value_is _ data tls _ na used ds d na' w ms labels Hb Hu _ Hr).
  - intros f g g' [s [[s0 [k [Ep R]]] Eg]] [s' [[s0' [k' [Ep' R']]] Eg']] x. rewrite Eg, Eg'. rewrite Ep in Ep'. injection Ep' as <- <-. rewrite R in R'. injection R' as <-. reflexivity.
  - intros f s _ Ht. exists s. now split.
  - intros f s o Hf _ Ht Eo. apply (Hp f (eval f s) o Hf); [exists s; now split|exact Eo].
Qed.
Print Assumptions matrix_entries.

(** C79.  For the factors of formulas: their value is the one of their code, evaluated with transforms fitted on
    all of the training data (FitSpec), and the training data is also what the types of factors are found out
    from. *)
Theorem formula_entries : forall {V I C St val D : Type} (vone : V) (vmul : V -> V -> V) (visnan : V -> bool) (ilabel : nat -> I) (ieqb : I -> I -> bool)
  (code : factor -> @texpr val D St) (bins : factor -> list (list string)) (as_obj : val -> @fobj V I C)
  (origin_of : factor -> option origin) (code_cm : list pval -> option C -> bool -> result (@ctr V)) (hash : list (bool * factor) -> Z)
  (set_order : list factor -> list factor) (order_mem order_exam : nat -> list factor -> list factor) (addr : pval -> nat) (hash_order : list pval -> list pval) (df_index : D -> option (list I)),
  (forall a b, ieqb a b = true <-> a = b) ->
  (forall l, Permutation (set_order l) l) -> (forall n l, Permutation (order_mem n l) l) -> (forall n l, Permutation (order_exam n l) l) ->
  let eval := ef_eval code origin_of as_obj in
  indexed eval ->
  forall (chunks : list D) na tls ds used d na' w ms labels,
  (forall f, In f (factors_of tls) -> NoDup (map fst (calls (code f))) /\ inner_first (code f) (bins f)) ->
  let value_of f d := match fitted_value chunks (code f) d with Ok v => Ok (as_obj v) | Err _ => Err (PatsyError "Error evaluating factor" (origin_of f)) end in
  let value_is f (g : D -> result (@fobj V I C)) := forall d, g d = value_of f d in
  design_matrix_builders (ef_passes code bins) (ef_chunk code bins origin_of) (ef_finish code bins) eval origin_of code_cm hash set_order order_mem order_exam addr hash_order (fun _ => chunks) na tls = Ok ds ->
  incl used ds ->
  (forall f v, In f (factors_in used) -> fitted_value chunks (code f) d = Ok v -> proper_codes (o_value (as_obj v))) ->
  build vone vmul visnan ilabel ieqb eval origin_of df_index used d na' w = Ok (ms, labels) ->
  exists act act' n ks, get_action na = Ok act /\ get_action na' = Ok act' /\
    rows_used visnan origin_of addr hash_order value_is (na_what act) chunks (na_what act') d (df_index d) (factors_in used) n ks /\
    (na_on act' = NARaise -> ks = seq 0 n) /\
    Forall2 (fun x m => entries_are vone vmul origin_of addr hash_order code_cm value_is (na_what act) chunks (na_what act') d ks (ds_info x) m) used ms.
Proof.
  intros V I C St val D vone vmul visnan ilabel ieqb code bins as_obj origin_of code_cm hash set_order order_mem order_exam addr hash_order df_index Hi Hs Hm He eval Hx chunks na tls ds used d na' w ms labels Hc value_of value_is Hb Hu Hp Hr.
  assert (Hv : forall f s, In f (factors_of tls) -> trained (ef_passes code bins) (ef_chunk code bins origin_of) (ef_finish code bins) (fun _ => chunks) f s -> value_is f (eval f s)).
  { intros f s Hf Ht x. apply (trained_fit code bins origin_of chunks _ (fun _ => eq_refl)) in Ht. destruct (Hc f Hf) as [H1 H2]. destruct (fitted_factor_value (code f) (bins f) chunks H1 H2) as [_ H]. destruct (H s Ht) as [_ E].
    unfold eval, ef_eval, value_of. rewrite E. now destruct (fitted_value chunks (code f) x). }
  change chunks with (exam_chunks (ef_passes code bins) (fun _ : nat => chunks) (factors_of tls)).
  refine (entries_lemma vone vmul visnan ilabel ieqb Hi _ _ _ eval origin_of code_cm hash set_order order_mem order_exam addr hash_order df_index Hs Hm He Hx value_is _ (fun _ => chunks) tls Hv na used ds d na' w ms labels Hb Hu _ Hr).
  - intros f g g' E E' x. now rewrite E, E'.
  - intros f s o Hf Hin Ht Eo. rewrite (Hv f s Hin Ht d) in Eo. unfold value_of in Eo. destruct (fitted_value chunks (code f) d) as [v|] eqn:E; [|discriminate]. injection Eo as <-. eapply Hp; eassumption.
Qed.
Print Assumptions formula_entries.

(** C80.  An error raised while the transforms of factors see their data, or while a factor is evaluated, is a
    PatsyError that points at the factor.  The only other errors in memorization are those raised when a
    transform is told that it has seen everything. *)
Theorem factor_errors_point_at_factor : forall {V I C St val D : Type} (code : factor -> @texpr val D St) (bins : factor -> list (list string)) (origin_of : factor -> option origin) (as_obj : val -> @fobj V I C)
  (data : nat -> list D) (order : nat -> list factor -> list factor) factors fuel,
  (forall n l, Permutation (order n l) l) -> NoDup factors -> (forall f, In f factors -> length (bins f) <= fuel) ->
  (forall f o, In f factors -> In o (concat (bins f)) -> In o (map fst (calls (code f)))) ->
  (forall e, factors_memorize String.eqb (ef_passes code bins) (ef_chunk code bins origin_of) (ef_finish code bins) data order fuel factors = Err e ->
     exists f, In f factors /\ ((exists msg, e = PatsyError msg (origin_of f)) \/ exists o c args s, In (o, (c, args)) (calls (code f)) /\ c_finish c s = Err e)) /\
  (forall f st d e, ef_eval code origin_of as_obj f st d = Err e -> exists msg, e = PatsyError msg (origin_of f)) /\
  (forall f st p d e, p < length (bins f) -> ef_chunk code bins origin_of f st p d = Err e -> exists msg, e = PatsyError msg (origin_of f)).
Proof.
  intros V I C St val D code bins origin_of as_obj data order factors fuel Ho Hn Hf Hb. split; [|split].
  - intros e H. apply memorize_errors in H; [|apply String.eqb_eq|exact Ho|exact Hn|intros f s k Hin [= <- <-]; rewrite Nat2Z.id; now apply Hf].
    destruct H as [f [Hin [H|[s [k [Ep H]]]]]]; [discriminate|]. exists f. split; [exact Hin|]. eapply run_err; [|exact Ep|exact H]. intros o. now apply Hb.
  - apply ef_eval_err.
  - intros f st p d e Hp H. unfold ef_chunk in H. destruct (nth_error (bins f) p) as [bin|] eqn:E; [|apply nth_error_None in E; lia]. apply foldM_err in H. destruct H as [o [b [_ H]]]. apply wrap_err in H. eauto.
Qed.
Print Assumptions factor_errors_point_at_factor.

(** C80, a limit: errors raised by a transform's [memorize_finish] come out as they are, without the origin (for
    example the ValueError of [bs(x)] without df and knots). *)
Theorem finish_errors_refuted : forall {val D St : Type} (s0 : St) (v : val) (d : D) err org,
  let c := @mkClass val St s0 (fun s _ => Ok s) (fun _ => Err err) (fun _ _ => Ok v) in
  let code (f : factor) := TCall "o" c [TLeaf (fun _ : D => Ok v)] in
  let bins (f : factor) := [["o"]] in
  NoDup (map fst (calls (code "f"))) /\ inner_first (code "f") (bins "f") /\
  factors_memorize String.eqb (ef_passes code bins) (ef_chunk code bins (fun _ => Some org)) (ef_finish code bins) (fun _ => [d]) (fun _ l => l) 1 ["f"] = Err err.
Proof.
  intros val D St s0 v d err org c code bins. split; [cbn; constructor; [intros []|constructor]|]. split; [|reflexivity].
  split; [cbn; apply Permutation_refl|]. intros o c' args o' p q bin bin' Hc Ho. cbn in Hc. destruct Hc as [Hc|[]]. injection Hc as <- <- <-. destruct Ho.
Qed.
Print Assumptions finish_errors_refuted.

(** * Examples *)
(** Rows have a category and a number (-99 is NaN); the factors are [a] and [center(x)]. *)
Definition yval := (list string + list Z)%type.
Definition ydata := list (string * Z).
Definition ycenter : @tclass yval (Z * Z) :=
  mkClass (0, 0)%Z
    (fun s args => match args with [inr l] => Ok (fold_left (fun s x => (fst s + x, snd s + 1)%Z) l s) | _ => Err (TypeError "") end)
    (fun s => if Z.eqb (snd s) 0 then Err (ValueError "no data") else Ok (fst s / snd s, 1)%Z)
    (fun s args => match args with [inr l] => Ok (inr (map (fun x => if Z.eqb x (-99) then x else x - fst s)%Z l)) | _ => Err (TypeError "") end).
Definition ycode (f : factor) : @texpr yval ydata (Z * Z) :=
  if String.eqb f "a" then TLeaf (fun d => Ok (inl (map fst d)))
  else if String.eqb f "center(x)" then TCall "o" ycenter [TLeaf (fun d => Ok (inr (map snd d)))]
  else TLeaf (fun _ => Err NameError).
Definition ybins (f : factor) : list (list string) := if String.eqb f "center(x)" then [["o"]] else [].
Definition yobj (v : yval) : @fobj Z nat unit :=
  match v with
  | inl l => mkObj (Plain (DSeq false (map VStr l))) 1 1 false [] None
  | inr l => mkObj (Plain (DArray true 1 1)) 1 1 true (map (fun x => [x]) l) None
  end.
Definition yorigin (f : factor) := Some (mkOrigin f 0 1).
Definition ylabel (v : pval) : string := match v with VStr s => s | _ => "?" end.
Definition ycm (levels : list pval) (c : option unit) (full : bool) : result (@ctr Z) :=
  let n := List.length levels in
  let unit_row (k : nat) (i : nat) := if Nat.eqb i k then 1%Z else 0%Z in
  if full then Ok (mkCtr (map (fun i => map (fun k => unit_row k i) (seq 0 n)) (seq 0 n)) (map (fun v => "[" ++ ylabel v ++ "]")%string levels))
  else Ok (mkCtr (map (fun i => map (fun k => unit_row k i) (seq 1 (n - 1))) (seq 0 n)) (map (fun v => "[T." ++ ylabel v ++ "]")%string (tl levels))).
Definition ybuilders := design_matrix_builders (ef_passes ycode ybins) (ef_chunk ycode ybins yorigin) (ef_finish ycode ybins) (ef_eval ycode yorigin yobj) yorigin ycm
  (fun l => Z.of_nat (List.length l)) (fun l => l) (fun _ l => l) (fun _ l => l) (fun _ => 0) (fun l => l).
Definition ychunks : list ydata := [[("p", 1); ("q", 2)]; [("r", 9)]]%Z.
Definition ytls : list (list term) := [[[]; ["a"]; ["center(x)"]]].
Definition ydesigns := match ybuilders (fun _ => ychunks) (NAStr "drop") ytls with Ok ds => ds | Err _ => [] end.
(** New data: the third row is missing x. *)
Definition ynew : ydata := [("q", 10); ("p", 4); ("p", -99); ("r", 3)]%Z.
Example entries_ex :
  ybuilders (fun _ => ychunks) (NAStr "drop") ytls = Ok ydesigns /\
  build 1%Z Z.mul (Z.eqb (-99)) (fun n => n) Nat.eqb (ef_eval ycode yorigin yobj) yorigin (fun _ : ydata => None) ydesigns ynew (NAStr "drop") false =
    Ok ([mkMat 3 [[1; 1; 1]; [1; 0; 0]; [0; 0; 1]; [6; 0; -1]]%Z], None) /\
  (forall f, In f (factors_of ytls) -> NoDup (map fst (calls (ycode f))) /\ inner_first (ycode f) (ybins f)) /\
  indexed (ef_eval ycode yorigin yobj) /\
  (forall f v, In f (factors_in ydesigns) -> fitted_value ychunks (ycode f) ynew = Ok v -> proper_codes (o_value (yobj v))).
Proof.
  split; [vm_compute; reflexivity|]. split; [vm_compute; reflexivity|]. split; [|split].
  - intros f Hf. cbn in Hf. destruct Hf as [<-|[<-|[]]]; (split; [cbn; repeat constructor; intros []|]); (split; [cbn; apply Permutation_refl|]); intros o c' args o' p q bin bin' Hc Ho; cbn in Hc; [destruct Hc|destruct Hc as [Hc|[]]; injection Hc as <- <- <-; destruct Ho].
  - intros f s d o i. unfold ef_eval. destruct (wrap_exc _ _ _) as [[l|l]|]; cbn; [intros [= <-]; discriminate..|discriminate].
  - intros f [l|l] _ _; exact Logic.I.
Qed.
(** [a] can not be centered; nothing to center. *)
Example errors_ex :
  ef_eval (fun _ => TCall "o" ycenter [TLeaf (fun d : ydata => Ok (inl (map fst d)))]) yorigin yobj "center(a)" (fun _ => Some (5, 1)%Z) ynew = Err (PatsyError "Error evaluating factor" (yorigin "center(a)")) /\
  ybuilders (fun _ => []) (NAStr "drop") ytls = Err (ValueError "no data").
Proof. split; vm_compute; reflexivity. Qed.
