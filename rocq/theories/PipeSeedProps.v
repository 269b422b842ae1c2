(** Results do not depend on hashes, the orders of sets, or identities (C71). *)
From Coq Require Import Permutation.
From Verif Require Import Base OriginModel ParseFormulaModel TokensModel RedundancySpec UtilModel DescModel FormulaModel BuildModel BuildSpec
  MemorizeModel MemorizeSpec CategoricalModel CategoricalSpec PipeModel PipeSpec PipeHighProofs PipeSeedSpec PipeSeedProofs PipeSeedTopProofs PipeProps.
Open Scope nat_scope.
Open Scope string_scope.
Open Scope list_scope.

Section Theorems.
Context {V I C S D : Type}.
Variables (vone : V) (vmul : V -> V -> V) (visnan : V -> bool) (ilabel : nat -> I) (ieqb : I -> I -> bool).
Hypothesis ieqb_eq : forall a b, ieqb a b = true <-> a = b.
Variable passes : factor -> result (S * Z).
Variable chunk : factor -> S -> nat -> D -> result S.
Variable finish : factor -> S -> nat -> result S.
Variable eval : factor -> S -> D -> result (@fobj V I C).
Hypothesis Hidx : indexed eval.
Variable origin_of : factor -> option origin.
Variable code_cm : list pval -> option C -> bool -> result (@ctr V).
Variable df_index : D -> option (list I).
Variable upcast : V -> V.
Variable vobj : V.
Variable tokenize : string -> list pytok * option exn.
Variable norm : string -> string.
Variable is_float : string -> bool.
Variable have_pandas : bool.
(** Two runs of the interpreter. *)
Variables w1 w2 : run_of_python.

Local Notation builders w := (design_matrix_builders passes chunk finish eval origin_of code_cm (py_hash w) (py_set_order w) (py_order_mem w) (py_order_exam w) (py_addr w) (py_hash_order w)).
Local Notation dmatrix w := (dmatrix vone vmul visnan ilabel ieqb passes chunk finish eval origin_of code_cm (py_hash w) (py_set_order w) (py_order_mem w) (py_order_exam w) (py_addr w) (py_hash_order w) df_index upcast vobj tokenize norm is_float have_pandas).
Local Notation dmatrices w := (dmatrices vone vmul visnan ilabel ieqb passes chunk finish eval origin_of code_cm (py_hash w) (py_set_order w) (py_order_mem w) (py_order_exam w) (py_addr w) (py_hash_order w) df_index upcast vobj tokenize norm is_float have_pandas).
Local Notation highlevel w := (highlevel_design vone vmul visnan ilabel ieqb passes chunk finish eval origin_of code_cm (py_hash w) (py_set_order w) (py_order_mem w) (py_order_exam w) (py_addr w) (py_hash_order w) df_index upcast vobj tokenize norm is_float have_pandas).
Local Notation termlists fl := (termlists_of tokenize norm is_float fl).
Local Notation fixed na data tls := (forall act, get_action na = Ok act -> levels_fixed passes chunk finish eval origin_of w1 w2 (na_what act) data tls).

(** * C71: another run gives the same *)
(** Designs made from data that comes in any number of chunks. *)
Theorem runs_agree_designs : forall data na tls ds1, lawful tls w1 -> lawful tls w2 -> fixed na data tls ->
  builders w1 data na tls = Ok ds1 -> exists ds2, builders w2 data na tls = Ok ds2 /\ Forall2 same_design ds1 ds2.
Proof.
  intros data na tls ds1 L1 L2 Hf H. destruct (builders_same vone vmul visnan passes chunk finish eval origin_of code_cm w1 w2 data na tls ds1 L1 L2 Hf H) as [ds2 [E [Hs _]]]. eauto.
Qed.

(** If dmatrices succeeds in one run, then in the other with the same matrices, labels, names, codings, states and levels. *)
Theorem runs_agree_dmatrices : forall fl d na rt l1 r1, proper_input fl -> lawful (termlists fl) w1 -> lawful (termlists fl) w2 -> fixed na (fun _ => [d]) (termlists fl) ->
  dmatrices w1 fl d na rt = Ok (l1, r1) -> exists l2 r2, dmatrices w2 fl d na rt = Ok (l2, r2) /\ same_matrix l1 l2 /\ same_matrix r1 r2.
Proof.
  intros fl d na rt l1 r1 Hp L1 L2 Hf. unfold PipeModel.dmatrices. destruct (highlevel w1 fl d na rt) as [[l r]|] eqn:E; cbn [bind]; [|discriminate].
  destruct (highlevel_same vone vmul visnan ilabel ieqb ieqb_eq passes chunk finish eval origin_of code_cm df_index Hidx w1 w2 upcast vobj tokenize norm is_float have_pandas fl d na rt l r Hp L1 L2 Hf E) as [l2 [r2 [-> [Sl Sr]]]].
  cbn [bind]. destruct Sl as [Sm Sl]. rewrite <- Sm. destruct (Nat.eqb _ 0); [discriminate|]. intros [= <- <-]. exists l2, r2. split; [reflexivity|]. split; [split; assumption|exact Sr].
Qed.
Theorem runs_agree_dmatrix : forall fl d na rt r1, proper_input fl -> lawful (termlists fl) w1 -> lawful (termlists fl) w2 -> fixed na (fun _ => [d]) (termlists fl) ->
  dmatrix w1 fl d na rt = Ok r1 -> exists r2, dmatrix w2 fl d na rt = Ok r2 /\ same_matrix r1 r2.
Proof.
  intros fl d na rt r1 Hp L1 L2 Hf. unfold PipeModel.dmatrix. destruct (highlevel w1 fl d na rt) as [[l r]|] eqn:E; cbn [bind]; [|discriminate].
  destruct (highlevel_same vone vmul visnan ilabel ieqb ieqb_eq passes chunk finish eval origin_of code_cm df_index Hidx w1 w2 upcast vobj tokenize norm is_float have_pandas fl d na rt l r Hp L1 L2 Hf E) as [l2 [r2 [-> [Sl Sr]]]].
  cbn [bind]. destruct Sl as [Sm Sl]. rewrite <- Sm. destruct (negb _); [discriminate|]. intros [= <-]. exists r2. split; [reflexivity|exact Sr].
Qed.
End Theorems.
Print Assumptions runs_agree_designs.
Print Assumptions runs_agree_dmatrices.
Print Assumptions runs_agree_dmatrix.

(** Levels that are objects without an order are sorted by address: another run may order the columns in
    another way. *)
Definition oeval (f : factor) (s : unit) (d : list nat) : result (@fobj Z nat unit) :=
  Ok (mkObj (Plain (DSeq false (map (fun i => VObj "A" i true) d))) 1 1 false [] None).
Definition ocm (levels : list pval) (c : option unit) (full : bool) : result (@ctr Z) :=
  let n := List.length levels in
  Ok (mkCtr (map (fun i => map (fun k => if Nat.eqb i k then 1%Z else 0%Z) (seq 0 n)) (seq 0 n)) (map (fun v => match v with VObj _ i _ => nat_str i | _ => "" end) levels)).
Definition orun (addr : pval -> nat) : run_of_python := mkRun xhash (fun l => l) (fun _ l => l) (fun _ l => l) addr (fun l => l).
Definition odmatrix (w : run_of_python) :=
  dmatrix (I := nat) (C := unit) 1%Z Z.mul (fun _ => false) (fun n => n) Nat.eqb (fun _ => Ok (tt, 0%Z)) (fun _ s _ _ => Ok s) (fun _ s _ => Ok s) oeval (fun _ => None) ocm
    (py_hash w) (py_set_order w) (py_order_mem w) (py_order_exam w) (py_addr w) (py_hash_order w) (fun _ => None) (fun z => z) 0%Z xtokenize (fun s => s) (fun _ => false) true.
Theorem runs_agree_addresses_refuted : exists w1 w2 fl d na r1 r2, lawful (termlists_of xtokenize (fun s => s) (fun _ => false) fl) w1 /\ lawful (termlists_of xtokenize (fun s => s) (fun _ => false) fl) w2 /\
  odmatrix w1 fl d na RMatrix = Ok r1 /\ odmatrix w2 fl d na RMatrix = Ok r2 /\ x_mat r1 <> x_mat r2.
Proof.
  exists (orun (fun v => match v with VObj _ i _ => i | _ => 0 end)), (orun (fun v => match v with VObj _ i _ => 9 - i | _ => 0 end)), (FDesc (mk_model_desc [] [["a"]])), [4; 7; 7], (NAStr "drop").
  assert (L : forall a, lawful [[]; [["a"]]] (orun a)).
  { intros a. repeat split; cbn; auto. constructor; [|constructor; [|constructor]]; intros x y Hx Hy Nx Ny; unfold xhash; rewrite !map_length; cbn [concat app] in *.
    - destruct x as [|f x]; [|destruct (Hx f (or_introl eq_refl))]. destruct y as [|f y]; [|destruct (Hy f (or_introl eq_refl))]. split; [intros _ f; tauto|reflexivity].
    - assert (G : forall z : list factor, incl z ["a"] -> NoDup z -> z = [] \/ z = ["a"]).
      { intros [|f [|g z]] Hz Nz; [now left|right; destruct (Hz f (or_introl eq_refl)) as [<-|[]]; reflexivity|].
        destruct (Hz f (or_introl eq_refl)) as [<-|[]]. destruct (Hz g (or_intror (or_introl eq_refl))) as [<-|[]]. inversion Nz; subst. exfalso. apply H1. now left. }
      destruct (G x Hx Nx) as [->| ->], (G y Hy Ny) as [->| ->]; cbn; split; try discriminate; auto; try (intros _ f; tauto); intros H; exfalso; [destruct (proj2 (H "a") (or_introl eq_refl))|destruct (proj1 (H "a") (or_introl eq_refl))]. }
  eexists _, _. split; [apply L|]. split; [apply L|]. split; [vm_compute; reflexivity|]. split; [vm_compute; reflexivity|]. cbn. discriminate.
Qed.
Print Assumptions runs_agree_addresses_refuted.

(** * Examples *)
(** Two runs: hashes differ, sets are gone through in opposite orders. *)
Definition member (f : factor) (l : list (bool * factor)) (n : Z) : Z := if existsb (fun p => String.eqb (snd p) f) l then n else 0%Z.
Definition srun1 : run_of_python :=
  mkRun (fun l => member "a" l 1 + member "center(x)" l 2 + member "y" l 4)%Z (fun l => l) (fun _ l => l) (fun _ l => l) (fun _ => 0) (fun l => l).
Definition srun2 : run_of_python :=
  mkRun (fun l => member "a" l 10 - member "center(x)" l 3 + member "y" l 1)%Z (@rev factor) (fun _ => @rev factor) (fun _ => @rev factor) (fun _ => 5) (@rev pval).
Definition sdmatrices (w : run_of_python) := dmatrices (I := nat) (C := unit) 1%Z Z.mul (Z.eqb (-99)) (fun n => n) Nat.eqb xpasses xchunk xfinish xeval (fun _ => None) xcm
  (py_hash w) (py_set_order w) (py_order_mem w) (py_order_exam w) (py_addr w) (py_hash_order w) snd (fun z => z * 10)%Z 7%Z xtokenize (fun s => s) (fun _ => false) true.
Lemma member_in f (l : list factor) n : member f (map (fun f => (false, f)) l) n = if in_dec string_dec f l then n else 0%Z.
Proof.
  unfold member. destruct (existsb _ _) eqn:E; destruct (in_dec string_dec f l) as [H|H]; try reflexivity; exfalso.
  - apply H. apply existsb_exists in E. destruct E as [p [Hp E]]. apply in_map_iff in Hp. destruct Hp as [g [<- Hg]]. apply String.eqb_eq in E. cbn in E. now subst.
  - apply not_true_iff_false in E. apply E. apply existsb_exists. exists (false, f). split; [apply in_map_iff; eauto|apply String.eqb_refl].
Qed.
Example runs_lawful : lawful (termlists_of (V := Z) (I := nat) (S := Z * Z) xtokenize (fun s => s) (fun _ => false) (FDesc xmd)) srun1 /\
  lawful (termlists_of (V := Z) (I := nat) (S := Z * Z) xtokenize (fun s => s) (fun _ => false) (FDesc xmd)) srun2.
Proof.
  assert (G : forall fs hash, incl fs ["a"; "center(x)"; "y"] -> (forall l : list factor, exists v, hash (map (fun f => (false, f)) l) = v) ->
    (forall a b : list factor, hash (map (fun f => (false, f)) a) = hash (map (fun f => (false, f)) b) <-> forall f, In f ["a"; "center(x)"; "y"] -> (In f a <-> In f b)) -> collision_free hash fs).
  { intros fs hash Hfs _ H a b Ha Hb _ _. rewrite H. split; [|intros E f _; apply E]. intros E f. split; intros Hf; apply (E f); auto. }
  split; (split; [intros; cbn; try reflexivity; symmetry; apply Permutation_rev|]); (split; [intros; cbn; try reflexivity; symmetry; apply Permutation_rev|]);
    (split; [intros; cbn; try reflexivity; symmetry; apply Permutation_rev|]); (split; [intros; cbn; try reflexivity; symmetry; apply Permutation_rev|]);
    (constructor; [|constructor; [|constructor]]); (apply G; [intros f Hf; cbn in Hf |- *; tauto|eauto|]); intros a b; cbn [py_hash srun1 srun2]; rewrite !member_in; cbn [In];
    destruct (in_dec string_dec "a" a), (in_dec string_dec "center(x)" a), (in_dec string_dec "y" a), (in_dec string_dec "a" b), (in_dec string_dec "center(x)" b), (in_dec string_dec "y" b);
    split; intros H; try discriminate; try reflexivity;
    try (intros f [<-|[<-|[<-|[]]]]; tauto);
    exfalso; pose proof (H "a" (or_introl eq_refl)); pose proof (H "center(x)" (or_intror (or_introl eq_refl))); pose proof (H "y" (or_intror (or_intror (or_introl eq_refl)))); tauto.
Qed.
Example runs_levels : forall act, levels_fixed xpasses xchunk xfinish xeval (fun _ => None) srun1 srun2 (na_what act) (fun _ => [xd]) [lhs_termlist xmd; rhs_termlist xmd].
Proof.
  intros act f s sn Hf Ht Hty Hl. left. cbn in Hf. destruct Hf as [<-|[<-|[<-|[]]]].
  - unfold type_of in Hty. cbn in Hty. discriminate.
  - destruct Ht as [s0 [k [[= <- <-] R]]]. cbn in R. injection R as <-. destruct act as [on [[] []]]; vm_compute in Hty; injection Hty as <-; apply Forall_forall; intros v Hv; right; cbn in Hv; repeat (destruct Hv as [<-|Hv]; [eexists; reflexivity|]); destruct Hv.
  - unfold type_of in Hty. cbn in Hty. discriminate.
Qed.
Example runs_ex : show (sdmatrices srun1 (FDesc xmd) xd xna RDataFrame) = show (sdmatrices srun2 (FDesc xmd) xd xna RDataFrame) /\
  show (sdmatrices srun2 (FDesc xmd) xd xna RDataFrame) =
  Ok (["y"], mkMat 3 [[10; 12; 13]%Z], ["Intercept"; "a[T.q]"; "a[T.r]"; "center(x)"], mkMat 3 [[1; 1; 1]; [0; 0; 0]; [0; 0; 1]; [-2; 0; 3]]%Z, Some [5; 7; 8]).
Proof. vm_compute. auto. Qed.
