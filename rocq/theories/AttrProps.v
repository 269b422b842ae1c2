(** C17, C36, C46: what the attributes and methods give that only pass something on. *)
From Coq Require Import NArith Permutation.
From Verif Require Import Base DescModel FormulaModel BuildModel BuildSpec BuildProps EvalModel EvalProps DescProofs AttrModel.
Open Scope nat_scope.
Open Scope list_scope.

(** C46.  [name in namespace] says whether [namespace[name]] has a value, and [get] gives that value or else the default. *)
Theorem lookup_contains_get : forall {val} (l : list (@namespace val)) s default,
  (vld_contains l s = true <-> exists v, vlookup l s = Some v) /\
  (vld_contains l s = false -> vld_get l s default = default /\ Forall (fun d => d s = None) l) /\
  (forall v, vlookup l s = Some v -> vld_get l s default = v) /\
  (forall k v, vld_contains (vset (new_vld l) k v) s = String.eqb s k || vld_contains l s).
Proof.
  intros val l s default. unfold vld_contains, vld_get. split; [|split; [|split]].
  - destruct (vlookup l s) as [v|]; split; try easy; [now exists v|]. now intros [v ?].
  - destruct (vlookup l s) as [v|] eqn:E; [easy|]. intros _. split; auto. induction l as [|d l IH]; constructor; cbn in E; destruct (d s) eqn:Ed; try easy. auto.
  - now intros v ->.
  - intros k v. rewrite (proj2 (proj2 (lookup_innermost l s)) k v). now destruct (String.eqb s k).
Qed.
Print Assumptions lookup_contains_get.

(** C17.  [!=] is the opposite of [==], and equal terms have equal hashes, so that they are the same key of a dict,
    whatever the hashes of their factors. *)
Theorem term_hash_agrees : forall shuffle finish of_pair a b,
  (term_ne a b = true <-> ~ (forall f, In f a <-> In f b)) /\
  (term_eqb a b = true -> term_hash shuffle finish of_pair a = term_hash shuffle finish of_pair b).
Proof.
  intros shuffle finish of_pair a b.
  assert (S : forall x y, subset_eqb x y = true <-> forall f, In f x -> In f y).
  { intros x y. unfold subset_eqb. rewrite forallb_forall. split; intros H f Hf.
    - specialize (H f Hf). apply existsb_exists in H as (g & Hg & E). apply String.eqb_eq in E. now subst.
    - apply existsb_exists. exists f. split; auto. apply String.eqb_refl. }
  assert (T : term_eqb a b = true <-> forall f, In f a <-> In f b).
  { unfold term_eqb. rewrite andb_true_iff, !S. firstorder. }
  split.
  - unfold term_ne. rewrite negb_true_iff. rewrite <- T. destruct (term_eqb a b); split; congruence.
  - rewrite T. intros H. unfold term_hash, frozenset_hash. cbv zeta.
    assert (P : Permutation (nodup string_dec a) (nodup string_dec b)).
    { apply NoDup_Permutation; try apply NoDup_nodup. intros f. rewrite !nodup_In. apply H. }
    rewrite (Permutation_length P). do 2 f_equal. apply (Permutation_map shuffle) in P. revert P. generalize (map shuffle (nodup string_dec a)), (map shuffle (nodup string_dec b)).
    induction 1 as [|x l l' P IH|x y l|l l' l'' P IH P' IH']; cbn; try congruence. rewrite <- !N.lxor_assoc. now rewrite (N.lxor_comm y x).
Qed.
Print Assumptions term_hash_agrees.

(** C36.  [terms] are the terms of the design in order, or None where it has none; [term_names] their names; and
    [builder] is the design itself. *)
Theorem design_terms : forall (V : Type) names infos codings (d : @design_info V), dicts infos codings ->
  mk_design_info names infos codings = Ok d ->
  di_terms d = option_map (map fst) codings /\ di_builder d = d /\
  di_term_names d = match di_terms d with Some ts => map term_name ts | None => names end.
Proof.
  intros V names infos codings d Hd E. destruct (term_slices_partition_columns V names infos codings d Hd E) as (_ & _ & _ & _ & _ & _ & H).
  unfold di_terms, di_term_names, di_builder. destruct codings as [cs|].
  - destruct H as (sl & E1 & E2 & _ & E4 & _). rewrite E1, E4. cbn [option_map]. rewrite E2, map_map. auto.
  - assert (Et : di_term_slices d = None).
    { revert E. unfold mk_design_info. destruct infos; cbn [bind]; [discriminate|]. cbn [mk_slices bind]. unfold assert, check.
      repeat match goal with |- context [match ?t with _ => _ end] => destruct t; try discriminate end; intros E; now injection E as <-. }
    rewrite Et. auto.
Qed.
Print Assumptions design_terms.

(** * Examples *)
Example contains_example : let d1 := ns_set empty_ns "a" 1 in let d2 := ns_set (ns_set empty_ns "a" 2) "b" 3 in let l := new_vld [d1; d2] in
  vld_contains l "a" = true /\ vld_contains l "c" = false /\ vld_get l "a" 7 = 1 /\ vld_get l "b" 7 = 3 /\ vld_get l "c" 7 = 7 /\ vld_contains (vset l "c" 5) "c" = true.
Proof. repeat split. Qed.
Example hash_example : let h := fun s => N.of_nat (String.length s) in let t := term_hash h (fun n x => (x + N.of_nat n)%N) N.succ in
  term_ne ["a"; "bb"] ["bb"; "a"] = false /\ t ["a"; "bb"] = t ["bb"; "a"] /\ term_ne ["a"] ["bb"] = true /\ t ["a"] <> t ["bb"].
Proof. repeat split. vm_compute. discriminate. Qed.
Example design_terms_example : exists d : @design_info nat, mk_design_info ["x"; "y"] None None = Ok d /\ di_terms d = None /\ di_term_names d = ["x"; "y"].
Proof. eexists. split; [reflexivity|]. split; reflexivity. Qed.
Example design_terms_example_coded : di_terms exd = Some [[]; ["a"]; ["x"]; ["a"; "x"]]%string /\ di_term_names exd = ["Intercept"; "a"; "x"; "a:x"]%string.
Proof. vm_compute. split; reflexivity. Qed.
