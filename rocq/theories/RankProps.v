(** C21: the design matrix of categorical terms is free of redundancy and spans the model. *)
From Coq Require Import Ring_theory ZArithRing.
From Verif Require Import Base RedundancyModel RedundancySpec RankSpec RankProofs RankTopProofs RedundancyProps.

Theorem design_columns_full_rank : forall (R : Type) (rO rI : R) radd rmul rsub ropp (F : Type) (feqb : F -> F -> bool)
    hash is_numeric terms nlev ncol M ok,
  ring_theory rO rI radd rmul rsub ropp (@eq R) ->
  (forall a b, feqb a b = true <-> a = b) -> collision_free hash (List.concat terms) -> Forall (@NoDup F) terms ->
  let cats := map (filter (fun f => negb (is_numeric f))) terms in
  let all := List.concat cats in
  (forall f, In f all -> good_coding rO rI radd rmul nlev ncol M f) -> complete_data nlev all ok ->
  exists css, pick_all feqb hash terms is_numeric [] = Ok css /\
    let cols := flat_map (coding_cols rI rmul ncol M) (List.concat css) in
    independent rO radd rmul ok cols /\ forall Y, in_span rO radd rmul ok cols Y <-> model_space rO radd nlev all cats ok Y.
Proof. intros R rO rI radd rmul rsub ropp F. exact (full_rank_lemma rO rI radd rmul rsub ropp). Qed.
Print Assumptions design_columns_full_rank.

(** Two factors with 2 and 3 levels, treatment coded, over the integers. *)
Definition ex_nlev (f : nat) : nat := S (S f).
Definition ex_ncol (f : nat) (full : bool) : nat := if full then S (S f) else S f.
Definition ex_M (f : nat) (full : bool) (l k : nat) : Z :=
  if full then (if Nat.eqb l k then 1 else 0)%Z else (if Nat.eqb l (S k) then 1 else 0)%Z.
Definition ex_inv (i j : nat) : Z :=
  match i, j with O, O => 1 | O, _ => 0 | S k, O => -1 | S k, S m => if Nat.eqb k m then 1 else 0 end%Z.
Example ex_good : forall f, In f (List.concat [[0]; [1]; [0; 1]]) -> good_coding 0%Z 1%Z Z.add Z.mul ex_nlev ex_ncol ex_M f.
Proof.
  intros f Hf. assert (f = 0 \/ f = 1) as [->| ->] by (cbn in Hf; intuition).
  - split; [reflexivity|]. split; [reflexivity|]. split; [exists ex_inv|exists (fun i j => if i =? j then 1%Z else 0%Z)];
      split; intros [|[|i]] [|[|j]] Hi Hj; unfold ex_nlev in *; try lia; reflexivity.
  - split; [reflexivity|]. split; [reflexivity|]. split; [exists ex_inv|exists (fun i j => if i =? j then 1%Z else 0%Z)];
      split; intros [|[|[|i]]] [|[|[|j]]] Hi Hj; unfold ex_nlev in *; try lia; reflexivity.
Qed.
Example ex_complete : complete_data ex_nlev (List.concat [[0]; [1]; [0; 1]]) (fun rho => rho 0 < 2 /\ rho 1 < 3).
Proof.
  split.
  - intros rho [H0 H1] f Hf. cbn in Hf. unfold ex_nlev. intuition; subst; lia.
  - intros rho H. exists rho. split; [|auto]. split; [apply (H 0)|apply (H 1)]; cbn; auto.
Qed.
Example rank_ex : exists css, pick_all Nat.eqb bithash [[0]; [1]; [0; 1]] (fun _ => false) [] = Ok css /\
  let cols := flat_map (coding_cols 1%Z Z.mul ex_ncol ex_M) (List.concat css) in
  length cols = 6 /\ independent 0%Z Z.add Z.mul (fun rho => rho 0 < 2 /\ rho 1 < 3) cols.
Proof.
  destruct (design_columns_full_rank Z 0%Z 1%Z Z.add Z.mul Z.sub Z.opp nat Nat.eqb bithash (fun _ => false) [[0]; [1]; [0; 1]]
    ex_nlev ex_ncol ex_M (fun rho => rho 0 < 2 /\ rho 1 < 3) Zth Nat.eqb_eq (bithash_collision_free _)) as [css [E [H _]]].
  - repeat constructor; cbn; intuition discriminate.
  - exact ex_good.
  - exact ex_complete.
  - exists css. split; [exact E|]. split; [|exact H]. assert (E' := E). vm_compute in E'. injection E' as <-. vm_compute. reflexivity.
Qed.
