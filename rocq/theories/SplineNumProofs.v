(** Order and floors of exact rationals. *)
From Coq Require Import ZArith Qround Lqa.
From Verif Require Import Base NumModel ContrastProofs SplineModel.
Open Scope nat_scope.

Lemma this_add a b : (this (a + b)%Qc == this a + this b)%Q. Proof. unfold Qcplus. cbn [this Q2Qc]. apply Qred_correct. Qed.
Lemma this_mul a b : (this (a * b)%Qc == this a * this b)%Q. Proof. unfold Qcmult. cbn [this Q2Qc]. apply Qred_correct. Qed.
Lemma this_opp a : (this (- a)%Qc == - this a)%Q. Proof. unfold Qcopp. cbn [this Q2Qc]. apply Qred_correct. Qed.
Lemma this_sub a b : (this (a - b)%Qc == this a - this b)%Q. Proof. unfold Qcminus, Qminus. now rewrite this_add, this_opp. Qed.
Lemma this_inv a : (this (/ a)%Qc == / this a)%Q. Proof. unfold Qcinv. cbn [this Q2Qc]. apply Qred_correct. Qed.
Lemma this_div a b : (this (a / b)%Qc == this a / this b)%Q. Proof. unfold Qcdiv, Qdiv. now rewrite this_mul, this_inv. Qed.
Lemma this_qz z : (this (qz z) == inject_Z z)%Q. Proof. unfold qz. cbn [this Q2Qc]. apply Qred_correct. Qed.
Lemma this_0 : (this 0%Qc == 0)%Q. Proof. reflexivity. Qed.
Lemma this_1 : (this 1%Qc == 1)%Q. Proof. reflexivity. Qed.
Lemma qc_eq a b : (this a == this b)%Q -> a = b. Proof. apply Qc_is_canon. Qed.
Lemma qc_eq_inv a b : a = b -> (this a == this b)%Q. Proof. now intros ->. Qed.

(** To lra's rationals. *)
Ltac qq := unfold Qclt, Qcle in *;
  repeat match goal with
         | H : context [this (_ + _)%Qc] |- _ => rewrite this_add in H
         | H : context [this (_ - _)%Qc] |- _ => rewrite this_sub in H
         | H : context [this (_ * _)%Qc] |- _ => rewrite this_mul in H
         | H : context [this (- _)%Qc] |- _ => rewrite this_opp in H
         | H : context [this 0%Qc] |- _ => rewrite this_0 in H
         | H : context [this 1%Qc] |- _ => rewrite this_1 in H
         end;
  repeat first [rewrite this_sub | rewrite this_add | rewrite this_mul | rewrite this_opp | rewrite this_0 | rewrite this_1].

Lemma qltb_iff a b : qltb a b = true <-> (a < b)%Qc.
Proof. unfold qltb. destruct (Qclt_le_dec a b) as [H|H]; split; auto; [discriminate|]. intros X. exfalso. apply (Qcle_not_lt _ _ H X). Qed.
Lemma qltb_not a b : qltb a b = false <-> (b <= a)%Qc.
Proof. unfold qltb. destruct (Qclt_le_dec a b) as [H|H]; split; auto; [discriminate|]. intros X. exfalso. apply (Qcle_not_lt _ _ X H). Qed.
Lemma qleb_iff a b : qleb a b = true <-> (a <= b)%Qc.
Proof. unfold qleb. rewrite negb_true_iff. apply qltb_not. Qed.
Lemma qleb_not a b : qleb a b = false <-> (b < a)%Qc.
Proof. unfold qleb. rewrite negb_false_iff. apply qltb_iff. Qed.

Lemma qfloor_spec q : (qz (qfloor q) <= q)%Qc /\ (q < qz (qfloor q) + 1)%Qc.
Proof.
  unfold qfloor. split; qq; rewrite this_qz.
  - apply Qfloor_le.
  - pose proof (Qlt_floor (this q)) as H. rewrite inject_Z_plus in H. exact H.
Qed.
Lemma qmod_spec a p : (0 < p)%Qc -> (0 <= qmod a p)%Qc /\ (qmod a p < p)%Qc /\ exists k, (a = qmod a p + qz k * p)%Qc.
Proof.
  intros Hp. unfold qmod. destruct (qfloor_spec (a / p)%Qc) as [H1 H2]. set (k := qfloor (a / p)) in *.
  assert (E : (a = p * (a / p))%Qc). { field. intros ->. now apply Qclt_not_eq in Hp. }
  set (r := (a / p)%Qc) in *. clearbody r k. subst a. split; [|split; [|exists k; ring]].
  - qq. assert (0 <= this p * (this r - this (qz k)))%Q by (apply Qmult_le_0_compat; lra). lra.
  - qq. assert (0 < this p * (this (qz k) + 1 - this r))%Q by (apply Qmult_lt_0_compat; lra). lra.
Qed.
