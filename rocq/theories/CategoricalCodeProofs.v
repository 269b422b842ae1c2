(** Category codes, and the types of factors. *)
From Coq Require Import Ascii QArith Permutation.
From Verif Require Import Base BuildModel BuildProofs CategoricalModel CategoricalSpec CategoricalKeyProofs.
Open Scope nat_scope.
Open Scope string_scope.
Open Scope list_scope.

(** * Codes *)
Lemma bool_not_missing na b : ~ missing na (VBool b).
Proof. unfold missing. intros [[_ [[i A]|[s [A _]]]]|[_ A]]; discriminate. Qed.
Lemma code_value_ok na org levels v z : code_value na org (level_to_int levels) v = Ok z -> coded na levels v z.
Proof.
  unfold code_value, coded. destruct (na_cases na v) as [[E M]|[[E M]|E]]; rewrite E; cbn [bind]; [| |discriminate].
  - intros H. injection H as <-. auto.
  - destruct (hashable v); [|discriminate]. cbn [negb]. rewrite level_to_int_get. destruct (last_place v levels 0) as [i|] eqn:Ei; [|discriminate].
    intros H. injection H as <-. right. split; [exact M|]. apply last_place_some in Ei. destruct Ei as [a [x [b [H1 [H2 [H3 ->]]]]]]. exists a, x, b. auto.
Qed.
Lemma coded_unique na levels v z z' : coded na levels v z -> coded na levels v z' -> z = z'.
Proof.
  intros [[M ->]|[M [a [x [b [H1 [H2 [H3 ->]]]]]]]] [[M' ->]|[M' [a' [x' [b' [H1' [H2' [H3' ->]]]]]]]]; try contradiction; [reflexivity|].
  assert (E : last_place v levels 0 = Some (List.length a)) by (apply last_place_some; exists a, x, b; auto).
  assert (E' : last_place v levels 0 = Some (List.length a')) by (apply last_place_some; exists a', x', b'; auto). congruence.
Qed.
Lemma code_value_complete na org levels v : testable na v ->
  (exists z, coded na levels v z /\ (missing na v \/ hashable v = true)) \/ exists msg, code_value na org (level_to_int levels) v = Err (PatsyError msg org).
Proof.
  intros T. destruct (testable_cases na v T) as [[E M]|[E M]].
  - left. exists (-1)%Z. split; [left|]; auto.
  - unfold code_value. rewrite E. cbn [bind]. destruct (hashable v); cbn [negb]; [|right; eauto].
    rewrite level_to_int_get. destruct (last_place v levels 0) as [i|] eqn:Ei; [|right; eauto]. left. exists (Z.of_nat i). split; [|auto]. right. split; [exact M|].
    apply last_place_some in Ei. destruct Ei as [a [x [b [H1 [H2 [H3 ->]]]]]]. exists a, x, b. auto.
Qed.
Lemma code_value_coded na org levels v z : testable na v -> missing na v \/ hashable v = true -> coded na levels v z -> code_value na org (level_to_int levels) v = Ok z.
Proof.
  intros T Hh Hc. destruct (code_value na org (level_to_int levels) v) as [z'|e] eqn:E.
  - f_equal. eapply coded_unique; [eapply code_value_ok; eauto|exact Hc].
  - exfalso. unfold code_value in E. destruct (testable_cases na v T) as [[E1 M]|[E1 M]]; rewrite E1 in E; cbn [bind] in E; [discriminate|].
    destruct Hh as [Hh|Hh]; [contradiction|]. rewrite Hh in E. cbn [negb] in E. rewrite level_to_int_get in E.
    destruct Hc as [[Hc _]|[_ [a [x [b [H1 [H2 [H3 _]]]]]]]]; [contradiction|].
    assert (E2 : last_place v levels 0 = Some (List.length a)) by (apply last_place_some; exists a, x, b; auto). rewrite E2 in E. discriminate.
Qed.
Lemma code_value_error na org levels v e : testable na v -> code_value na org (level_to_int levels) v = Err e -> exists msg, e = PatsyError msg org.
Proof.
  intros T. unfold code_value. destruct (testable_cases na v T) as [[-> M]|[-> M]]; cbn [bind]; [discriminate|].
  destruct (hashable v); cbn [negb]; [|intros H; injection H as <-; eauto]. rewrite level_to_int_get. destruct (last_place v levels 0); [discriminate|]. intros H; injection H as <-; eauto.
Qed.
Lemma shape_fix_values d l : consists_of d l -> shape_fix d = Ok l.
Proof.
  intros [n l' Hle|n l'|n v|cats codes l' Hf]; cbn [shape_fix]; try reflexivity.
  - destruct (Nat.ltb_spec 1 n); [lia|reflexivity].
  - f_equal. induction Hf as [|z v codes l1 H Hf IH]; [reflexivity|]. cbn. f_equal; [|exact IH]. destruct H as [[Hz ->]|[Hz H]].
    + destruct (Z.ltb_spec z 0); [reflexivity|lia].
    + destruct (Z.ltb_spec z 0); [lia|]. now apply nth_error_nth.
Qed.

Section Code.
Context {C : Type}.
(** What [categorical_to_int] does after unboxing. *)
Definition code_data (na : na_types) (org : option origin) (levels : list pval) (d : cdata) : result (list Z) :=
  let* values := shape_fix d in
  if negb (forallb hashable levels) then Err (PatsyError "Error interpreting categorical data: all items must be hashable" org)
  else
    let table := level_to_int levels in
    let slow := mapM (code_value na org table) values in
    match d with
    | DBools _ l =>
        let* f := lookup (dget key_eqb (VBool false) table) in
        if Nat.eqb f 0 then
          let* t := lookup (dget key_eqb (VBool true) table) in
          if Nat.eqb t 1 then Ok (map (fun b : bool => if b then 1%Z else 0%Z) l) else slow
        else slow
    | _ => slow
    end.
Lemma to_int_unfold (v : @value C) levels na org : categorical_to_int v levels na org =
  match v with
  | Plain (DPandas categories codes) => if tuple_eqb categories levels then Ok codes else Err (PatsyError "mismatching levels" org)
  | Plain d => code_data na org levels d
  | Boxed d _ (Some l) => if tuple_eqb l levels then code_data na org levels d else Err (PatsyError "mismatching levels" org)
  | Boxed d _ None => code_data na org levels d
  end.
Proof. destruct v as [d c [l|]|[]]; reflexivity. Qed.
Lemma mapM_coded na org levels values codes : mapM (code_value na org (level_to_int levels)) values = Ok codes -> Forall2 (coded na levels) values codes.
Proof. intros H. apply mapM_ok_Forall2 in H. induction H; constructor; auto. eapply code_value_ok; eauto. Qed.
Lemma code_data_ok na org levels d l codes : consists_of d l -> code_data na org levels d = Ok codes -> Forall2 (coded na levels) l codes.
Proof.
  intros Hc. unfold code_data. rewrite (shape_fix_values _ _ Hc). cbn [bind]. destruct (forallb hashable levels); [|discriminate]. cbn [negb].
  destruct Hc as [n l' Hle|n l'|n v|cats cs l' Hf]; try apply mapM_coded.
  rewrite !level_to_int_get. destruct (last_place (VBool false) levels 0) as [f|] eqn:Ef; [|discriminate]. cbn [lookup bind].
  destruct (Nat.eqb_spec f 0) as [->|]; [|apply mapM_coded]. destruct (last_place (VBool true) levels 0) as [t|] eqn:Et; [|discriminate]. cbn [lookup bind].
  destruct (Nat.eqb_spec t 1) as [->|]; [|apply mapM_coded]. intros H. injection H as <-.
  apply last_place_some in Ef, Et. destruct Ef as [a [x [b [H1 [H2 [H3 H4]]]]]]. destruct Et as [a' [x' [b' [H1' [H2' [H3' H4']]]]]].
  induction l' as [|[] l' IH]; cbn; constructor; auto; right; (split; [apply bool_not_missing|]); [exists a', x', b'|exists a, x, b]; repeat split; auto.
  - cbn in H4'. now rewrite <- H4'.
  - cbn in H4. now rewrite <- H4.
Qed.
Lemma mapM_codes na org levels l : Forall (fun v => testable na v /\ (missing na v \/ hashable v = true) /\ exists z, coded na levels v z) l ->
  exists codes, mapM (code_value na org (level_to_int levels)) l = Ok codes.
Proof.
  induction 1 as [|v l [T [Hh [z Hz]]] Hl [codes IH]]; cbn [mapM]; [eauto|]. rewrite (code_value_coded na org levels v z T Hh Hz). cbn [bind]. rewrite IH. cbn. eauto.
Qed.
Lemma mapM_codes_error na org levels l e : Forall (testable na) l -> mapM (code_value na org (level_to_int levels)) l = Err e -> exists msg, e = PatsyError msg org.
Proof.
  induction 1 as [|v l T Hl IH]; cbn [mapM]; [discriminate|]. destruct (code_value na org (level_to_int levels) v) as [z|e'] eqn:E; cbn [bind].
  - destruct (mapM _ l); cbn [bind]; [discriminate|]. intros H. injection H as ->. auto.
  - intros H. injection H as ->. eapply code_value_error; eauto.
Qed.
(** Booleans are among the levels, unless the data is no array of booleans. *)
Definition bools_in (levels : list pval) (d : cdata) : Prop :=
  forall n l, d = DBools n l -> (exists x, In x levels /\ same x (VBool false)) /\ exists x, In x levels /\ same x (VBool true).
Lemma in_place levels v : (exists x, In x levels /\ same x v) -> exists i, last_place v levels 0 = Some i.
Proof.
  intros [x [A B]]. destruct (last_place v levels 0) as [i|] eqn:E; [eauto|]. exfalso. exact (proj1 (last_place_none v levels 0) E x A B).
Qed.
Lemma code_data_total na org levels d l : consists_of d l -> forallb hashable levels = true -> bools_in levels d -> Forall (fun v => testable na v /\ (missing na v \/ hashable v = true) /\ exists z, coded na levels v z) l ->
  exists codes, code_data na org levels d = Ok codes.
Proof.
  intros Hc Hh Hb Hl. unfold code_data. rewrite (shape_fix_values _ _ Hc), Hh. cbn [bind negb].
  pose proof (mapM_codes na org levels l Hl) as M. destruct d; auto. destruct (Hb ndim l0 eq_refl) as [H1 H2]. rewrite !level_to_int_get.
  destruct (in_place _ _ H1) as [i ->]. destruct (in_place _ _ H2) as [j ->]. cbn [lookup bind]. destruct (Nat.eqb i 0); [|exact M]. destruct (Nat.eqb j 1); [eauto|exact M].
Qed.
Lemma code_data_error na org levels d l e : consists_of d l -> bools_in levels d -> Forall (testable na) l -> code_data na org levels d = Err e -> exists msg, e = PatsyError msg org.
Proof.
  intros Hc Hb Hl. unfold code_data. rewrite (shape_fix_values _ _ Hc). cbn [bind]. destruct (forallb hashable levels); cbn [negb]; [|intros H; injection H as <-; eauto].
  pose proof (fun e => mapM_codes_error na org levels l e Hl) as M. destruct d; auto. destruct (Hb ndim l0 eq_refl) as [H1 H2]. rewrite !level_to_int_get.
  destruct (in_place _ _ H1) as [i ->]. destruct (in_place _ _ H2) as [j ->]. cbn [lookup bind]. destruct (Nat.eqb i 0); [|apply M]. destruct (Nat.eqb j 1); [discriminate|apply M].
Qed.
End Code.
