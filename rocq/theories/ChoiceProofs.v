From Coq Require Import Ascii.
From Verif Require Import Base CategoricalModel ChoiceSpec.
Open Scope nat_scope.
Open Scope string_scope.
Open Scope list_scope.

(** * Nested calls of C *)
Definition override {A} (a b : option A) : option A := match b with None => a | _ => b end.
Lemma overrides {A} (l : list (option A)) a : last_given (a :: l) (fold_left override l a).
Proof.
  induction l as [|x l IH] using rev_ind; cbn.
  - destruct a; [apply (lg_some [] a []); constructor|constructor; now repeat constructor].
  - rewrite fold_left_app. cbn. destruct x as [x|]; cbn.
    + apply (lg_some (a :: l) x []). constructor.
    + remember (a :: l) as t eqn:T. rewrite app_comm_cons, <- T. destruct IH as [t N|t b r N].
      * constructor. apply Forall_app. split; [exact N|now repeat constructor].
      * rewrite <- app_assoc. cbn. apply lg_some. apply Forall_app. split; [exact N|now repeat constructor].
Qed.
Lemma last_given_unique {A} (l : list (option A)) x y : last_given l x -> last_given l y -> x = y.
Proof.
  assert (N : forall l (a : A) r, Forall (fun x => x = None) (l ++ Some a :: r) -> False).
  { intros l1 a r H. apply Forall_app in H. destruct H as [_ H]. inversion H. discriminate. }
  assert (G : forall r (a : A) r' (a' : A) l' l0, l0 ++ Some a :: r = l' ++ Some a' :: r' -> Forall (fun x => x = None) r -> Forall (fun x => x = None) r' -> a = a').
  { intros r a r' a' l' l1. revert l'. induction l1 as [|z l1 IH]; intros l' E F F'.
    - destruct l' as [|z' l']; cbn in E; injection E; [congruence|]. intros E2 E1. exfalso. rewrite E2 in F. destruct (N _ _ _ F).
    - destruct l' as [|z' l']; cbn in E; injection E; [|intros; eapply IH; eauto]. intros E2 E1. exfalso. rewrite <- E2 in F'. destruct (N _ _ _ F'). }
  intros [l1 F|l1 a r F] H2.
  - remember l1 as t eqn:T. destruct H2 as [t F'|t a' r' F']; [reflexivity|]. destruct (N _ _ _ F).
  - remember (l1 ++ Some a :: r) as t eqn:T. destruct H2 as [t F'|t a' r' F']; [rewrite T in F'; destruct (N _ _ _ F')|]. f_equal. symmetry in T. eapply G; eauto.
Qed.

(** * NaN *)
Lemma space_blank c : is_space c = true <-> In (nat_of_ascii c) [9; 10; 11; 12; 13; 28; 29; 30; 31; 32].
Proof. destruct c as [[] [] [] [] [] [] [] []]; vm_compute; intuition (discriminate || congruence || auto 20). Qed.
Lemma all_space_blank s : all_space s = true <-> blank s.
Proof.
  unfold blank. induction s as [|c s IH]; cbn [all_space list_ascii_of_string]; [split; constructor|]. rewrite andb_true_iff, space_blank, IH, Forall_cons_iff. reflexivity.
Qed.
Lemma lstrip_split s : exists pre, s = (pre ++ lstrip s)%string /\ blank pre.
Proof.
  induction s as [|c s IH]; [exists ""; split; [reflexivity|constructor]|]. cbn [lstrip]. destruct (is_space c) eqn:S.
  - destruct IH as [pre [E B]]. exists (String c pre). split; [cbn; now rewrite <- E|]. constructor; [now apply space_blank|exact B].
  - exists "". split; [reflexivity|constructor].
Qed.
Lemma lstrip_blank pre s : blank pre -> (forall c r, s = String c r -> is_space c = false) -> lstrip (pre ++ s) = s.
Proof.
  intros B H. induction pre as [|c pre IH].
  - cbn. destruct s as [|c r]; [reflexivity|]. cbn. now rewrite (H c r eq_refl).
  - inversion B; subst. cbn. apply space_blank in H2. rewrite H2. now apply IH.
Qed.
Lemma letter c l : Ascii.eqb (lower c) l = true -> In l ["n"%char; "a"%char] -> c = l \/ c = ascii_of_nat (nat_of_ascii l - 32).
Proof. intros H [<-|[<-|[]]]; destruct c as [[] [] [] [] [] [] [] []]; vm_compute in H |- *; try discriminate; auto. Qed.
Lemma nan_text_spec s : nan_text s = true <-> reads_nan s.
Proof.
  split.
  - unfold nan_text. destruct (lstrip_split s) as [pre [E B]]. rewrite E at 2. clear E. generalize (lstrip s). intros t.
    assert (G : forall t, (match t with
      | String a (String b (String c r)) => Ascii.eqb (lower a) "n" && Ascii.eqb (lower b) "a" && Ascii.eqb (lower c) "n" && all_space r
      | _ => false end) = true -> exists n1 a n2 post, t = (n1 ++ a ++ n2 ++ post)%string /\ blank post /\ In n1 ["n"; "N"] /\ In a ["a"; "A"] /\ In n2 ["n"; "N"]).
    { intros [|a [|b [|c r]]] H; try discriminate. rewrite !andb_true_iff in H. destruct H as [[[H1 H2] H3] H4]. apply all_space_blank in H4.
      exists (String a ""), (String b ""), (String c ""), r. split; [reflexivity|]. split; [exact H4|].
      apply letter in H1; [|cbn; auto]. apply letter in H2; [|cbn; auto]. apply letter in H3; [|cbn; auto].
      destruct H1 as [-> | ->], H2 as [-> | ->], H3 as [-> | ->]; cbn; auto 10. }
    destruct t as [|c t]; [discriminate|]. destruct (Ascii.eqb c "+" || Ascii.eqb c "-") eqn:S; intros H; [destruct (G t H) as [n1 [a [n2 [post [T [Bp R]]]]]]|destruct (G (String c t) H) as [n1 [a [n2 [post [T [Bp R]]]]]]].
    + exists pre, (String c ""), n1, a, n2, post. rewrite T. split; [reflexivity|]. split; [exact B|]. split; [exact Bp|]. split; [|exact R].
      apply orb_true_iff in S. destruct S as [S|S]; apply Ascii.eqb_eq in S; subst c; cbn; auto.
    + exists pre, "", n1, a, n2, post. rewrite T. split; [reflexivity|]. split; [exact B|]. split; [exact Bp|]. split; [cbn; auto|exact R].
  - intros [pre [sign [n1 [a [n2 [post [-> [B [Bp [S [N1 [A N2]]]]]]]]]]]]. apply all_space_blank in Bp. unfold nan_text. rewrite lstrip_blank; auto.
    + cbn in S, N1, A, N2. repeat match goal with H : _ \/ _ |- _ => destruct H as [<-|H] | H : False |- _ => destruct H end; cbn [append Ascii.eqb Bool.eqb orb lower]; cbn; exact Bp.
    + intros c r. cbn in S, N1. repeat match goal with H : _ \/ _ |- _ => destruct H as [<-|H] | H : False |- _ => destruct H end; cbn; intros E; injection E as <- _; reflexivity.
Qed.
