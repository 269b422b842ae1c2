(** Equality of values as keys; missing values; sets and tables of levels. *)
From Coq Require Import Ascii QArith.
From Verif Require Import Base BuildModel BuildProofs CategoricalModel CategoricalSpec.
Open Scope nat_scope.
Open Scope string_scope.
Open Scope list_scope.

(** * Keys *)
Section Ind.
Variable P : pval -> Prop.
Hypothesis Hb : forall b, P (VBool b).
Hypothesis Hi : forall z, P (VInt z).
Hypothesis Hf : forall q, P (VFloat q).
Hypothesis Hinf : forall n, P (VInf n).
Hypothesis Hnan : forall i, P (VNan i).
Hypothesis Hs : forall s, P (VStr s).
Hypothesis Hn : P VNone.
Hypothesis Ht : forall l, Forall P l -> P (VTuple l).
Hypothesis Ho : forall c i h, P (VObj c i h).
Fixpoint pval_rect' (v : pval) : P v :=
  match v with
  | VBool b => Hb b | VInt z => Hi z | VFloat q => Hf q | VInf n => Hinf n | VNan i => Hnan i | VStr s => Hs s | VNone => Hn
  | VTuple l => Ht l ((fix go l : Forall P l := match l with [] => Forall_nil _ | a :: r => Forall_cons _ (pval_rect' a) (go r) end) l)
  | VObj c i h => Ho c i h
  end.
End Ind.

Inductive kkey := KQ (q : Q) | KInf (n : bool) | KNan (i : nat) | KStr (s : string) | KNone | KTuple (l : list kkey) | KObj (c : string) (i : nat) (h : bool).
Fixpoint key_of (v : pval) : kkey :=
  match v with
  | VBool b => KQ (Qred (if b then 1%Q else 0%Q))
  | VInt z => KQ (Qred (inject_Z z))
  | VFloat q => KQ (Qred q)
  | VInf n => KInf n
  | VNan i => KNan i
  | VStr s => KStr s
  | VNone => KNone
  | VTuple l => KTuple (map key_of l)
  | VObj c i h => KObj c i h
  end.
Lemma Qeq_red p q : Qeq_bool p q = true <-> KQ (Qred p) = KQ (Qred q).
Proof.
  rewrite Qeq_bool_iff. split.
  - intros H. now rewrite (Qred_complete _ _ H).
  - intros H. injection H as H. rewrite <- (Qred_correct p), <- (Qred_correct q). now rewrite H.
Qed.
Lemma same_iff a : forall b, same a b <-> key_of a = key_of b.
Proof.
  unfold same. induction a using pval_rect'; intros b'; destruct b'; cbn [key_eqb to_num num_eqb key_of];
    try (split; [discriminate|discriminate]); try apply Qeq_red;
    try (repeat match goal with n : bool |- _ => destruct n end; split; cbn; congruence).
  - rewrite Nat.eqb_eq. split; congruence.
  - rewrite String.eqb_eq. split; congruence.
  - revert l0. induction H as [|x l Hx Hl IH]; intros [|y m]; try (split; [discriminate|discriminate]); [split; reflexivity|].
    rewrite andb_true_iff, Hx, IH. cbn [map]. split; [intros [E1 E2]; injection E2 as E2; now rewrite E1, E2|intros E; injection E as E1 E2; now rewrite E1, E2].
  - rewrite !andb_true_iff, Nat.eqb_eq, String.eqb_eq, Bool.eqb_true_iff. split; [intros [[-> ->] ->]; reflexivity|intros E; injection E as -> -> ->; auto].
Qed.
Lemma same_refl a : same a a.
Proof. now apply same_iff. Qed.
Lemma same_sym a b : same a b -> same b a.
Proof. rewrite !same_iff. auto. Qed.
Lemma same_trans a b c : same a b -> same b c -> same a c.
Proof. rewrite !same_iff. congruence. Qed.
Lemma key_eqb_refl a : key_eqb a a = true.
Proof. apply same_refl. Qed.
Lemma key_eqb_sym a b : key_eqb a b = key_eqb b a.
Proof. destruct (key_eqb a b) eqn:E1, (key_eqb b a) eqn:E2; try reflexivity; [apply same_sym in E1|apply same_sym in E2]; unfold same in *; congruence. Qed.
Lemma key_eqb_trans a b c : key_eqb a b = true -> key_eqb b c = true -> key_eqb a c = true.
Proof. apply same_trans. Qed.

(** * Missing values *)
Lemma missing_ok na v b : is_categorical_NA na v = Ok b -> (b = true <-> missing na v).
Proof.
  unfold is_categorical_NA, missing. destruct na as [nn nz]. cbn [nan_is_na none_is_na]. destruct nn.
  - destruct v; cbn [safe_scalar_isnan bind]; try (destruct (_ <=? _)%Z; [discriminate|]; cbn [bind]); intros H; injection H as <-; cbn [orb andb]; rewrite ?andb_false_r, ?andb_true_r, ?orb_false_r;
      (split; [intros H; try discriminate|intros [[_ [[i H]|[s' [H H2]]]]|[Hz H]]; try discriminate; auto]).
    + left. split; [reflexivity|]. left. eauto.
    + left. split; [reflexivity|]. right. eauto.
    + injection H as ->. exact H2.
    + right. auto.
  - cbn [bind]. intros H. injection H as <-. cbn [orb]. split.
    + intros H. apply andb_true_iff in H. destruct H as [-> H]. right. split; [reflexivity|]. destruct v; congruence.
    + intros [[H _]|[-> ->]]; [discriminate|reflexivity].
Qed.
Lemma testable_ok na v : testable na v <-> exists b, is_categorical_NA na v = Ok b.
Proof.
  unfold testable, is_categorical_NA. destruct (nan_is_na na) eqn:En.
  - destruct v; cbn [safe_scalar_isnan bind]; try (split; [eauto|intros _ z' Hz; discriminate]).
    destruct (Z.leb_spec (2 ^ 1024 - 2 ^ 970) (Z.abs z)) as [L|L]; cbn [bind].
    + split; [intros H; specialize (H z eq_refl eq_refl); lia|intros [b H]; discriminate].
    + split; [eauto|]. intros _ z' Hz _. injection Hz as <-. exact L.
  - cbn [bind]. split; [eauto|]. intros; discriminate.
Qed.
Lemma testable_cases na v : testable na v -> (is_categorical_NA na v = Ok true /\ missing na v) \/ (is_categorical_NA na v = Ok false /\ ~ missing na v).
Proof.
  intros H. apply testable_ok in H. destruct H as [[] H]; [left|right]; split; auto; pose proof (missing_ok na v _ H) as M; [now apply M|]. intros C. apply M in C. discriminate.
Qed.
Lemma na_cases na v : (is_categorical_NA na v = Ok true /\ missing na v) \/ (is_categorical_NA na v = Ok false /\ ~ missing na v) \/ is_categorical_NA na v = Err OverflowError.
Proof.
  destruct (is_categorical_NA na v) as [b|e] eqn:E.
  - destruct b; [left|right; left]; split; auto; pose proof (missing_ok na v _ E) as M; [now apply M|]. intros C. apply M in C. discriminate.
  - right. right. unfold is_categorical_NA in E. destruct (nan_is_na na); [|discriminate]. destruct v; cbn in E; try discriminate. destruct (Z.leb _ _) in E; [now injection E as <-|discriminate].
Qed.

(** * Sets *)
Definition keys (s : list pval) : list kkey := map key_of s.
Lemma set_mem_iff v s : set_mem v s = true <-> In (key_of v) (keys s).
Proof.
  unfold set_mem, keys. rewrite existsb_exists, in_map_iff. split; intros [u [A B]].
  - exists u. split; [now apply same_iff|exact A].
  - exists u. split; [exact B|now apply same_iff].
Qed.
Lemma set_add_keys s v k : In k (keys (set_add s v)) <-> In k (keys s) \/ k = key_of v.
Proof.
  unfold set_add. destruct (set_mem v s) eqn:E.
  - apply set_mem_iff in E. split; [auto|]. intros [H| ->]; auto.
  - unfold keys. rewrite map_app, in_app_iff. cbn. split; [intros [H|[H|[]]]; auto|intros [H|H]; auto].
Qed.
Lemma set_add_NoDup s v : NoDup (keys s) -> NoDup (keys (set_add s v)).
Proof.
  intros H. unfold set_add. destruct (set_mem v s) eqn:E; [exact H|]. unfold keys. rewrite map_app. cbn.
  apply NoDup_rev in H. rewrite <- (rev_involutive (map key_of s ++ [key_of v])). apply NoDup_rev. rewrite rev_app_distr. cbn. constructor; [|exact H].
  rewrite <- in_rev. intros C. apply set_mem_iff in C. congruence.
Qed.
Lemma distinct_iff l : distinct l <-> NoDup (keys l).
Proof.
  unfold distinct. split.
  - induction l as [|x l IH]; intros H; [constructor|]. cbn. constructor.
    + intros C. apply in_map_iff in C. destruct C as [y [E Hy]]. apply in_split in Hy. destruct Hy as [b [c ->]]. apply (H [] x b y c eq_refl). apply same_iff. auto.
    + apply IH. intros a y b z c ->. apply (H (x :: a) y b z c eq_refl).
  - intros H a x b y c -> E. unfold keys in H. rewrite map_app in H. assert (H' : NoDup (map key_of (x :: b ++ y :: c))) by (clear - H; induction (map key_of a) as [|z m IH]; [exact H|inversion H; auto]). clear H. rename H' into H. cbn in H. inversion H as [|? ? H1 H2]; subst. apply H1. rewrite map_app, in_app_iff. right. left. symmetry. now apply same_iff.
Qed.
Lemma is_bools_iff s : NoDup (keys s) -> (is_bools s = true <-> forall k, In k (keys s) <-> k = key_of (VBool true) \/ k = key_of (VBool false)).
Proof.
  intros Hn. unfold is_bools. rewrite !andb_true_iff, Nat.eqb_eq, !set_mem_iff. split.
  - intros [[L A] B] k. split; [|intros [->| ->]; auto]. intros Hk.
    assert (I : incl (keys s) [key_of (VBool true); key_of (VBool false)]).
    { apply NoDup_length_incl; [|cbn; unfold keys; rewrite map_length; lia|intros x [<-|[<-|[]]]; auto]. constructor; [|constructor; [intros []|constructor]]. intros [C|[]]. discriminate. }
    destruct (I k Hk) as [<-|[<-|[]]]; auto.
  - intros H. split; [split|]; [|apply H; auto|apply H; auto].
    assert (I : incl (keys s) [key_of (VBool true); key_of (VBool false)]) by (intros x Hx; apply H in Hx; destruct Hx as [->| ->]; cbn; auto).
    assert (J : incl [key_of (VBool true); key_of (VBool false)] (keys s)) by (intros x [<-|[<-|[]]]; apply H; auto).
    pose proof (NoDup_incl_length Hn I) as L1. assert (L2 : 2 <= List.length (keys s)).
    { apply (NoDup_incl_length (l := [key_of (VBool true); key_of (VBool false)])); [|exact J]. constructor; [|constructor; [intros []|constructor]]. intros [C|[]]. discriminate. }
    unfold keys in L1, L2. rewrite map_length in L1, L2. cbn in L1. lia.
Qed.

(** * Tables *)
(** The last place of [l] (counted from [k]) with the key [v]. *)
Fixpoint last_place (v : pval) (l : list pval) (k : nat) : option nat :=
  match l with
  | [] => None
  | x :: r => match last_place v r (S k) with Some i => Some i | None => if key_eqb x v then Some k else None end
  end.
Lemma dget_fold (l : list pval) v : forall k d, dget key_eqb v (fold_left (fun d p => dset key_eqb (fst p) (snd p) d) (combine l (seq k (List.length l))) d) =
  match last_place v l k with Some i => Some i | None => dget key_eqb v d end.
Proof.
  induction l as [|x l IH]; intros k d; [reflexivity|]. cbn [List.length seq combine fold_left last_place fst snd]. rewrite IH. clear IH.
  rewrite (dget_dset key_eqb key_eqb_sym key_eqb_trans).
  destruct (last_place v l (S k)); [reflexivity|]. now destruct (key_eqb x v).
Qed.
Lemma last_place_none v l : forall k, last_place v l k = None <-> forall x, In x l -> ~ same x v.
Proof.
  induction l as [|x l IH]; intros k; cbn.
  - split; [intros _ y []|reflexivity].
  - destruct (last_place v l (S k)) eqn:E.
    + split; [discriminate|]. intros H. assert (last_place v l (S k) = None) by (apply IH; auto). congruence.
    + pose proof (proj1 (IH (S k)) E) as N. clear E. unfold same in *. destruct (key_eqb x v) eqn:Ex; split; try discriminate; auto.
      * intros H. exfalso. apply (H x); auto.
      * intros _ y [<-|Hy]; [congruence|auto].
Qed.
Lemma last_place_some v l : forall k i, last_place v l k = Some i <-> exists a x b, l = a ++ x :: b /\ same x v /\ (forall y, In y b -> ~ same y v) /\ i = k + List.length a.
Proof.
  induction l as [|x l IH]; intros k i; cbn.
  - split; [discriminate|]. intros [[|? ?] [y [b [H _]]]]; discriminate.
  - destruct (last_place v l (S k)) as [j|] eqn:E.
    + pose proof E as E'. apply IH in E'. destruct E' as [a [y [b [-> [A [B ->]]]]]]. split.
      * intros H. injection H as <-. exists (x :: a), y, b. repeat split; auto. cbn. lia.
      * intros [a' [y' [b' [Hl [A' [B' ->]]]]]]. destruct a' as [|x' a']; cbn in Hl.
        -- injection Hl as -> <-. exfalso. apply (B' y); [apply in_app_iff; right; now left|exact A].
        -- injection Hl as -> Hl. assert (E2 : last_place v (a ++ y :: b) (S k) = Some (S k + List.length a')) by (apply IH; exists a', y', b'; auto).
           rewrite E in E2. rewrite E2. f_equal. cbn. lia.
    + pose proof (proj1 (last_place_none v l (S k)) E) as N. split.
      * destruct (key_eqb x v) eqn:Ex; [|discriminate]. intros H. injection H as <-. exists [], x, l. repeat split; auto.
      * intros [a [y [b [Hl [A [B ->]]]]]]. destruct a as [|x' a]; cbn in Hl; injection Hl as -> ->.
        -- unfold same in A. rewrite A, Nat.add_0_r. reflexivity.
        -- exfalso. apply (N y); [apply in_app_iff; right; now left|exact A].
Qed.
Lemma level_to_int_get v levels : dget key_eqb v (level_to_int levels) = last_place v levels 0.
Proof. unfold level_to_int, dict_of. rewrite dget_fold. cbn. now destruct (last_place v levels 0). Qed.
