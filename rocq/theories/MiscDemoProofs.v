From Coq Require Import Ascii ZArith Permutation.
From Verif Require Import Base PySort CategoricalModel BuildModel BuildProofs BuildInfoProofs MiscModel MiscSpec MiscProofs.
Open Scope nat_scope.
Open Scope string_scope.
Open Scope list_scope.

Lemma letter_in c l : existsb (Ascii.eqb c) l = true <-> In c l.
Proof.
  rewrite existsb_exists. split; [intros (x & H & E); apply Ascii.eqb_eq in E; now subst|].
  intros H. exists c. split; auto. apply Ascii.eqb_refl.
Qed.
Lemma str_mem s l : existsb (String.eqb s) l = true <-> In s l.
Proof.
  rewrite existsb_exists. split; [intros (x & H & E); apply String.eqb_eq in E; now subst|].
  intros H. exists s. split; auto. apply String.eqb_refl.
Qed.
Lemma cat_not_num s : cat_name s -> num_name s -> False.
Proof.
  destruct s as [|c s]; [easy|]. unfold cat_name, num_name, starts_in. intros H1 H2.
  apply letter_in in H1, H2. destruct c as [[] [] [] [] [] [] [] []]; cbn in H1, H2; discriminate.
Qed.
Lemma dset_in_keys {A} k (v : A) d x : In x (map fst (dset String.eqb k v d)) <-> x = k \/ In x (map fst d).
Proof.
  induction d as [|[a w] d IH]; cbn; [intuition|]. destruct (String.eqb a k) eqn:E; cbn.
  - apply String.eqb_eq in E. subst. intuition.
  - rewrite IH. intuition.
Qed.
Lemma dset_nodup {A} k (v : A) d : NoDup (map fst d) -> NoDup (map fst (dset String.eqb k v d)).
Proof.
  induction d as [|[a w] d IH]; cbn; intros H; [repeat constructor; easy|]. inversion H; subst.
  destruct (String.eqb a k) eqn:E; cbn; constructor; auto. rewrite dset_in_keys. intros [->|X]; auto.
  now rewrite String.eqb_refl in E.
Qed.
Lemma dset_vals {A} k (v : A) d : (forall x, In x (map snd d) -> x = v) -> forall x, In x (map snd (dset String.eqb k v d)) -> x = v.
Proof.
  induction d as [|[a w] d IH]; cbn; intros H x; [intuition|]. destruct (String.eqb a k); cbn; [intuition|].
  intros [<-|X]; [apply H; auto|]. apply IH; auto.
Qed.

Definition demo_inv (nlevels : Z) (done : list string) (st : list (string * Z) * list string) : Prop :=
  NoDup (map fst (fst st)) /\ (forall f, In f (map fst (fst st)) <-> In f done /\ cat_name f) /\
  (forall x, In x (map snd (fst st)) -> x = nlevels) /\
  NoDup (snd st) /\ (forall f, In f (snd st) <-> In f done /\ num_name f).
Lemma demo_step nlevels done st name : demo_inv nlevels done st -> cat_name name \/ num_name name ->
  exists st', demo_name st nlevels name = Ok st' /\ demo_inv nlevels (done ++ [name]) st'.
Proof.
  intros (I1 & I2 & I3 & I4 & I5) H. destruct name as [|c r]; [destruct H as [[]|[]]|]. unfold demo_name.
  set (name := String c r) in *.
  destruct (existsb (Ascii.eqb c) (list_ascii_of_string "abcdefghijklmn")) eqn:E.
  - assert (C : cat_name name) by (now apply letter_in). eexists. split; [reflexivity|].
    split; [now apply dset_nodup|]. split; [|split; [now apply dset_vals|split; [exact I4|]]]; cbn [fst snd]; intros f.
    + rewrite dset_in_keys, I2, in_app_iff. cbn [In]. split; [intros [-> | [? ?]]; auto|intros [[?|[<-|[]]] ?]; auto].
    + rewrite I5, in_app_iff. cbn [In]. split; [intros [? ?]; auto|intros [[?|[<-|[]]] ?]; auto]. exfalso. eapply cat_not_num; eauto.
  - assert (N : num_name name). { destruct H as [H|H]; auto. apply letter_in in H. fold name in H. congruence. }
    assert (E2 : existsb (Ascii.eqb c) (list_ascii_of_string "pqrstuvwxyz") = true) by now apply letter_in.
    rewrite E2. eexists. split; [reflexivity|]. split; [exact I1|]. cbn [fst snd].
    split; [|split; [exact I3|]].
    + intros f. rewrite I2, in_app_iff. cbn [In]. split; [intros [? ?]; auto|intros [[?|[<-|[]]] ?]; auto]. exfalso. eapply cat_not_num; eauto.
    + destruct (existsb (String.eqb name) (snd st)) eqn:E3.
      * split; auto. intros f. rewrite I5, in_app_iff. cbn [In]. apply str_mem, I5 in E3. split; [intros [? ?]; auto|intros [[?|[<-|[]]] ?]; auto].
      * split.
        -- apply NoDup_app_intro; auto; [repeat constructor; easy|]. intros x Hx [<-|[]]. apply str_mem in Hx. congruence.
        -- intros f. rewrite !in_app_iff, I5. cbn [In]. split; [intros [[? ?]|[<-|[]]]; auto|intros [[?|[<-|[]]] ?]; auto].
Qed.
Lemma demo_fold nlevels names : forall done st, demo_inv nlevels done st -> (forall n, In n names -> cat_name n \/ num_name n) ->
  exists st', foldM (fun st name => demo_name st nlevels name) names st = Ok st' /\ demo_inv nlevels (done ++ names) st'.
Proof.
  induction names as [|n names IH]; intros done st Hi H; cbn [foldM].
  - exists st. now rewrite app_nil_r.
  - destruct (demo_step nlevels done st n Hi (H n (or_introl eq_refl))) as (st1 & E1 & H1). rewrite E1. cbn [bind].
    destruct (IH _ _ H1) as (st2 & E2 & H2); [intros; apply H; now right|]. exists st2. split; auto.
    rewrite <- app_assoc in H2. exact H2.
Qed.
Lemma demo_bad nlevels names : forall st, (forall n, In n names -> n <> "") -> (exists n, In n names /\ ~ cat_name n /\ ~ num_name n) ->
  exists msg, foldM (fun st name => demo_name st nlevels name) names st = Err (PatsyError msg None).
Proof.
  induction names as [|n names IH]; intros st Hne (b & Hb & H1 & H2); [easy|]. cbn [foldM].
  destruct n as [|c r]; [exfalso; now apply (Hne "" (or_introl eq_refl))|]. unfold demo_name at 1.
  destruct (existsb (Ascii.eqb c) (list_ascii_of_string "abcdefghijklmn")) eqn:E;
    [|destruct (existsb (Ascii.eqb c) (list_ascii_of_string "pqrstuvwxyz")) eqn:E2; [|cbn [bind]; eexists; reflexivity]].
  all: cbn [bind]; apply IH; [intros m Hm; apply Hne; now right|].
  all: exists b; split; auto; destruct Hb as [<-|Hb]; auto; exfalso; (apply H1; now apply letter_in) || (apply H2; now apply letter_in).
Qed.

Lemma size_fold l nl acc : (forall x, In x l -> x = nl) -> fold_left Z.mul l acc = (acc * nl ^ Z.of_nat (List.length l))%Z.
Proof.
  revert acc. induction l as [|x l IH]; intros acc H; cbn [fold_left List.length]; [rewrite Z.pow_0_r; lia|].
  rewrite IH by (intros; apply H; now right). rewrite (H x) by now left. rewrite Nat2Z.inj_succ, Z.pow_succ_r by lia. lia.
Qed.
Lemma ceil_spec m s : (0 < s)%Z -> let k := (- ((- m) / s))%Z in (m <= k * s < m + s)%Z.
Proof. intros H. cbn. pose proof (Z.div_mod (- m) s). pose proof (Z.mod_pos_bound (- m) s H). nia. Qed.

Section Columns.
Context {V : Type} (normal : nat -> nat -> V).
Definition num_cols (N i : nat) (names : list string) : list (string * demo_col) :=
  map (fun p => (snd p, DNum (normal (fst p) N))) (List.combine (seq i (List.length names)) names).
Lemma num_fold N names (rows : Z) (data : list (string * @demo_col V)) i : (0 <= rows)%Z -> N = Z.to_nat rows ->
  NoDup names -> (forall f, In f names -> ~ In f (map fst data)) ->
  foldM (fun data iname => if (rows <? 0)%Z then Err (ValueError "negative dimensions are not allowed")
                           else Ok (dset String.eqb (snd iname) (DNum (normal (fst iname) (Z.to_nat rows))) data))
    (List.combine (seq i (List.length names)) names) data = Ok (data ++ num_cols N i names).
Proof.
  intros Hr ->. assert (R : (rows <? 0)%Z = false) by (apply Z.ltb_ge; lia). rewrite R. clear R. revert data i. induction names as [|n names IH]; intros data i Hn Hd.
  - unfold num_cols. cbn. now rewrite app_nil_r.
  - inversion Hn; subst. cbn [List.length seq List.combine foldM fst snd].
    cbn [bind].
    rewrite dset_new.
    2:{ destruct (dget String.eqb n data) eqn:E; auto. exfalso. apply dget_in in E as (k & Hk & E). apply String.eqb_eq in E. subst k.
        apply (Hd n (or_introl eq_refl)). apply in_map_iff. eexists. split; [|exact Hk]. reflexivity. }
    rewrite IH; auto.
    + unfold num_cols. cbn. now rewrite <- app_assoc.
    + intros f Hf. rewrite map_app, in_app_iff. cbn. intros [X|[<-|[]]]; auto. apply (Hd f); auto. now right.
Qed.
End Columns.
Lemma combine_seq_snd {A} (l : list A) : forall i, map (fun x => snd x) (List.combine (seq i (List.length l)) l) = l.
Proof. induction l as [|x l IH]; intros i; cbn; auto. f_equal. apply IH. Qed.
