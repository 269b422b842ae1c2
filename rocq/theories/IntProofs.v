(** Proof that the model's int() is the specified one. *)
From Coq Require Import Ascii ZArith Lia.
From Verif Require Import Base DescModel IntSpec.

Lemma nat_ascii_eq c n : n < 256 -> nat_of_ascii c = n -> c = ascii_of_nat n.
Proof. intros H E. rewrite <- E. symmetry. apply ascii_nat_embedding. Qed.
Lemma is_space_blank c : is_space c = true <-> blank_char c.
Proof.
  unfold is_space, blank_char. cbn [In]. rewrite orb_true_iff, !andb_true_iff, !Nat.leb_le. split; intros H; lia.
Qed.
Lemma digit_val_is c d : digit_val c = Some d <-> digit_is c d.
Proof.
  unfold digit_val, digit_is. split.
  - destruct (Nat.leb 48 (nat_of_ascii c) && Nat.leb (nat_of_ascii c) 57) eqn:E; [|discriminate]. intros [= <-]. apply andb_prop in E. rewrite !Nat.leb_le in E.
    exists (nat_of_ascii c - 48). split; [lia|]. split; [|reflexivity]. replace (48 + (nat_of_ascii c - 48)) with (nat_of_ascii c) by lia. symmetry. apply ascii_nat_embedding.
  - intros [n [Hn [-> ->]]]. rewrite nat_ascii_embedding by lia. replace (Nat.leb 48 (48 + n)) with true by (symmetry; apply Nat.leb_le; lia). replace (Nat.leb (48 + n) 57) with true by (symmetry; apply Nat.leb_le; lia). cbn [andb].
    do 2 f_equal. lia.
Qed.
Lemma digit_under : digit_val "_"%char = None.
Proof. reflexivity. Qed.
Lemma fold_positional ds acc : fold_left (fun a d => 10 * a + d)%Z ds acc = (acc * 10 ^ Z.of_nat (List.length ds) + positional ds)%Z.
Proof.
  revert acc. induction ds as [|d ds IH]; intros acc; cbn [fold_left positional List.length].
  - lia.
  - rewrite IH, Nat2Z.inj_succ, Z.pow_succ_r by lia. lia.
Qed.
(* after a digit: nothing, an underscore and digits, or digits *)
Lemma digits_val_true s acc k : digits_val acc true s = Some k <->
  (s = [] /\ k = acc) \/ (exists ds, (digits_are s ds \/ exists r, s = "_"%char :: r /\ digits_are r ds) /\ k = fold_left (fun a d => 10 * a + d)%Z ds acc)
with digits_val_false s acc k : digits_val acc false s = Some k <-> exists ds, digits_are s ds /\ k = fold_left (fun a d => 10 * a + d)%Z ds acc.
Proof.
  - destruct s as [|c r]; cbn [digits_val].
    + split; [intros [= <-]; auto|]. intros [[_ ->]|[ds [[H|[r [H _]]] _]]]; [reflexivity|inversion H|discriminate].
    + destruct (digit_val c) as [d|] eqn:D.
      * apply digit_val_is in D. rewrite digits_val_true. split.
        -- intros [[-> ->]|[ds [[H|[r' [-> H]]] ->]]]; right.
           ++ exists [d]. split; [left; now constructor|reflexivity].
           ++ exists (d :: ds). split; [left; now constructor|reflexivity].
           ++ exists (d :: ds). split; [left; now constructor|reflexivity].
        -- intros [[H _]|[ds [[H|[r' [H _]]] ->]]]; [discriminate| |].
           ++ inversion H as [c' d' D'|c' d' r' ds' D' H'|c' d' r' ds' D' H']; subst; assert (d' = d) as -> by (apply digit_val_is in D; apply digit_val_is in D'; congruence).
              ** left. auto.
              ** right. exists ds'. auto.
              ** right. exists ds'. split; [right; eauto|reflexivity].
           ++ injection H as -> _. apply digit_val_is in D. discriminate.
      * rewrite andb_true_r. destruct (Ascii.eqb_spec c "_"%char) as [->|N].
        -- rewrite digits_val_false. split.
           ++ intros [ds [H ->]]. right. exists ds. split; [right; eauto|reflexivity].
           ++ intros [[H _]|[ds [[H|[r' [H H']]] ->]]]; [discriminate| |].
              ** inversion H as [c' d' D'|c' d' r' ds' D' H'|c' d' r' ds' D' H']; subst; apply digit_val_is in D'; discriminate.
              ** injection H as <-. eauto.
        -- split; [discriminate|]. intros [[H _]|[ds [[H|[r' [H _]]] _]]]; [discriminate| |congruence].
           inversion H as [c' d' D'|c' d' r' ds' D' H'|c' d' r' ds' D' H']; subst; apply digit_val_is in D'; congruence.
  - destruct s as [|c r]; cbn [digits_val].
    + split; [discriminate|]. intros [ds [H _]]. inversion H.
    + destruct (digit_val c) as [d|] eqn:D.
      * apply digit_val_is in D. rewrite digits_val_true. split.
        -- intros [[-> ->]|[ds [[H|[r' [-> H]]] ->]]].
           ++ exists [d]. split; [now constructor|reflexivity].
           ++ exists (d :: ds). split; [now constructor|reflexivity].
           ++ exists (d :: ds). split; [now constructor|reflexivity].
        -- intros [ds [H ->]]. inversion H as [c' d' D'|c' d' r' ds' D' H'|c' d' r' ds' D' H']; subst; assert (d' = d) as -> by (apply digit_val_is in D; apply digit_val_is in D'; congruence).
           ++ left. auto.
           ++ right. exists ds'. auto.
           ++ right. exists ds'. split; [right; eauto|reflexivity].
      * rewrite andb_false_r. split; [discriminate|]. intros [ds [H _]].
        inversion H as [c' d' D'|c' d' r' ds' D' H'|c' d' r' ds' D' H']; subst; apply digit_val_is in D'; congruence.
Qed.
Lemma digits_val_spec s k : digits_val 0 false s = Some k <-> exists ds, digits_are s ds /\ k = positional ds.
Proof.
  rewrite digits_val_false. split; intros [ds [H ->]]; exists ds; (split; [exact H|]); rewrite fold_positional; lia.
Qed.
Lemma lstrip_pre s : exists pre, s = pre ++ lstrip s /\ Forall blank_char pre.
Proof.
  induction s as [|c s IH]; [exists []; auto|]. cbn [lstrip]. destruct (is_space c) eqn:E.
  - destruct IH as [pre [H F]]. exists (c :: pre). split; [cbn; now f_equal|]. constructor; [now apply is_space_blank|exact F].
  - exists []. auto.
Qed.
Lemma lstrip_skip pre s : Forall blank_char pre -> lstrip (pre ++ s) = lstrip s.
Proof.
  induction 1 as [|c pre H F IH]; [reflexivity|]. cbn [app lstrip]. apply is_space_blank in H. now rewrite H.
Qed.
Lemma lstrip_solid c s : is_space c = false -> lstrip (c :: s) = c :: s.
Proof. intros H. cbn. now rewrite H. Qed.
Lemma solid_ends body ds : digits_are body ds -> (exists c r, body = c :: r /\ is_space c = false) /\ (exists c r, body = r ++ [c] /\ is_space c = false).
Proof.
  assert (S : forall c d, digit_is c d -> is_space c = false).
  { intros c d [n [Hn [-> _]]]. destruct (is_space (ascii_of_nat (48 + n))) eqn:E; [|reflexivity]. apply is_space_blank in E. unfold blank_char in E. rewrite nat_ascii_embedding in E by lia. cbn [In] in E. lia. }
  induction 1 as [c d D|c d r ds D H IH|c d r ds D H IH].
  - split; [exists c, []|exists c, []]; split; eauto.
  - destruct IH as [_ [c' [r' [-> E]]]]. split; [exists c, (r' ++ [c']); eauto|]. exists c', (c :: r'). auto.
  - destruct IH as [_ [c' [r' [-> E]]]]. split; [exists c, ("_"%char :: r' ++ [c']); eauto|]. exists c', (c :: "_"%char :: r'). auto.
Qed.
Lemma forall_rev_blank l : Forall blank_char l -> Forall blank_char (rev l).
Proof. intros H. apply Forall_forall. intros x Hx. apply in_rev in Hx. rewrite Forall_forall in H. auto. Qed.
Lemma py_int_spec s k : py_int s = Some k <-> int_text s k.
Proof.
  unfold py_int, int_text. split.
  - destruct (lstrip_pre (list_ascii_of_string s)) as [pre [E1 F1]]. destruct (lstrip_pre (rev (lstrip (list_ascii_of_string s)))) as [post [E2 F2]].
    set (l := rev (lstrip (rev (lstrip (list_ascii_of_string s))))). assert (E3 : lstrip (list_ascii_of_string s) = l ++ rev post).
    { unfold l. rewrite <- rev_app_distr, <- E2. symmetry. apply rev_involutive. }
    rewrite E3 in E1. clearbody l. clear E2 E3. apply forall_rev_blank in F2. intros H.
    assert (G : forall sign body, l = sign ++ body -> forall ds, digits_are body ds -> ((sign = [] \/ sign = ["+"%char]) /\ k = positional ds \/ sign = ["-"%char] /\ k = (- positional ds)%Z) -> exists pre sign body post ds, list_ascii_of_string s = pre ++ sign ++ body ++ post /\
    Forall blank_char pre /\ Forall blank_char post /\ digits_are body ds /\
    ((sign = [] \/ sign = ["+"%char]) /\ k = positional ds \/ sign = ["-"%char] /\ k = (- positional ds)%Z)).
    { intros sign body -> ds D K. exists pre, sign, body, (rev post), ds. rewrite E1, <- app_assoc. auto. }
    assert (N : digits_val 0 false l = Some k -> exists pre sign body post ds, list_ascii_of_string s = pre ++ sign ++ body ++ post /\
    Forall blank_char pre /\ Forall blank_char post /\ digits_are body ds /\
    ((sign = [] \/ sign = ["+"%char]) /\ k = positional ds \/ sign = ["-"%char] /\ k = (- positional ds)%Z)).
    { intros H'. apply digits_val_spec in H'. destruct H' as [ds [D ->]]. eapply (G [] l); eauto. }
    destruct l as [|c r]; [apply N, H|].
    destruct (Ascii.eqb_spec c "-"%char) as [->|N1]; [|destruct (Ascii.eqb_spec c "+"%char) as [->|N2]].
    + destruct (digits_val 0 false r) as [z|] eqn:E; [|discriminate]. injection H as <-. apply digits_val_spec in E. destruct E as [ds [D ->]]. apply (G ["-"%char] r eq_refl ds D). auto.
    + apply digits_val_spec in H. destruct H as [ds [D ->]]. apply (G ["+"%char] r eq_refl ds D). auto.
    + apply N. rewrite <- H. symmetry. destruct c as [[] [] [] [] [] [] [] []]; try reflexivity; congruence.
  - intros [pre [sign [body [post [ds [E [F1 [F2 [D K]]]]]]]]].
    assert (L : rev (lstrip (rev (lstrip (list_ascii_of_string s)))) = sign ++ body).
    { rewrite E, lstrip_skip by exact F1. destruct (solid_ends _ _ D) as [[c [r [Eb Sc]]] [c' [r' [Eb' Sc']]]].
      assert (E1 : lstrip (sign ++ body ++ post) = sign ++ body ++ post).
      { rewrite Eb. destruct K as [[[->| ->] _]|[-> _]]; cbn [app]; apply lstrip_solid; auto. }
      rewrite E1. rewrite !rev_app_distr, <- app_assoc, lstrip_skip by (apply forall_rev_blank; exact F2).
      rewrite Eb', rev_app_distr. cbn [rev app]. rewrite lstrip_solid by exact Sc'. cbn [rev]. rewrite rev_app_distr, !rev_involutive, <- app_assoc. reflexivity. }
    cbn zeta. rewrite L. assert (V : digits_val 0 false body = Some (positional ds)) by (apply digits_val_spec; eauto).
    destruct K as [[[->| ->] ->]|[-> ->]]; cbn [app].
    + rewrite <- V at 1. inversion D as [c d D1|c d r ds1 D1|c d r ds1 D1]; subst; destruct D1 as [n [Hn [-> _]]];
      do 10 (destruct n as [|n]; [reflexivity|]); lia.
    + exact V.
    + rewrite V. reflexivity.
Qed.
Lemma int_text_det s k k' : int_text s k -> int_text s k' -> k = k'.
Proof. rewrite <- !py_int_spec. congruence. Qed.
