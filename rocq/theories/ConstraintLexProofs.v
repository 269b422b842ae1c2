From Coq Require Import Ascii Sorted.
From Verif Require Import Base InfixModel InfixSpec DescModel PySort NumModel ConstraintModel ConstraintSpec.
Open Scope nat_scope.
Local Open Scope string_scope.

Lemma app_nil_str s : s ++ "" = s.
Proof. induction s; cbn; congruence. Qed.
Lemma app_assoc_str a b c : (a ++ b) ++ c = a ++ b ++ c.
Proof. induction a; cbn; congruence. Qed.
Lemma length_app_str a b : String.length (a ++ b) = String.length a + String.length b.
Proof. induction a; cbn; congruence. Qed.
Lemma drop_app a b : str_drop (String.length a) (a ++ b) = b.
Proof. induction a; cbn; auto. Qed.
Lemma drop_app_plus a b k : str_drop (String.length a + k) (a ++ b) = str_drop k b.
Proof. induction a; cbn; auto. Qed.
Lemma drop_0 s : str_drop 0 s = s.
Proof. destruct s; reflexivity. Qed.
Lemma take_0 s : str_take 0 s = "".
Proof. destruct s; reflexivity. Qed.
Lemma take_S k c s : str_take (S k) (String c s) = String c (str_take k s).
Proof. reflexivity. Qed.
Lemma take_app a b : str_take (String.length a) (a ++ b) = a.
Proof. induction a; [apply take_0|]. cbn [append String.length]. rewrite take_S, IHa. reflexivity. Qed.
Lemma take_drop k s : k <= String.length s -> str_take k s ++ str_drop k s = s.
Proof.
  revert s. induction k as [|k IH]; intros [|c s] H; cbn [String.length] in *; try lia; try reflexivity.
  rewrite take_S. cbn. f_equal. apply IH. lia.
Qed.
Lemma take_length k s : k <= String.length s -> String.length (str_take k s) = k.
Proof.
  revert s. induction k as [|k IH]; intros [|c s] H; cbn [String.length] in *; try lia; try reflexivity.
  rewrite take_S. cbn. f_equal. apply IH. lia.
Qed.
Lemma app_eq_length a b c d : a ++ b = c ++ d -> String.length a = String.length c -> a = c /\ b = d.
Proof.
  revert c. induction a as [|x a IH]; intros [|y c] H L; cbn in *; try discriminate; [auto|].
  injection H as -> H. injection L as L. destruct (IH c H L) as [-> ->]. auto.
Qed.
Lemma app_inv_head_str a b c : a ++ b = a ++ c -> b = c.
Proof. induction a; cbn; [auto|]. intros [= H]. auto. Qed.
Lemma starts_app_shorter x y r : starts_with y (x ++ r) -> String.length y <= String.length x -> starts_with y x.
Proof.
  revert x. induction y as [|c y IH]; intros x [t H] L; [exists x; reflexivity|]. destruct x as [|d x]; cbn in *; [lia|].
  injection H as -> H. destruct (IH x) as [u ->]; [exists t; exact H|lia|]. now exists u.
Qed.
Lemma prefix_iff x s : String.prefix x s = true <-> starts_with x s.
Proof.
  revert s. induction x as [|c x IH]; intros s.
  - split; [intros _; exists s; reflexivity|destruct s; reflexivity].
  - destruct s as [|d s]; [split; [discriminate|intros [r H]; discriminate]|]. cbn [String.prefix].
    destruct (ascii_dec c d) as [->|N].
    + rewrite IH. split; intros [r H]; exists r; cbn in *; congruence.
    + split; [discriminate|]. intros [r H]. injection H as H _. congruence.
Qed.
Lemma chars_app p a b : chars_are p (a ++ b) <-> chars_are p a /\ chars_are p b.
Proof.
  unfold chars_are. induction a as [|c a IH]; cbn; [tauto|]. rewrite !andb_true_iff, IH. tauto.
Qed.
Lemma chars_cons p c s : chars_are p (String c s) <-> p c = true /\ chars_are p s.
Proof. unfold chars_are. cbn. now rewrite andb_true_iff. Qed.

(** [span]: the longest run. *)
Lemma span_app p x r : chars_are p x -> first_is p r = false -> span p (x ++ r) = String.length x.
Proof.
  induction x as [|c x IH]; cbn.
  - intros _. destruct r as [|d r]; cbn; [reflexivity|]. now intros ->.
  - intros H F. apply chars_cons in H. destruct H as [-> H]. f_equal. auto.
Qed.
Lemma span_le p s : span p s <= String.length s.
Proof. induction s as [|c s IH]; cbn; [lia|]. destruct (p c); lia. Qed.
Lemma span_chars p s : chars_are p (str_take (span p s) s).
Proof.
  induction s as [|c s IH]; [reflexivity|]. cbn [span]. destruct (p c) eqn:E; [|reflexivity]. rewrite take_S. apply chars_cons. auto.
Qed.
Lemma span_stop p s : first_is p (str_drop (span p s) s) = false.
Proof.
  induction s as [|c s IH]; [reflexivity|]. cbn [span]. destruct (p c) eqn:E; cbn; [exact IH|exact E].
Qed.
Lemma span_pos p s : first_is p s = true <-> 0 < span p s.
Proof. destruct s as [|c s]; cbn; [split; [discriminate|lia]|]. destruct (p c); split; try lia; try discriminate; auto. Qed.
Lemma span_decomp p s : exists x r, s = x ++ r /\ chars_are p x /\ first_is p r = false /\ span p s = String.length x.
Proof.
  exists (str_take (span p s) s), (str_drop (span p s) s). pose proof (span_le p s).
  split; [symmetry; now apply take_drop|]. split; [apply span_chars|]. split; [apply span_stop|]. symmetry. now apply take_length.
Qed.

(** * Numbers *)
Lemma first_is_one_of l s : first_is (one_of l) s = true -> exists c r, s = String c r /\ In c (list_ascii_of_string l).
Proof.
  destruct s as [|c r]; [discriminate|]. cbn. unfold one_of. rewrite existsb_exists. intros [d [H E]]. apply Ascii.eqb_eq in E. subst d. eauto.
Qed.
Lemma digit_not_e c : is_digit c = true -> one_of "eE" c = false.
Proof.
  unfold one_of. cbn. destruct (Ascii.eqb_spec c "e") as [->|]; [discriminate|]. destruct (Ascii.eqb_spec c "E") as [->|]; [discriminate|]. reflexivity.
Qed.
Lemma digit_not_dot c : is_digit c = true -> Ascii.eqb "." c = false.
Proof. destruct (Ascii.eqb_spec "." c) as [<-|]; [discriminate|reflexivity]. Qed.
Lemma digit_not_sign c : is_digit c = true -> one_of "-+" c = false.
Proof.
  unfold one_of. cbn. destruct (Ascii.eqb_spec c "-") as [->|]; [discriminate|]. destruct (Ascii.eqb_spec c "+") as [->|]; [discriminate|]. reflexivity.
Qed.
Lemma digits_nonempty d : digits d -> d <> "" -> exists c r, d = String c r /\ is_digit c = true.
Proof. destruct d as [|c r]; [congruence|]. intros H _. apply chars_cons in H. exists c, r. tauto. Qed.

(** The longest exponent. *)
Lemma match_exp_spec s : exists e r, s = e ++ r /\ match_exp s = String.length e /\ exponent_text e /\
  forall e' r', s = e' ++ r' -> exponent_text e' -> String.length e' <= String.length e.
Proof.
  unfold match_exp. destruct (first_is (one_of "eE") s) eqn:E1.
  - destruct (first_is_one_of _ _ E1) as [c [s1 [-> Hc]]]. cbn [str_drop plus].
    assert (Hsign : exists sg s2, s1 = sg ++ s2 /\ In sg [""; "+"; "-"] /\ (if first_is (one_of "-+") s1 then 1 else 0) = String.length sg /\
      (sg = "" -> first_is (one_of "-+") s2 = false)).
    { destruct (first_is (one_of "-+") s1) eqn:E2.
      - destruct (first_is_one_of _ _ E2) as [d [s2 [-> Hd]]]. exists (String d ""), s2. cbn in Hd. destruct Hd as [<-|[<-|[]]]; cbn; intuition discriminate.
      - exists "", s1. cbn. intuition. }
    destruct Hsign as [sg [s2 [-> [Hsg [-> Hno]]]]]. replace (str_drop (String.length sg) (sg ++ s2)) with s2 by (symmetry; apply drop_app).
    destruct (span_decomp is_digit s2) as [d [r [-> [Hd [Hr ->]]]]].
    assert (Hmax : forall e' r', String c (sg ++ d ++ r) = e' ++ r' -> exponent_text e' -> String.length e' <= (if Nat.eqb (String.length d) 0 then 0 else 1 + String.length sg + String.length d)).
    { intros e' r' He' Het. destruct Het as [|e0 sg' d' He0 Hsg' Hd' Hne]; [cbn; lia|].
      assert (exists e0c, e0 = String e0c "") as [e0c ->] by (cbn in He0; destruct He0 as [<-|[<-|[]]]; eauto).
      cbn in He'. injection He' as <- He'. rewrite !app_assoc_str in He'.
      destruct (digits_nonempty d' Hd' Hne) as [dc [dr [-> Hdc]]].
      assert (sg' = sg).
      { cbn in Hsg, Hsg'. destruct Hsg as [<-|[<-|[<-|[]]]], Hsg' as [<-|[<-|[<-|[]]]]; cbn in He'; try reflexivity.
        - rewrite He' in Hno. now specialize (Hno eq_refl).
        - rewrite He' in Hno. now specialize (Hno eq_refl).
        - injection He' as <- _. discriminate.
        - discriminate.
        - injection He' as <- _. discriminate.
        - discriminate. }
      subst sg'. apply app_inv_head_str in He'.
      assert (String.length (String dc dr) <= String.length d).
      { clear - He' Hd' Hr Hd. revert d He' Hd. generalize (String dc dr) as x, Hd'. intros x. induction x as [|a x IH]; intros Hx d He Hd; cbn; [lia|].
        destruct d as [|b d]; cbn in *.
        - subst r. apply chars_cons in Hx. destruct Hx as [Ha _]. cbn in Hr. congruence.
        - injection He as _ He. apply chars_cons in Hx, Hd. specialize (IH (proj2 Hx) d He (proj2 Hd)). lia. }
      rewrite !length_app_str. cbn [String.length]. cbn [String.length] in *. destruct (Nat.eqb_spec (String.length d) 0); lia. }
    destruct (String.length d) as [|k] eqn:Ed.
    + exists "", (String c (sg ++ d ++ r)). cbn [append]. split; [reflexivity|]. split; [reflexivity|]. split; [constructor|]. exact Hmax.
    + exists (String c "" ++ sg ++ d), r. split; [cbn; now rewrite app_assoc_str|].
      split; [rewrite !length_app_str, Ed; cbn; lia|]. split.
      * apply et_some; [cbn in Hc; cbn; destruct Hc as [<-|[<-|[]]]; auto|exact Hsg|exact Hd|]. intros ->. discriminate.
      * intros e' r' H1 H2. specialize (Hmax e' r' H1 H2). rewrite !length_app_str, Ed. cbn in *. lia.
  - exists "", s. split; [reflexivity|]. split; [reflexivity|]. split; [constructor|]. intros e' r' -> Het.
    destruct Het as [|e0 sg' d' He0]; [cbn; lia|]. cbn in He0. destruct He0 as [<-|[<-|[]]]; discriminate.
Qed.

(** Runs of digits compare. *)
Lemma digit_prefix_le d x r t : digits d -> digits x -> first_is is_digit r = false -> x ++ r = d ++ t -> String.length d <= String.length x.
Proof.
  intros Hd Hx Hr. revert x Hx. induction d as [|a d IH]; intros x Hx E; cbn; [lia|]. apply chars_cons in Hd. destruct Hd as [Ha Hd].
  destruct x as [|b x]; cbn in *.
  - subst r. cbn in Hr. congruence.
  - injection E as -> E. apply chars_cons in Hx. specialize (IH Hd x (proj2 Hx) E). lia.
Qed.
Lemma digits_app a b : digits (a ++ b) <-> digits a /\ digits b.
Proof. apply chars_app. Qed.
Lemma exp_first e r : exponent_text e -> e <> "" -> exists c t, e ++ r = String c t /\ one_of "eE" c = true.
Proof.
  intros [|e0 sg d He0 _ _ _] H; [congruence|]. cbn in He0. destruct He0 as [<-|[<-|[]]]; cbn; eauto.
Qed.

(** Any number at the start of [d1 . d2 r]. *)
Lemma number_prefix_shape s d1 r : s = d1 ++ r -> digits d1 -> first_is is_digit r = false ->
  forall y t, number_text y -> s = y ++ t ->
  (exists e, String.length y <= String.length d1 + String.length e /\ exponent_text e /\ (exists u, r = e ++ u) /\ d1 <> "") \/
  (exists d2 e u, r = "." ++ d2 ++ e ++ u /\ digits d2 /\ d2 <> "" /\ exponent_text e /\ y = d1 ++ "." ++ d2 ++ e).
Proof.
  intros -> Hd1 Hr y t [a [p [b [e [-> [Ha [Hp [Hb [Hne He]]]]]]]]] E. rewrite !app_assoc_str in E.
  cbn in Hp. destruct Hp as [<-|[<-|[]]]; cbn [append] in *.
  - left. assert (Hab : digits (a ++ b)) by (apply digits_app; auto).
    assert (L : String.length (a ++ b) <= String.length d1).
    { apply (digit_prefix_le (a ++ b) d1 r (e ++ t) Hab Hd1 Hr). now rewrite app_assoc_str. }
    assert (Hd1ne : d1 <> "").
    { intros ->. cbn in L. rewrite length_app_str in L. destruct b; [congruence|cbn in L; lia]. }
    destruct (string_dec e "") as [->|Ne].
    + exists "". split; [rewrite app_nil_str; cbn; lia|]. split; [constructor|]. split; [now exists r|exact Hd1ne].
    + destruct (exp_first e t He Ne) as [c [u [Ee Hc]]].
      assert (L2 : String.length d1 <= String.length (a ++ b)).
      { apply (digit_prefix_le d1 (a ++ b) (e ++ t) r Hd1 Hab).
        - rewrite Ee. cbn. destruct (is_digit c) eqn:Ec; [|reflexivity]. apply digit_not_e in Ec. congruence.
        - rewrite app_assoc_str. auto. }
      assert (Eq : d1 ++ r = (a ++ b) ++ e ++ t) by (rewrite app_assoc_str; exact E).
      apply app_eq_length in Eq; [|lia]. destruct Eq as [-> ->].
      exists e. split; [rewrite !length_app_str; lia|]. split; [exact He|]. split; [now exists t|exact Hd1ne].
  - right. assert (L1 : String.length a <= String.length d1) by (apply (digit_prefix_le a d1 r _ Ha Hd1 Hr E)).
    assert (L2 : String.length d1 <= String.length a) by (apply (digit_prefix_le d1 a (String "." (b ++ e ++ t)) r Hd1 Ha eq_refl); auto).
    apply app_eq_length in E; [|lia]. destruct E as [-> ->]. exists b, e, t. repeat split; auto.
Qed.

Lemma match_num_spec s : first_is (one_of "-+") s = false ->
  (match_num s = 0 /\ (forall y t, number_text y -> s <> y ++ t)) \/
  (exists x r, s = x ++ r /\ x <> "" /\ match_num s = String.length x /\ number_text x /\
     forall y t, number_text y -> s = y ++ t -> String.length y <= String.length x).
Proof.
  intros Hs. unfold match_num. rewrite Hs, drop_0. cbn [plus]. unfold match_mantissa.
  destruct (span_decomp is_digit s) as [d1 [r [Es [Hd1 [Hr Hsp]]]]]. rewrite Hsp.
  assert (Hdrop : str_drop (String.length d1) s = r) by (rewrite Es; apply drop_app). rewrite Hdrop.
  pose proof (number_prefix_shape s d1 r Es Hd1 Hr) as Shape.
  assert (Plain : (forall d2 e u, r = "." ++ d2 ++ e ++ u -> digits d2 -> d2 = "") ->
    (if Nat.eqb (String.length d1) 0 then 0 else String.length d1 + match_exp (str_drop (String.length d1) s)) = 0 /\ (forall y t, number_text y -> s <> y ++ t) \/
    (exists x r, s = x ++ r /\ x <> "" /\ (if Nat.eqb (String.length d1) 0 then 0 else String.length d1 + match_exp (str_drop (String.length d1) s)) = String.length x /\ number_text x /\
     forall y t, number_text y -> s = y ++ t -> String.length y <= String.length x)).
  { intros Hnodot. destruct (string_dec d1 "") as [->|Ne].
    - left. split; [reflexivity|]. intros y t Hy E. destruct (Shape y t Hy E) as [[e [_ [_ [_ C]]]]|[d2 [e [u [H [H2 [H3 _]]]]]]]; [congruence|]. apply H3. eauto.
    - right. rewrite Hdrop. destruct (match_exp_spec r) as [e [u [Er [Hl [He Hmax]]]]].
      exists (d1 ++ e), u. split; [rewrite Es, Er; symmetry; apply app_assoc_str|]. split; [destruct d1; [congruence|discriminate]|].
      split; [rewrite length_app_str, Hl; destruct d1; [congruence|reflexivity]|]. split.
      + exists "", "", d1, e. repeat split; cbn; auto.
      + intros y t Hy E. rewrite length_app_str. destruct (Shape y t Hy E) as [[e' [L [He' [[u' Eu] _]]]]|[d2 [e' [u' [H [H2 [H3 _]]]]]]].
        * specialize (Hmax e' u' Eu He'). lia.
        * exfalso. apply H3. eauto. }
  destruct (first_is (Ascii.eqb ".") r) eqn:Edot.
  - destruct r as [|c r]; [discriminate|]. cbn [first_is] in Edot. apply Ascii.eqb_eq in Edot. subst c.
    assert (Hdrop1 : str_drop (S (String.length d1)) s = r).
    { rewrite Es. replace (S (String.length d1)) with (String.length d1 + 1) by lia. rewrite drop_app_plus. cbn. apply drop_0. }
    rewrite Hdrop1. destruct (span_decomp is_digit r) as [d2 [r2 [Er [Hd2 [Hr2 Hsp2]]]]]. rewrite Hsp2.
    destruct (string_dec d2 "") as [->|Ne].
    + cbn [String.length Nat.eqb]. apply Plain. intros d2 e u H Hd. destruct d2 as [|c d2]; [reflexivity|]. exfalso. cbn in H. injection H as H. cbn in Er. subst r2.
      rewrite H in Hr2. cbn in Hr2. apply chars_cons in Hd. destruct Hd. congruence.
    + right. destruct (match_exp_spec r2) as [e [u [Er2 [Hl [He Hmax]]]]].
      assert (Em : (if Nat.eqb (String.length d2) 0 then String.length d1 else String.length d1 + 1 + String.length d2) = String.length (d1 ++ "." ++ d2)).
      { rewrite !length_app_str. cbn. destruct d2; [congruence|]. cbn. lia. }
      assert (Es' : s = (d1 ++ "." ++ d2) ++ r2) by (rewrite Es, Er, !app_assoc_str; reflexivity).
      rewrite Em. replace (str_drop (String.length (d1 ++ "." ++ d2)) s) with r2 by (rewrite Es'; symmetry; apply drop_app).
      exists ((d1 ++ "." ++ d2) ++ e), u. split; [rewrite Es', Er2; symmetry; apply app_assoc_str|]. split; [destruct d1; discriminate|].
      split.
      * rewrite (length_app_str _ e), Hl. rewrite !length_app_str. cbn. destruct (Nat.eqb_spec (String.length d1 + S (String.length d2)) 0); lia.
      * split; [exists d1, ".", d2, e; rewrite !app_assoc_str; repeat split; cbn; auto|].
        intros y t Hy E. rewrite !length_app_str. cbn. destruct (Shape y t Hy E) as [[e' [L [He' [[u' Eu] _]]]]|[d2' [e' [u' [H [H2 [H3 [H4 ->]]]]]]]].
        -- destruct He' as [|e0 sg dd He0 _ _ _]; [cbn in L; lia|]. exfalso. cbn in He0. destruct He0 as [<-|[<-|[]]]; discriminate.
        -- cbn in H. injection H as H. rewrite Er in H.
           assert (L1 : String.length d2' <= String.length d2) by (apply (digit_prefix_le d2' d2 r2 _ H2 Hd2 Hr2 H)).
           rewrite !length_app_str. cbn. destruct H4 as [|e0 sg dd He0 Hsg Hdd Hne]; [cbn; lia|].
           assert (Ne0 : e0 ++ sg ++ dd <> "") by (destruct He0 as [<-|[<-|[]]]; discriminate).
           destruct (exp_first (e0 ++ sg ++ dd) u' (et_some e0 sg dd He0 Hsg Hdd Hne) Ne0) as [c [t' [Ee Hc]]].
           assert (L2 : String.length d2 <= String.length d2').
           { apply (digit_prefix_le d2 d2' ((e0 ++ sg ++ dd) ++ u') r2 Hd2 H2); [|auto].
             rewrite Ee. cbn. destruct (is_digit c) eqn:Ec; [|reflexivity]. apply digit_not_e in Ec. congruence. }
           apply app_eq_length in H; [|lia]. destruct H as [_ H]. specialize (Hmax _ _ H (et_some e0 sg dd He0 Hsg Hdd Hne)). lia.
  - apply Plain. intros d2 e u H _. rewrite H in Edot. cbn in Edot. discriminate.
Qed.

(** * One step *)
Lemma punct_first x r : is_punct x -> exists c, x = String c "" /\ x ++ r = String c r.
Proof. unfold is_punct. cbn. intros H. repeat destruct H as [<-|H]; try (eexists; split; reflexivity). destruct H. Qed.
Lemma no_punct_first s : no_punct s <-> (first_is (Ascii.eqb "(") s = false /\ first_is (Ascii.eqb ")") s = false /\ first_is (one_of ",=+-*/") s = false).
Proof.
  split.
  - intros H. destruct s as [|c s]; [auto|]. cbn [first_is].
    assert (N : forall d, is_punct (String d "") -> c <> d).
    { intros d Hd ->. apply (H (String d "") Hd). now exists s. }
    assert (A : forall d, is_punct (String d "") -> Ascii.eqb d c = false).
    { intros d Hd. apply Ascii.eqb_neq. intros ->. now apply (N c Hd). }
    assert (B : forall d, is_punct (String d "") -> Ascii.eqb c d = false).
    { intros d Hd. apply Ascii.eqb_neq. now apply N. }
    unfold one_of. cbn [list_ascii_of_string existsb]. rewrite !A, !B by (unfold is_punct; cbn; tauto). auto.
  - intros [H1 [H2 H3]] x Hx [r E]. destruct (punct_first x r Hx) as [c [-> E2]]. rewrite E2 in E. subst s. cbn [first_is] in *.
    unfold is_punct in Hx. cbn in Hx. repeat destruct Hx as [[= <-]|Hx]; try discriminate. destruct Hx.
Qed.
Lemma by_length_in names x : In x (by_length names) <-> In x names.
Proof. apply py_sort_in. Qed.
Lemma by_length_sorted names : StronglySorted (fun a b => String.length b <= String.length a) (by_length names).
Proof.
  assert (H : StronglySorted (le (fun a b => Nat.ltb (String.length b) (String.length a))) (by_length names)).
  { apply py_sort_sorted; unfold le; intros *; rewrite ?Nat.ltb_lt, ?Nat.ltb_ge; lia. }
  revert H. generalize (by_length names). intros l0 H. induction H as [|x l H IH HF]; constructor; [exact IH|]. eapply Forall_impl; [|exact HF]. unfold le. intros y. rewrite Nat.ltb_ge. auto.
Qed.
Lemma find_longest l s x : StronglySorted (fun a b => String.length b <= String.length a) l ->
  find (fun n => String.prefix n s) l = Some x ->
  In x l /\ starts_with x s /\ forall y, In y l -> starts_with y s -> String.length y <= String.length x.
Proof.
  induction 1 as [|a l Hs IH HF]; [discriminate|]. cbn [find]. destruct (String.prefix a s) eqn:E.
  - intros [= <-]. split; [now left|]. split; [now apply prefix_iff|]. intros y [<-|Hy] _; [lia|]. rewrite Forall_forall in HF. auto.
  - intros H. destruct (IH H) as [H1 [H2 H3]]. split; [now right|]. split; [exact H2|]. intros y [<-|Hy] Hp; [|auto].
    apply prefix_iff in Hp. congruence.
Qed.
Lemma names_find names s : match find (fun n => String.prefix n s) (match names with [] => [""%string] | _ => by_length names end) with
  | Some x => (x = "" /\ names = []) \/ (In x names /\ starts_with x s /\ forall y, In y names -> starts_with y s -> String.length y <= String.length x)
  | None => no_name names s
  end.
Proof.
  destruct names as [|n0 names].
  - assert (E : String.prefix "" s = true) by (destruct s; reflexivity). cbn [find]. rewrite E. auto.
  - set (ns := n0 :: names). change (match ns with [] => [""] | _ => by_length ns end) with (by_length ns).
    destruct (find _ (by_length ns)) as [x|] eqn:E.
    + right. destruct (find_longest _ s x (by_length_sorted ns) E) as [H1 [H2 H3]]. split; [now apply by_length_in|]. split; [exact H2|].
      intros y Hy. apply H3. now apply by_length_in.
    + split; [discriminate|]. intros x Hx Hp. apply prefix_iff in Hp. pose proof (find_none _ _ E x (proj2 (by_length_in ns x) Hx)) as H. cbn beta in H. congruence.
Qed.
Lemma space_not_number c s y t : is_space c = true -> number_text y -> String c s <> y ++ t.
Proof.
  intros Hc [d1 [p [d2 [e [-> [H1 [Hp [H2 [Hne He]]]]]]]]] E.
  assert (is_digit c = true \/ c = "."%char) as [H|H].
  { destruct d1 as [|a d1]; cbn in E.
    - cbn in Hp. destruct Hp as [<-|[<-|[]]]; cbn in E; [|injection E as -> _; auto].
      destruct (digits_nonempty d2 H2 Hne) as [a [r [-> Ha]]]. cbn in E. injection E as -> _. auto.
    - injection E as -> _. apply chars_cons in H1. tauto. }
  - unfold is_digit, is_some, digit_val in H. unfold is_space in Hc. cbv zeta in *.
    destruct (Nat.leb_spec 48 (nat_of_ascii c)); [|discriminate]. rewrite orb_true_iff, !andb_true_iff, !Nat.leb_le in Hc. lia.
  - subst c. discriminate.
Qed.

(** [lex_one] against [lexstep]. *)
Definition lex_type (lx : lexeme) : option ttype := match lx with LxTok ty => Some ty | LxSpace => None end.
Lemma lex_one_sound names s lx k : lex_one names s = Some (lx, S k) ->
  exists x r, s = x ++ r /\ String.length x = S k /\ lexstep names x (lex_type lx) r.
Proof.
  unfold lex_one.
  assert (P : forall c r ty, is_punct (String c "") -> ty = punct_type (String c "") -> s = String c r ->
    exists x r, s = x ++ r /\ String.length x = 1 /\ lexstep names x (Some ty) r).
  { intros c r ty Hp -> ->. exists (String c ""), r. split; [reflexivity|]. split; [reflexivity|]. now constructor. }
  destruct (first_is (Ascii.eqb "(") s) eqn:E1.
  { intros [= <- <-]. destruct s as [|c s]; [discriminate|]. cbn [first_is] in E1. apply Ascii.eqb_eq in E1. subst c. apply (P "("%char s); [unfold is_punct; cbn; tauto|reflexivity|reflexivity]. }
  destruct (first_is (Ascii.eqb ")") s) eqn:E2.
  { intros [= <- <-]. destruct s as [|c s]; [discriminate|]. cbn [first_is] in E2. apply Ascii.eqb_eq in E2. subst c. apply (P ")"%char s); [unfold is_punct; cbn; tauto|reflexivity|reflexivity]. }
  destruct (first_is (one_of ",=+-*/") s) eqn:E3.
  { intros [= <- <-]. destruct (first_is_one_of _ _ E3) as [c [r [-> Hc]]]. cbn in Hc.
    apply (P c r); [unfold is_punct; cbn; intuition (subst; auto 10)| |reflexivity]. rewrite take_S, take_0. intuition (subst; reflexivity). }
  assert (NP : no_punct s) by (apply no_punct_first; auto).
  pose proof (names_find names s) as NF. destruct (find _ _) as [x|] eqn:Ef.
  - intros [= <- Hl]. destruct NF as [[-> _]|[H1 [[r ->] H3]]]; [discriminate|]. exists x, r. split; [reflexivity|]. split; [exact Hl|].
    apply ls_name; auto. intros ->. discriminate.
  - assert (Hsign : first_is (one_of "-+") s = false).
    { destruct s as [|c s]; [reflexivity|]. cbn [first_is] in *. unfold one_of in *. cbn [list_ascii_of_string existsb] in *. rewrite !orb_false_iff in *. tauto. }
    destruct (match_num_spec s Hsign) as [[E0 Hno]|[x [r [Es [Hne [El [Hnum Hmax]]]]]]].
    + rewrite E0. destruct (span_decomp is_space s) as [x [r [Es [Hx [Hr ->]]]]]. destruct (String.length x) as [|j] eqn:Ej; [discriminate|].
      intros [= <- <-]. exists x, r. split; [exact Es|]. split; [exact Ej|]. rewrite Es in *. apply ls_space; auto.
      * intros ->. discriminate.
      * intros c u ->. exact Hr.
    + rewrite El. destruct (String.length x) as [|j] eqn:Ej; [destruct x; [congruence|discriminate]|]. intros [= <- <-].
      exists x, r. split; [exact Es|]. split; [exact Ej|]. rewrite Es in *. apply ls_number; auto.
      intros y Hy [t Et]. rewrite Ej. eapply Hmax; eauto.
Qed.
Lemma lex_one_complete names x ty r : lexstep names x ty r -> exists lx, lex_one names (x ++ r) = Some (lx, String.length x) /\ lex_type lx = ty /\ 0 < String.length x.
Proof.
  intros H. destruct H as [x r Hp|x r NP Hin Hne Hmax|x r NP NN Hnum Hmax|x r NP NN Hne Hsp Hr].
  - unfold is_punct in Hp. cbn in Hp. destruct Hp as [<-|[<-|[<-|[<-|[<-|[<-|[<-|[<-|[]]]]]]]]]; cbn; rewrite ?take_0; eexists; (split; [reflexivity|]); (split; [reflexivity|lia]).
  - apply no_punct_first in NP as NP'. destruct NP' as [N1 [N2 N3]]. unfold lex_one. rewrite N1, N2, N3.
    pose proof (names_find names (x ++ r)) as NF. destruct (find _ _) as [y|] eqn:Ef.
    + exists (LxTok (TName "VARIABLE")). split; [|split; [reflexivity|destruct x; [congruence|cbn; lia]]].
      destruct NF as [[-> ->]|[H1 [H2 H3]]]; [destruct Hin|]. f_equal. f_equal.
      assert (String.length x <= String.length y) by (apply H3; [exact Hin|now exists r]).
      specialize (Hmax y H1 H2). lia.
    + exfalso. destruct NF as [_ NF]. apply (NF x Hin). now exists r.
  - apply no_punct_first in NP as NP'. destruct NP' as [N1 [N2 N3]]. unfold lex_one. rewrite N1, N2, N3.
    pose proof (names_find names (x ++ r)) as NF. destruct (find _ _) as [y|] eqn:Ef.
    + exfalso. destruct NN as [Nn NN]. destruct NF as [[_ C]|[H1 [H2 _]]]; [congruence|]. now apply (NN y H1).
    + assert (Hsign : first_is (one_of "-+") (x ++ r) = false).
      { destruct (x ++ r) as [|c s]; [reflexivity|]. cbn [first_is] in *. unfold one_of in *. cbn [list_ascii_of_string existsb] in *. rewrite !orb_false_iff in *. tauto. }
      destruct (match_num_spec _ Hsign) as [[E0 Hno]|[x' [r' [Es [Hne' [El [Hnum' Hmax']]]]]]].
      * exfalso. now apply (Hno x r Hnum).
      * assert (Le : String.length x' = String.length x).
        { assert (String.length x' <= String.length x) by (apply Hmax; [exact Hnum'|now exists r']). assert (String.length x <= String.length x') by (now apply (Hmax' x r)). lia. }
        rewrite El, Le. exists (LxTok (TName "NUMBER")). destruct (String.length x) as [|j] eqn:Ej; [destruct x'; [congruence|discriminate]|].
        split; [reflexivity|split; [reflexivity|lia]].
  - apply no_punct_first in NP as NP'. destruct NP' as [N1 [N2 N3]]. unfold lex_one. rewrite N1, N2, N3.
    pose proof (names_find names (x ++ r)) as NF. destruct (find _ _) as [y|] eqn:Ef.
    + exfalso. destruct NN as [Nn NN]. destruct NF as [[_ C]|[H1 [H2 _]]]; [congruence|]. now apply (NN y H1).
    + destruct x as [|c x]; [congruence|]. assert (Hc : is_space c = true) by (apply chars_cons in Hsp; tauto).
      assert (Hsign : first_is (one_of "-+") (String c x ++ r) = false).
      { cbn [append first_is] in *. unfold one_of in *. cbn [list_ascii_of_string existsb] in *. rewrite !orb_false_iff in *. tauto. }
      destruct (match_num_spec _ Hsign) as [[E0 Hno]|[x' [r' [Es [_ [_ [Hnum' _]]]]]]].
      * rewrite E0. rewrite (span_app is_space (String c x) r Hsp) by (destruct r as [|d r]; [reflexivity|]; cbn; now apply (Hr d r)).
        cbn [String.length]. exists LxSpace. split; [reflexivity|split; [reflexivity|lia]].
      * exfalso. exact (space_not_number c (x ++ r) x' r' Hc Hnum' Es).
Qed.

(** * The scanner *)
Lemma scan_spec names code fuel : forall pos s, String.length s < fuel ->
  let '(toks, rest) := scan fuel code names pos s in
  lexes names code pos s toks rest /\ (forall x ty r, rest = x ++ r -> ~ lexstep names x ty r).
Proof.
  induction fuel as [|fuel IH]; intros pos s Hf; [lia|]. cbn [scan].
  assert (Stop : (forall k lx, lex_one names s = Some (lx, k) -> k = 0) -> lexes names code pos s [] s /\ (forall x ty r, s = x ++ r -> ~ lexstep names x ty r)).
  { intros H. split; [constructor|]. intros x ty r E Hs. destruct (lex_one_complete names x ty r Hs) as [lx [E1 [_ Hp]]]. rewrite <- E in E1. apply H in E1. lia. }
  destruct (lex_one names s) as [[lx [|k]]|] eqn:E; [apply Stop; now intros ? ? [= <- <-]| |apply Stop; discriminate].
  destruct (lex_one_sound names s lx k E) as [x [r [-> [Hl Hs]]]].
  rewrite <- Hl, drop_app, take_app. rewrite length_app_str in Hf. specialize (IH (pos + String.length x) r ltac:(lia)).
  destruct (scan fuel code names (pos + String.length x) r) as [toks rest]. destruct IH as [H1 H2]. split; [|exact H2].
  destruct lx as [ty|]; cbn in Hs; now constructor.
Qed.
Lemma lexstep_det names x ty r x' ty' r' : lexstep names x ty r -> lexstep names x' ty' r' -> x ++ r = x' ++ r' -> x = x' /\ ty = ty' /\ r = r'.
Proof.
  intros H H' E. destruct (lex_one_complete _ _ _ _ H) as [lx [E1 [T1 _]]], (lex_one_complete _ _ _ _ H') as [lx' [E1' [T1' _]]].
  rewrite E in E1. rewrite E1 in E1'. injection E1' as <- Hl. apply app_eq_length in E; [|exact Hl]. intuition congruence.
Qed.
Lemma lexes_det names code pos s toks rest : lexes names code pos s toks rest -> (forall x ty r, rest = x ++ r -> ~ lexstep names x ty r) ->
  forall toks' rest', lexes names code pos s toks' rest' -> (forall x ty r, rest' = x ++ r -> ~ lexstep names x ty r) -> toks = toks' /\ rest = rest'.
Proof.
  induction 1 as [pos s|pos x r toks rest Hs H IH|pos x ty r toks rest Hs H IH]; intros Hstuck toks' rest' H' Hstuck'.
  - inversion H' as [| ? ? ? ? ? Hs'|? ? ? ? ? ? Hs']; subst; [auto|exfalso; eapply Hstuck; eauto..].
  - remember (x ++ r) as s eqn:Es. destruct H' as [pos' s'|pos' x' r' toks2 rest2 Hs' H2 |pos' x' ty' r' toks2 rest2 Hs' H2].
    + exfalso. eapply Hstuck'; eauto.
    + destruct (lexstep_det _ _ _ _ _ _ _ Hs' Hs Es) as [-> [_ ->]]. eauto.
    + destruct (lexstep_det _ _ _ _ _ _ _ Hs' Hs Es) as [_ [C _]]. discriminate.
  - remember (x ++ r) as s eqn:Es. destruct H' as [pos' s'|pos' x' r' toks2 rest2 Hs' H2 |pos' x' ty' r' toks2 rest2 Hs' H2].
    + exfalso. eapply Hstuck'; eauto.
    + destruct (lexstep_det _ _ _ _ _ _ _ Hs' Hs Es) as [_ [C _]]. discriminate.
    + destruct (lexstep_det _ _ _ _ _ _ _ Hs' Hs Es) as [-> [[= ->] ->]]. destruct (IH Hstuck _ _ H2 Hstuck') as [-> ->]. auto.
Qed.
Lemma lexstep_nonempty names x ty r : lexstep names x ty r -> x <> "".
Proof. intros H. destruct (lex_one_complete _ _ _ _ H) as [_ [_ [_ H0]]]. intros ->. cbn in H0. lia. Qed.

Lemma tokenize_ok_iff code names toks : tokenize_constraint code names = Ok toks <-> lexes names code 0 code toks "".
Proof.
  unfold tokenize_constraint. pose proof (scan_spec names code (S (String.length code)) 0 code ltac:(lia)) as H.
  destruct (scan _ code names 0 code) as [ts rest]. destruct H as [H1 H2].
  assert (Nil : forall x ty r, "" = x ++ r -> ~ lexstep names x ty r).
  { intros x ty r E Hs. apply lexstep_nonempty in Hs. destruct x; [congruence|discriminate]. }
  split.
  - destruct (String.eqb_spec rest "") as [->|]; [|discriminate]. now intros [= <-].
  - intros H. destruct (lexes_det _ _ _ _ _ _ H Nil _ _ H1 H2) as [-> <-]. reflexivity.
Qed.
Lemma tokenize_err_iff code names e : tokenize_constraint code names = Err e <->
  exists toks rest m, lexes names code 0 code toks rest /\ rest <> "" /\ (forall x ty r, rest = x ++ r -> ~ lexstep names x ty r) /\
    m = "unrecognized token in constraint" /\
    e = PatsyError m (Some (mkOrigin code (String.length code - String.length rest) (String.length code - String.length rest + 1))).
Proof.
  unfold tokenize_constraint. pose proof (scan_spec names code (S (String.length code)) 0 code ltac:(lia)) as H.
  destruct (scan _ code names 0 code) as [ts rest]. destruct H as [H1 H2]. cbv zeta. split.
  - destruct (String.eqb_spec rest "") as [->|N]; [discriminate|]. intros [= <-]. exists ts, rest. eexists. repeat split; auto.
  - intros [toks [rest' [m [H [N [S [-> ->]]]]]]]. destruct (lexes_det _ _ _ _ _ _ H S _ _ H1 H2) as [-> ->].
    destruct (String.eqb_spec rest ""); [congruence|]. reflexivity.
Qed.
Lemma lexes_rest names code pos s toks rest : lexes names code pos s toks rest -> exists p, s = p ++ rest.
Proof.
  induction 1 as [pos s|pos x r toks rest _ _ [p IH]|pos x ty r toks rest _ _ [p IH]]; [now exists ""|exists (x ++ p)..];
    rewrite app_assoc_str; congruence.
Qed.
