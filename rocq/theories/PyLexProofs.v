(** The tokenizer reads printed token sequences back. *)
From Coq Require Import Ascii Sorted.
From Verif Require Import Base TokensModel TokensSpec TokensProofs PyLexModel PyLexSpec.
Open Scope string_scope.
Open Scope list_scope.

Lemma prefix_iff p : forall s, prefix p s = true <-> exists r, s = (p ++ r)%string.
Proof.
  induction p as [|a p IH]; intros [|b s]; cbn.
  - split; [exists ""; reflexivity|auto].
  - split; [intros _; exists (String b s); reflexivity|auto].
  - split; [discriminate|intros [r H]; discriminate].
  - destruct (ascii_dec a b) as [->|N].
    + rewrite IH. split; intros [r H]; exists r; [now rewrite H|now injection H].
    + split; [discriminate|]. intros [r H]. injection H as ->. congruence.
Qed.
Lemma app_prefix_cmp : forall p q r s, (p ++ r)%string = (q ++ s)%string -> (exists d, q = (p ++ d)%string) \/ (exists d, p = (q ++ d)%string).
Proof.
  induction p as [|a p IH]; intros [|b q] r s H; cbn in H.
  - left. exists "". reflexivity.
  - left. exists (String b q). reflexivity.
  - right. exists (String a p). reflexivity.
  - injection H as -> H. destruct (IH q r s H) as [[d ->]|[d ->]]; [left|right]; exists d; reflexivity.
Qed.
Lemma app_inv_head_s : forall p r s : string, (p ++ r)%string = (p ++ s)%string -> r = s.
Proof. induction p as [|a p IH]; intros r s H; [exact H|]. injection H as H. auto. Qed.
Lemma app_nil_s : forall p : string, (p ++ "")%string = p.
Proof. induction p as [|a p IH]; [reflexivity|]. cbn. now rewrite IH. Qed.
Lemma app_length_s : forall p q : string, String.length (p ++ q) = String.length p + String.length q.
Proof. induction p as [|a p IH]; intros q; [reflexivity|]. cbn. now rewrite IH. Qed.
Lemma drop_app p : forall s, drop (String.length p) (p ++ s) = s.
Proof. induction p as [|a p IH]; intros s; [reflexivity|exact (IH s)]. Qed.

(** * Operators *)
Fixpoint ordered (l : list string) : bool :=
  match l with
  | [] => true
  | x :: r => forallb (fun y => Nat.leb (String.length y) (String.length x) && negb (String.eqb x y)) r && ordered r
  end.
Lemma operators_ordered : ordered operators = true.
Proof. vm_compute. reflexivity. Qed.
Lemma find_longest l t s : ordered l = true -> In t l ->
  (forall o d, In o l -> o = (t ++ d)%string -> d <> "" -> prefix d s = false) ->
  find (fun o => prefix o (t ++ s)) l = Some t.
Proof.
  induction l as [|x l IH]; intros Ho Hin H; [destruct Hin|]. cbn in Ho. apply andb_true_iff in Ho. destruct Ho as [Hx Ho]. cbn [find].
  destruct (prefix x (t ++ s)) eqn:E.
  - destruct Hin as [->|Hin]; [reflexivity|]. exfalso. rewrite forallb_forall in Hx. specialize (Hx t Hin). apply andb_true_iff in Hx. destruct Hx as [Hl Hne].
    apply Nat.leb_le in Hl. apply negb_true_iff, String.eqb_neq in Hne.
    apply prefix_iff in E. destruct E as [r E]. destruct (app_prefix_cmp _ _ _ _ E) as [[d Hd]|[d Hd]].
    + assert (d <> "") by (intros ->; rewrite app_nil_s in Hd; congruence).
      assert (P : prefix d s = true) by (apply prefix_iff; exists r; rewrite Hd, append_assoc_s in E; now apply app_inv_head_s in E).
      rewrite (H x d (or_introl eq_refl) Hd) in P by assumption. discriminate.
    + rewrite Hd, app_length_s in Hl. destruct d; [rewrite app_nil_s in Hd; congruence|cbn in Hl; lia].
  - destruct Hin as [->|Hin]; [|apply IH; auto].
    + assert (P : prefix t (t ++ s) = true) by (apply prefix_iff; eauto). congruence.
    + intros o d Ho' Hod Hd. apply (H o d); auto. now right.
Qed.
Definition op_char (c : ascii) : bool := negb (name_char c) && negb (is_quote c) && negb (is_blank c).
Lemma operators_chars : forallb (fun o => negb (String.eqb o "") && all_chars op_char o) operators = true.
Proof. vm_compute. reflexivity. Qed.
Lemma operator_chars o : In o operators -> o <> "" /\ all_chars op_char o = true.
Proof.
  intros H. pose proof operators_chars as G. rewrite forallb_forall in G. specialize (G o H). apply andb_true_iff in G. destruct G as [A B]. split; [|exact B].
  apply negb_true_iff, String.eqb_neq in A. exact A.
Qed.
Lemma all_chars_app f a b : all_chars f (a ++ b) = all_chars f a && all_chars f b.
Proof. induction a as [|c a IH]; [reflexivity|]. cbn. now rewrite IH, andb_assoc. Qed.

(** The text after an operator does not continue it. *)
Definition op_stop (s : string) : bool := match s with EmptyString => true | String c _ => negb (op_char c) end.
Lemma operator_stop t s : In t operators -> op_stop s = true -> operator_of (t ++ s) = Some t.
Proof.
  intros Hin Hs. apply find_longest; [exact operators_ordered|exact Hin|].
  intros o d Ho -> Hd. destruct d as [|c d]; [congruence|]. destruct s as [|c' s]; [reflexivity|]. cbn [prefix]. destruct (ascii_dec c c') as [->|]; [|reflexivity].
  exfalso. destruct (operator_chars _ Ho) as [_ Hc]. rewrite all_chars_app in Hc. apply andb_true_iff in Hc. destruct Hc as [_ Hc]. cbn in Hc, Hs.
  apply andb_true_iff in Hc. destruct Hc as [Hc _]. rewrite Hc in Hs. discriminate.
Qed.
Lemma operator_separable t u s : In t operators -> separable t u = true -> operator_of (t ++ u ++ s) = Some t.
Proof.
  intros Hin Hs. apply find_longest; [exact operators_ordered|exact Hin|].
  intros o d Ho -> Hd. unfold separable in Hs. rewrite forallb_forall in Hs. specialize (Hs _ Ho).
  assert (Hne : String.eqb (t ++ d) t = false).
  { apply String.eqb_neq. intros E. assert (L : String.length (t ++ d) = String.length t) by now rewrite E. rewrite app_length_s in L. destruct d; [congruence|cbn in L; lia]. }
  rewrite Hne in Hs. cbn [orb] in Hs. assert (P : prefix t (t ++ d) = true) by (apply prefix_iff; eauto). rewrite P in Hs. cbn [negb orb] in Hs.
  apply negb_true_iff, orb_false_iff in Hs. destruct Hs as [H1 H2].
  destruct (prefix d (u ++ s)) eqn:E; [|reflexivity]. exfalso. apply prefix_iff in E. destruct E as [r E]. destruct (app_prefix_cmp _ _ _ _ E) as [[q Hq]|[q Hq]].
  - subst d. assert (P2 : prefix (t ++ u) (t ++ u ++ q) = true) by (apply prefix_iff; exists q; now rewrite append_assoc_s). congruence.
  - subst u. assert (P2 : prefix (t ++ d) (t ++ d ++ q) = true) by (apply prefix_iff; exists q; now rewrite append_assoc_s). congruence.
Qed.

(** * Words *)
Definition stop (f : ascii -> bool) (s : string) : bool := match s with EmptyString => true | String c _ => negb (f c) end.
Lemma span_app f w : forall s, all_chars f w = true -> stop f s = true -> span f (w ++ s) = (w, s).
Proof.
  induction w as [|c w IH]; intros s Hw Hs; cbn in *.
  - destruct s as [|c s]; [reflexivity|]. cbn in *. apply negb_true_iff in Hs. now rewrite Hs.
  - apply andb_true_iff in Hw. destruct Hw as [Hc Hw]. rewrite Hc, IH by assumption. reflexivity.
Qed.

(** * Numbers *)
Lemma first_is_app f a b : first_is f (a ++ b) = match a with EmptyString => first_is f b | _ => first_is f a end.
Proof. destruct a; reflexivity. Qed.
Lemma digit_number c : is_digit c = true -> number_char c = true.
Proof. intros H. unfold number_char, name_char. now rewrite H, orb_true_r. Qed.
Lemma last_is_cons f c r : last_is f (String c r) = match r with EmptyString => f c | _ => last_is f r end.
Proof. destruct r; reflexivity. Qed.
Definition exponent_open (ex ae : bool) (w : string) : bool := match w with EmptyString => ae | _ => ex && last_is is_e w end.
Lemma read_number_app ex : forall w ae s, number_chars ex ae w = true -> stop number_char s = true -> exponent_open ex ae w && first_is is_sign s = false ->
  read_number ex ae (w ++ s) = (w, s).
Proof.
  induction w as [|c w IH]; intros ae s Hw Hs He.
  - cbn [append]. destruct s as [|c s]; [reflexivity|]. cbn [read_number]. cbn in Hs. apply negb_true_iff in Hs. rewrite Hs. cbn in He. cbn [orb]. destruct ae; [|reflexivity]. cbn [andb] in *. now rewrite He.
  - cbn [append read_number number_chars] in *. apply andb_true_iff in Hw. destruct Hw as [Hc Hw].
    assert (E : number_char c || (ae && is_sign c && first_is is_digit (w ++ s)) = true).
    { apply orb_true_iff in Hc. apply orb_true_iff. destruct Hc as [Hc|Hc]; [now left|right]. apply andb_true_iff in Hc. destruct Hc as [-> Hc]. cbn [andb]. destruct w; [discriminate|exact Hc]. }
    rewrite E, IH; auto. unfold exponent_open in *. destruct w; [|exact He]. cbn [last_is] in He. exact He.
Qed.
Lemma read_number_spec ex : forall s ae w rest, read_number ex ae s = (w, rest) -> s = (w ++ rest)%string /\ number_chars ex ae w = true /\ stop number_char rest = true.
Proof.
  induction s as [|c s IH]; intros ae w rest H; cbn [read_number] in H.
  - injection H as <- <-. auto.
  - destruct (number_char c || (ae && is_sign c && first_is is_digit s)) eqn:E.
    + destruct (read_number ex (ex && is_e c) s) as [a b] eqn:Er. injection H as <- <-. destruct (IH _ _ _ Er) as [-> [Ha Hb]]. split; [reflexivity|]. split; [|exact Hb].
      cbn [number_chars]. rewrite Ha, andb_true_r. apply orb_true_iff in E. apply orb_true_iff. destruct E as [E|E]; [now left|right]. apply andb_true_iff in E. destruct E as [-> E]. cbn [andb].
      destruct a as [|d a]; [|exact E]. exfalso. cbn [append] in E. destruct b as [|d b]; [discriminate|]. cbn in E, Hb. rewrite (digit_number d E) in Hb. discriminate.
    + injection H as <- <-. split; [reflexivity|]. split; [reflexivity|]. cbn. apply orb_false_iff in E. now rewrite (proj1 E).
Qed.
Lemma hexadecimal_app w rest : w <> "" -> stop number_char rest = true -> hexadecimal (w ++ rest) = hexadecimal w.
Proof.
  intros Hw Hs. unfold hexadecimal. destruct w as [|a [|b w]]; [congruence| |].
  - cbn [append]. destruct rest as [|c rest]; [reflexivity|]. cbn [prefix]. destruct (ascii_dec "0" a); [|reflexivity].
    destruct (ascii_dec "x" c) as [<-|_]; [discriminate Hs|]. destruct (ascii_dec "X" c) as [<-|_]; [discriminate Hs|reflexivity].
  - cbn [append prefix]. destruct (ascii_dec "0" a); [|reflexivity]. assert (P : forall x, prefix "" x = true) by (destruct x; reflexivity). now rewrite !P.
Qed.
Lemma starts_number_app w rest : starts_number w = true -> starts_number (w ++ rest) = true.
Proof.
  unfold starts_number. rewrite !orb_true_iff, !andb_true_iff. destruct w as [|a w]; [intros [H|[H _]]; discriminate|]. intros [H|[H1 H2]]; [left; exact H|right].
  cbn [append]. split.
  - cbn [prefix] in *. destruct (ascii_dec "." a); [|discriminate]. destruct (w ++ rest)%string; reflexivity.
  - cbn [drop] in *. destruct w; [discriminate|exact H2].
Qed.
Lemma starts_number_read w rest : starts_number (w ++ rest) = true -> stop number_char rest = true -> starts_number w = true.
Proof.
  unfold starts_number. intros H Hs. rewrite !orb_true_iff, !andb_true_iff in *. destruct w as [|a [|b w]].
  - exfalso. cbn [append] in H. destruct rest as [|c rest]; [destruct H as [H|[H _]]; discriminate|]. cbn in Hs. apply negb_true_iff in Hs. destruct H as [H|[H _]].
    + cbn in H. apply digit_number in H. congruence.
    + cbn [prefix] in H. destruct (ascii_dec "." c) as [<-|]; discriminate.
  - destruct H as [H|[H1 H2]]; [left; exact H|]. exfalso. cbn [append drop] in H2. destruct rest as [|c rest]; [discriminate|]. cbn in H2, Hs. rewrite (digit_number c H2) in Hs. discriminate.
  - destruct H as [H|[H1 H2]]; [left; exact H|right]. split; [|exact H2]. cbn [append prefix] in *. destruct (ascii_dec "." a); [reflexivity|discriminate].
Qed.

(** * Strings *)
Lemma prefix_app_same p : forall s t, String.length p <= String.length s -> prefix p (s ++ t) = prefix p s.
Proof.
  induction p as [|a p IH]; intros [|b s] t H; cbn in H; try lia; cbn [append prefix].
  - now destruct t. - reflexivity. - destruct (ascii_dec a b); [|reflexivity]. apply IH. lia.
Qed.
Lemma read_short_app q b s : short q b -> is_quote q = true -> read_short q (b ++ s) = Some (b, s).
Proof.
  intros H Hq. assert (Hb : is_backslash q = false) by (unfold is_quote in Hq; apply orb_true_iff in Hq; destruct Hq as [Hq|Hq]; apply Ascii.eqb_eq in Hq; subst q; reflexivity).
  induction H as [|c r Hc Hn H IH|b c r Hn H IH]; cbn [append read_short].
  - now rewrite Hb, Ascii.eqb_refl.
  - rewrite Hn. destruct (Ascii.eqb_spec c q); [congruence|]. now rewrite IH.
  - rewrite Hn, IH. reflexivity.
Qed.
Lemma read_short_spec q n : forall s b rest, String.length s <= n -> read_short q s = Some (b, rest) -> s = (b ++ rest)%string /\ short q b.
Proof.
  induction n as [|n IH]; intros s b rest Hn H; (destruct s as [|c s]; [discriminate|]); cbn in Hn; [lia|]. cbn [read_short] in H. destruct (is_backslash c) eqn:Eb.
  - destruct s as [|d s]; [discriminate|]. destruct (read_short q s) as [[a b']|] eqn:E; [|discriminate]. cbn in H. injection H as <- <-. destruct (IH s _ _ ltac:(cbn in Hn; lia) E) as [-> S]. split; [reflexivity|]. now constructor.
  - destruct (Ascii.eqb_spec c q) as [->|N]; [injection H as <- <-; split; [reflexivity|constructor]|]. destruct (read_short q s) as [[a b']|] eqn:E; [|discriminate]. cbn in H. injection H as <- <-.
    destruct (IH s _ _ ltac:(lia) E) as [-> S]. split; [reflexivity|]. now constructor.
Qed.
Lemma long_length q b : long q b -> 3 <= String.length b.
Proof. induction 1; cbn in *; lia. Qed.
Lemma read_long_app q b s : long q b -> is_quote q = true -> read_long q (b ++ s) = Some (b, s).
Proof.
  intros H Hq. assert (Hb : is_backslash q = false) by (unfold is_quote in Hq; apply orb_true_iff in Hq; destruct Hq as [Hq|Hq]; apply Ascii.eqb_eq in Hq; subst q; reflexivity).
  induction H as [|c r Hn Hp H IH|b c r Hn H IH].
  - unfold three. cbn [append read_long]. rewrite Hb. cbn [prefix three]. destruct (ascii_dec q q); [|congruence]. now destruct s.
  - change (String c r ++ s)%string with (String c (r ++ s)). cbn [read_long]. rewrite Hn. change (String c (r ++ s)) with (String c r ++ s)%string. rewrite prefix_app_same by (apply long_length in H; cbn; lia). rewrite Hp, IH. reflexivity.
  - cbn [append read_long]. rewrite Hn, IH. reflexivity.
Qed.
Lemma read_long_spec q n : forall s b rest, String.length s <= n -> read_long q s = Some (b, rest) -> s = (b ++ rest)%string /\ long q b.
Proof.
  induction n as [|n IH]; intros s b rest Hn H; (destruct s as [|c s]; [discriminate|]); cbn in Hn; [lia|]. cbn [read_long] in H. destruct (is_backslash c) eqn:Eb.
  - destruct s as [|d s]; [discriminate|]. destruct (read_long q s) as [[a b']|] eqn:E; [|discriminate]. cbn [prepend] in H. injection H as <- <-. destruct (IH s _ _ ltac:(cbn in Hn; lia) E) as [-> S]. split; [reflexivity|]. now constructor.
  - destruct (prefix (three q) (String c s)) eqn:Ep.
    + injection H as <- <-. split; [|constructor]. apply prefix_iff in Ep. destruct Ep as [r Er]. unfold three in Er. cbn [append] in Er. injection Er as -> ->. reflexivity.
    + destruct (read_long q s) as [[a b']|] eqn:E; [|discriminate]. cbn [prepend] in H. injection H as <- <-.
      destruct (IH s _ _ ltac:(lia) E) as [-> S]. split; [reflexivity|]. constructor; auto.
      change (String c (a ++ b')) with (String c a ++ b')%string in Ep. rewrite prefix_app_same in Ep; [exact Ep|]. apply long_length in S. cbn. lia.
Qed.
(** A short string does not look like a long one. *)
Lemma short_no_three q b s : short q b -> is_quote q = true -> first_is is_quote s = false -> prefix (three q) (String q (b ++ s)) = false.
Proof.
  intros H Hq Hs. assert (Hb : is_backslash q = false) by (unfold is_quote in Hq; apply orb_true_iff in Hq; destruct Hq as [Hq'|Hq']; apply Ascii.eqb_eq in Hq'; subst q; reflexivity).
  cbn [prefix three]. destruct (ascii_dec q q); [|congruence]. inversion H as [|c r Hc Hn Hr|b' c r Hn Hr]; subst.
  - cbn [append prefix]. destruct (ascii_dec q q); [|congruence]. destruct s as [|d s]; [reflexivity|]. cbn [prefix]. destruct (ascii_dec q d) as [<-|]; [|reflexivity]. cbn in Hs. congruence.
  - cbn [append prefix]. destruct (ascii_dec q c); [congruence|reflexivity].
  - cbn [append prefix]. destruct (ascii_dec q b') as [<-|]; [congruence|reflexivity].
Qed.
Lemma read_string_back p q body s : is_quote q = true ->
  (short q body -> first_is is_quote s = false -> read_string p (String q body ++ s) = LToken PSTRING (p ++ String q body) s) /\
  (long q body -> read_string p ((three q ++ body) ++ s) = LToken PSTRING (p ++ three q ++ body) s).
Proof.
  intros Hq. split.
  - intros H Hs. cbn [append read_string]. rewrite (short_no_three q body s H Hq Hs). now rewrite (read_short_app q body s H Hq).
  - intros H. assert (P : prefix (three q) ((three q ++ body) ++ s) = true) by (apply prefix_iff; exists (body ++ s)%string; now rewrite append_assoc_s).
    unfold read_string. change (three q ++ body)%string with (String q (String q (String q body))) in P |- *. cbn [append] in P |- *. rewrite P. cbn [drop]. now rewrite (read_long_app q body s H Hq).
Qed.
Lemma read_string_spec p s ty w rest : read_string p s = LToken ty w rest -> first_is is_quote s = true ->
  ty = PSTRING /\ exists w', w = (p ++ w')%string /\ s = (w' ++ rest)%string /\ exists q body, is_quote q = true /\ ((short q body /\ w' = String q body) \/ (long q body /\ w' = (three q ++ body)%string)).
Proof.
  intros H Hq. destruct s as [|q r]; [discriminate|]. cbn in Hq. unfold read_string in H. destruct (prefix (three q) (String q r)) eqn:Ep.
  - destruct (read_long q (drop 3 (String q r))) as [[b rest']|] eqn:E; [|discriminate]. injection H as <- <- <-. split; [reflexivity|]. destruct (read_long_spec q _ _ _ _ (Nat.le_refl _) E) as [E1 L].
    exists (three q ++ b)%string. split; [reflexivity|]. split; [|exists q, b; auto]. apply prefix_iff in Ep. destruct Ep as [x Ex]. rewrite Ex in E1 |- *. unfold three in E1 |- *. cbn [append drop] in E1. subst x. reflexivity.
  - destruct (read_short q r) as [[b rest']|] eqn:E; [|discriminate]. injection H as <- <- <-. split; [reflexivity|]. destruct (read_short_spec q _ _ _ _ (Nat.le_refl _) E) as [-> S].
    exists (String q b). split; [reflexivity|]. split; [reflexivity|]. exists q, b. auto.
Qed.

(** * One token *)
Definition is_word (t : pytype * string) : bool := match fst t with PNAME | PNUMBER | PSTRING => true | _ => false end.
(** The text [rest] does not continue the token [t]. *)
Definition stops (t : pytype * string) (rest : string) : Prop :=
  match fst t with
  | PNAME => stop name_char rest = true /\ first_is is_quote rest = false
  | PNUMBER => stop number_char rest = true /\ ends_with_e (snd t) && first_is is_sign rest = false
  | PSTRING => first_is is_quote rest = false
  | _ => operator_of (snd t ++ rest) = Some (snd t) /\ (snd t = "." -> first_is is_digit rest = false)
  end.
Lemma number_start_eq s : number_start s = starts_number s.
Proof.
  unfold starts_number. destruct s as [|c [|d s]]; cbn [number_start first_is drop prefix]; [reflexivity| |].
  - destruct (ascii_dec "." c) as [<-|]; cbn; now rewrite ?orb_false_r.
  - destruct (Ascii.eqb_spec c ".") as [->|Hn].
    + destruct (ascii_dec "." ".") as [_|]; [|congruence]. reflexivity.
    + destruct (ascii_dec "." c); [congruence|]. reflexivity.
Qed.
Lemma hex_start_eq s : hex_start s = hexadecimal s.
Proof.
  unfold hexadecimal. destruct s as [|a [|b s]]; cbn [hex_start prefix]; [reflexivity|now destruct (ascii_dec "0" a)|].
  assert (P : forall x, prefix "" x = true) by (destruct x; reflexivity). rewrite P.
  destruct (Ascii.eqb_spec a "0") as [->|Hn]; [|now destruct (ascii_dec "0" a); [congruence|]]. destruct (ascii_dec "0" "0") as [_|]; [|congruence].
  destruct (Ascii.eqb_spec b "x") , (Ascii.eqb_spec b "X"); cbn [andb orb]; repeat match goal with |- context [ascii_dec ?u ?v] => destruct (ascii_dec u v) end; subst; try congruence; reflexivity.
Qed.
Lemma in_strings x l : In x l <-> existsb (String.eqb x) l = true.
Proof. rewrite existsb_exists. split; [intros H; exists x; split; [exact H|apply String.eqb_refl]|]. intros [y [H E]]. apply String.eqb_eq in E. now subst y. Qed.
Definition prefix_char (c : ascii) : bool := existsb (Ascii.eqb c) ["r"; "R"; "b"; "B"; "u"; "U"; "f"; "F"]%char.
Lemma lower_is c : existsb (Ascii.eqb (lower_char c)) ["r"; "b"; "u"; "f"]%char = true -> prefix_char c = true.
Proof. destruct c as [[] [] [] [] [] [] [] []]; vm_compute; congruence. Qed.
Lemma prefix_char_is (P : ascii -> Prop) c : prefix_char c = true -> P "r"%char -> P "R"%char -> P "b"%char -> P "B"%char -> P "u"%char -> P "U"%char -> P "f"%char -> P "F"%char -> P c.
Proof.
  unfold prefix_char. cbn [existsb]. intros H. repeat (apply orb_true_iff in H; destruct H as [H|H]; [apply Ascii.eqb_eq in H; subst c; auto|]). discriminate.
Qed.
Lemma string_prefix_iff p : string_prefix p <-> In p string_prefixes.
Proof.
  split.
  - unfold string_prefix. intros H.
    assert (C : forall c r, In (String c r) ["r"; "b"; "u"; "f"; "br"; "rb"; "fr"; "rf"] -> existsb (Ascii.eqb c) ["r"; "b"; "u"; "f"]%char = true /\
      match r with String d EmptyString => existsb (Ascii.eqb d) ["r"; "b"; "u"; "f"]%char = true | String d (String _ _) => False | EmptyString => True end).
    { intros c r Hx. cbn [In] in Hx. repeat (destruct Hx as [Hx|Hx]; [injection Hx as <- <-; vm_compute; auto|]). destruct Hx. }
    destruct p as [|c r]; [apply in_strings in H; vm_compute in H; discriminate|]. cbn [lower] in H. destruct (C _ _ H) as [Hc Hr]. apply lower_is in Hc.
    destruct r as [|d [|e r]]; cbn [lower] in *; [| |destruct Hr].
    + apply in_strings in H. apply in_strings. revert H. pattern c. apply (prefix_char_is _ c Hc); vm_compute; congruence.
    + apply lower_is in Hr. apply in_strings in H. apply in_strings. revert H.
      pattern c. apply (prefix_char_is _ c Hc); pattern d; apply (prefix_char_is _ d Hr); vm_compute; congruence.
  - assert (A : forallb (fun p => existsb (String.eqb (lower p)) ["r"; "b"; "u"; "f"; "br"; "rb"; "fr"; "rf"]) string_prefixes = true) by reflexivity.
    rewrite forallb_forall in A. intros H. apply in_strings. now apply A.
Qed.
Lemma prefixes_are_names p : string_prefix p -> exists c r, p = String c r /\ is_letter c = true /\ all_chars name_char p = true.
Proof.
  intros H. apply string_prefix_iff in H. assert (A : forallb (fun p => match p with String c _ => is_letter c && all_chars name_char p | _ => false end) string_prefixes = true) by reflexivity.
  rewrite forallb_forall in A. specialize (A p H). destruct p as [|c r]; [discriminate|]. apply andb_true_iff in A. exists c, r. tauto.
Qed.
Lemma quote_other q : is_quote q = true -> is_letter q = false /\ is_digit q = false /\ name_char q = false /\ is_blank q = false /\ Ascii.eqb q "." = false /\ Ascii.eqb q "#" = false.
Proof. unfold is_quote. rewrite orb_true_iff. intros [H|H]; apply Ascii.eqb_eq in H; subst q; repeat split; reflexivity. Qed.
Lemma letter_digit c : is_letter c = true -> is_digit c = false.
Proof. destruct c as [[] [] [] [] [] [] [] []]; vm_compute; congruence. Qed.
Lemma quote_letter s : first_is is_quote s = true -> first_is is_letter s = false /\ starts_number s = false.
Proof.
  destruct s as [|q r]; [discriminate|]. cbn [first_is]. intros H. destruct (quote_other q H) as (A & B & _ & _ & D & _). split; [exact A|]. unfold starts_number. cbn [first_is prefix]. rewrite B.
  destruct (ascii_dec "." q) as [<-|]; [discriminate|reflexivity].
Qed.
Lemma number_not_letter s : starts_number s = true -> first_is is_letter s = false.
Proof.
  unfold starts_number. rewrite orb_true_iff, andb_true_iff. destruct s as [|c r]; [intros [H|[H _]]; discriminate|]. intros [H|[H _]].
  - cbn [first_is] in H |- *. destruct (is_letter c) eqn:E; [|reflexivity]. apply letter_digit in E. congruence.
  - cbn [prefix] in H. destruct (ascii_dec "." c) as [<-|]; [reflexivity|discriminate H].
Qed.

Lemma next_token_back t rest : simple_token t -> stops t rest -> next_token (snd t ++ rest) = LToken (fst t) (snd t) rest.
Proof.
  intros Ht Hs. destruct t as [ty w]. unfold stops in Hs. cbn [fst snd] in *. destruct ty; cbn [simple_token] in Ht; try tauto.
  - destruct w as [|c r]; [tauto|]. destruct Ht as [Hc Hall], Hs as [Hs Hq]. unfold next_token. rewrite first_is_app. cbn [first_is]. rewrite Hc. rewrite span_app; [|cbn; unfold name_char at 1; now rewrite Hc|exact Hs].
    rewrite Hq, andb_false_r. reflexivity.
  - unfold number_text in Ht. rewrite number_start_eq, hex_start_eq in Ht. apply andb_true_iff in Ht. destruct Ht as [H1 H2], Hs as [Hs He]. unfold next_token.
    assert (Hw : w <> "") by (intros ->; discriminate). assert (S1 := starts_number_app w rest H1). rewrite (number_not_letter _ S1), S1. rewrite hexadecimal_app by assumption.
    rewrite read_number_app; auto. unfold exponent_open, ends_with_e in *. rewrite hex_start_eq in He. destruct w; [congruence|exact He].
  - destruct Ht as (p & q & body & Hp & Hq & Hb). rewrite string_prefix_iff in Hp.
    assert (E : exists x, w = (p ++ x)%string /\ first_is is_quote x = true /\ read_string p (x ++ rest) = LToken PSTRING w rest).
    { destruct (read_string_back p q body rest Hq) as [R1 R2]. destruct Hb as [[Hb ->]|[Hb ->]]; [exists (String q body)|exists (three q ++ body)%string]; (split; [reflexivity|]); (split; [exact Hq|auto]). }
    destruct E as (x & -> & Hx & R). rewrite append_assoc_s. assert (Fx : first_is is_quote (x ++ rest) = true) by (rewrite first_is_app; destruct x; [discriminate|exact Hx]).
    destruct (quote_letter _ Fx) as [L1 L2]. unfold next_token. destruct Hp as [->|Hp].
    + cbn [append] in *. rewrite L1, L2, Fx. exact R.
    + destruct (prefixes_are_names p (proj2 (string_prefix_iff p) Hp)) as (c & r & Ep & Hc & Hall). rewrite first_is_app, Ep. cbn [first_is]. rewrite Hc, <- Ep. rewrite span_app; [|exact Hall|].
      * assert (X : existsb (String.eqb p) string_prefixes = true) by (apply existsb_exists; exists p; split; [exact Hp|apply String.eqb_refl]). rewrite X, Fx. exact R.
      * destruct (x ++ rest)%string as [|d y]; [reflexivity|]. cbn in Fx |- *. now rewrite (proj1 (proj2 (proj2 (quote_other d Fx)))).
  - destruct Hs as [Ho Hd]. destruct (operator_chars w Ht) as [Hw Hc]. destruct w as [|c r]; [congruence|]. cbn in Hc. apply andb_true_iff in Hc. destruct Hc as [Hc Hr].
    unfold op_char, name_char in Hc. rewrite !andb_true_iff, !negb_true_iff, orb_false_iff in Hc. destruct Hc as [[[C1 C2] C3] _].
    unfold next_token. rewrite first_is_app. cbn [first_is]. rewrite C1. rewrite first_is_app. cbn [first_is]. rewrite C3.
    assert (N : starts_number (String c r ++ rest) = false).
    { unfold starts_number. cbn [append first_is prefix drop]. rewrite C2. cbn [orb]. destruct (ascii_dec "." c) as [<-|]; [|reflexivity].
      destruct r as [|d r]; [cbn [append]; rewrite (Hd eq_refl); apply andb_false_r|]. cbn [append first_is]. cbn in Hr. apply andb_true_iff in Hr. destruct Hr as [Hr _]. unfold op_char, name_char in Hr.
      rewrite !andb_true_iff, !negb_true_iff, orb_false_iff in Hr. destruct Hr as [[[_ ->] _] _]. apply andb_false_r. }
    rewrite N, Ho, drop_app. reflexivity.
Qed.
Lemma span_spec f s : let (a, b) := span f s in s = (a ++ b)%string /\ all_chars f a = true /\ stop f b = true.
Proof.
  induction s as [|c s IH]; cbn; [auto|]. destruct (f c) eqn:E; [|cbn; now rewrite E].
  destruct (span f s) as [a b]. destruct IH as [-> [A B]]. cbn. now rewrite E, A.
Qed.
Lemma next_token_spec s ty w rest : next_token s = LToken ty w rest -> s = (w ++ rest)%string /\ simple_token (ty, w).
Proof.
  unfold next_token. destruct (first_is is_letter s) eqn:El.
  - pose proof (span_spec name_char s) as S. destruct (span name_char s) as [a b]. destruct S as [S1 [S2 S3]].
    destruct (existsb (String.eqb a) string_prefixes && first_is is_quote b) eqn:E.
    + apply andb_true_iff in E. destruct E as [E1 E2]. intros H. destruct (read_string_spec a b ty w rest H E2) as (-> & w' & -> & -> & q & body & Hq & Hb).
      split; [now rewrite S1, append_assoc_s|]. exists a, q, body. split; [right; apply string_prefix_iff; apply existsb_exists in E1; destruct E1 as (x & Hx & Ex); apply String.eqb_eq in Ex; now subst x|].
      split; [exact Hq|]. destruct Hb as [[Hb ->]|[Hb ->]]; auto.
    + intros [= <- <- <-]. split; [exact S1|]. destruct a as [|c a].
      * exfalso. cbn in S1. subst b. destruct s as [|c s]; [discriminate|]. cbn in El, S3. unfold name_char in S3. rewrite El in S3. discriminate.
      * rewrite S1 in El. cbn in El, S2. apply andb_true_iff in S2. split; [exact El|apply S2].
  - destruct (starts_number s) eqn:En.
    + destruct (read_number (negb (hexadecimal s)) false s) as [a b] eqn:E. intros [= <- <- <-]. destruct (read_number_spec _ _ _ _ _ E) as [E1 [E2 E3]]. split; [exact E1|].
      cbn [simple_token]. unfold number_text. rewrite number_start_eq, hex_start_eq. rewrite E1 in En. assert (Sa := starts_number_read a b En E3). rewrite Sa. rewrite E1, hexadecimal_app in E2; [exact E2| |exact E3]. intros ->. discriminate.
    + destruct (first_is is_quote s) eqn:Eq.
      * intros H. destruct (read_string_spec "" s ty w rest H Eq) as (-> & w' & -> & -> & q & body & Hq & Hb). split; [reflexivity|]. exists "", q, body. split; [now left|]. split; [exact Hq|].
        destruct Hb as [[Hb ->]|[Hb ->]]; auto.
      * destruct (operator_of s) as [o|] eqn:Eo; [|discriminate]. intros [= <- <- <-]. unfold operator_of in Eo. apply find_some in Eo. destruct Eo as [Ho Hp]. split; [|exact Ho].
        apply prefix_iff in Hp. destruct Hp as [x ->]. now rewrite drop_app.
Qed.

(** The first character of a token. *)
Lemma simple_first t : simple_token t -> exists c r, snd t = String c r /\ is_blank c = false /\ Ascii.eqb c "#" = false /\
  (is_word t = false -> op_char c = true) /\ (is_word t = true -> op_char c = false \/ (fst t = PNUMBER /\ c = "."%char)).
Proof.
  assert (B : forall c, name_char c = true \/ is_quote c = true -> is_blank c = false /\ Ascii.eqb c "#" = false /\ op_char c = false).
  { intros c H. assert (O : op_char c = false) by (unfold op_char; destruct H as [->| ->]; cbn; now rewrite ?andb_false_r). split; [|split; [|exact O]].
    - destruct (is_blank c) eqn:E; [|reflexivity]. unfold op_char in O. cbn [is_blank existsb] in E. rewrite !orb_true_iff in E. destruct E as [E|[E|[E|E]]]; try discriminate; apply Ascii.eqb_eq in E; subst c; cbv in H; destruct H; discriminate.
    - destruct (Ascii.eqb_spec c "#") as [->|]; [|reflexivity]. cbv in H. destruct H; discriminate. }
  destruct t as [[] s]; cbn [simple_token]; try tauto.
  - destruct s as [|c r]; [tauto|]. intros [H _]. exists c, r. destruct (B c) as (B1 & B2 & B3); [left; unfold name_char; now rewrite H|]. repeat split; auto; discriminate.
  - unfold number_text. rewrite number_start_eq. unfold starts_number. rewrite andb_true_iff, orb_true_iff, andb_true_iff. destruct s as [|c r]; [intros [[H|[H _]] _]; discriminate|]. intros [[H|[H _]] _]; exists c, r.
    + cbn in H. destruct (B c) as (B1 & B2 & B3); [left; unfold name_char; now rewrite H, orb_true_r|]. repeat split; auto; discriminate.
    + cbn [prefix] in H. destruct (ascii_dec "." c) as [<-|]; [|discriminate]. repeat split; auto; discriminate.
  - intros (p & q & body & Hp & Hq & Hb). assert (E : exists x, s = (p ++ String q x)%string) by (destruct Hb as [[_ ->]|[_ ->]]; eexists; reflexivity). destruct E as [x ->]. destruct Hp as [->|Hp].
    + cbn [append]. exists q, x. destruct (B q) as (B1 & B2 & B3); [now right|]. repeat split; auto; discriminate.
    + destruct (prefixes_are_names p Hp) as (c & r & -> & Hc & _). exists c, (r ++ String q x)%string. destruct (B c) as (B1 & B2 & B3); [left; unfold name_char; now rewrite Hc|]. repeat split; auto; discriminate.
  - intros H. destruct (operator_chars s H) as [H1 H2]. destruct s as [|c r]; [congruence|]. exists c, r. cbn in H2. apply andb_true_iff in H2. destruct H2 as [H2 _].
    split; [reflexivity|]. split; [unfold op_char in H2; apply andb_true_iff in H2; destruct H2 as [_ H2]; now apply negb_true_iff in H2|].
    split; [|split; [auto|discriminate]]. destruct (Ascii.eqb_spec c "#") as [->|]; [|reflexivity]. exfalso.
    assert (K : forallb (fun o => match o with String "#" _ => false | _ => true end) operators = true) by reflexivity. rewrite forallb_forall in K. specialize (K _ H). discriminate.
Qed.
Lemma simple_nonempty t : simple_token t -> 0 < String.length (snd t).
Proof. intros H. destruct (simple_first t H) as (c & r & -> & _). cbn. lia. Qed.

(** Tokens that may touch. *)
Lemma dot_separable : forallb (fun t => String.eqb t "." || separable t ".") operators = true.
Proof. vm_compute. reflexivity. Qed.
Lemma op_char_not c : op_char c = true -> name_char c = false /\ is_quote c = false /\ is_digit c = false.
Proof.
  unfold op_char, name_char. rewrite !andb_true_iff, !negb_true_iff, orb_false_iff. intros [[[-> ->] ->] _]. auto.
Qed.
Lemma touch_stops t u rest : simple_token t -> simple_token u -> is_word t && is_word u = false -> fits t u = true -> stops t (snd u ++ rest).
Proof.
  intros Ht Hu Hm Hf. destruct (simple_first u Hu) as (c & r & Hc & Hb & _ & Ho & Hw). rewrite Hc. cbn [append].
  destruct (is_word u) eqn:Eu.
  - rewrite andb_true_r in Hm. destruct t as [[] s]; cbn in Ht; try tauto; try discriminate. unfold stops. cbn [fst snd]. destruct (Hw eq_refl) as [Hw'|[Hw1 Hw2]].
    + split; [apply operator_stop; [exact Ht|]; cbn; now rewrite Hw'|]. intros ->. cbn [first_is]. destruct u as [[] us]; cbn in Eu; try discriminate; cbn [fst snd] in *; subst us.
      * cbn in Hu. now apply letter_digit.
      * destruct (is_digit c) eqn:E; [|reflexivity]. exfalso. cbn in Hu. destruct Hu as (p & q & body & Hp & Hq & Hs).
        assert (E2 : exists x, String c r = (p ++ String q x)%string) by (destruct Hs as [[_ ->]|[_ ->]]; eexists; reflexivity). destruct E2 as [x Ex]. destruct Hp as [->|Hp].
        -- cbn in Ex. injection Ex as -> _. destruct (quote_other q Hq) as (_ & D & _). congruence.
        -- destruct (prefixes_are_names p Hp) as (d & y & -> & Hd & _). cbn in Ex. injection Ex as -> _. apply letter_digit in Hd. congruence.
    + destruct u as [uty us]. cbn [fst snd] in *. subst uty c us. unfold fits in Hf. cbn [fst snd] in Hf. apply negb_true_iff, String.eqb_neq in Hf.
      split; [|congruence]. pose proof dot_separable as D. rewrite forallb_forall in D. specialize (D s Ht). apply orb_true_iff in D. destruct D as [D|D]; [apply String.eqb_eq in D; congruence|].
      exact (operator_separable s "." (r ++ rest) Ht D).
  - specialize (Ho eq_refl). destruct (op_char_not c Ho) as (N1 & N2 & N3). destruct u as [uty us]. cbn [snd] in Hc. subst us. destruct uty; try discriminate; try (cbn in Hu; tauto).
    destruct t as [[] s]; cbn in Ht; try tauto; unfold stops; cbn [fst snd].
    + cbn. now rewrite N1.
    + unfold fits in Hf. cbn [fst snd] in Hf. apply andb_true_iff in Hf. destruct Hf as [F1 F2]. apply negb_true_iff in F1, F2. split; [|exact F2].
      cbn. unfold number_char. rewrite N1. cbn. destruct (Ascii.eqb_spec c "."); [subst c; destruct r; discriminate|reflexivity].
    + split; [|intros _; exact N3]. unfold fits in Hf. cbn [fst snd] in Hf. exact (operator_separable s (String c r) rest Ht Hf).
Qed.
Lemma blank_stops t rest : simple_token t -> match rest with EmptyString => True | String c _ => is_blank c = true end -> stops t rest.
Proof.
  intros Ht Hb. assert (E : forall f, f " "%char = false -> f "009"%char = false -> f "012"%char = false -> stop f rest = true /\ first_is f rest = false).
  { intros f F1 F2 F3. destruct rest as [|c r]; [auto|]. cbn [is_blank existsb] in Hb. rewrite !orb_true_iff in Hb. cbn.
    destruct Hb as [Hb|[Hb|[Hb|Hb]]]; try discriminate; apply Ascii.eqb_eq in Hb; subst c; [rewrite F1|rewrite F2|rewrite F3]; auto. }
  destruct t as [[] s]; cbn in Ht; try tauto; unfold stops; cbn [fst snd].
  - split; now apply E.
  - split; [now apply E|]. rewrite (proj2 (E is_sign eq_refl eq_refl eq_refl)). apply andb_false_r.
  - now apply E.
  - split; [|intros _; now apply E]. apply operator_stop; [exact Ht|]. exact (proj1 (E op_char eq_refl eq_refl eq_refl)).
Qed.

(** * Reading back *)
(** Words next to words are separated. *)
Fixpoint good_seps (seps : list bool) (l : list (pytype * string)) : Prop :=
  match seps, l with
  | _ :: ((b :: _) as r), t :: ((u :: _) as l') => (is_word t = true -> is_word u = true -> b = true) /\ good_seps r l'
  | _, _ => True
  end.
Definition texts (seps : list bool) (l : list (pytype * string)) : string := spaced (List.combine seps (map snd l)).

Lemma lex_token t : simple_token t -> forall n rest, stops t rest -> py_lex_from (S n) (snd t ++ rest) = let* l := py_lex_from n rest in Ok (t :: l).
Proof.
  intros Ht n rest Hr. pose proof (next_token_back t rest Ht Hr) as N. destruct (simple_first t Ht) as (c & r & Hs & Hb & _). rewrite Hs in N |- *. cbn [append py_lex_from] in *. rewrite Hb, N. destruct t. cbn [fst snd] in *. now subst.
Qed.
Lemma lex_nil n : py_lex_from n "" = Ok [].
Proof. destruct n; reflexivity. Qed.

Lemma lex_back l : forall seps n, Forall simple_token l -> neighbours_fit l = true -> good_seps seps l -> List.length seps = List.length l ->
  String.length (texts seps l) <= n -> py_lex_from n (texts seps l) = Ok l.
Proof.
  induction l as [|t l IH]; intros seps n Hs Hf Hg Hl Hn.
  { destruct seps; [|discriminate]. apply lex_nil. }
  destruct seps as [|b seps]; [discriminate|]. injection Hl as Hl. inversion Hs as [|? ? Ht Hs']; subst.
  assert (Hf' : neighbours_fit l = true) by (destruct l; [reflexivity|]; cbn in Hf; apply andb_true_iff in Hf; apply Hf).
  assert (Hg' : good_seps seps l) by (destruct seps, l; try exact I; try discriminate; apply Hg).
  assert (Hstop : stops t (texts seps l)).
  { destruct l as [|u l].
    - destruct seps; [|discriminate]. now apply blank_stops.
    - destruct seps as [|b' seps]; [discriminate|]. inversion Hs' as [|? ? Hu Hs'']; subst. cbn in Hf. apply andb_true_iff in Hf. destruct Hf as [Hf _]. destruct Hg as [Hg _].
      unfold texts. cbn [map List.combine spaced]. fold (texts seps l). destruct b'.
      + now apply blank_stops.
      + apply touch_stops; auto. destruct (is_word t), (is_word u); try reflexivity. specialize (Hg eq_refl eq_refl). discriminate. }
  unfold texts in Hn |- *. cbn [map List.combine spaced] in Hn |- *. fold (texts seps l) in Hn |- *.
  pose proof (simple_nonempty t Ht) as Hlen.
  destruct b.
  - cbn [append String.length] in Hn. rewrite app_length_s in Hn. destruct n as [|n]; [lia|]. cbn [append py_lex_from].
    change (is_blank " ") with true. cbv iota. destruct n as [|n]; [lia|]. rewrite lex_token by assumption. rewrite IH; auto. lia.
  - cbn [append] in *. rewrite app_length_s in Hn. destruct n as [|n]; [lia|]. rewrite lex_token by assumption. rewrite IH; auto. lia.
Qed.

Lemma simple_has_text l : Forall simple_token l -> filter has_text l = l.
Proof. induction 1 as [|[ty s] l H Hl IH]; [reflexivity|]. cbn. destruct ty; cbn in H |- *; try tauto; now rewrite IH. Qed.
Lemma good_from_nth l : forall seps, List.length seps = List.length l ->
  (forall i t u, nth_error l i = Some t -> nth_error l (S i) = Some u -> word t -> word u -> nth (S i) seps false = true) -> good_seps seps l.
Proof.
  induction l as [|t l IH]; intros [|b seps] Hl H; try discriminate; try exact I. destruct seps as [|b' seps], l as [|u l]; try discriminate; try exact I. split.
  - intros Wt Wu. assert (W : forall x, is_word x = true -> word x) by (intros [[] s]; cbn; unfold word; cbn; intros; auto; discriminate).
    exact (H 0 t u eq_refl eq_refl (W t Wt) (W u Wu)).
  - apply (IH (b' :: seps)); [cbn in *; lia|]. intros i x y Hx Hy Wx Wy. exact (H (S i) x y Hx Hy Wx Wy).
Qed.
Lemma py_lex_back toks text : plain toks -> pretty_untokenize toks = Ok text -> py_lex text = Ok toks.
Proof.
  intros [Hs Hf] H. destruct (pretty_ok_lemma toks text H) as [_ [seps [Hl [-> [_ Hw]]]]].
  rewrite (simple_has_text toks Hs) in *. unfold py_lex. apply lex_back; auto. apply good_from_nth; auto.
Qed.

(** * The operators *)
Lemma find_longest_all (l : list string) s : StronglySorted (fun a b => String.length b <= String.length a) l ->
  match find (fun o => prefix o s) l with
  | Some o => In o l /\ prefix o s = true /\ forall o', In o' l -> prefix o' s = true -> String.length o' <= String.length o
  | None => forall o', In o' l -> prefix o' s = false
  end.
Proof.
  induction 1 as [|a l Hl IH Ha]; cbn [find]; [intros o []|]. destruct (prefix a s) eqn:E.
  - split; [now left|]. split; [exact E|]. intros o' [<-|Ho] _; [lia|]. rewrite Forall_forall in Ha. auto.
  - destruct (find (fun o => prefix o s) l) as [o|].
    + destruct IH as [A [B C]]. split; [now right|]. split; [exact B|]. intros o' [<-|Ho] Hp; [congruence|auto].
    + intros o' [<-|Ho]; auto.
Qed.
Fixpoint falling (l : list string) : bool :=
  match l with [] => true | a :: r => forallb (fun b => Nat.leb (String.length b) (String.length a)) r && falling r end.
Lemma falling_sorted l : falling l = true -> StronglySorted (fun a b => String.length b <= String.length a) l.
Proof.
  induction l as [|a l IH]; intros H; [constructor|]. cbn in H. apply andb_true_iff in H. destruct H as [H1 H2]. constructor; [auto|]. apply Forall_forall. intros b Hb. rewrite forallb_forall in H1. apply Nat.leb_le. auto.
Qed.
Lemma same_operators o : In o operators <-> In o python_operators.
Proof.
  assert (A : forallb (fun o => existsb (String.eqb o) python_operators) operators = true) by reflexivity.
  assert (B : forallb (fun o => existsb (String.eqb o) operators) python_operators = true) by reflexivity.
  rewrite forallb_forall in A, B. split; intros H; [specialize (A o H); apply existsb_exists in A; destruct A as (x & Hx & E)|specialize (B o H); apply existsb_exists in B; destruct B as (x & Hx & E)]; apply String.eqb_eq in E; now subst x.
Qed.
Lemma operator_longest_lemma s : longest_operator s (operator_of s).
Proof.
  pose proof (find_longest_all operators s (falling_sorted operators eq_refl)) as H. unfold operator_of. destruct (find (fun o => prefix o s) operators) as [o|]; cbn.
  - destruct H as [A [B C]]. split; [now apply same_operators|]. split; [exact B|]. intros o' Ho. apply C. now apply same_operators.
  - intros o' Ho. apply H. now apply same_operators.
Qed.

(** * The classes of characters *)
Lemma classes_eq (f : ascii -> bool) (l : list ascii) : (forall c, f c = existsb (Ascii.eqb c) l) -> forall c, f c = true <-> In c l.
Proof.
  intros H c. rewrite H, existsb_exists. split; [intros [x [Hx E]]; apply Ascii.eqb_eq in E; now subst|intros Hc; exists c; split; [exact Hc|apply Ascii.eqb_refl]].
Qed.
Lemma character_classes_lemma c :
  (is_letter c = true <-> one_of (lower_letters ++ upper_letters ++ "_") c) /\ (is_digit c = true <-> one_of digits c) /\
  (name_char c = true <-> one_of (lower_letters ++ upper_letters ++ "_" ++ digits) c) /\
  (number_char c = true <-> one_of (lower_letters ++ upper_letters ++ "_" ++ digits ++ ".") c) /\
  (is_e c = true <-> one_of "eE" c) /\ (is_sign c = true <-> one_of "+-" c) /\
  (is_quote c = true <-> one_of "'""" c) /\ (is_backslash c = true <-> one_of "\" c) /\
  (is_blank c = true <-> In c [" "; "009"; "012"]%char).
Proof.
  repeat (split; [apply classes_eq; intros [[] [] [] [] [] [] [] []]; vm_compute; reflexivity|]).
  apply classes_eq; intros [[] [] [] [] [] [] [] []]; vm_compute; reflexivity.
Qed.
