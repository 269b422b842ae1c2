From Verif Require Import Base TokensModel TokensSpec.

Lemma append_assoc_s (a b c : string) : String.append (String.append a b) c = String.append a (String.append b c).
Proof. induction a as [|x a IH]; cbn; [reflexivity|now rewrite IH]. Qed.
Lemma append_nil_r (a : string) : String.append a EmptyString = a.
Proof. induction a as [|x a IH]; cbn; [reflexivity|now rewrite IH]. Qed.

Lemma concat_cons s l : String.concat "" (s :: l) = String.append s (String.concat "" l).
Proof.
  destruct l; cbn; [now rewrite append_nil_r|reflexivity].
Qed.
Lemma concat_app_s l1 l2 : String.concat "" (l1 ++ l2) = String.append (String.concat "" l1) (String.concat "" l2).
Proof.
  induction l1 as [|s l1 IH]; [reflexivity|].
  cbn [app]. rewrite !concat_cons, IH, append_assoc_s. reflexivity.
Qed.

(* one step *)
Lemma pu_step_cases st ty tok :
  (layout (ty, tok) /\ pu_step st ty tok = Err AssertionError) \/
  (~ layout (ty, tok) /\ has_text (ty, tok) = false /\ pu_step st ty tok = Ok ([], st)) \/
  (~ layout (ty, tok) /\ has_text (ty, tok) = true /\ exists (b : bool) st',
     pu_step st ty tok = Ok (if b then [" "; tok]%string else [tok], st') /\
     (word (ty, tok) -> prev_was_space_delim st = true -> b = true) /\
     (word (ty, tok) -> prev_was_space_delim st' = true) /\
     (word (ty, tok) -> prev_was_space_delim st = false -> prev_wants_space st = false -> b = false)).
Proof.
  unfold layout, has_text, word; cbn [fst].
  destruct ty; cbn [pu_step].
  all: try (left; split; [tauto|reflexivity]).
  all: try (right; left; split; [intuition congruence|]; split; reflexivity).
  all: right; right; split; [intuition congruence|]; split; [reflexivity|];
    match goal with |- context [if ?b then [_; ?tk] else [?tk]] => exists b end;
    eexists; (split; [reflexivity|]); cbn [prev_was_space_delim];
    repeat split; intros;
    repeat match goal with H : _ = _ |- _ => rewrite H end; rewrite ?orb_true_r;
    intuition congruence.
Qed.

Lemma pu_loop_ok toks : forall st,
  (exists t, In t toks /\ layout t) /\ pu_loop st toks = Err AssertionError \/
  (forall t, In t toks -> ~ layout t) /\
  exists out seps, pu_loop st toks = Ok out /\
    length seps = length (filter has_text toks) /\
    String.concat "" out = spaced (List.combine seps (map snd (filter has_text toks))) /\
    (forall t l, filter has_text toks = t :: l -> word t ->
        (prev_was_space_delim st = true -> nth 0 seps false = true) /\
        (prev_was_space_delim st = false -> prev_wants_space st = false -> nth 0 seps false = false)) /\
    (forall i t u, nth_error (filter has_text toks) i = Some t ->
        nth_error (filter has_text toks) (S i) = Some u -> word t -> word u ->
        nth (S i) seps false = true).
Proof.
  induction toks as [|[ty tok] toks IH]; intros st.
  { right. split; [intros t []|]. exists [], []. cbn.
    repeat split; discriminate. }
  destruct (pu_step_cases st ty tok) as [[Hl E]|[[Hl [Ht E]]|[Hl [Ht [b [st' [E [H1 [H2 H3]]]]]]]]].
  - left. split; [exists (ty, tok); split; [now left|assumption]|]. cbn. now rewrite E.
  - destruct (IH st) as [[[t [Hi Hlt]] E2]|[Hn [out [seps [E2 [Hlen [Hc [Hh Ha]]]]]]]].
    + left. split; [exists t; split; [now right|assumption]|]. cbn. rewrite E; cbn. now rewrite E2.
    + right. split; [intros t [<-|Hi]; auto|]. exists out, seps. cbn [pu_loop filter].
      rewrite Ht, E; cbn. rewrite E2; cbn. auto.
  - destruct (IH st') as [[[t [Hi Hlt]] E2]|[Hn [out [seps [E2 [Hlen [Hc [Hh Ha]]]]]]]].
    + left. split; [exists t; split; [now right|assumption]|]. cbn. rewrite E; cbn. now rewrite E2.
    + right. split; [intros t [<-|Hi]; auto|].
      exists ((if b then [" "; tok]%string else [tok]) ++ out), (b :: seps). cbn [pu_loop filter].
      rewrite Ht, E; cbn [bind]. rewrite E2; cbn [bind].
      split; [reflexivity|]. split; [cbn; now rewrite Hlen|].
      split. { rewrite concat_app_s, Hc. cbn [map List.combine snd spaced].
        destruct b; cbn; [f_equal|]; reflexivity. }
      split. { intros t l [= <- _] Hw; cbn. split; auto. }
      intros i t u Hi Hu Hwt Hwu. destruct i as [|i].
      * cbn in Hi, Hu. injection Hi as <-. cbn.
        destruct (filter has_text toks) as [|u' l'] eqn:Ef; [discriminate|]. cbn in Hu. injection Hu as ->.
        destruct (Hh u l' eq_refl Hwu) as [Hh1 _]. apply Hh1. auto.
      * cbn [nth_error] in Hi, Hu. cbn [nth]. eapply Ha; eauto.
Qed.

Lemma pretty_ok_lemma toks s : pretty_untokenize toks = Ok s ->
  (forall t, In t toks -> ~ layout t) /\
  exists seps, length seps = length (filter has_text toks) /\
    s = spaced (List.combine seps (map snd (filter has_text toks))) /\
    (forall t l, filter has_text toks = t :: l -> word t -> nth 0 seps true = false) /\
    (forall i t u, nth_error (filter has_text toks) i = Some t ->
        nth_error (filter has_text toks) (S i) = Some u -> word t -> word u ->
        nth (S i) seps false = true).
Proof.
  unfold pretty_untokenize.
  destruct (pu_loop_ok toks pu_init) as [[_ E]|[Hn [out [seps [E [Hlen [Hc [Hh Ha]]]]]]]];
    rewrite E; cbn; intros H; [discriminate|]. injection H as <-.
  split; [exact Hn|]. exists seps. repeat split; auto.
  intros t l Ef Hw. destruct (Hh t l Ef Hw) as [_ H].
  destruct seps as [|b seps]; [rewrite Ef in Hlen; discriminate|]. cbn in *. auto.
Qed.

Lemma pretty_err_lemma toks :
  (forall e, pretty_untokenize toks = Err e -> e = AssertionError) /\
  ((exists e, pretty_untokenize toks = Err e) <-> exists t, In t toks /\ layout t).
Proof.
  unfold pretty_untokenize.
  destruct (pu_loop_ok toks pu_init) as [[Hl E]|[Hn [out [seps [E _]]]]]; rewrite E; cbn.
  - split; [intros e [= <-]; reflexivity|]. split; [auto|eauto].
  - split; [discriminate|]. split; [intros [e [=]]|]. intros [t [Hi Hl]]. now apply Hn in Hi.
Qed.
