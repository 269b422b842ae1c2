From Verif Require Import Base TokensModel TokensSpec TokensProofs SpacingSpec DescProofs.
Open Scope string_scope.
Open Scope list_scope.

Record follows (pre : list ptoken) (st : pu_state) : Prop := {
  fo_delim : prev_was_space_delim st = previous_is is_word pre;
  fo_wants : prev_wants_space st = match rev pre with [] => false | x :: r => wants_after (rev r) x end;
  fo_open : prev_was_open_paren_or_comma st = previous_is (one_of_texts ["("; ","]) pre;
  fo_object : prev_was_object_like st = previous_is (fun x => is_word x || one_of_texts [")"] x) pre;
  fo_brackets : brackets st = open_after [] pre }.

Lemma open_after_app l1 l2 st : open_after st (l1 ++ l2) = open_after (open_after st l1) l2.
Proof. revert st. induction l1 as [|t l1 IH]; intros st; cbn; [reflexivity|apply IH]. Qed.
Lemma previous_snoc f pre t : previous_is f (pre ++ [t]) = f t.
Proof. unfold previous_is, previous. now rewrite rev_app_distr. Qed.
Lemma str_in_one l t : str_in (snd t) l = one_of_texts l t.
Proof. reflexivity. Qed.

Lemma step_ok pre st ty tok out st' : follows pre st -> has_text (ty, tok) = true -> pu_step st ty tok = Ok (out, st') ->
  follows (pre ++ [(ty, tok)]) st' /\ String.concat "" out = spaced [(gap pre (ty, tok), tok)].
Proof.
  intros [F1 F2 F3 F4 F5] Ht H.
  assert (W : is_word (ty, tok) = is_word_type ty) by (destruct ty; reflexivity).
  assert (K : forall b : bool, String.concat "" (if b then [" "; tok] else [tok]) = spaced [(b, tok)]) by (intros []; cbn; rewrite ?append_nil_r; reflexivity).
  destruct (is_word_type ty) eqn:Ew.
  - assert (E : (out, st') = ((if prev_wants_space st || prev_was_space_delim st then [" "; tok] else [tok]),
      mkPU true false (str_in tok ["("; ","]) true (brackets st))) by (destruct ty; try discriminate; cbn [pu_step] in H; injection H as <- <-; reflexivity).
    injection E as -> ->. split.
    + constructor; cbn [prev_was_space_delim prev_wants_space prev_was_open_paren_or_comma prev_was_object_like brackets]; rewrite ?previous_snoc, ?rev_app_distr; cbn [rev app].
      * now rewrite W.
      * rewrite rev_involutive. unfold wants_after. now rewrite W.
      * reflexivity.
      * now rewrite W.
      * rewrite open_after_app. cbn [open_after]. now rewrite W, F5.
    + rewrite K. f_equal. f_equal. f_equal. unfold gap, wants_before. rewrite W. cbn [negb andb orb]. rewrite F2, F1. unfold previous_is, previous.
      destruct (rev pre) as [|x r]; [reflexivity|]. now rewrite andb_true_r.
  - destruct ty; try discriminate. cbn [pu_step] in H.
    match type of H with Ok (?a, ?b) = _ => assert (E1 : out = a) by congruence; assert (E2 : st' = b) by congruence end. clear H. subst out st'.
    set (br := if opens tok then tok :: brackets st else if closes tok then tl (brackets st) else brackets st).
    assert (Ebr : br = open_after [] (pre ++ [(POTHER, tok)])).
    { rewrite open_after_app. cbn [open_after]. rewrite W, <- F5. reflexivity. }
    assert (Bsame : (tok = ":" \/ tok = "=") -> br = open_after [] pre) by (unfold br; rewrite F5; intros [-> | ->]; reflexivity).
    assert (Sl : (String.eqb tok ":" && match br with b :: _ => String.eqb b "[" | [] => false end) = slice pre (POTHER, tok)).
    { unfold slice, one_of_texts, inside_index. cbn [snd existsb]. rewrite orb_false_r. destruct (String.eqb_spec tok ":") as [E|E]; [|reflexivity]. now rewrite Bsame by auto. }
    assert (As : (String.eqb tok "=" && match br with [] => true | _ => false end) = assignment pre (POTHER, tok)).
    { unfold assignment, one_of_texts, inside_brackets. cbn [snd existsb]. rewrite orb_false_r. destruct (String.eqb_spec tok "=") as [E|E]; [|reflexivity]. rewrite Bsame by auto. now destruct (open_after [] pre). }
    assert (St : (str_in tok ["*"; "**"] && prev_was_open_paren_or_comma st) = star pre (POTHER, tok)) by (rewrite F3; reflexivity).
    assert (Un : (str_in tok ["+"; "-"] && negb (prev_was_object_like st)) = sign pre (POTHER, tok)) by (rewrite F4; reflexivity).
    fold br. rewrite Sl, As, St, Un.
    assert (Bf : (if sign pre (POTHER, tok) then false else if assignment pre (POTHER, tok) then true else if star pre (POTHER, tok) then false else str_in tok python_space_before) = wants_before pre (POTHER, tok)).
    { unfold wants_before. rewrite W. change (str_in tok python_space_before) with (one_of_texts (between ++ ["!"; "~"]) (POTHER, tok)).
      destruct (sign _ _), (assignment _ _), (star _ _), (one_of_texts (between ++ ["!"; "~"]) _); reflexivity. }
    assert (Af : (if sign pre (POTHER, tok) then false else if assignment pre (POTHER, tok) then true else if star pre (POTHER, tok) then false else
                  if slice pre (POTHER, tok) then false else str_in tok python_space_after) = wants_after pre (POTHER, tok)).
    { unfold wants_after. rewrite W. change (str_in tok python_space_after) with (one_of_texts (between ++ [","; ":"]) (POTHER, tok)).
      destruct (sign _ _), (assignment _ _), (star _ _), (slice _ _), (one_of_texts (between ++ [","; ":"]) _); reflexivity. }
    rewrite Bf, Af. split.
    + constructor; cbn [prev_was_space_delim prev_wants_space prev_was_open_paren_or_comma prev_was_object_like brackets]; rewrite ?previous_snoc, ?rev_app_distr; cbn [rev app].
      * now rewrite W.
      * now rewrite rev_involutive.
      * reflexivity.
      * rewrite W. unfold one_of_texts. cbn. now rewrite orb_false_r.
      * exact Ebr.
    + rewrite K. f_equal. f_equal. f_equal. unfold gap. rewrite F2, orb_comm. f_equal. destruct (rev pre) as [|x r]; [reflexivity|]. rewrite W, andb_false_r, orb_false_r. reflexivity.
Qed.

Fixpoint gaps (pre l : list ptoken) : list bool := match l with [] => [] | t :: r => gap pre t :: gaps (pre ++ [t]) r end.
Lemma concat_app_empty a b : String.concat "" (a ++ b) = (String.concat "" a ++ String.concat "" b)%string.
Proof.
  induction a as [|x a IH]; [reflexivity|]. destruct a as [|y a].
  - cbn. destruct b; [now rewrite append_nil_r|reflexivity].
  - change (String.concat "" ((x :: y :: a) ++ b)) with (x ++ "" ++ String.concat "" ((y :: a) ++ b))%string. rewrite IH.
    change (String.concat "" (x :: y :: a)) with (x ++ "" ++ String.concat "" (y :: a))%string. cbn [append]. now rewrite append_assoc_s.
Qed.
Lemma loop_gaps toks : forall pre st pieces, follows pre st -> pu_loop st toks = Ok pieces ->
  String.concat "" pieces = spaced (List.combine (gaps pre (filter has_text toks)) (map snd (filter has_text toks))).
Proof.
  induction toks as [|[ty tok] toks IH]; intros pre st pieces F H; cbn [pu_loop] in H.
  - injection H as <-. reflexivity.
  - apply bind_ok in H. destruct H as [[out st'] [E H]]. apply bind_ok in H. destruct H as [rest [E2 H]]. injection H as <-. rewrite concat_app_empty. cbn [filter].
    destruct (has_text (ty, tok)) eqn:Ht.
    + destruct (step_ok _ _ _ _ _ _ F Ht E) as [F' ->]. rewrite (IH _ _ _ F' E2). cbn. now rewrite !append_assoc_s.
    + assert (out = [] /\ st' = st) as [-> ->]. { unfold has_text in Ht. destruct ty; try discriminate; cbn in E; injection E as <- <-; auto. }
      cbn. exact (IH _ _ _ F E2).
Qed.
Lemma gaps_nth pre l : forall p t q, l = p ++ t :: q -> nth_error (gaps pre l) (length p) = Some (gap (pre ++ p) t).
Proof.
  revert pre. induction l as [|x l IH]; intros pre p t q E; [destruct p; discriminate|]. destruct p as [|y p]; cbn in E; injection E as -> E; cbn.
  - now rewrite app_nil_r.
  - rewrite (IH _ p t q E). now rewrite <- app_assoc.
Qed.
Lemma gaps_len pre l : length (gaps pre l) = length l.
Proof. revert pre. induction l as [|x l IH]; intros pre; cbn; [reflexivity|now rewrite IH]. Qed.
Lemma spacing_rule_lemma toks s : pretty_untokenize toks = Ok s ->
  exists seps, length seps = length (filter has_text toks) /\ s = spaced (List.combine seps (map snd (filter has_text toks))) /\
    forall pre t post, filter has_text toks = pre ++ t :: post -> nth_error seps (length pre) = Some (gap pre t).
Proof.
  unfold pretty_untokenize. intros H. apply bind_ok in H. destruct H as [pieces [E H]]. injection H as <-.
  exists (gaps [] (filter has_text toks)). split; [apply gaps_len|]. split.
  - apply (loop_gaps toks [] pu_init); [constructor; reflexivity|exact E].
  - intros pre t post Ef. exact (gaps_nth [] _ _ _ _ Ef).
Qed.
