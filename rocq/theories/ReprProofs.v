From Coq Require Import ZArith Ascii QArith Lia.
From Verif Require Import Base UtilModel BuildModel BuildSpec MiscModel MiscSpec MiscProofs MiscProps ReprModel ReprSpec.
Open Scope string_scope.
Open Scope list_scope.
Open Scope nat_scope.

Lemma app_s_assoc a b c : ((a ++ b) ++ c = a ++ b ++ c)%string.
Proof. induction a as [|x a IH]; [reflexivity|]. cbn. now rewrite IH. Qed.
Lemma app_s_nil a : (a ++ "" = a)%string.
Proof. induction a as [|x a IH]; [reflexivity|]. cbn. now rewrite IH. Qed.
Lemma len_app a b : String.length (a ++ b) = String.length a + String.length b.
Proof. induction a as [|x a IH]; [reflexivity|]. cbn. now rewrite IH. Qed.
Lemma len_spaces n : String.length (spaces n) = n.
Proof. induction n as [|n IH]; [reflexivity|]. cbn. now rewrite IH. Qed.
Lemma spaces_blank n c : In c (list_ascii_of_string (spaces n)) -> c = " "%char.
Proof. induction n as [|n IH]; cbn; [tauto|]. intros [H|H]; auto. Qed.

Lemma Forall2_length {A B} (P : A -> B -> Prop) l m : Forall2 P l m -> List.length l = List.length m.
Proof. induction 1; cbn; congruence. Qed.
Lemma nth_error_Some_lt {A} (l : list A) i x : nth_error l i = Some x -> i < List.length l.
Proof. intros H. apply nth_error_Some. congruence. Qed.
Lemma nth_error_map_inv {A B} (f : A -> B) l i y : nth_error (map f l) i = Some y -> exists x, nth_error l i = Some x /\ f x = y.
Proof. revert i. induction l as [|a l IH]; intros [|i] H; try discriminate; cbn in *; [injection H as <-; eauto|auto]. Qed.
Lemma nth_error_seq a n i : i < n -> nth_error (seq a n) i = Some (a + i).
Proof. revert a i. induction n as [|n IH]; intros a [|i] H; try lia; cbn; [f_equal; lia|]. rewrite IH by lia. f_equal. lia. Qed.

(** * Printed text *)
Fixpoint cat (l : list pp_call) : string := match l with [] => "" | c :: r => (written c ++ cat r)%string end.
Lemma mini_from l s : fold_left (fun out c => out ++ written c)%string l s = (s ++ cat l)%string.
Proof.
  revert s. induction l as [|c l IH]; intros s; cbn [fold_left cat]; [now rewrite app_s_nil|]. now rewrite IH, app_s_assoc.
Qed.
Lemma mini_cat l : mini_pretty l = cat l.
Proof. unfold mini_pretty. now rewrite mini_from. Qed.
Lemma cat_app a b : cat (a ++ b) = (cat a ++ cat b)%string.
Proof. induction a as [|c a IH]; [reflexivity|]. cbn [app cat]. now rewrite IH, app_s_assoc. Qed.
(* whole lines *)
Fixpoint unl (l : list string) : string := match l with [] => "" | x :: r => (x ++ newline ++ unl r)%string end.
Lemma unl_app a b : unl (a ++ b) = (unl a ++ unl b)%string.
Proof. induction a as [|x a IH]; [reflexivity|]. cbn [app unl]. now rewrite IH, !app_s_assoc. Qed.
Lemma text_unl l x : text (l ++ [x]) = (unl l ++ x)%string.
Proof.
  induction l as [|y l IH]; [reflexivity|]. cbn [app unl]. transitivity (y ++ newline ++ text (l ++ [x]))%string.
  - destruct l; reflexivity.
  - now rewrite IH, !app_s_assoc.
Qed.
Lemma nl_newline : nl = newline.
Proof. reflexivity. Qed.

Lemma concat_listing l : String.concat ", " l = listing l.
Proof. induction l as [|s [|s' l] IH]; [reflexivity|reflexivity|]. change (String.concat ", " (s :: s' :: l)) with (s ++ ", " ++ String.concat ", " (s' :: l))%string. now rewrite IH. Qed.

(** * Lines of a table *)
Lemma rjust_field w s : String.length s <= w -> in_field w s (rjust s w).
Proof.
  intros H. unfold rjust. split; [rewrite len_app, len_spaces; lia|]. exists (spaces (w - String.length s)). split; [reflexivity|apply spaces_blank].
Qed.
Lemma line_ok ws : forall ss, Forall2 (fun w s => String.length s <= w) ws ss ->
  table_line ws ss (String.concat (spaces SEP) (map (fun p => rjust (snd p) (fst p)) (List.combine ws ss))).
Proof.
  induction ws as [|w ws IH]; intros ss H; inversion H as [|? s ? ss' Hs Hr]; subst; [constructor|].
  destruct ws as [|w' ws]; inversion Hr as [|? s' ? ss2 Hs' Hr']; subst.
  - cbn [List.combine map fst snd String.concat]. constructor. now apply rjust_field.
  - specialize (IH _ Hr). cbn [List.combine map fst snd] in *. constructor; [now apply rjust_field|exact IH].
Qed.
Lemma line_length ws ss line : table_line ws ss line -> String.length line = list_sum ws + 2 * (List.length ws - 1).
Proof.
  induction 1 as [|w s x [H _]|w s x w' ws ss line [H _] T IH]; [reflexivity|cbn; lia|].
  rewrite !len_app, H, IH. cbn [list_sum fold_right List.length String.length]. cbn. lia.
Qed.
Lemma fold_add l a : fold_left Nat.add l a = a + list_sum l.
Proof. revert a. induction l as [|x l IH]; intros a; cbn [fold_left list_sum fold_right]; [lia|]. rewrite IH. change (fold_right Nat.add 0 l) with (list_sum l). lia. Qed.
Lemma fold_max l a : fold_left Nat.max l a = Nat.max a (list_max l).
Proof. revert a. induction l as [|x l IH]; intros a; cbn [fold_left list_max fold_right]; [lia|]. rewrite IH. change (fold_right Nat.max 0 l) with (list_max l). lia. Qed.
Lemma max_width_le col s : In s col -> String.length s <= max_width col.
Proof.
  unfold max_width. rewrite fold_max. intros H. cbn. induction col as [|x col IH]; [contradiction|]. cbn. change (fold_right Nat.max 0 (map String.length col)) with (list_max (map String.length col)). destruct H as [->|H]; [lia|]. specialize (IH H). lia.
Qed.
Lemma max_width_in col : max_width col = 0 \/ exists s, In s col /\ String.length s = max_width col.
Proof.
  unfold max_width. rewrite fold_max. cbn. induction col as [|x col IH]; [auto|]. right. cbn. change (fold_right Nat.max 0 (map String.length col)) with (list_max (map String.length col)).
  destruct (Nat.max_spec (String.length x) (list_max (map String.length col))) as [[Hl ->]|[Hl ->]]; [|exists x; auto].
  destruct IH as [E|[s [Hs E]]]; [lia|]. exists s. auto.
Qed.
Lemma least_ok name col : least_width (name :: col) (Nat.max (String.length name) (max_width col)).
Proof.
  split.
  - intros s [<-|H]; [lia|]. apply max_width_le in H. lia.
  - destruct (Nat.max_spec (String.length name) (max_width col)) as [[Hl ->]|[Hl ->]]; [|exists name; cbn; auto].
    destruct (max_width_in col) as [E|[s [Hs E]]]; [lia|]. exists s. cbn. auto.
Qed.
Lemma zip_star_equal (t : list string) ts k : (forall x, In x (t :: ts) -> List.length x = k) ->
  zip_star (t :: ts) = map (fun j => map (fun x => nth j x "") (t :: ts)) (seq 0 k).
Proof.
  intros H. unfold zip_star. f_equal. f_equal. rewrite (H t) by (cbn; auto). assert (F : forall x, In x ts -> List.length x = k) by (intros x Hx; apply H; cbn; auto). clear H.
  induction ts as [|x ts IH]; [reflexivity|]. cbn [map fold_left]. rewrite (F x) by (cbn; auto). rewrite Nat.min_id. apply IH. intros y Hy. apply F. cbn. auto.
Qed.

Section Repr.
Context {V : Type}.
Variable fmt : V -> string.
Variable repr_str : string -> string.
Local Notation table := (@table V fmt).
Hypothesis fmt_point : forall v, count_char "." (fmt v) <= 1.

Lemma format_shown col : exists texts, format_column (map fmt (firstn 30 col)) = Ok texts /\ shown fmt col texts.
Proof.
  assert (H1 : forall s, In s (map fmt (firstn 30 col)) -> count_char "." s <= 1) by (intros s Hs; apply in_map_iff in Hs; destruct Hs as [v [<- _]]; apply fmt_point).
  destruct (format_trims_alike _ H1) as [c1 [z [dot [E1 F1]]]]. destruct (format_keeps_values _ H1) as [c2 [E2 F2]]. rewrite E1 in E2. injection E2 as <-.
  exists c1. split; [exact E1|]. unfold shown. clear E1 H1. revert c1 F1 F2. induction (firstn 30 col) as [|v l IH]; intros c1 F1 F2; cbn [map] in *.
  - inversion F1; constructor.
  - inversion F1 as [|? s ? c Ha Hb]; inversion F2 as [|? s' ? c' Ha' Hb']; subst. match goal with H : _ :: _ = _ :: _ |- _ => injection H as <- <- end. constructor; [split; [exact Ha'|apply Ha]|]. now apply IH.
Qed.
Lemma formats cols : exists texts, mapM (fun col => format_column (map fmt (firstn MAX_ROWS col))) cols = Ok texts /\ Forall2 (shown fmt) cols texts.
Proof.
  induction cols as [|col cols [texts [E F]]]; [exists []; split; [reflexivity|constructor]|]. destruct (format_shown col) as [t [Et Ft]].
  exists (t :: texts). split; [|now constructor]. cbn [mapM]. unfold MAX_ROWS in *. rewrite Et. cbn [bind]. rewrite E. reflexivity.
Qed.
Lemma line_width_places ws : line_width (List.length ws) ws = Z.of_nat (places ws) \/ ws = [].
Proof.
  destruct ws as [|w ws]; [auto|left]. unfold line_width, places, INDENT, SEP. rewrite fold_add. cbn [List.length]. lia.
Qed.
Lemma widths_le names formatted : Forall2 (fun (_ : string) (_ : list string) => True) names formatted ->
  let widths := map (fun p => Nat.max (fst p) (snd p)) (List.combine (map String.length names) (map max_width formatted)) in
  List.length widths = List.length names /\ list_sum (map String.length names) <= list_sum widths /\
  (forall j name texts w, nth_error names j = Some name -> nth_error formatted j = Some texts -> nth_error widths j = Some w -> least_width (name :: texts) w).
Proof.
  cbn zeta. induction 1 as [|n t ns ts _ F [L [Sm IH]]]; [split; [reflexivity|split; [reflexivity|intros [|j]; discriminate]]|].
  cbn [map List.combine fst snd List.length list_sum fold_right]. split; [now rewrite L|]. split; [unfold list_sum in Sm; lia|].
  intros [|j] name texts w; cbn [nth_error]; [|apply IH]. intros [= <-] [= <-] [= <-]. apply least_ok.
Qed.
Lemma forall2_nth {A B} (P : A -> B -> Prop) l1 l2 : List.length l1 = List.length l2 -> (forall j a b, nth_error l1 j = Some a -> nth_error l2 j = Some b -> P a b) -> Forall2 P l1 l2.
Proof.
  revert l2. induction l1 as [|a l1 IH]; intros [|b l2] L H; try discriminate; constructor; [now apply (H 0)|]. apply IH; [now injection L|]. intros j x y Hx Hy. now apply (H (S j)).
Qed.
Lemma rows_cat (names : list string) widths rows : 
  cat (flat_map (fun row => [PText (String.concat (spaces SEP) (map (fun p => rjust (snd p) (fst p)) (List.combine widths row))); PText nl]) (names :: rows))
  = unl (map (fun row => String.concat (spaces SEP) (map (fun p => rjust (snd p) (fst p)) (List.combine widths row))) (names :: rows)).
Proof.
  induction (names :: rows) as [|r l IH]; [reflexivity|]. cbn [flat_map map unl]. rewrite cat_app, IH. cbn [cat written]. rewrite app_s_nil, app_s_assoc. reflexivity.
Qed.

Lemma table_cases names (m : @dmat V) : rectangular m -> List.length names = List.length (m_cols m) ->
  exists texts widths t, table names m = Ok t /\ Forall2 (shown fmt) (m_cols m) texts /\ List.length widths = List.length names /\
    (forall j name col w, nth_error names j = Some name -> nth_error texts j = Some col -> nth_error widths j = Some w -> least_width (name :: col) w) /\
    if Nat.ltb (places widths) 78 then t = Some (texts, widths) else t = None.
Proof.
  intros Hm Hn. destruct (formats (m_cols m)) as [texts [E F]].
  assert (F0 : Forall2 (fun (_ : string) (_ : list string) => True) names texts) by (apply forall2_nth; [rewrite Hn; eapply Forall2_length; eassumption|auto]).
  pose proof (widths_le _ _ F0) as W. cbn zeta in W. destruct W as [L [Sm LW]]. set (widths := map _ (List.combine _ _)) in *.
  exists texts, widths. unfold ReprModel.table. rewrite E. cbn [bind]. fold widths.
  assert (Le : (line_width (List.length (m_cols m)) (map String.length names) <= line_width (List.length (m_cols m)) widths)%Z).
  { unfold line_width. rewrite !fold_add. lia. }
  destruct (Nat.ltb_spec (places widths) 78) as [Hp|Hp].
  - exists (Some (texts, widths)). assert (X : (line_width (List.length (m_cols m)) widths < MAX_TOTAL_WIDTH)%Z).
    { rewrite <- Hn, <- L. unfold MAX_TOTAL_WIDTH. destruct (line_width_places widths) as [->| ->]; [lia|reflexivity]. }
    replace (line_width _ _ <=? MAX_TOTAL_WIDTH)%Z with true by (symmetry; apply Z.leb_le; lia). replace (line_width _ _ <? MAX_TOTAL_WIDTH)%Z with true by (symmetry; apply Z.ltb_lt; lia).
    auto.
  - exists None. assert (X : (MAX_TOTAL_WIDTH <= line_width (List.length (m_cols m)) widths)%Z).
    { rewrite <- Hn, <- L. unfold MAX_TOTAL_WIDTH. destruct (line_width_places widths) as [->|X]; [lia|]. rewrite X in Hp. cbn in Hp. lia. }
    replace (line_width _ widths <? MAX_TOTAL_WIDTH)%Z with false by (symmetry; apply Z.ltb_ge; lia). destruct (_ <=? _)%Z; auto.
Qed.

Lemma table_text names texts widths (m : @dmat V) : rectangular m -> List.length names = List.length (m_cols m) ->
  Forall2 (shown fmt) (m_cols m) texts -> List.length widths = List.length names ->
  (forall j name col w, nth_error names j = Some name -> nth_error texts j = Some col -> nth_error widths j = Some w -> least_width (name :: col) w) ->
  exists lines, table_shown names texts widths m lines /\ cat (table_calls names (m_rows m) (texts, widths)) = unl lines.
Proof.
  intros Hm Hn F L LW. unfold table_calls. cbn [fst snd]. assert (Lt : List.length texts = List.length names) by (rewrite Hn; symmetry; eapply Forall2_length; eassumption).
  assert (Ht : forall t, In t texts -> List.length t = Nat.min 30 (m_rows m)).
  { clear - F Hm. unfold rectangular in Hm. revert Hm. induction F as [|col t cols texts H F IH]; intros Hm; [intros t []|]. intros t' [<-|Ht]; [|apply IH; [|exact Ht]; intros c Hc; apply Hm; now right].
    apply Forall2_length in H. rewrite <- H, firstn_length, (Hm col) by now left. reflexivity. }
  set (line := fun row => String.concat (spaces SEP) (map (fun p => rjust (snd p) (fst p)) (List.combine widths row))).
  assert (Z : zip_star texts = map (fun i => map (fun t => nth i t "") texts) (seq 0 (rows_shown m))).
  { unfold rows_shown. destruct (m_cols m) as [|c cs].
    - inversion F. reflexivity.
    - destruct texts as [|t ts]; [inversion F|]. now apply zip_star_equal. }
  exists (line names :: map line (zip_star texts) ++ (if Nat.ltb MAX_ROWS (m_rows m) then ["[" ++ nat_str (m_rows m - MAX_ROWS) ++ " rows omitted]"]%string else [])). split.
  - exists (line names), (map line (zip_star texts)). split; [|split; [|split; [|reflexivity]]].
    + apply line_ok. apply forall2_nth; [exact L|]. intros j w name Hw Hname. destruct (nth_error texts j) as [col|] eqn:Ec.
      * destruct (LW j name col w Hname Ec Hw) as [H _]. apply H. now left.
      * apply nth_error_None in Ec. apply nth_error_Some_lt in Hname. lia.
    + rewrite map_length, Z, map_length, seq_length. reflexivity.
    + intros i x Hx. rewrite Z, map_map in Hx. apply nth_error_map_inv in Hx. destruct Hx as [i' [Hi <-]].
      assert (Hi' : i < rows_shown m) by (apply nth_error_Some_lt in Hi; now rewrite seq_length in Hi).
      rewrite nth_error_seq in Hi by exact Hi'. injection Hi as <-. cbn [Nat.add].
      apply line_ok. apply forall2_nth; [now rewrite map_length, Lt|]. intros j w s Hw Hs. apply nth_error_map_inv in Hs. destruct Hs as [col [Hc <-]].
      destruct (nth_error names j) as [name|] eqn:En; [|apply nth_error_None in En; apply nth_error_Some_lt in Hw; lia].
      destruct (LW j name col w En Hc Hw) as [H _]. apply H. right. apply nth_In. rewrite (Ht col) by (eapply nth_error_In; eassumption).
      unfold rows_shown in Hi'. destruct (m_cols m); lia.
  - rewrite cat_app, rows_cat. fold line. cbn [map]. change (line names :: map line (zip_star texts) ++ ?x) with ((line names :: map line (zip_star texts)) ++ x). rewrite unl_app. f_equal.
    destruct (Nat.ltb MAX_ROWS (m_rows m)); reflexivity.
Qed.

Lemma terms_text l : (forall i ns, nth_error l i = Some ns -> (fst (snd ns) = 0 <-> i = 0)) ->
  cat (flat_map (term_call repr_str) l) = listing (map (span_text repr_str) l).
Proof.
  assert (One : forall ns : string * (nat * nat), cat (term_call repr_str ns) = ((if Nat.eqb (fst (snd ns)) 0 then "" else ", ") ++ span_text repr_str ns)%string).
  { intros [name [a b]]. unfold term_call, span_text. cbn [fst snd]. replace (Nat.eqb (b - a) 1) with (Nat.eqb b (a + 1)).
    2:{ destruct (Nat.eqb_spec b (a + 1)), (Nat.eqb_spec (b - a) 1); try reflexivity; lia. }
    destruct (Nat.eqb b (a + 1)), (Nat.eqb a 0); cbn [app cat written]; rewrite ?app_s_nil, ?app_s_assoc; reflexivity. }
  assert (Rest : forall l, (forall ns, In ns l -> fst (snd ns) <> 0) -> forall s, (s ++ cat (flat_map (term_call repr_str) l))%string = listing (s :: map (span_text repr_str) l)).
  { clear l. induction l as [|ns l IH]; intros H s; [apply app_s_nil|]. cbn [flat_map map]. rewrite cat_app, One.
    destruct (Nat.eqb_spec (fst (snd ns)) 0) as [E|E]; [destruct (H ns (or_introl eq_refl) E)|].
    change (listing (s :: span_text repr_str ns :: map (span_text repr_str) l)) with (s ++ ", " ++ listing (span_text repr_str ns :: map (span_text repr_str) l))%string.
    rewrite <- (IH (fun x Hx => H x (or_intror Hx))). rewrite !app_s_assoc. reflexivity. }
  intros H. destruct l as [|ns l]; [reflexivity|]. cbn [flat_map]. rewrite cat_app, One. destruct (Nat.eqb_spec (fst (snd ns)) 0) as [E|E].
  - cbn [map]. rewrite <- Rest; [reflexivity|]. intros x Hx E'. apply In_nth_error in Hx. destruct Hx as [i Hi]. specialize (H (S i) x Hi). apply H in E'. discriminate.
  - destruct E. now apply (H 0 ns).
Qed.
Lemma repr_text (d : @design_info V) (m : @dmat V) : rectangular m -> List.length (column_names d) = List.length (m_cols m) ->
  (forall i ns, nth_error (di_name_slices d) i = Some ns -> (fst (snd ns) = 0 <-> i = 0)) ->
  exists texts widths main, Forall2 (shown fmt) (m_cols m) texts /\ List.length widths = List.length (column_names d) /\
    (forall j name col w, nth_error (column_names d) j = Some name -> nth_error texts j = Some col -> nth_error widths j = Some w -> least_width (name :: col) w) /\
    (if Nat.ltb (places widths) 78 then table_shown (column_names d) texts widths m main else main = list_shown repr_str (column_names d)) /\
    dm_repr fmt repr_str d m = Ok (text (
      ("DesignMatrix with shape (" ++ nat_str (m_rows m) ++ ", " ++ nat_str (List.length (m_cols m)) ++ ")")%string
      :: main ++ ["Terms:"; listing (map (span_text repr_str) (di_name_slices d))]
      ++ (if Nat.ltb (places widths) 78 && Nat.leb (m_rows m) 30 then [] else ["(to view full data, use np.asarray(this_obj))"]))).
Proof.
  intros Hm Hn Hs. destruct (table_cases (column_names d) m Hm Hn) as [texts [widths [t [Et [F [L [LW Hp]]]]]]].
  destruct (table_text (column_names d) texts widths m Hm Hn F L LW) as [lines [Tl Tt]].
  assert (Main : exists main, (if Nat.ltb (places widths) 78 then table_shown (column_names d) texts widths m main else main = list_shown repr_str (column_names d)) /\
    cat (match t with Some t => table_calls (column_names d) (m_rows m) t | None => column_calls repr_str (column_names d) end) = unl main).
  { destruct (Nat.ltb (places widths) 78); subst t; [exists lines; auto|]. exists (list_shown repr_str (column_names d)). split; [reflexivity|].
    unfold column_calls, list_shown, repr_list. rewrite concat_listing. cbn [cat written unl]. rewrite nl_newline, !app_s_assoc, ?app_s_nil. reflexivity. }
  destruct Main as [main [Hmain Em]]. exists texts, widths, main. split; [exact F|]. split; [exact L|]. split; [exact LW|]. split; [exact Hmain|].
  unfold dm_repr. rewrite Et. cbn [bind]. f_equal. rewrite mini_cat, !cat_app, Em, (terms_text _ Hs). set (terms := listing _).
  assert (N : (match t with None => true | Some _ => Nat.ltb MAX_ROWS (m_rows m) end) = negb (Nat.ltb (places widths) 78 && Nat.leb (m_rows m) 30)).
  { destruct (Nat.ltb (places widths) 78); subst t; [|reflexivity]. cbn [andb]. unfold MAX_ROWS. destruct (Nat.ltb_spec 30 (m_rows m)), (Nat.leb_spec (m_rows m) 30); try reflexivity; lia. }
  rewrite N. set (head := ("DesignMatrix with shape (" ++ _)%string). destruct (Nat.ltb (places widths) 78 && Nat.leb (m_rows m) 30); cbn [negb cat written app].
  - change (head :: main ++ ["Terms:"; terms]) with ((head :: main) ++ ["Terms:"] ++ [terms]). rewrite app_assoc, text_unl, unl_app. cbn [unl]. rewrite nl_newline, !app_s_assoc, ?app_s_nil. reflexivity.
  - change (head :: main ++ ["Terms:"; terms; "(to view full data, use np.asarray(this_obj))"]) with ((head :: main) ++ ["Terms:"; terms] ++ ["(to view full data, use np.asarray(this_obj))"]).
    rewrite app_assoc, text_unl, unl_app. cbn [unl]. rewrite nl_newline, !app_s_assoc, ?app_s_nil. reflexivity.
Qed.
End Repr.
