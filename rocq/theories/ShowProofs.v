(** Proofs about how objects are shown: the text of [repr], and that it is a Python expression for the object. *)
From Coq Require Import Ascii.
From Verif Require Import Base UtilModel UtilSpec UtilProofs InfixModel DescModel DescSpec DescProofs DescTopProofs DescribeProofs ShowModel ShowSpec.
Open Scope string_scope.
Open Scope list_scope.

(** ** Induction over objects *)
Section Ind.
Variable P : pyobj -> Prop.
Hypothesis Hstr : forall s, P (OStr s).
Hypothesis Htext : forall s, P (OText s).
Hypothesis Hlist : forall l, Forall P l -> P (OList l).
Hypothesis Hpercent : forall c l, Forall P l -> P (OPercent c l).
Hypothesis Hpretty : forall c l k, Forall P l -> Forall (fun lv => P (snd lv)) k -> P (OPretty c l k).
Hypothesis Hdelegate : forall c, P (ODelegate c).
Fixpoint pyobj_rect' (o : pyobj) : P o :=
  match o with
  | OStr s => Hstr s
  | OText s => Htext s
  | OList l => Hlist l ((fix go l := match l return Forall P l with [] => Forall_nil _ | x :: r => Forall_cons _ (pyobj_rect' x) (go r) end) l)
  | OPercent c l => Hpercent c l ((fix go l := match l return Forall P l with [] => Forall_nil _ | x :: r => Forall_cons _ (pyobj_rect' x) (go r) end) l)
  | OPretty c l k =>
      Hpretty c l k ((fix go l := match l return Forall P l with [] => Forall_nil _ | x :: r => Forall_cons _ (pyobj_rect' x) (go r) end) l)
        ((fix go l := match l return Forall (fun lv => P (snd lv)) l with [] => Forall_nil _ | x :: r => Forall_cons _ (pyobj_rect' (snd x)) (go r) end) k)
  | ODelegate c => Hdelegate c
  end.
End Ind.

Lemma app_str_assoc a b c : ((a ++ b) ++ c = a ++ (b ++ c))%string.
Proof. induction a; cbn; [reflexivity|now rewrite IHa]. Qed.
Lemma app_str_nil a : (a ++ "" = a)%string.
Proof. induction a; cbn; [reflexivity|now rewrite IHa]. Qed.
Lemma app_str_length a b : String.length (a ++ b) = String.length a + String.length b.
Proof. induction a; cbn; [reflexivity|now rewrite IHa]. Qed.

Section Text.
Variable printable : ascii -> bool.
Notation show := (shown (str_repr printable)).

(** ** How deep the recursion goes *)
Fixpoint height (o : pyobj) : nat :=
  match o with
  | OStr _ | OText _ | ODelegate _ => 0
  | OList l | OPercent _ l => S (fold_right (fun o h => Nat.max (height o) h) 0 l)
  | OPretty _ l k => S (Nat.max (fold_right (fun o h => Nat.max (height o) h) 0 l) (fold_right (fun (lv : string * pyobj) h => let (_, v) := lv in Nat.max (height v) h) 0 k))
  end.
Definition itext (lv : string * pyobj) : string := let (l, v) := lv in (l ++ "=" ++ show v)%string.

Definition P (o : pyobj) : Prop := printer_known o = true -> forall n, 3 * height o + 2 <= n ->
  py_repr printable n o = Ok (show o) /\ forall out, pp_pretty printable n o out = Ok (out ++ show o)%string.

Lemma mapM_repr n l : Forall P l -> forallb printer_known l = true ->
  3 * fold_right (fun o h => Nat.max (height o) h) 0 l + 2 <= n ->
  mapM (py_repr printable n) l = Ok (map show l).
Proof.
  induction 1 as [|o l Ho Hl IH]; intros K H; [reflexivity|]. cbn in K. apply andb_prop in K as [K1 K2]. cbn [fold_right] in H.
  cbn [mapM map]. destruct (Ho K1 n ltac:(lia)) as [E _]. rewrite E. cbn [bind]. rewrite (IH K2 ltac:(lia)). reflexivity.
Qed.

(** What the loops of [repr_pretty_impl] do to the text: items are set apart. *)
Definition sep (started : bool) (items : list string) : string :=
  match items with [] => "" | _ => ((if started then ", " else "") ++ String.concat ", " items)%string end.
Lemma sep_cons b x r : sep b (x :: r) = ((if b then ", " else "") ++ x ++ sep true r)%string.
Proof. cbn [sep String.concat]. destruct r as [|y r]; [now rewrite app_str_nil|reflexivity]. Qed.
Lemma sep_app b l r : sep b (l ++ r) = (sep b l ++ sep (b || negb (Nat.eqb (List.length l) 0)) r)%string.
Proof.
  revert b. induction l as [|x l IH]; intros b; [cbn; now rewrite orb_false_r|]. cbn [app]. rewrite !sep_cons, IH. cbn [List.length Nat.eqb negb].
  rewrite orb_true_r. cbn [orb]. now rewrite !app_str_assoc.
Qed.
Lemma fold_args n l : Forall P l -> forallb printer_known l = true ->
  3 * fold_right (fun o h => Nat.max (height o) h) 0 l + 2 <= n -> forall b out,
  foldM (fun st arg => let st := new_item st in let* out := pp_pretty printable n arg (snd st) in Ok (fst st, out)) l (b, out)
  = Ok (b || negb (Nat.eqb (List.length l) 0), (out ++ sep b (map show l))%string).
Proof.
  induction 1 as [|o l Ho Hl IH]; intros K H b out; [cbn; now rewrite app_str_nil, orb_false_r|].
  cbn in K. apply andb_prop in K as [K1 K2]. cbn [fold_right] in H.
  destruct (Ho K1 n ltac:(lia)) as [_ E].
  cbn [foldM]. cbn [new_item fst snd]. rewrite E. cbn [bind fst]. rewrite (IH K2 ltac:(lia)). cbn [List.length Nat.eqb negb map]. rewrite sep_cons, orb_true_r. cbn [orb].
  destruct b; cbn [String.append]; rewrite ?app_str_assoc; reflexivity.
Qed.
Lemma fold_kwargs n k : Forall (fun lv => P (snd lv)) k -> forallb (fun lv : string * pyobj => let (_, v) := lv in printer_known v) k = true ->
  3 * fold_right (fun (lv : string * pyobj) h => let (_, v) := lv in Nat.max (height v) h) 0 k + 2 <= n -> forall b out,
  foldM (fun st lv => let st := new_item st in let* out := pp_pretty printable n (snd lv) (snd st ++ fst lv ++ "=")%string in Ok (fst st, out)) k (b, out)
  = Ok (b || negb (Nat.eqb (List.length k) 0), (out ++ sep b (map itext k))%string).
Proof.
  induction 1 as [|[l v] k Ho Hl IH]; intros K H b out; [cbn; now rewrite app_str_nil, orb_false_r|].
  cbn in K. apply andb_prop in K as [K1 K2]. cbn [fold_right] in H. cbn [snd] in Ho.
  destruct (Ho K1 n ltac:(lia)) as [_ E].
  cbn [foldM]. cbn [new_item fst snd]. rewrite E. cbn [bind fst]. rewrite (IH K2 ltac:(lia)). cbn [List.length Nat.eqb negb map itext]. rewrite sep_cons, orb_true_r. cbn [orb].
  destruct b; cbn [String.append]; rewrite ?app_str_assoc; reflexivity.
Qed.
Lemma sep_false l : sep false l = String.concat ", " l.
Proof. destruct l; reflexivity. Qed.

Lemma repr_shown o : P o.
Proof.
  induction o using pyobj_rect'; intros K n Hn.
  1,2: destruct n as [|[|n]]; [lia|lia|]; split; reflexivity.
  - cbn [printer_known] in K. cbn [height] in Hn. destruct n as [|[|n]]; [lia|lia|].
    assert (A : forall m, 3 * height (OList l) <= S m -> py_repr printable (S m) (OList l) = Ok (show (OList l))).
    { intros m Hm. cbn [height] in Hm. change (py_repr printable (S m) (OList l)) with (let* ts := mapM (py_repr printable m) l in Ok ("[" ++ String.concat ", " ts ++ "]")%string). rewrite (mapM_repr m l H K) by lia. reflexivity. }
    split; [apply A; cbn [height]; lia|]. intros out. change (pp_pretty printable (S (S n)) (OList l) out) with (let* t := py_repr printable (S n) (OList l) in Ok (out ++ t)%string). rewrite A by (cbn [height]; lia). reflexivity.
  - cbn [printer_known] in K. cbn [height] in Hn. destruct n as [|[|n]]; [lia|lia|].
    assert (A : forall m, 3 * height (OPercent c l) <= S m -> py_repr printable (S m) (OPercent c l) = Ok (show (OPercent c l))).
    { intros m Hm. cbn [height] in Hm. change (py_repr printable (S m) (OPercent c l)) with (let* ts := mapM (py_repr printable m) l in Ok (c ++ "(" ++ String.concat ", " ts ++ ")")%string). rewrite (mapM_repr m l H K) by lia. reflexivity. }
    split; [apply A; cbn [height]; lia|]. intros out. change (pp_pretty printable (S (S n)) (OPercent c l) out) with (let* t := py_repr printable (S n) (OPercent c l) in Ok (out ++ t)%string). rewrite A by (cbn [height]; lia). reflexivity.
  - cbn [printer_known] in K. apply andb_prop in K as [K1 K2]. cbn [height] in Hn.
    assert (A : forall m out, 3 * height (OPretty c l k) <= S m -> pp_pretty printable (S m) (OPretty c l k) out = Ok (out ++ show (OPretty c l k))%string).
    { intros m out Hm. cbn [height] in Hm. cbn [pp_pretty]. unfold repr_pretty_impl. rewrite (fold_args _ l H K1) by lia. cbn [bind orb]. rewrite (fold_kwargs _ k H0 K2) by lia. cbn [bind fst snd].
      cbn [shown]. change (map (fun lv : string * pyobj => let (l0, v) := lv in (l0 ++ "=" ++ show v)%string) k) with (map itext k).
      rewrite <- (sep_false (map show l ++ map itext k)), sep_app, map_length. cbn [orb]. now rewrite !app_str_assoc. }
    destruct n as [|[|n]]; [lia|lia|]. split; [cbn [py_repr]; apply A|intros out; apply A]; cbn [height]; lia.
  - discriminate.
Qed.

(** An object whose class only delegates to the printer is never shown. *)
Lemma delegate_loops c : forall n, py_repr printable n (ODelegate c) = Err OutOfFuel /\ forall out, pp_pretty printable n (ODelegate c) out = Err OutOfFuel.
Proof.
  induction n as [|n [IH1 IH2]]; [split; reflexivity|]. split; [exact (IH2 "")|]. intros out. change (pp_pretty printable (S n) (ODelegate c) out) with (let* t := py_repr printable n (ODelegate c) in Ok (out ++ t)%string). now rewrite IH1.
Qed.

(** ** Reading string literals *)
Lemma quote_is_q s : is_q (quote_for s) = true.
Proof. unfold quote_for. destruct (has_char "'" s && negb (has_char """" s)); reflexivity. Qed.
Lemma hex_back c : let n := nat_of_ascii c in hex_value (hex_char (n / 16)) = Some (n / 16) /\ hex_value (hex_char (n mod 16)) = Some (n mod 16).
Proof. destruct c as [[] [] [] [] [] [] [] []]; vm_compute; split; reflexivity. Qed.
Lemma hex_sum c : ascii_of_nat (16 * (nat_of_ascii c / 16) + nat_of_ascii c mod 16) = c.
Proof. rewrite <- Nat.div_mod by lia. apply ascii_nat_embedding. Qed.

Lemma literal_escape q c r : is_q q = true -> literal q (escape printable q c ++ r) = push c (literal q r).
Proof.
  intros Hq. assert (Hqb : Ascii.eqb "\" q = false).
  { unfold is_q in Hq. apply orb_prop in Hq as [E|E]; apply Ascii.eqb_eq in E; subst; reflexivity. }
  unfold escape. destruct (Ascii.eqb c q || Ascii.eqb c "\") eqn:E1.
  - cbn [String.append literal]. rewrite Hqb. change (Ascii.eqb "\" "\") with true. cbv iota.
    assert (Hs : Ascii.eqb c "x" = false /\ simple_escape c = Some c).
    { apply orb_prop in E1 as [E|E]; apply Ascii.eqb_eq in E; subst; [|split; reflexivity].
      split; [unfold is_q in Hq; apply orb_prop in Hq as [E|E]; apply Ascii.eqb_eq in E; subst; reflexivity|].
      unfold simple_escape. rewrite Hq, orb_true_r. reflexivity. }
    destruct Hs as [-> ->]. reflexivity.
  - apply orb_false_elim in E1 as [Eq Eb].
    destruct (Ascii.eqb c "009") eqn:E9; [apply Ascii.eqb_eq in E9; subst; cbn [String.append literal]; rewrite Hqb; reflexivity|].
    destruct (Ascii.eqb c "010") eqn:E10; [apply Ascii.eqb_eq in E10; subst; cbn [String.append literal]; rewrite Hqb; reflexivity|].
    destruct (Ascii.eqb c "013") eqn:E13; [apply Ascii.eqb_eq in E13; subst; cbn [String.append literal]; rewrite Hqb; reflexivity|].
    cbv zeta. destruct (Nat.ltb (nat_of_ascii c) 32 || Nat.eqb (nat_of_ascii c) 127 || (Nat.leb 128 (nat_of_ascii c) && negb (printable c))).
    + cbn [String.append literal]. rewrite Hqb. change (Ascii.eqb "\" "\") with true. change (Ascii.eqb "x" "x") with true. cbv iota.
      destruct (hex_back c) as [-> ->]. rewrite hex_sum. reflexivity.
    + cbn [String.append literal]. rewrite Eq, Eb, E10, E13. reflexivity.
Qed.
Lemma literal_escaped q s r : is_q q = true -> literal q (escaped printable q s ++ String q r) = Some (s, r).
Proof.
  intros Hq. induction s as [|c s IH]; cbn [escaped String.append].
  - cbn [literal]. rewrite Ascii.eqb_refl. reflexivity.
  - rewrite app_str_assoc, (literal_escape q c _ Hq), IH. reflexivity.
Qed.
Definition stop (r : string) : Prop := match r with String c _ => is_q c = false | "" => True end.
Lemma opens_escaped q s r : is_q q = true -> stop r -> opens q (escaped printable q s ++ String q r) = Some (s, r).
Proof.
  intros Hq Hr. rewrite <- (literal_escaped q s r Hq). destruct s as [|c s].
  - cbn [escaped String.append opens]. destruct r as [|d r]; [reflexivity|]. rewrite Ascii.eqb_refl. cbn [andb].
    destruct (Ascii.eqb d q) eqn:E; [|reflexivity]. apply Ascii.eqb_eq in E. subst. cbn in Hr. congruence.
  - assert (G : exists d t, (escape printable q c = String d t)%string /\ Ascii.eqb d q = false).
    { assert (Hqb : Ascii.eqb "\" q = false).
      { unfold is_q in Hq. apply orb_prop in Hq as [E|E]; apply Ascii.eqb_eq in E; subst; reflexivity. }
      unfold escape. destruct (Ascii.eqb c q || Ascii.eqb c "\") eqn:E1; [do 2 eexists; split; [reflexivity|exact Hqb]|].
      apply orb_false_elim in E1 as [Eq _].
      destruct (Ascii.eqb c "009"); [do 2 eexists; split; [reflexivity|exact Hqb]|].
      destruct (Ascii.eqb c "010"); [do 2 eexists; split; [reflexivity|exact Hqb]|].
      destruct (Ascii.eqb c "013"); [do 2 eexists; split; [reflexivity|exact Hqb]|].
      cbv zeta. destruct (Nat.ltb (nat_of_ascii c) 32 || Nat.eqb (nat_of_ascii c) 127 || (Nat.leb 128 (nat_of_ascii c) && negb (printable c)));
        do 2 eexists; (split; [reflexivity|]); assumption. }
    destruct G as [d [t [G1 G2]]]. cbn [escaped]. rewrite G1. cbn [String.append opens]. destruct ((t ++ escaped printable q s) ++ String q r)%string; [reflexivity|]. rewrite G2. reflexivity.
Qed.

(** ** Reading names *)
Lemma span_name f r : forall c, name_more c = false -> forall n, name_span f = (n, "") -> name_span (f ++ String c r) = (f, String c r).
Proof.
  intros c Hc. induction f as [|d f IH]; intros n H; cbn [String.append name_span].
  - rewrite Hc. reflexivity.
  - cbn [name_span] in H. destruct (name_more d); [|discriminate]. destruct (name_span f) as [m rest] eqn:E. injection H as _ ->. rewrite (IH m eq_refl). reflexivity.
Qed.
Lemma read_name_app f c r : is_name f = true -> name_more c = false -> read_name (f ++ String c r) = Some (f, String c r).
Proof.
  unfold is_name. destruct f as [|d f]; [discriminate|]. intros H Hc. cbn [read_name String.append] in *.
  destruct (name_start d) eqn:Ed; [|discriminate]. destruct (name_span (String d f)) as [n rest] eqn:E. destruct rest; [|discriminate].
  f_equal. exact (span_name (String d f) r c Hc n E).
Qed.
Lemma name_head f : is_name f = true -> exists c r, f = String c r /\ name_start c = true.
Proof.
  unfold is_name. destruct f as [|d f]; [discriminate|]. cbn [read_name]. destruct (name_start d) eqn:E; [|discriminate]. intros _. exists d, f. auto.
Qed.
Lemma name_start_not c : name_start c = true -> is_q c = false /\ Ascii.eqb c "[" = false /\ Ascii.eqb c "]" = false /\ Ascii.eqb c ")" = false /\ Ascii.eqb c " " = false.
Proof. destruct c as [[] [] [] [] [] [] [] []]; vm_compute; intros H; try discriminate H; repeat split; reflexivity. Qed.

(** How the text of an object begins. *)
Definition head_ok (c : ascii) : Prop := is_q c = true \/ c = "["%char \/ name_start c = true.
Lemma head_not c : head_ok c -> Ascii.eqb c "]" = false /\ Ascii.eqb c ")" = false /\ Ascii.eqb c " " = false /\ Ascii.eqb c "=" = false.
Proof.
  intros [H|[->|H]]; [|repeat split; reflexivity|].
  - unfold is_q in H. apply orb_prop in H as [H|H]; apply Ascii.eqb_eq in H; subst; repeat split; reflexivity.
  - destruct c as [[] [] [] [] [] [] [] []]; vm_compute in H; try discriminate H; repeat split; reflexivity.
Qed.
Lemma shown_head o : made_of_calls o = true -> exists c r, show o = String c r /\ head_ok c.
Proof.
  destruct o; intros H; try discriminate.
  - do 2 eexists. split; [reflexivity|]. left. apply quote_is_q.
  - do 2 eexists. split; [reflexivity|]. right. now left.
  - cbn [made_of_calls] in H. apply andb_prop in H as [H _]. destruct (name_head _ H) as [c [r [-> Hc]]]. do 2 eexists. split; [reflexivity|]. right. now right.
  - cbn [made_of_calls] in H. apply andb_prop in H as [H _]. apply andb_prop in H as [H _]. destruct (name_head _ H) as [c [r [-> Hc]]]. do 2 eexists. split; [reflexivity|]. right. now right.
Qed.

(** ** Reading expressions *)
Fixpoint osize (o : pyobj) : nat :=
  match o with
  | OStr _ | OText _ | ODelegate _ => 1
  | OList l | OPercent _ l => S (S (fold_right (fun o h => S (osize o) + h) 0 l))
  | OPretty _ l k => S (S (fold_right (fun o h => S (osize o) + h) 0 l + fold_right (fun (lv : string * pyobj) h => let (_, v) := lv in S (osize v) + h) 0 k))
  end.
Definition R (o : pyobj) : Prop := made_of_calls o = true -> forall n rest, osize o <= n -> stop rest -> expr n (show o ++ rest) = Some (calls o, rest).

Lemma starts_hit c r : starts c (String c r) = Some r.
Proof. cbn. now rewrite Ascii.eqb_refl. Qed.
Lemma starts_head c o r : made_of_calls o = true -> (c = "]" \/ c = ")" \/ c = "=")%char -> starts c (show o ++ r) = None.
Proof.
  intros H Hc. destruct (shown_head o H) as [d [t [-> Hd]]]. apply head_not in Hd as [A [B [_ E]]]. cbn.
  destruct Hc as [->|[->| ->]]; now rewrite ?A, ?B, ?E.
Qed.
Lemma skip_head o r : made_of_calls o = true -> skip_blanks (show o ++ r) = (show o ++ r)%string.
Proof. intros H. destruct (shown_head o H) as [d [t [-> Hd]]]. apply head_not in Hd as [_ [_ [B _]]]. cbn. now rewrite B. Qed.

Lemma elements_read l : Forall R l -> forallb made_of_calls l = true -> forall n rest, S (fold_right (fun o h => S (osize o) + h) 0 l) <= n ->
  elements n (String.concat ", " (map show l) ++ String "]" rest) = Some (map calls l, rest).
Proof.
  induction 1 as [|o l Ho Hl IH]; intros K n rest Hn.
  - destruct n; [lia|]. reflexivity.
  - cbn [forallb] in K. apply andb_prop in K as [K1 K2]. cbn [fold_right] in Hn. destruct n as [|n]; [lia|].
    cbn [elements map]. destruct l as [|o' l].
    + cbn [map String.concat]. rewrite (starts_head "]" o _ K1) by auto. rewrite (Ho K1 n (String "]" rest)) by (cbn; try reflexivity; lia).
      cbn [skip_blanks]. change (Ascii.eqb "]" " ") with false. cbv iota. rewrite starts_hit. reflexivity.
    + assert (E : (String.concat ", " (show o :: map show (o' :: l)) ++ String "]" rest = show o ++ String "," (String " " (String.concat ", " (map show (o' :: l)) ++ String "]" rest)))%string).
      { cbn [map String.concat]. rewrite !app_str_assoc. reflexivity. }
      rewrite E. rewrite (starts_head "]" o _ K1) by auto. rewrite (Ho K1 n) by (cbn; try reflexivity; lia).
      cbn [skip_blanks]. change (Ascii.eqb "," " ") with false. cbv iota. cbn [starts]. change (Ascii.eqb "," "]") with false. change (Ascii.eqb "," ",") with true. cbv iota.
      cbn [skip_blanks]. change (Ascii.eqb " " " ") with true. cbv iota.
      assert (Hsk : skip_blanks (String.concat ", " (map show (o' :: l)) ++ String "]" rest) = (String.concat ", " (map show (o' :: l)) ++ String "]" rest)%string).
      { cbn [forallb] in K2. apply andb_prop in K2 as [K2 _]. cbn [map String.concat]. destruct (map show l); [|rewrite app_str_assoc]; apply skip_head; exact K2. }
      rewrite Hsk, (IH K2 n rest) by lia. reflexivity.
Qed.

(** Arguments: labelled or not. *)
Definition item := (option string * pyobj)%type.
Definition item_text (i : item) : string := match fst i with None => show (snd i) | Some l => (l ++ "=" ++ show (snd i))%string end.
Fixpoint item_order (positional : bool) (l : list item) : Prop :=
  match l with [] => True | (None, _) :: r => positional = true /\ item_order positional r | (Some k, _) :: r => is_name k = true /\ item_order false r end.
Fixpoint item_args (l : list item) : list tree := match l with [] => [] | (None, o) :: r => calls o :: item_args r | _ :: r => item_args r end.
Fixpoint item_kwargs (l : list item) : list (string * tree) := match l with [] => [] | (Some k, o) :: r => (k, calls o) :: item_kwargs r | _ :: r => item_kwargs r end.

Lemma label_none o r : made_of_calls o = true -> read_label (show o ++ r) = None.
Proof.
  intros H. unfold read_label. destruct o; try discriminate.
  - cbn [shown str_repr]. unfold str_repr. cbv zeta. cbn [String.append read_name]. assert (name_start (quote_for s) = false) as ->; [|reflexivity].
    unfold quote_for. destruct (has_char "'" s && negb (has_char """" s)); reflexivity.
  - reflexivity.
  - cbn [made_of_calls] in H. apply andb_prop in H as [H _]. cbn [shown]. rewrite !app_str_assoc. cbn [String.append]. rewrite (read_name_app cls "(" _ H eq_refl). reflexivity.
  - cbn [made_of_calls] in H. apply andb_prop in H as [H _]. apply andb_prop in H as [H _]. cbn [shown]. rewrite !app_str_assoc. cbn [String.append]. rewrite (read_name_app cls "(" _ H eq_refl). reflexivity.
Qed.
Lemma label_some k o r : is_name k = true -> made_of_calls o = true -> read_label ((k ++ "=" ++ show o) ++ r) = Some (k, (show o ++ r)%string).
Proof.
  intros Hk Ho. unfold read_label. rewrite !app_str_assoc. cbn [String.append]. rewrite (read_name_app k "=" _ Hk eq_refl). rewrite starts_hit.
  rewrite (starts_head "=" o r Ho) by auto. reflexivity.
Qed.
Lemma item_starts (i : item) r : match fst i with Some k => is_name k = true | None => True end -> made_of_calls (snd i) = true ->
  starts ")" (item_text i ++ r) = None /\ skip_blanks (item_text i ++ r) = (item_text i ++ r)%string.
Proof.
  destruct i as [[k|] o]; cbn [fst snd item_text]; intros Hk Ho.
  - unfold item_text. cbn [fst snd]. destruct (name_head k Hk) as [c [t [-> Hc]]]. destruct (name_start_not c Hc) as [_ [_ [_ [A B]]]]. cbn. rewrite A, B. split; reflexivity.
  - unfold item_text. cbn [fst snd]. split; [apply starts_head; auto|now apply skip_head].
Qed.

Lemma arguments_read l : Forall (fun i : item => R (snd i)) l -> forallb (fun i : item => made_of_calls (snd i)) l = true -> forall b n rest, item_order b l ->
  S (fold_right (fun (i : item) h => S (osize (snd i)) + h) 0 l) <= n ->
  arguments n b (String.concat ", " (map item_text l) ++ String ")" rest) = Some (item_args l, item_kwargs l, rest).
Proof.
  induction 1 as [|i l Ho Hl IH]; intros K b n rest Hord Hn.
  - destruct n; [lia|]. reflexivity.
  - cbn [forallb] in K. apply andb_prop in K as [K1 K2]. cbn [fold_right] in Hn. destruct n as [|n]; [lia|].
    assert (Hk : match fst i with Some k => is_name k = true | None => True end) by (destruct i as [[k|] o]; cbn in *; tauto).
    assert (Hnext : item_order (match fst i with None => b | Some _ => false end) l) by (destruct i as [[k|] o]; cbn in *; tauto).
    assert (Hpos : match fst i with None => b = true | Some _ => True end) by (destruct i as [[k|] o]; cbn in *; tauto).
    set (tail := match l with [] => String ")" rest | _ => String "," (String " " (String.concat ", " (map item_text l) ++ String ")" rest)) end).
    assert (E : (String.concat ", " (map item_text (i :: l)) ++ String ")" rest = item_text i ++ tail)%string).
    { unfold tail. destruct l as [|i' l']; [reflexivity|]. cbn [map String.concat]. rewrite !app_str_assoc. reflexivity. }
    rewrite E. cbn [arguments]. destruct (item_starts i tail Hk K1) as [Hst _]. rewrite Hst.
    assert (Hstop : stop tail) by (unfold tail; destruct l; reflexivity).
    assert (Hexpr : expr n (show (snd i) ++ tail) = Some (calls (snd i), tail)) by (apply (Ho K1); [lia|exact Hstop]).
    assert (Hlab : read_label (item_text i ++ tail) = match fst i with None => None | Some k => Some (k, (show (snd i) ++ tail)%string) end).
    { destruct i as [[k|] o]; unfold item_text; cbn [fst snd] in *; [apply label_some; auto|now apply label_none]. }
    rewrite Hlab. cbv zeta.
    assert (Hsk : skip_blanks (show (snd i) ++ tail) = (show (snd i) ++ tail)%string) by now apply skip_head.
    assert (Hfin : forall (add : list tree * list (string * tree) -> list tree * list (string * tree)), add = (fun r => match fst i with None => (calls (snd i) :: fst r, snd r) | Some k => (fst r, (k, calls (snd i)) :: snd r) end) ->
      match starts ")" (skip_blanks tail), starts "," (skip_blanks tail) with
      | Some r, _ => Some (add ([], []), r)
      | None, Some r => match arguments n (match fst i with None => b | Some _ => false end) (skip_blanks r) with Some (a, k, rest) => Some (add (a, k), rest) | None => None end
      | None, None => None
      end = Some (item_args (i :: l), item_kwargs (i :: l), rest)).
    { intros add ->. unfold tail. destruct l as [|i' l'].
      - cbn [skip_blanks]. change (Ascii.eqb ")" " ") with false. cbv iota. rewrite starts_hit. destruct i as [[k|] o]; reflexivity.
      - cbn [skip_blanks]. change (Ascii.eqb "," " ") with false. cbv iota. cbn [starts]. change (Ascii.eqb "," ")") with false. change (Ascii.eqb "," ",") with true. cbv iota.
        cbn [skip_blanks]. change (Ascii.eqb " " " ") with true. cbv iota.
        assert (Hk' : match fst i' with Some k => is_name k = true | None => True end) by (destruct i' as [[k|] o]; cbn in *; tauto).
        assert (K' : made_of_calls (snd i') = true) by (cbn [forallb] in K2; now apply andb_prop in K2 as [K2 _]).
        assert (Hs : skip_blanks (String.concat ", " (map item_text (i' :: l')) ++ String ")" rest) = (String.concat ", " (map item_text (i' :: l')) ++ String ")" rest)%string).
        { cbn [map String.concat]. destruct (map item_text l'); [|rewrite app_str_assoc]; apply item_starts; assumption. }
        rewrite Hs, (IH K2 _ n rest Hnext) by lia. destruct i as [[k|] o]; reflexivity. }
    destruct i as [[k|] o]; cbn [fst snd] in *.
    + rewrite Hsk, Hexpr. exact (Hfin _ eq_refl).
    + rewrite Hpos. cbn [negb]. unfold item_text. cbn [fst snd]. rewrite Hsk, Hexpr. rewrite Hpos in Hfin. exact (Hfin _ eq_refl).
Qed.

Lemma call_read f its o : is_name f = true -> Forall (fun i : item => R (snd i)) its -> forallb (fun i : item => made_of_calls (snd i)) its = true -> item_order true its ->
  show o = (f ++ "(" ++ String.concat ", " (map item_text its) ++ ")")%string -> calls o = TCall f (item_args its) (item_kwargs its) ->
  forall n rest, S (S (fold_right (fun (i : item) h => S (osize (snd i)) + h) 0 its)) <= n -> expr n (show o ++ rest) = Some (calls o, rest).
Proof.
  intros Hf HR HK Hord -> -> n rest Hn. destruct n as [|n]; [lia|].
  destruct (name_head f Hf) as [c [t [Ef Hc]]]. destruct (name_start_not c Hc) as [A [B _]].
  assert (E : ((f ++ "(" ++ String.concat ", " (map item_text its) ++ ")") ++ rest = f ++ String "(" (String.concat ", " (map item_text its) ++ String ")" rest))%string).
  { rewrite !app_str_assoc. cbn [String.append]. reflexivity. }
  rewrite E. cbn [expr]. assert (Ef' : (f ++ String "(" (String.concat ", " (map item_text its) ++ String ")" rest) = String c (t ++ String "(" (String.concat ", " (map item_text its) ++ String ")" rest)))%string) by now rewrite Ef.
  rewrite Ef' at 1. rewrite A, B. rewrite (read_name_app f "(" _ Hf eq_refl). rewrite starts_hit.
  assert (Hs : skip_blanks (String.concat ", " (map item_text its) ++ String ")" rest) = (String.concat ", " (map item_text its) ++ String ")" rest)%string).
  { destruct its as [|i l]; [reflexivity|]. cbn [forallb] in HK. apply andb_prop in HK as [K1 _].
    assert (Hk : match fst i with Some k => is_name k = true | None => True end) by (destruct i as [[k|] o']; cbn in *; tauto).
    cbn [map String.concat]. destruct (map item_text l); [|rewrite app_str_assoc]; apply item_starts; assumption. }
  rewrite Hs, (arguments_read its HR HK true n rest Hord) by lia. reflexivity.
Qed.

Definition positional (l : list pyobj) : list item := map (fun o => (None, o)) l.
Definition labelled (k : list (string * pyobj)) : list item := map (fun lv => (Some (fst lv), snd lv)) k.
Lemma positional_facts l : map item_text (positional l) = map show l /\ item_args (positional l) = map calls l /\ item_kwargs (positional l) = [] /\
  fold_right (fun (i : item) h => S (osize (snd i)) + h) 0 (positional l) = fold_right (fun o h => S (osize o) + h) 0 l.
Proof. induction l as [|o l [A [B [C D]]]]; [repeat split|]. change (positional (o :: l)) with ((None, o) :: positional l). cbn [map item_args item_kwargs fold_right]. rewrite A, B, C, D. repeat split. Qed.
Lemma labelled_facts k : map item_text (labelled k) = map (fun lv : string * pyobj => let (l, v) := lv in (l ++ "=" ++ show v)%string) k /\ item_args (labelled k) = [] /\
  item_kwargs (labelled k) = map (fun lv : string * pyobj => let (l, v) := lv in (l, calls v)) k /\
  fold_right (fun (i : item) h => S (osize (snd i)) + h) 0 (labelled k) = fold_right (fun (lv : string * pyobj) h => let (_, v) := lv in S (osize v) + h) 0 k.
Proof. induction k as [|[l o] k [A [B [C D]]]]; [repeat split|]. change (labelled ((l, o) :: k)) with ((Some l, o) :: labelled k). cbn [map item_args item_kwargs fold_right]. rewrite A, B, C, D. repeat split. Qed.
Lemma items_app (l r : list item) : item_args (l ++ r) = item_args l ++ item_args r /\ item_kwargs (l ++ r) = item_kwargs l ++ item_kwargs r /\
  fold_right (fun (i : item) h => S (osize (snd i)) + h) 0 (l ++ r) = fold_right (fun (i : item) h => S (osize (snd i)) + h) 0 l + fold_right (fun (i : item) h => S (osize (snd i)) + h) 0 r.
Proof. induction l as [|[[k|] o] l [A [B C]]]; [repeat split| |]; cbn [app item_args item_kwargs fold_right]; rewrite A, B, C; (split; [reflexivity|split; [reflexivity|lia]]). Qed.
Lemma labelled_order b k : forallb (fun lv : string * pyobj => let (l, v) := lv in is_name l && made_of_calls v) k = true -> item_order b (labelled k).
Proof.
  revert b. induction k as [|[l v] k IH]; intros b H; [exact I|]. cbn [forallb] in H. apply andb_prop in H as [H1 H2]. apply andb_prop in H1 as [H1 _]. split; [exact H1|now apply IH].
Qed.
Lemma positional_order l its : item_order true its -> item_order true (positional l ++ its).
Proof. intros H. induction l; [exact H|]. split; [reflexivity|exact IHl]. Qed.

Lemma shown_read o : R o.
Proof.
  induction o using pyobj_rect'; intros K n rest Hn Hr; try discriminate.
  - destruct n as [|n]; [cbn in Hn; lia|]. cbn [shown]. unfold str_repr. cbv zeta. cbn [String.append expr]. rewrite quote_is_q, app_str_assoc. cbn [String.append].
    rewrite opens_escaped; [reflexivity|apply quote_is_q|exact Hr].
  - cbn [osize] in Hn. destruct n as [|n]; [lia|]. cbn [made_of_calls] in K. cbn [shown]. rewrite !app_str_assoc. cbn [String.append expr].
    change (is_q "[") with false. change (Ascii.eqb "[" "[") with true. cbv iota.
    assert (Hs : skip_blanks (String.concat ", " (map show l) ++ String "]" rest) = (String.concat ", " (map show l) ++ String "]" rest)%string).
    { destruct l as [|o l]; [reflexivity|]. cbn [forallb] in K. apply andb_prop in K as [K _]. cbn [map String.concat]. destruct (map show l); [|rewrite app_str_assoc]; now apply skip_head. }
    rewrite Hs, (elements_read l H K) by lia. reflexivity.
  - cbn [made_of_calls] in K. apply andb_prop in K as [K1 K2]. destruct (positional_facts l) as [A [B [C D]]].
    apply (call_read c (positional l)).
    + exact K1.
    + unfold positional. rewrite Forall_map. exact H.
    + unfold positional. rewrite forallb_forall in *. intros i Hi. apply in_map_iff in Hi as [o [<- Ho]]. now apply K2.
    + rewrite <- (app_nil_r (positional l)). apply positional_order. exact I.
    + rewrite A. reflexivity.
    + rewrite B, C. reflexivity.
    + rewrite D. exact Hn.
  - cbn [made_of_calls] in K. apply andb_prop in K as [K K3]. apply andb_prop in K as [K1 K2].
    destruct (positional_facts l) as [A [B [C D]]]. destruct (labelled_facts k) as [A' [B' [C' D']]].
    destruct (items_app (positional l) (labelled k)) as [E1 [E2 E3]].
    apply (call_read c (positional l ++ labelled k)).
    + exact K1.
    + apply Forall_app. split; [unfold positional|unfold labelled]; rewrite Forall_map; assumption.
    + rewrite forallb_app. apply andb_true_intro. split; [unfold positional|unfold labelled]; rewrite forallb_forall in *; intros i Hi; apply in_map_iff in Hi as [o [<- Ho]].
      * now apply K2.
      * specialize (K3 _ Ho). destruct o as [lb v]. cbn [snd]. now apply andb_prop in K3 as [_ K3].
    + apply positional_order. now apply labelled_order.
    + rewrite map_app, A, A'. reflexivity.
    + rewrite E1, E2, B, C, B', C'. rewrite app_nil_r. reflexivity.
    + rewrite E3, D, D'. exact Hn.
Qed.

(** The text is long enough for the steps of reading. *)
Lemma concat_length (l : list string) : fold_right (fun s h => String.length s + h) 0 l <= String.length (String.concat ", " l).
Proof.
  induction l as [|x l IH]; [cbn; lia|]. cbn [fold_right String.concat]. destruct l as [|y l]; [cbn; lia|]. rewrite !app_str_length. cbn [String.length]. lia.
Qed.
Lemma fold_len_app (a b : list string) : fold_right (fun s h => String.length s + h) 0 (a ++ b) = fold_right (fun s h => String.length s + h) 0 a + fold_right (fun s h => String.length s + h) 0 b.
Proof. induction a; cbn; lia. Qed.
Lemma size_length o : made_of_calls o = true -> S (osize o) <= 2 * String.length (show o).
Proof.
  assert (L : forall l, Forall (fun o => made_of_calls o = true -> S (osize o) <= 2 * String.length (show o)) l -> forallb made_of_calls l = true ->
    fold_right (fun o h => S (osize o) + h) 0 l <= 2 * fold_right (fun s h => String.length s + h) 0 (map show l)).
  { induction 1 as [|x l Ho Hl IH]; intros K; [cbn; lia|]. cbn [forallb] in K. apply andb_prop in K as [K1 K2]. specialize (Ho K1). specialize (IH K2). cbn [fold_right map]. lia. }
  assert (L' : forall k, Forall (fun lv : string * pyobj => made_of_calls (snd lv) = true -> S (osize (snd lv)) <= 2 * String.length (show (snd lv))) k ->
    forallb (fun lv : string * pyobj => let (l, v) := lv in is_name l && made_of_calls v) k = true ->
    fold_right (fun (lv : string * pyobj) h => let (_, v) := lv in S (osize v) + h) 0 k <= 2 * fold_right (fun s h => String.length s + h) 0 (map (fun lv : string * pyobj => let (l, v) := lv in (l ++ "=" ++ show v)%string) k)).
  { induction 1 as [|[lb v] k Ho Hl IH]; intros K; [cbn; lia|]. cbn [forallb] in K. apply andb_prop in K as [K1 K2]. apply andb_prop in K1 as [_ K1]. cbn [snd] in Ho. specialize (Ho K1). specialize (IH K2). cbn [fold_right map]. rewrite !app_str_length. lia. }
  induction o using pyobj_rect'; intros K; try discriminate.
  - cbn [shown osize]. unfold str_repr. cbv zeta. cbn [String.length]. rewrite app_str_length. cbn [String.length]. lia.
  - cbn [shown osize made_of_calls] in *. specialize (L l H K). pose proof (concat_length (map show l)) as C. rewrite !app_str_length. cbn [String.length]. lia.
  - cbn [made_of_calls] in K. apply andb_prop in K as [K1 K2]. destruct (name_head _ K1) as [d [t [-> _]]]. specialize (L l H K2). pose proof (concat_length (map show l)) as C.
    cbn [shown osize] in *. rewrite !app_str_length. cbn [String.length]. lia.
  - cbn [made_of_calls] in K. apply andb_prop in K as [K K3]. apply andb_prop in K as [K1 K2]. destruct (name_head _ K1) as [d [t [-> _]]]. specialize (L l H K2). specialize (L' k H0 K3).
    pose proof (concat_length (map show l ++ map (fun lv : string * pyobj => let (l, v) := lv in (l ++ "=" ++ show v)%string) k)) as C. rewrite fold_len_app in C.
    cbn [shown osize] in *. rewrite !app_str_length. cbn [String.length]. lia.
Qed.

Lemma read_shown o : made_of_calls o = true -> read_expr (show o) = Some (calls o).
Proof.
  intros H. unfold read_expr. pose proof (shown_read o H (2 * String.length (show o)) "") as E. rewrite app_str_nil in E. rewrite E; [reflexivity| |exact I].
  pose proof (size_length o H). lia.
Qed.
Lemma calls_known o : made_of_calls o = true -> printer_known o = true.
Proof.
  induction o using pyobj_rect'; intros K; try discriminate; try reflexivity; cbn [made_of_calls printer_known] in *.
  - rewrite forallb_forall in *. rewrite Forall_forall in H. auto.
  - apply andb_prop in K as [_ K]. rewrite forallb_forall in *. rewrite Forall_forall in H. auto.
  - apply andb_prop in K as [K K3]. apply andb_prop in K as [_ K2]. rewrite forallb_forall in *. rewrite Forall_forall in *. apply andb_true_intro. rewrite !forallb_forall. split; [auto|].
    intros [lb v] Hv. specialize (K3 _ Hv). apply andb_prop in K3 as [_ K3]. exact (H0 _ Hv K3).
Qed.
End Text.

(** ** Terms and model descriptions *)
Section Desc.
Variable norm : string -> string.
Lemma factors_calls t : forallb made_of_calls (map show_factor t) = true.
Proof. induction t; [reflexivity|exact IHt]. Qed.
Lemma terms_calls ts : forallb made_of_calls (map show_term ts) = true.
Proof.
  induction ts as [|t ts IH]; [reflexivity|]. cbn [map forallb]. rewrite IH. cbn [show_term made_of_calls forallb]. rewrite factors_calls. reflexivity.
Qed.
Lemma desc_calls d : made_of_calls (show_desc d) = true.
Proof. unfold show_desc. cbn [made_of_calls forallb]. rewrite !terms_calls. reflexivity. Qed.
Lemma term_calls t : made_of_calls (show_term t) = true.
Proof. unfold show_term. cbn [made_of_calls forallb]. rewrite factors_calls. reflexivity. Qed.

Lemma heights t : height (show_term t) <= 3.
Proof.
  cbn [show_term height fold_right]. assert (fold_right (fun o h => Nat.max (height o) h) 0 (map show_factor t) <= 1); [|lia].
  induction t as [|f t IH]; cbn [map fold_right]; [lia|]. cbn [show_factor height fold_right]. lia.
Qed.
Lemma heights_desc d : height (show_desc d) <= 5.
Proof.
  assert (L : forall ts, fold_right (fun o h => Nat.max (height o) h) 0 (map show_term ts) <= 3).
  { induction ts as [|t ts IH]; cbn [map fold_right]; [lia|]. pose proof (heights t). lia. }
  unfold show_desc. cbn [height fold_right]. pose proof (L (lhs_termlist d)). pose proof (L (rhs_termlist d)). lia.
Qed.

Lemma factors_built t : (forall f, In f t -> norm f = f) -> build_all (build_factor norm) (map calls (map show_factor t)) = Some t.
Proof.
  induction t as [|f t IH]; intros H; [reflexivity|]. cbn [map build_all show_factor calls build_factor]. change (String.eqb "EvalFactor" "EvalFactor") with true. cbv iota.
  rewrite (H f) by now left. rewrite IH by (intros g Hg; apply H; now right). reflexivity.
Qed.
Lemma term_built t : NoDup t -> (forall f, In f t -> norm f = f) -> build_term norm (calls (show_term t)) = Some t.
Proof.
  intros Hd H. unfold show_term. cbn [calls map build_term]. change (String.eqb "Term" "Term") with true. cbv iota. rewrite factors_built by exact H. cbn [option_map]. now rewrite mk_term_id.
Qed.
Lemma terms_built ts : (forall t, In t ts -> NoDup t /\ forall f, In f t -> norm f = f) -> build_all (build_term norm) (map calls (map show_term ts)) = Some ts.
Proof.
  induction ts as [|t ts IH]; intros H; [reflexivity|]. cbn [map build_all]. destruct (H t) as [H1 H2]; [now left|]. rewrite term_built by assumption.
  rewrite IH by (intros u Hu; apply H; now right). reflexivity.
Qed.
Lemma desc_built d : (forall t, In t (lhs_termlist d ++ rhs_termlist d) -> NoDup t /\ forall f, In f t -> norm f = f) ->
  distinct term_eqb (lhs_termlist d) -> distinct term_eqb (rhs_termlist d) -> build_desc norm (calls (show_desc d)) = Some d.
Proof.
  intros H D1 D2. destruct d as [l r]. cbn [lhs_termlist rhs_termlist] in *. unfold show_desc. cbn [lhs_termlist rhs_termlist calls map build_desc].
  change (String.eqb "ModelDesc" "ModelDesc" && Nat.eqb (List.length [("lhs_termlist", TList (map calls (map show_term l))); ("rhs_termlist", TList (map calls (map show_term r)))]) 2) with true. cbv iota.
  change (keyword "lhs_termlist" [("lhs_termlist", TList (map calls (map show_term l))); ("rhs_termlist", TList (map calls (map show_term r)))]) with (Some (TList (map calls (map show_term l)))).
  change (keyword "rhs_termlist" [("lhs_termlist", TList (map calls (map show_term l))); ("rhs_termlist", TList (map calls (map show_term r)))]) with (Some (TList (map calls (map show_term r)))).
  cbv iota. rewrite !terms_built by (intros t Ht; apply H, in_or_app; auto). unfold mk_model_desc. now rewrite !uniq_terms_id.
Qed.
End Desc.

(** Different expressions come from different descriptions. *)
Lemma map_inj {A B} (f : A -> B) l r : (forall x y, f x = f y -> x = y) -> map f l = map f r -> l = r.
Proof. intros Hf. revert r. induction l as [|x l IH]; intros [|y r] H; try discriminate; [reflexivity|]. injection H as H1 H2. f_equal; auto. Qed.
Lemma factor_calls_inj f g : calls (show_factor f) = calls (show_factor g) -> f = g.
Proof. intros H. injection H as ->. reflexivity. Qed.
Lemma term_calls_inj t u : calls (show_term t) = calls (show_term u) -> t = u.
Proof. unfold show_term. cbn [calls map]. intros H. injection H as H. rewrite !map_map in H. eapply map_inj; [|exact H]. exact factor_calls_inj. Qed.
Lemma desc_calls_inj d e : calls (show_desc d) = calls (show_desc e) -> d = e.
Proof.
  destruct d as [l r], e as [l' r']. unfold show_desc. cbn [calls map lhs_termlist rhs_termlist]. intros H. injection H as H1 H2. rewrite !map_map in H1, H2.
  f_equal; [exact (map_inj (fun t => calls (show_term t)) _ _ term_calls_inj H1)|exact (map_inj (fun t => calls (show_term t)) _ _ term_calls_inj H2)].
Qed.

(** The text, written out. *)
Lemma term_shown r t : shown r (show_term t) = term_text r t.
Proof.
  unfold show_term, term_text. cbn [shown map app String.concat]. rewrite map_map, !app_str_assoc. cbn [String.append]. reflexivity.
Qed.
Lemma desc_shown r d : shown r (show_desc d) = desc_text r d.
Proof.
  unfold show_desc, desc_text. cbn [shown map app String.concat]. rewrite !map_map.
  rewrite (map_ext _ _ (term_shown r) (lhs_termlist d)), (map_ext _ _ (term_shown r) (rhs_termlist d)). rewrite !app_str_assoc. cbn [String.append]. reflexivity.
Qed.

Lemma proper_built norm d : proper_desc norm d -> build_desc norm (calls (show_desc d)) = Some d.
Proof. intros [H [D1 D2]]. apply desc_built; [exact H|now apply distinct_nth|now apply distinct_nth]. Qed.
Lemma formula_proper norm n d : (forall s, norm (norm s) = norm s) -> from_tree norm n = Ok d -> proper_desc norm d.
Proof.
  intros Hid Hm. destruct (from_tree_tidy _ _ _ Hm) as [[D1 [N1 _]] [D2 [N2 _]]]. split; [|split; assumption].
  intros t Ht. split.
  - apply in_app_or in Ht as [Ht|Ht]; [rewrite Forall_forall in N1; auto|rewrite Forall_forall in N2; auto].
  - intros f Hf. assert (E : exists a, mem norm a t \/ t = []).
    { destruct (from_tree_meaning _ _ _ Hm) as [[tok [r [o [-> [Lem Lr]]]]]|[tok [l [r [o [-> [Ll Lr]]]]]]].
      - rewrite Lem in Ht. exists r. destruct (lists_in _ _ _ Lr Ht) as [A|[A _]]; auto.
      - apply in_app_or in Ht as [Ht|Ht]; [exists l; destruct (lists_in _ _ _ Ll Ht) as [A|[A _]]|exists r; destruct (lists_in _ _ _ Lr Ht) as [A|[A _]]]; auto. }
    destruct E as [a [E| ->]]; [|contradiction]. destruct (mem_leaf norm a t E f Hf) as [code [_ ->]]. apply Hid.
Qed.
