(** Names can be taken apart again. *)
From Coq Require Import Ascii.
From Verif Require Import Base NameSpec.
Open Scope string_scope.
Open Scope list_scope.

Lemma app_assoc_s (a b c : string) : ((a ++ b) ++ c = a ++ (b ++ c))%string.
Proof. induction a as [|x a IH]; cbn; [reflexivity|]. now rewrite IH. Qed.
Lemma app_empty_r (a : string) : (a ++ "")%string = a.
Proof. induction a as [|x a IH]; cbn; [reflexivity|]. now rewrite IH. Qed.
Lemma app_split (a : string) : forall b r q, (a ++ r = b ++ q)%string ->
  exists u, (b = (a ++ u)%string /\ r = (u ++ q)%string) \/ (a = (b ++ u)%string /\ q = (u ++ r)%string).
Proof.
  induction a as [|x a IH]; intros [|y b] r q H; cbn in H.
  - exists "". left. split; [reflexivity|exact H].
  - exists (String y b). left. split; [reflexivity|exact H].
  - exists (String x a). right. split; [reflexivity|now symmetry].
  - injection H as -> H. destruct (IH b r q H) as [u [[-> ->]|[-> ->]]]; exists u; [left|right]; split; reflexivity.
Qed.
Lemma app_last_inj (a b : string) x y : (a ++ String x "" = b ++ String y "")%string -> a = b /\ x = y.
Proof.
  revert b. induction a as [|c a IH]; intros [|e b] H; cbn in H.
  - injection H as ->. auto.
  - injection H as -> H. destruct b; discriminate.
  - injection H as -> H. destruct a; discriminate.
  - injection H as -> H. destruct (IH b H) as [-> ->]. auto.
Qed.

Lemma scan_app a : forall d b, scan d (a ++ b)%string = match scan d a with Some e => scan e b | None => None end.
Proof.
  induction a as [|c a IH]; intros d b; cbn [scan String.append]; [reflexivity|]. destruct (opens c); [apply IH|].
  destruct (closes c); [destruct d; [reflexivity|apply IH]|]. destruct (_ && _); [reflexivity|apply IH].
Qed.
Lemma depth_app a : forall d b, depth d (a ++ b)%string = match depth d a with Some e => depth e b | None => None end.
Proof.
  induction a as [|c a IH]; intros d b; cbn [depth String.append]; [reflexivity|]. destruct (opens c); [apply IH|].
  destruct (closes c); [destruct d; [reflexivity|apply IH]|apply IH].
Qed.
Lemma depth_shift a : forall d e, depth d a = Some e -> depth (S d) a = Some (S e).
Proof.
  induction a as [|c a IH]; intros d e; cbn [depth]; [congruence|]. destruct (opens c); [apply IH|].
  destruct (closes c); [destruct d; [discriminate|apply IH]|apply IH].
Qed.
Lemma depth_scan a : forall d e, depth d a = Some e -> scan (S d) a = Some (S e).
Proof.
  induction a as [|c a IH]; intros d e; cbn [depth scan]; [congruence|]. destruct (opens c); [apply IH|].
  destruct (closes c); [destruct d; [discriminate|apply IH]|]. cbn [Nat.eqb]. rewrite andb_false_r. apply IH.
Qed.
Lemma scan_depth a : forall d e, scan d a = Some e -> depth d a = Some e.
Proof.
  induction a as [|c a IH]; intros d e; cbn [depth scan]; [congruence|]. destruct (opens c); [apply IH|].
  destruct (closes c); [destruct d; [discriminate|apply IH]|]. destruct (_ && _); [discriminate|apply IH].
Qed.

Lemma bracketed_scan s : bracketed s -> s <> "" /\ scan 0 s = Some 0.
Proof.
  intros [inner [-> H]]. split; [discriminate|]. cbn [String.append]. change (scan 0 (String "[" (inner ++ "]"))) with (scan 1 (inner ++ "]")%string).
  rewrite scan_app, (depth_scan _ _ _ H). reflexivity.
Qed.
Lemma bracketed_ends s : bracketed s -> exists r, s = (r ++ "]")%string.
Proof. intros [inner [-> _]]. exists ("[" ++ inner)%string. reflexivity. Qed.
(** Inside a bracketed text, brackets are open. *)
Lemma bracketed_prefix s u v : bracketed s -> s = (u ++ v)%string -> u <> "" -> v <> "" -> depth 0 u <> Some 0.
Proof.
  intros [inner [-> H]] E Hu Hv. destruct u as [|c u]; [congruence|]. cbn in E. injection E as <- E.
  assert (Hin : exists w, inner = (u ++ w)%string).
  { destruct (app_split _ _ _ _ E) as [w [[-> Hw]|[-> Hw]]]; [|eauto].
    destruct w as [|x w]; [exists ""; now rewrite !app_empty_r|]. cbn in Hw. injection Hw as <- Hw. destruct w; [|discriminate]. cbn in Hw. congruence. }
  destruct Hin as [w ->]. rewrite depth_app in H. destruct (depth 0 u) as [k|] eqn:Ek; [|discriminate].
  cbn [depth opens Ascii.eqb]. change (depth 1 u <> Some 0). rewrite (depth_shift _ _ _ Ek). discriminate.
Qed.

(** A piece of a name is a factor, then a suffix or nothing. *)
Definition suffix (s : string) : Prop := s = "" \/ bracketed s.
Lemma piece_bare f s : plain f -> suffix s -> bare (f ++ s)%string.
Proof.
  intros [[Hne Hs] _] Hsuf. split; [destruct f; [congruence|discriminate]|]. rewrite scan_app, Hs.
  destruct Hsuf as [->|Hb]; [reflexivity|]. now apply bracketed_scan.
Qed.
Lemma piece_inj f1 s1 f2 s2 : plain f1 -> plain f2 -> suffix s1 -> suffix s2 -> (f1 ++ s1 = f2 ++ s2)%string -> f1 = f2 /\ s1 = s2.
Proof.
  assert (W : forall f1 s1 f2 s2 u, plain f1 -> plain f2 -> suffix s1 -> suffix s2 -> f2 = (f1 ++ u)%string -> s1 = (u ++ s2)%string -> f1 = f2 /\ s1 = s2).
  { clear. intros f1 s1 f2 s2 u [[P1 Q1] [L1 _]] [[P2 Q2] [L2 _]] H1 H2 -> ->.
    destruct u as [|x u]; [rewrite app_empty_r; auto|]. exfalso.
    destruct H2 as [->|H2].
    - rewrite app_empty_r in H1. destruct H1 as [|H1]; [discriminate|]. destruct (bracketed_ends _ H1) as [r E].
      apply (L2 (f1 ++ r)%string). now rewrite E, app_assoc_s.
    - destruct H1 as [H1|H1]; [discriminate|].
      rewrite scan_app, Q1 in Q2. apply scan_depth in Q2.
      refine (bracketed_prefix _ (String x u) s2 H1 eq_refl ltac:(discriminate) _ Q2). now apply bracketed_scan. }
  intros P1 P2 H1 H2 E. destruct (app_split _ _ _ _ E) as [u [[A B]|[A B]]].
  - eapply W; [..|exact A|exact B]; assumption.
  - destruct (W f2 s2 f1 s1 u P2 P1 H2 H1 A B). auto.
Qed.

(** * Names of several pieces *)
Lemma concat_cons2 x y l : String.concat ":" (x :: y :: l) = (x ++ String ":" (String.concat ":" (y :: l)))%string.
Proof. reflexivity. Qed.
Lemma head_inj a b r q : bare a -> bare b -> (r = "" \/ exists r', r = String ":" r') -> (q = "" \/ exists q', q = String ":" q') ->
  (a ++ r = b ++ q)%string -> a = b /\ r = q.
Proof.
  assert (W : forall a b r q u, bare a -> bare b -> (r = "" \/ exists r', r = String ":" r') -> b = (a ++ u)%string -> r = (u ++ q)%string -> a = b /\ r = q).
  { clear. intros a b r q u [_ Ha] [_ Hb] Hr -> ->. destruct u as [|x u]; [rewrite app_empty_r; auto|]. exfalso.
    destruct Hr as [Hr|[r' Hr]]; [discriminate|]. cbn in Hr. injection Hr as -> _. rewrite scan_app, Ha in Hb. discriminate. }
  intros Ha Hb Hr Hq E. destruct (app_split _ _ _ _ E) as [u [[A B]|[A B]]].
  - eapply W; [..|exact A|exact B]; assumption.
  - destruct (W b a q r u Hb Ha Hq A B). auto.
Qed.
Lemma concat_inj l : forall m, Forall bare l -> Forall bare m -> l <> [] -> m <> [] -> String.concat ":" l = String.concat ":" m -> l = m.
Proof.
  induction l as [|a l IH]; intros [|b m] Hl Hm Nl Nm E; try congruence. inversion Hl as [|? ? Ha Hl']; subst. inversion Hm as [|? ? Hb Hm']; subst.
  assert (Ta : exists r, (r = "" \/ exists r', r = String ":" r') /\ String.concat ":" (a :: l) = (a ++ r)%string /\ (r = "" -> l = []) /\ (forall r', r = String ":" r' -> l <> [] /\ r' = String.concat ":" l)).
  { destruct l as [|x l]; [exists ""|exists (String ":" (String.concat ":" (x :: l)))].
    - split; [auto|]. split; [cbn; now rewrite app_empty_r|]. split; [reflexivity|discriminate].
    - split; [eauto|]. split; [reflexivity|]. split; [discriminate|]. intros r' [= <-]. split; [discriminate|reflexivity]. }
  assert (Tb : exists r, (r = "" \/ exists r', r = String ":" r') /\ String.concat ":" (b :: m) = (b ++ r)%string /\ (r = "" -> m = []) /\ (forall r', r = String ":" r' -> m <> [] /\ r' = String.concat ":" m)).
  { destruct m as [|x m]; [exists ""|exists (String ":" (String.concat ":" (x :: m)))].
    - split; [auto|]. split; [cbn; now rewrite app_empty_r|]. split; [reflexivity|discriminate].
    - split; [eauto|]. split; [reflexivity|]. split; [discriminate|]. intros r' [= <-]. split; [discriminate|reflexivity]. }
  destruct Ta as [r [Hr [Er [Ar Br]]]], Tb as [q [Hq [Eq [Aq Bq]]]]. rewrite Er, Eq in E.
  destruct (head_inj a b r q Ha Hb Hr Hq E) as [-> ->]. f_equal.
  destruct Hq as [->|[q' ->]]; [rewrite Ar, Aq by reflexivity; reflexivity|].
  destruct (Br q' eq_refl) as [N1 E1], (Bq q' eq_refl) as [N2 E2]. apply IH; try assumption. congruence.
Qed.
Lemma concat_single s : String.concat ":" [s] = s.
Proof. reflexivity. Qed.
