(** The calls of stateful transforms in trees, their text, and their meaning. *)
From Coq Require Import Permutation Sorted.
From Verif Require Import Base TokensModel EvalModel EvalSpec EvalMarkProofs EvalCaptureProofs EvalTopProofs EvalTextProofs EvalProofs PyLexModel PyLexProofs EvalLexProofs
  DescModel CategoricalModel PipeModel FitModel FitSpec FitProofs EntryModel CodeModel CodeSpec CodeTreeProofs.
Open Scope string_scope.
Open Scope list_scope.

Section Tree.
Context {val op St D : Type}.
Local Notation cx := (@cx op).
Local Notation part := (ptok + cx)%type.
Variable look : D -> @namespace val.
Variable pybuiltins : @namespace val.
Variable apply : op -> list val -> result val.
Variable truth : val -> result bool.
Variable call : val -> list (option ptok) -> list val -> result val.
Variable call_method : val -> string -> list (option ptok) -> list val -> result val.
Variable stateful : val -> bool.
Variable t_new : val -> St.
Variable t_chunk : val -> list (option ptok) -> St -> list val -> result St.
Variable t_finish : val -> St -> result St.
Variable t_transform : val -> list (option ptok) -> St -> list val -> result val.
Variable builtins : @namespace val.
Variable e : @env val.
Local Notation tr := (transform_of stateful builtins e).
Local Notation ncalls := (@ncalls val op stateful builtins e).
Local Notation nodes := (@nodes val op stateful builtins e).
Local Notation pnodes := (@pnodes val op stateful builtins e).
Local Notation places := (@places val op stateful builtins e).
Local Notation with_objects := (@with_objects val op stateful builtins e).
Local Notation pwith := (@parts_with_objects val op stateful builtins e).
Local Notation meaning := (@meaning val op St D look pybuiltins apply truth call call_method stateful t_new t_chunk t_finish t_transform builtins e).
Local Notation pmeaning := (@pmeaning val op St D look pybuiltins apply truth call call_method stateful t_new t_chunk t_finish t_transform builtins e).
Local Notation class_of := (class_of t_new t_chunk t_finish t_transform).

Definition pnames (parts : list part) : list string := flat_map (fun p => match p with inl _ => [] | inr x => tree_names x end) parts.

(** A call in its surroundings. *)
Definition found (i : nat) (toks toks' : list ptok) (l : list (@node op)) (names : list string) (n : @node op) : Prop :=
  let '(p, (j, (s, parts))) := n in
  (exists v, tr s = Some v) /\
  (exists before after, toks = before ++ toks_of (CCall s parts) ++ after /\ p = i + List.length before) /\
  (exists before after, toks' = before ++ toks_of (CMeth (obj_name j s) "transform" (pwith (S j) parts)) ++ after) /\
  incl (pnodes (p + 2) (S j) parts) l /\ incl (s :: pnames parts) names.
Lemma found_in a b a' b' i' i toks toks' l names L N n : found i toks toks' l names n -> i = i' + List.length a -> incl l L -> incl names N ->
  found i' (a ++ toks ++ b) (a' ++ toks' ++ b') L N n.
Proof.
  destruct n as [p [j [s parts]]]. unfold found. intros [H1 [[x [y [-> ->]]] [[x' [y' ->]] [H4 H5]]]] -> HL HN. split; [exact H1|]. split; [|split; [|split]].
  - exists (a ++ x), (y ++ b). split; [now rewrite <- !app_assoc|]. rewrite app_length. lia.
  - exists (a' ++ x'), (y' ++ b'). now rewrite <- !app_assoc.
  - eapply incl_tran; eassumption.
  - eapply incl_tran; eassumption.
Qed.
Lemma found_parts parts : Forall (on_part (fun t => forall i k n, In n (nodes i k t) -> found i (toks_of t) (toks_of (with_objects k t)) (nodes i k t) (tree_names t) n)) parts ->
  forall i k n, In n (pnodes i k parts) -> found i (parts_toks parts) (parts_toks (pwith k parts)) (pnodes i k parts) (pnames parts) n.
Proof.
  induction 1 as [|p r Hp _ IH]; intros i k n Hn; [destruct Hn|]. destruct p as [tok|x]; cbn [CodeTreeProofs.pnodes] in *; cbn [CodeSpec.parts_with_objects]; rewrite !parts_toks_cons.
  - pose proof (IH _ _ _ Hn) as F. apply (found_in [tok] [] [tok] [] i) with (L := pnodes (S i) k r) (N := pnames r) in F; [|cbn; lia|apply incl_refl..]. now rewrite !app_nil_r in F.
  - cbn in Hp. apply in_app_or in Hn. destruct Hn as [Hn|Hn].
    + pose proof (Hp _ _ _ Hn) as F. refine (found_in [] _ [] _ i _ _ _ _ _ _ _ _ F _ _ _); [cbn; lia|now apply incl_appl|]. cbn. now apply incl_appl.
    + pose proof (IH _ _ _ Hn) as F. eapply (found_in _ [] _ []) in F; [rewrite !app_nil_r in F; exact F|reflexivity|now apply incl_appr|]. cbn. now apply incl_appr.
Qed.
Lemma node_found t : forall i k n, In n (nodes i k t) -> found i (toks_of t) (toks_of (with_objects k t)) (nodes i k t) (tree_names t) n.
Proof.
  induction t as [s|o parts IH|b c f IHb IHc IHf|s parts IH|o m parts IH] using cx_ind'; intros i k n Hn.
  - destruct Hn.
  - rewrite with_node, !toks_node. now apply found_parts.
  - cbn [CodeSpec.nodes CodeSpec.with_objects toks_of tree_names] in *. apply in_app_or in Hn. destruct Hn as [Hn|Hn]; [|apply in_app_or in Hn; destruct Hn as [Hn|Hn]].
    + refine (found_in [] _ [] _ i _ _ _ _ _ _ _ _ (IHb _ _ _ Hn) _ _ _); [cbn; lia|now apply incl_appl..].
    + pose proof (IHc _ _ _ Hn) as F.
      eapply (found_in (toks_of b ++ [(PNAME, "if")]) ((PNAME, "else") :: toks_of f) (toks_of (with_objects k b) ++ [(PNAME, "if")]) ((PNAME, "else") :: toks_of (with_objects (k + ncalls b + ncalls c) f)) i) in F.
      * rewrite <- !app_assoc in F. exact F.
      * rewrite app_length. cbn. lia.
      * apply incl_appr. now apply incl_appl.
      * apply incl_appr. now apply incl_appl.
    + pose proof (IHf _ _ _ Hn) as F.
      eapply (found_in (toks_of b ++ (PNAME, "if") :: toks_of c ++ [(PNAME, "else")]) [] (toks_of (with_objects k b) ++ (PNAME, "if") :: toks_of (with_objects (k + ncalls b) c) ++ [(PNAME, "else")]) [] i) in F.
      * rewrite !app_nil_r, <- !app_assoc in F. cbn [app] in F. rewrite <- !app_assoc in F. exact F.
      * rewrite !app_length. cbn. rewrite app_length. cbn. lia.
      * apply incl_appr. now apply incl_appr.
      * apply incl_appr. now apply incl_appr.
  - rewrite with_call, toks_call. rewrite nodes_call in *. cbn [tree_names]. fold (pnames parts). destruct (tr s) as [v|] eqn:E.
    + destruct Hn as [<-|Hn].
      * cbn. split; [eauto|]. split; [|split; [|split]].
        -- exists [], []. cbn. rewrite app_nil_r. fold (parts_toks parts). split; [reflexivity|lia].
        -- exists [], []. cbn. now rewrite app_nil_r.
        -- intros x Hx. now right.
        -- apply incl_refl.
      * rewrite toks_meth. pose proof (found_parts parts IH _ _ _ Hn) as F.
        eapply (found_in [(PNAME, s); (POTHER, "(")] [(POTHER, ")")] (method_of (obj_name k s) "transform" ++ [(POTHER, "(")]) [(POTHER, ")")] i) in F; [rewrite <- !app_assoc in F; exact F|reflexivity|now apply incl_tl, incl_refl|now apply incl_tl, incl_refl].
    + rewrite toks_call. pose proof (found_parts parts IH _ _ _ Hn) as F.
      eapply (found_in [(PNAME, s); (POTHER, "(")] [(POTHER, ")")] [(PNAME, s); (POTHER, "(")] [(POTHER, ")")] i) in F; [exact F|reflexivity|now apply incl_refl|now apply incl_tl, incl_refl].
  - rewrite with_meth, !toks_meth. rewrite nodes_meth in *. cbn [tree_names]. fold (pnames parts). pose proof (found_parts parts IH _ _ _ Hn) as F.
    eapply (found_in (method_of o m ++ [(POTHER, "(")]) [(POTHER, ")")] (method_of o m ++ [(POTHER, "(")]) [(POTHER, ")")] i) in F; [rewrite <- !app_assoc in F; exact F|reflexivity|now apply incl_refl|now apply incl_tl, incl_refl].
Qed.

(** The calls of the meaning are those of the tree. *)
Definition call_of (n : @node op) : option (string * (@tclass val St * list (@texpr val D St))) :=
  let '(p, (j, (s, parts))) := n in option_map (fun v => (obj_name j s, (class_of v (around parts), pmeaning (S j) parts))) (tr s).
Lemma pcalls_perm parts : Forall (on_part (fun t => forall i k, Permutation (map call_of (nodes i k t)) (map Some (calls (meaning k t))))) parts ->
  forall i k, Permutation (map call_of (pnodes i k parts)) (map Some (flat_map calls (pmeaning k parts))).
Proof.
  induction 1 as [|p r Hp _ IH]; intros i k; [constructor|]. destruct p as [tok|x]; cbn [CodeTreeProofs.pnodes CodeTreeProofs.pmeaning flat_map]; [apply IH|].
  cbn in Hp. rewrite !map_app. apply Permutation_app; [apply Hp|apply IH].
Qed.
Lemma calls_perm t : forall i k, Permutation (map call_of (nodes i k t)) (map Some (calls (meaning k t))).
Proof.
  induction t as [s|o parts IH|b c f IHb IHc IHf|s parts IH|o m parts IH] using cx_ind'; intros i k.
  - constructor.
  - rewrite nodes_node, meaning_node. cbn [calls]. now apply pcalls_perm.
  - cbn [CodeSpec.nodes CodeSpec.meaning calls]. rewrite !map_app. rewrite !app_assoc. apply Permutation_app; [|apply IHf]. etransitivity; [apply Permutation_app_comm|]. apply Permutation_app; [apply IHc|apply IHb].
  - rewrite nodes_call, meaning_call. destruct (tr s) as [v|] eqn:E.
    + cbn [map calls]. unfold call_of at 1. rewrite E. cbn [option_map]. constructor. now apply pcalls_perm.
    + cbn [calls flat_map app]. now apply pcalls_perm.
  - rewrite nodes_meth, meaning_meth. cbn [calls flat_map app]. now apply pcalls_perm.
Qed.
Lemma pcalls_perm' parts i k : Permutation (map call_of (pnodes i k parts)) (map Some (flat_map calls (pmeaning k parts))).
Proof. apply pcalls_perm. apply Forall_forall. intros [tok|x] _; cbn; [exact Logic.I|]. apply calls_perm. Qed.
(** The objects. *)
Lemma call_of_object n c : call_of n = Some c -> fst c = object_of n.
Proof. destruct n as [p [j [s parts]]]. cbn. destruct (tr s); [|discriminate]. now intros [= <-]. Qed.
Lemma some_map {A B} (f : A -> option B) l m : map f l = map Some m -> forall (g : B -> string) (h : A -> string), (forall a b, f a = Some b -> g b = h a) -> map h l = map g m.
Proof. revert m. induction l as [|a l IH]; intros [|b m] E g h H; try discriminate; [reflexivity|]. cbn in E. injection E as E1 E2. cbn. f_equal; [symmetry; auto|auto]. Qed.
Lemma perm_objects l m : Permutation (map call_of l) (map Some m) -> Permutation (map object_of l) (map fst m).
Proof.
  intros H. destruct (Permutation_map_inv Some m (Permutation_sym (Permutation_sym H))) as [m' [E P]].
  rewrite (some_map call_of l m' E fst object_of) by (intros; now apply call_of_object). apply Permutation_map. now apply Permutation_sym.
Qed.
Lemma call_node l m o c args : Permutation (map call_of l) (map Some m) -> In (o, (c, args)) m ->
  exists p j s parts v, In (p, (j, (s, parts))) l /\ o = obj_name j s /\ tr s = Some v /\ c = class_of v (around parts) /\ args = pmeaning (S j) parts.
Proof.
  intros P H. assert (K : In (Some (o, (c, args))) (map call_of l)) by (eapply Permutation_in; [apply Permutation_sym; exact P|now apply in_map]).
  apply in_map_iff in K. destruct K as [[p [j [s parts]]] [K Hn]]. cbn in K. destruct (tr s) as [v|] eqn:E; [|discriminate]. cbn in K. injection K as <- <- <-. exists p, j, s, parts, v. auto.
Qed.
Lemma node_call l m p j s parts v : Permutation (map call_of l) (map Some m) -> In (p, (j, (s, parts))) l -> tr s = Some v -> In (obj_name j s, (class_of v (around parts), pmeaning (S j) parts)) m.
Proof.
  intros P H E. apply (in_map call_of) in H. cbn in H. rewrite E in H. eapply Permutation_in in H; [|exact P]. apply in_map_iff in H. destruct H as [x [[= ->] H]]. exact H.
Qed.

(** Numbers decide: the objects of a tree are distinct. *)
Lemma objects_nodup_list (l : list (@node op)) n k : map number l = seq k n -> NoDup (map object_of l).
Proof.
  revert k n. induction l as [|x l IH]; intros k n H; [constructor|]. destruct n as [|n]; [discriminate|]. cbn [map seq] in H. injection H as Hx H. cbn. constructor; [|eapply IH; exact H].
  intros K. apply in_map_iff in K. destruct K as [y [E Hy]]. unfold object_of in E. apply obj_name_inj in E. apply (in_map number) in Hy. rewrite H in Hy. apply in_seq in Hy. lia.
Qed.
Lemma tree_calls_nodup t k : NoDup (map fst (calls (meaning k t))).
Proof.
  eapply Permutation_NoDup; [apply perm_objects, (calls_perm t 0 k)|]. eapply objects_nodup_list. apply numbers.
Qed.

(** * Brackets *)
Fixpoint low (l : list ptok) : Z := match l with [] => 0 | t :: r => Z.min 0 (dz t + low r) end.
Lemma low_app a b : low (a ++ b) = Z.min (low a) (depth a + low b).
Proof. induction a as [|t a IH]; [cbn; destruct (low b) eqn:E; [reflexivity|exfalso|lia]|]. { destruct b; cbn in E; lia. } cbn [app low depth]. rewrite IH. fold (dz t). unfold dz. lia. Qed.
Lemma low_le l : (low l <= 0)%Z.
Proof. destruct l; cbn; lia. Qed.
Lemma low_prefix l : (0 <= low l)%Z <-> forall a b, l = a ++ b -> (0 <= depth a)%Z.
Proof.
  induction l as [|t l IH] using rev_ind.
  - split; [|intros _; cbn; lia]. intros _ [|x a] b E; [cbn; lia|discriminate].
  - rewrite low_app. split.
    + intros H a b E. destruct b as [|y b] using rev_ind; [|clear IHb].
      * rewrite app_nil_r in E. subst a. rewrite depth_app. cbn [low depth] in *. unfold dz in H. lia.
      * rewrite app_assoc in E. apply app_inj_tail in E. destruct E as [E _]. apply (proj1 IH) with (b := b); [lia|exact E].
    + intros H. assert (L : (0 <= low l)%Z) by (apply IH; intros a b E; apply (H a (b ++ [t])); subst l; now rewrite <- app_assoc).
      pose proof (H (l ++ [t]) [] (eq_sym (app_nil_r _))) as H1. pose proof (H l [t] eq_refl) as H2. rewrite depth_app in H1. cbn [low depth] in *. unfold dz. lia.
Qed.
Lemma balanced_low l : balanced l <-> depth l = 0%Z /\ (0 <= low l)%Z.
Proof. unfold balanced. now rewrite low_prefix. Qed.
Definition plain_word (s : string) : Prop := opens s = false /\ closes s = false.
Lemma word_flat ty s : plain_word s -> dz (ty, s) = 0%Z.
Proof. intros [A B]. unfold dz. cbn [snd]. now rewrite A, B. Qed.
Definition same_brackets (a b : list ptok) : Prop := depth a = depth b /\ low a = low b.
Lemma same_app a a' b b' : same_brackets a a' -> same_brackets b b' -> same_brackets (a ++ b) (a' ++ b').
Proof. intros [A1 A2] [B1 B2]. split; [rewrite !depth_app|rewrite !low_app]; congruence. Qed.
Lemma same_refl a : same_brackets a a.
Proof. now split. Qed.
Lemma object_word j s : plain_word (obj_name j s).
Proof. destruct (obj_plain j s) as [A [B _]]. now split. Qed.
Lemma method_flat o m : plain_word o -> plain_word m -> depth (method_of o m) = 0%Z /\ low (method_of o m) = 0%Z.
Proof. intros Ho Hm. unfold method_of. rewrite !depth_cons. cbn [low depth]. rewrite (word_flat PNAME o Ho), (word_flat PNAME m Hm). now cbn. Qed.
Lemma same_method s o : plain_word s -> plain_word o -> same_brackets [(PNAME, s)] (method_of o "transform").
Proof. intros Hs Ho. destruct (method_flat o "transform" Ho) as [A B]; [now split|]. split; [rewrite A, depth_cons|rewrite B; cbn [low]]; now rewrite (word_flat PNAME s Hs). Qed.
Lemma same_parts parts : Forall (on_part (fun t => forall i k, (forall n, In n (nodes i k t) -> plain_word (snd (named n))) -> same_brackets (toks_of t) (toks_of (with_objects k t)))) parts ->
  forall i k, (forall n, In n (pnodes i k parts) -> plain_word (snd (named n))) -> same_brackets (parts_toks parts) (parts_toks (pwith k parts)).
Proof.
  induction 1 as [|p r Hp _ IH]; intros i k Hw; [apply same_refl|]. destruct p as [tok|x]; cbn [CodeTreeProofs.pnodes] in *; cbn [CodeSpec.parts_with_objects]; rewrite !parts_toks_cons.
  - apply same_app; [apply same_refl|]. now apply (IH (S i)).
  - cbn in Hp. apply same_app; [apply (Hp i)|eapply IH]; intros n Hn; apply Hw; apply in_app_iff; [now left|right; exact Hn].
Qed.
Lemma same_tree t : forall i k, (forall n, In n (nodes i k t) -> plain_word (snd (named n))) -> same_brackets (toks_of t) (toks_of (with_objects k t)).
Proof.
  induction t as [s|o parts IH|b c f IHb IHc IHf|s parts IH|o m parts IH] using cx_ind'; intros i k Hw.
  - apply same_refl.
  - rewrite with_node, !toks_node. now apply (same_parts parts IH i).
  - cbn [CodeSpec.nodes CodeSpec.with_objects toks_of] in *. apply same_app; [apply (IHb i); intros n Hn; apply Hw; apply in_app_iff; now left|].
    apply (same_app [(PNAME, "if")] [(PNAME, "if")]); [apply same_refl|]. apply same_app; [eapply IHc; intros n Hn; apply Hw; apply in_app_iff; right; apply in_app_iff; left; exact Hn|].
    apply (same_app [(PNAME, "else")] [(PNAME, "else")]); [apply same_refl|]. eapply IHf; intros n Hn; apply Hw; apply in_app_iff; right; apply in_app_iff; right; exact Hn.
  - rewrite with_call, toks_call. rewrite nodes_call in Hw. destruct (tr s) as [v|].
    + rewrite toks_meth. apply (same_app [(PNAME, s)]); [apply same_method; [apply (Hw _ (or_introl eq_refl))|apply object_word]|].
      apply (same_app [(POTHER, "(")] [(POTHER, "(")]); [apply same_refl|]. apply same_app; [|apply same_refl]. eapply same_parts; [exact IH|]. intros n Hn. apply Hw. right. exact Hn.
    + rewrite toks_call. apply (same_app [(PNAME, s); (POTHER, "(")] [(PNAME, s); (POTHER, "(")]); [apply same_refl|]. apply same_app; [|apply same_refl]. eapply same_parts; [exact IH|exact Hw].
  - rewrite with_meth, !toks_meth. apply same_app; [apply same_refl|]. apply (same_app [(POTHER, "(")] [(POTHER, "(")]); [apply same_refl|]. apply same_app; [|apply same_refl]. rewrite nodes_meth in Hw. eapply same_parts; [exact IH|exact Hw].
Qed.
Lemma same_parts' parts i k : (forall n, In n (pnodes i k parts) -> plain_word (snd (named n))) -> same_brackets (parts_toks parts) (parts_toks (pwith k parts)).
Proof. apply same_parts. apply Forall_forall. intros [tok|x] _; cbn; [exact Logic.I|]. apply same_tree. Qed.
Lemma same_balanced a b : same_brackets a b -> balanced a -> balanced b.
Proof. intros [E1 E2]. rewrite !balanced_low. now rewrite E1, E2. Qed.

(** Bracketed arguments are found by counting. *)
Lemma bracketed_prefix l a b : balanced l -> ((POTHER, "(") :: l ++ [(POTHER, ")")]) = a ++ b -> a <> [] -> b <> [] -> (0 < depth a)%Z.
Proof.
  intros [_ Hl] E Ha Hb. destruct a as [|x a]; [contradiction|]. cbn in E. injection E as <- E. destruct b as [|y b] using rev_ind; [contradiction|]. clear IHb. rewrite app_assoc in E. apply app_inj_tail in E. destruct E as [E _].
  pose proof (Hl a b E). rewrite depth_cons. change (dz (POTHER, "(")) with 1%Z. lia.
Qed.
Lemma bracketed_depth l : balanced l -> depth ((POTHER, "(") :: l ++ [(POTHER, ")")]) = 0%Z.
Proof. intros [H _]. rewrite depth_cons, depth_app, H. reflexivity. Qed.
Lemma argument_list_unique l seg suf suf' : balanced l -> argument_list seg suf -> seg ++ suf = ((POTHER, "(") :: l ++ [(POTHER, ")")]) ++ suf' ->
  seg = (POTHER, "(") :: l ++ [(POTHER, ")")].
Proof.
  intros Hl [[t [r [Es _]]] [Hp Hd]] E. set (args := (POTHER, "(") :: l ++ [(POTHER, ")")]) in *. assert (Ha : args <> []) by discriminate. assert (Hs : seg <> []) by (subst seg; discriminate).
  clear t r Es. destruct (app_eq_app _ _ _ _ E) as [m [[E1 E2]|[E1 E2]]].
  - destruct m as [|x m]; [now rewrite app_nil_r in E1|]. pose proof (Hp _ _ _ E1 Ha) as K. unfold args in K. rewrite bracketed_depth in K by exact Hl. lia.
  - destruct m as [|x m]; [now rewrite app_nil_r in E1|]. exfalso. unfold args in E1. assert (K : (0 < depth seg)%Z) by (eapply bracketed_prefix; [exact Hl|exact E1|exact Hs|discriminate]).
    destruct Hd as [Hd|Hd]; [lia|]. rewrite Hd in E2. discriminate.
Qed.

(** A name that is only introduced by rewriting is found where it is introduced. *)
Lemma rew_pos ob o toks : ~ In (PNAME, o) toks -> o <> "transform" -> forall k pre post, rew_from ob k toks = pre ++ (PNAME, o) :: post ->
  exists a x b, toks = a ++ x :: b /\ ob (k + List.length a) = Some o /\ pre = rew_from ob k a.
Proof.
  intros Hn Ho. induction toks as [|t toks IH]; intros k pre post E; [destruct pre; discriminate|]. change (t :: toks) with ([t] ++ toks) in E. rewrite rew_app in E. unfold rew_from at 1 in E. cbn [List.length seq combine flat_map fst snd] in E. rewrite app_nil_r in E.
  destruct (ob k) as [o'|] eqn:Eo.
  - unfold method_of in E. cbn [app List.length] in E. destruct pre as [|x1 pre].
    + injection E as -> E. exists [], t, toks. rewrite Nat.add_0_r. auto.
    + injection E as <- E. destruct pre as [|x2 pre]; [discriminate|]. injection E as <- E. destruct pre as [|x3 pre]; [injection E as E _; congruence|]. injection E as <- E.
      destruct (IH (fun H => Hn (or_intror H)) (k + 1) pre post E) as [a [x [b [E1 [E2 E3]]]]]. exists (t :: a), x, b. split; [cbn; now rewrite E1|]. split; [cbn; rewrite Nat.add_succ_r; replace (S (k + List.length a)) with (k + 1 + List.length a) by lia; exact E2|].
      change (t :: a) with ([t] ++ a). rewrite rew_app. unfold rew_from at 1. cbn [List.length seq combine flat_map fst snd]. rewrite Eo, E3. reflexivity.
  - cbn [app List.length] in E. destruct pre as [|x1 pre]; [injection E as -> E; exfalso; apply Hn; now left|]. injection E as <- E.
    destruct (IH (fun H => Hn (or_intror H)) (k + 1) pre post E) as [a [x [b [E1 [E2 E3]]]]]. exists (t :: a), x, b. split; [cbn; now rewrite E1|]. split; [cbn; rewrite Nat.add_succ_r; replace (S (k + List.length a)) with (k + 1 + List.length a) by lia; exact E2|].
    change (t :: a) with ([t] ++ a). rewrite rew_app. unfold rew_from at 1. cbn [List.length seq combine flat_map fst snd]. rewrite Eo, E3. reflexivity.
Qed.
Lemma rew_pos_unique ob o toks k pre post pre' post' : ~ In (PNAME, o) toks -> o <> "transform" -> (forall i j, ob i = Some o -> ob j = Some o -> i = j) ->
  rew_from ob k toks = pre ++ (PNAME, o) :: post -> rew_from ob k toks = pre' ++ (PNAME, o) :: post' -> pre = pre'.
Proof.
  intros Hn Ho Hu E E'. destruct (rew_pos ob o toks Hn Ho k pre post E) as [a [x [b [E1 [E2 E3]]]]]. destruct (rew_pos ob o toks Hn Ho k pre' post' E') as [a' [x' [b' [E1' [E2' E3']]]]].
  pose proof (Hu _ _ E2 E2') as L. assert (a = a').
  { assert (H : forall (a a' : list ptok) x x' b b', a ++ x :: b = a' ++ x' :: b' -> List.length a = List.length a' -> a = a').
    { clear. induction a as [|t a IH]; intros [|t' a'] x x' b b' E L; try discriminate; [reflexivity|]. cbn in E. injection E as -> E. f_equal. eapply IH; [exact E|now injection L]. }
    eapply H; [rewrite <- E1; exact E1'|lia]. }
  congruence.
Qed.
End Tree.
