(** Trees of factors' code: tokens, calls and numbering. *)
From Coq Require Import Permutation Sorted.
From Verif Require Import Base TokensModel EvalModel EvalSpec EvalMarkProofs EvalLexProofs EvalTopProofs EvalTextProofs EvalProofs FitModel CodeModel CodeSpec.
Open Scope string_scope.
Open Scope list_scope.

Section Ind.
Context {op : Type}.
Local Notation cx := (@cx op).
Local Notation part := (ptok + cx)%type.
Variable P : cx -> Prop.
Definition on_part (p : part) : Prop := match p with inl _ => True | inr x => P x end.
Hypothesis Hname : forall s, P (CName s).
Hypothesis Hnode : forall o parts, Forall on_part parts -> P (CNode o parts).
Hypothesis Hif : forall b c f, P b -> P c -> P f -> P (CIf b c f).
Hypothesis Hcall : forall s parts, Forall on_part parts -> P (CCall s parts).
Hypothesis Hmeth : forall o m parts, Forall on_part parts -> P (CMeth o m parts).
Fixpoint cx_ind' (t : cx) : P t :=
  let all := fix all (l : list part) : Forall on_part l :=
    match l with
    | [] => Forall_nil _
    | p :: r => Forall_cons (P := on_part) p (match p as q return on_part q with inl k => Logic.I | inr x => cx_ind' x end) (all r)
    end in
  match t with
  | CName s => Hname s
  | CNode o parts => Hnode o parts (all parts)
  | CIf b c f => Hif b c f (cx_ind' b) (cx_ind' c) (cx_ind' f)
  | CCall s parts => Hcall s parts (all parts)
  | CMeth o m parts => Hmeth o m parts (all parts)
  end.
End Ind.

Lemma parts_toks_cons {op} (p : ptok + @cx op) r : parts_toks (p :: r) = (match p with inl k => [k] | inr x => toks_of x end) ++ parts_toks r.
Proof. reflexivity. Qed.
Lemma toks_call {op} s (parts : list (ptok + @cx op)) : toks_of (CCall s parts) = (PNAME, s) :: (POTHER, "(") :: parts_toks parts ++ [(POTHER, ")")].
Proof. reflexivity. Qed.
Lemma toks_meth {op} o m (parts : list (ptok + @cx op)) : toks_of (CMeth o m parts) = method_of o m ++ (POTHER, "(") :: parts_toks parts ++ [(POTHER, ")")].
Proof. reflexivity. Qed.
Lemma toks_node {op} o (parts : list (ptok + @cx op)) : toks_of (CNode o parts) = parts_toks parts.
Proof. reflexivity. Qed.

Section Tree.
Context {val op St D : Type}.
Local Notation cx := (@cx op).
Local Notation part := (ptok + cx)%type.
Variable look : D -> @namespace val.
Variable pybuiltins : @namespace val.
Variable apply : op -> list val -> result val.
Variable truth : val -> result bool.
Variable call : val -> list (option ptok) -> list val -> result val.
Variable call_method : val -> string -> list (option ptok) -> list val -> result val.
Variable stateful : val -> bool.
Variable t_new : val -> St.
Variable t_chunk : val -> list (option ptok) -> St -> list val -> result St.
Variable t_finish : val -> St -> result St.
Variable t_transform : val -> list (option ptok) -> St -> list val -> result val.
Variable builtins : @namespace val.
Variable e : @env val.
Local Notation tr := (transform_of stateful builtins e).
Local Notation ncalls := (@ncalls val op stateful builtins e).
Local Notation nodes := (@nodes val op stateful builtins e).
Local Notation places := (@places val op stateful builtins e).
Local Notation with_objects := (@with_objects val op stateful builtins e).
Local Notation pwith := (@parts_with_objects val op stateful builtins e).
Local Notation meaning := (@meaning val op St D look pybuiltins apply truth call call_method stateful t_new t_chunk t_finish t_transform builtins e).
Local Notation class_of := (class_of t_new t_chunk t_finish t_transform).

(** The functions on lists of parts. *)
Fixpoint pcount (l : list part) : nat := match l with [] => 0 | inl _ :: r => pcount r | inr x :: r => ncalls x + pcount r end.
Fixpoint pnodes (i k : nat) (l : list part) : list (@node op) :=
  match l with
  | [] => []
  | inl _ :: r => pnodes (S i) k r
  | inr x :: r => nodes i k x ++ pnodes (i + List.length (toks_of x)) (k + ncalls x) r
  end.
Fixpoint pmeaning (k : nat) (l : list part) : list (@texpr val D St) :=
  match l with [] => [] | inl _ :: r => pmeaning k r | inr x :: r => meaning k x :: pmeaning (k + ncalls x) r end.

Lemma ncalls_node o parts : ncalls (CNode o parts) = pcount parts. Proof. reflexivity. Qed.
Lemma ncalls_call s parts : ncalls (CCall s parts) = (match tr s with Some _ => 1 | None => 0 end) + pcount parts. Proof. reflexivity. Qed.
Lemma ncalls_meth o m parts : ncalls (CMeth o m parts) = pcount parts. Proof. reflexivity. Qed.
Lemma nodes_node i k o parts : nodes i k (CNode o parts) = pnodes i k parts. Proof. reflexivity. Qed.
Lemma nodes_call i k s parts : nodes i k (CCall s parts) = match tr s with Some _ => (i, (k, (s, parts))) :: pnodes (i + 2) (S k) parts | None => pnodes (i + 2) k parts end. Proof. reflexivity. Qed.
Lemma nodes_meth i k o m parts : nodes i k (CMeth o m parts) = pnodes (i + 4) k parts. Proof. reflexivity. Qed.
Lemma with_node k o parts : with_objects k (CNode o parts) = CNode o (pwith k parts). Proof. reflexivity. Qed.
Lemma with_call k s parts : with_objects k (CCall s parts) = match tr s with Some _ => CMeth (obj_name k s) "transform" (pwith (S k) parts) | None => CCall s (pwith k parts) end. Proof. reflexivity. Qed.
Lemma with_meth k o m parts : with_objects k (CMeth o m parts) = CMeth o m (pwith k parts). Proof. reflexivity. Qed.
Lemma meaning_node k o parts : meaning k (CNode o parts) = TOp (apply o) (pmeaning k parts). Proof. reflexivity. Qed.
Lemma meaning_call k s parts : meaning k (CCall s parts) = match tr s with
  | Some v => TCall (obj_name k s) (class_of v (around parts)) (pmeaning (S k) parts)
  | None => TOp (on_first (fun v => call v (around parts))) (TLeaf (name_value look pybuiltins builtins e s) :: pmeaning k parts) end. Proof. reflexivity. Qed.
Lemma meaning_meth k o m parts : meaning k (CMeth o m parts) = TOp (on_first (fun v => call_method v m (around parts))) (TLeaf (name_value look pybuiltins builtins e o) :: pmeaning k parts). Proof. reflexivity. Qed.
Lemma shape_with parts : forall k, shape (pwith k parts) = around parts.
Proof. unfold shape. induction parts as [|[t|x] r IH]; intros k; cbn; f_equal; auto. Qed.

(** The numbers of the calls. *)
Definition number (n : @node op) : nat := fst (snd n).
Definition place (n : @node op) : nat := fst n.
Definition object_of (n : @node op) : string := obj_name (number n) (fst (snd (snd n))).
Lemma numbers t : forall i k, map number (nodes i k t) = seq k (ncalls t).
Proof.
  assert (Hp : forall parts, Forall (on_part (fun t => forall i k, map number (nodes i k t) = seq k (ncalls t))) parts -> forall i k, map number (pnodes i k parts) = seq k (pcount parts)).
  { induction 1 as [|p r Hp _ IH]; intros i k; [reflexivity|]. destruct p as [tok|x]; cbn [pnodes pcount]; [apply IH|]. cbn in Hp. rewrite map_app, Hp, IH. symmetry. apply seq_app. }
  induction t as [s|o parts IH|b c f IHb IHc IHf|s parts IH|o m parts IH] using cx_ind'; intros i k.
  - reflexivity.
  - rewrite nodes_node. now apply Hp.
  - cbn [CodeSpec.nodes CodeSpec.ncalls]. rewrite !map_app, IHb, IHc, IHf, !seq_app. reflexivity.
  - rewrite nodes_call, ncalls_call. destruct (tr s); cbn [map]; rewrite (Hp _ IH); reflexivity.
  - rewrite nodes_meth. now apply Hp.
Qed.
Lemma pnumbers parts : forall i k, map number (pnodes i k parts) = seq k (pcount parts).
Proof. induction parts as [|[tok|x] r IH]; intros i k; cbn [pnodes pcount]; [reflexivity|apply IH|]. rewrite map_app, numbers, IH. symmetry. apply seq_app. Qed.

(** The places of the calls are places of tokens, in increasing order. *)
Definition placed (i n : nat) (l : list (@node op)) : Prop := StronglySorted lt (map place l) /\ Forall (fun x => i <= place x < i + n) l.
Lemma sorted_app (a b : list nat) : StronglySorted lt a -> StronglySorted lt b -> (forall x y, In x a -> In y b -> x < y) -> StronglySorted lt (a ++ b).
Proof.
  induction 1 as [|x a Ha IH Hx]; intros Hb H; cbn; [exact Hb|]. constructor; [apply IH; [exact Hb|intros; apply H; [now right|assumption]]|].
  apply Forall_app. split; [exact Hx|]. apply Forall_forall. intros y Hy. apply H; [now left|exact Hy].
Qed.
Lemma placed_app i n m a b : placed i n a -> placed (i + n) m b -> placed i (n + m) (a ++ b).
Proof.
  intros [Sa Fa] [Sb Fb]. split.
  - rewrite map_app. apply sorted_app; [exact Sa|exact Sb|]. intros x y Hx Hy. apply in_map_iff in Hx, Hy. destruct Hx as [p [<- Hp]], Hy as [q [<- Hq]].
    rewrite Forall_forall in Fa, Fb. specialize (Fa p Hp). specialize (Fb q Hq). lia.
  - apply Forall_app. split; eapply Forall_impl; [|exact Fa| |exact Fb]; cbn; lia.
Qed.
Lemma placed_weak i n j m l : placed i n l -> j <= i -> i + n <= j + m -> placed j m l.
Proof. intros [S F] H1 H2. split; [exact S|]. eapply Forall_impl; [|exact F]. cbn. lia. Qed.
Lemma placed_nil i n : placed i n [].
Proof. split; constructor. Qed.
Lemma pplaced parts : Forall (on_part (fun t => forall i k, placed i (List.length (toks_of t)) (nodes i k t))) parts -> forall i k, placed i (List.length (parts_toks parts)) (pnodes i k parts).
Proof.
  induction 1 as [|p r Hp _ IH]; intros i k; [apply placed_nil|]. rewrite parts_toks_cons, app_length. destruct p as [tok|x]; cbn [pnodes].
  - eapply placed_weak; [apply IH|lia|cbn; lia].
  - cbn in Hp. apply placed_app; [apply Hp|apply IH].
Qed.
Lemma placed_nodes t : forall i k, placed i (List.length (toks_of t)) (nodes i k t).
Proof.
  induction t as [s|o parts IH|b c f IHb IHc IHf|s parts IH|o m parts IH] using cx_ind'; intros i k.
  - apply placed_nil.
  - rewrite nodes_node, toks_node. now apply pplaced.
  - cbn [CodeSpec.nodes toks_of]. rewrite !app_length. cbn [List.length]. rewrite app_length. cbn [List.length].
    set (nb := List.length (toks_of b)). set (nc := List.length (toks_of c)). set (nf := List.length (toks_of f)).
    apply placed_app; [apply IHb|]. apply (placed_weak (i + nb + 1) (nc + S nf)); [|lia|lia]. apply placed_app; [apply IHc|].
    apply (placed_weak (i + nb + 1 + nc + 1) nf); [apply IHf|lia|lia].
  - rewrite nodes_call, toks_call. cbn [List.length]. rewrite app_length. cbn [List.length].
    assert (H : forall k, placed (i + 2) (List.length (parts_toks parts)) (pnodes (i + 2) k parts)) by (intros; now apply pplaced).
    destruct (tr s); [|eapply placed_weak; [apply H|lia|lia]].
    change (_ :: pnodes (i + 2) (S k) parts) with ([(i, (k, (s, parts)))] ++ pnodes (i + 2) (S k) parts).
    replace (S (S (List.length (parts_toks parts) + 1))) with (1 + S (S (List.length (parts_toks parts)))) by lia.
    apply placed_app; [split; [repeat constructor|constructor; [cbn; lia|constructor]]|]. eapply placed_weak; [apply H|lia|lia].
  - rewrite nodes_meth, toks_meth. unfold method_of. cbn [List.length app]. rewrite app_length. cbn [List.length]. eapply placed_weak; [apply pplaced; exact IH|lia|lia].
Qed.
Lemma placed_pnodes parts i k : placed i (List.length (parts_toks parts)) (pnodes i k parts).
Proof. apply pplaced. apply Forall_forall. intros [tok|x] _; cbn; [exact Logic.I|]. apply placed_nodes. Qed.

(** The rewritten tokens are those of the tree with objects. *)
Definition agrees (ob : nat -> option string) (i n : nat) (l : list (@node op)) : Prop :=
  (forall x, In x l -> ob (place x) = Some (object_of x)) /\ (forall p, i <= p < i + n -> ~ In p (map place l) -> ob p = None).
Lemma agrees_app ob i n m a b : placed i n a -> placed (i + n) m b -> agrees ob i (n + m) (a ++ b) -> agrees ob i n a /\ agrees ob (i + n) m b.
Proof.
  intros [_ Fa] [_ Fb] [H1 H2]. rewrite Forall_forall in Fa, Fb. split; (split; [intros x Hx; apply H1; apply in_app_iff; tauto|]); intros p Hp Hn; apply H2; try lia; rewrite map_app, in_app_iff; intros [K|K]; try contradiction;
    apply in_map_iff in K; destruct K as [x [<- K]]; [specialize (Fb x K)|specialize (Fa x K)]; lia.
Qed.
Lemma rew_app ob k a b : rew_from ob k (a ++ b) = rew_from ob k a ++ rew_from ob (k + List.length a) b.
Proof.
  revert k. induction a as [|t a IH]; intros k; [cbn; now rewrite Nat.add_0_r|]. unfold rew_from in *. cbn [app List.length seq combine flat_map fst snd]. rewrite IH, <- app_assoc. now rewrite Nat.add_succ_r.
Qed.
Lemma rew_one ob k t : ob k = None -> rew_from ob k [t] = [t].
Proof. intros H. unfold rew_from. cbn. now rewrite H. Qed.
Lemma agrees_skip ob i n l m : agrees ob i (n + m) l -> placed (i + n) m l -> agrees ob (i + n) m l /\ (forall p, i <= p < i + n -> ob p = None).
Proof.
  intros A P. destruct (agrees_app ob i n m [] l (placed_nil i n) P A) as [B C]. split; [exact C|]. intros p Hp. apply B; [exact Hp|]. intros [].
Qed.
Lemma rew_none ob k l : (forall p, k <= p < k + List.length l -> ob p = None) -> rew_from ob k l = l.
Proof.
  revert k. induction l as [|t l IH]; intros k H; [reflexivity|]. change (t :: l) with ([t] ++ l). rewrite rew_app, rew_one by (apply H; cbn; lia). cbn [app List.length]. f_equal. apply IH. intros p Hp. apply H. cbn. lia.
Qed.
Lemma agrees_short ob i n m l : agrees ob i (n + m) l -> agrees ob i n l.
Proof. intros [H1 H2]. split; [exact H1|]. intros p Hp. apply H2. lia. Qed.

Lemma rew_parts ob parts : Forall (on_part (fun t => forall i k, agrees ob i (List.length (toks_of t)) (nodes i k t) -> rew_from ob i (toks_of t) = toks_of (with_objects k t))) parts ->
  forall i k, agrees ob i (List.length (parts_toks parts)) (pnodes i k parts) -> rew_from ob i (parts_toks parts) = parts_toks (pwith k parts).
Proof.
  induction 1 as [|p r Hp _ IH]; intros i k A; [reflexivity|]. rewrite parts_toks_cons, app_length in A. rewrite parts_toks_cons, rew_app. destruct p as [tok|x]; cbn [pnodes] in A; cbn [CodeSpec.parts_with_objects]; rewrite parts_toks_cons.
  - cbn [List.length] in A |- *. destruct (agrees_skip ob i 1 _ _ A) as [B C]; [rewrite Nat.add_1_r; apply placed_pnodes|]. rewrite rew_one by (apply C; lia). f_equal. apply IH. rewrite <- Nat.add_1_r in B |- *. replace (S i) with (i + 1) in B by lia. exact B.
  - cbn in Hp. apply agrees_app in A; [|apply placed_nodes|apply placed_pnodes]. destruct A as [A B]. rewrite (Hp i k A). f_equal. now apply IH.
Qed.
Lemma rew_tree ob t : forall i k, agrees ob i (List.length (toks_of t)) (nodes i k t) -> rew_from ob i (toks_of t) = toks_of (with_objects k t).
Proof.
  induction t as [s|o parts IH|b c f IHb IHc IHf|s parts IH|o m parts IH] using cx_ind'; intros i k A.
  - cbn. apply rew_one. apply A; [cbn; lia|intros []].
  - rewrite with_node, !toks_node. rewrite nodes_node, toks_node in A. now apply rew_parts.
  - cbn [CodeSpec.with_objects]. cbn [CodeSpec.nodes] in A. cbn [toks_of] in A |- *. rewrite !app_length in A. cbn [List.length] in A. rewrite app_length in A. cbn [List.length] in A.
    set (nb := List.length (toks_of b)) in *. set (nc := List.length (toks_of c)) in *. set (nf := List.length (toks_of f)) in *.
    assert (Pc : placed (i + nb + 1) nc (nodes (i + nb + 1) (k + ncalls b) c)) by apply placed_nodes.
    assert (Pf : placed (i + nb + 1 + nc + 1) nf (nodes (i + nb + 1 + nc + 1) (k + ncalls b + ncalls c) f)) by apply placed_nodes.
    assert (Pcf : placed (i + nb + 1) (nc + S nf) (nodes (i + nb + 1) (k + ncalls b) c ++ nodes (i + nb + 1 + nc + 1) (k + ncalls b + ncalls c) f)).
    { apply placed_app; [exact Pc|]. eapply placed_weak; [exact Pf|lia|lia]. }
    apply agrees_app in A; [|apply placed_nodes|eapply placed_weak; [exact Pcf|lia|lia]]. destruct A as [Ab A].
    replace (S (nc + S nf)) with (1 + (nc + S nf)) in A by lia. apply agrees_skip in A; [|exact Pcf]. destruct A as [A N1].
    apply agrees_app in A; [|exact Pc|eapply placed_weak; [exact Pf|lia|lia]]. destruct A as [Ac A].
    replace (S nf) with (1 + nf) in A by lia. apply agrees_skip in A; [|exact Pf]. destruct A as [Af N2].
    rewrite rew_app, (IHb i k Ab). f_equal. fold nb. change ((PNAME, "if") :: toks_of c ++ (PNAME, "else") :: toks_of f) with ([(PNAME, "if")] ++ toks_of c ++ [(PNAME, "else")] ++ toks_of f).
    rewrite rew_app, rew_one by (apply N1; lia). cbn [app List.length]. f_equal. rewrite rew_app. rewrite (IHc _ _ Ac). f_equal. fold nc.
    change ((PNAME, "else") :: toks_of f) with ([(PNAME, "else")] ++ toks_of f). rewrite rew_app, rew_one by (apply N2; lia). cbn [app List.length]. f_equal. now apply IHf.
  - rewrite with_call. rewrite nodes_call in A. rewrite toks_call in A |- *. cbn [List.length] in A. rewrite app_length in A. cbn [List.length] in A.
    assert (P : forall k, placed (i + 2) (List.length (parts_toks parts)) (pnodes (i + 2) k parts)) by (intros; apply placed_pnodes).
    assert (K : forall k, agrees ob (i + 2) (List.length (parts_toks parts) + 1) (pnodes (i + 2) k parts) -> rew_from ob (i + 2) (parts_toks parts ++ [(POTHER, ")")]) = parts_toks (pwith k parts) ++ [(POTHER, ")")]).
    { intros k' B. rewrite rew_app. rewrite <- (app_nil_r (pnodes (i + 2) k' parts)) in B. apply agrees_app in B; [|apply P|apply placed_nil]. destruct B as [B1 B2]. f_equal; [now apply rew_parts|]. apply rew_one. apply B2; [lia|intros []]. }
    destruct (tr s) as [v|].
    + rewrite toks_meth. change ((PNAME, s) :: (POTHER, "(") :: parts_toks parts ++ [(POTHER, ")")]) with ([(PNAME, s)] ++ [(POTHER, "(")] ++ (parts_toks parts ++ [(POTHER, ")")])).
      pose proof (proj1 A _ (or_introl eq_refl)) as E. cbn in E. change (object_of (i, (k, (s, parts)))) with (obj_name k s) in E.
      change ((i, (k, (s, parts))) :: pnodes (i + 2) (S k) parts) with ([(i, (k, (s, parts)))] ++ pnodes (i + 2) (S k) parts) in A. replace (S (S (List.length (parts_toks parts) + 1))) with (1 + (1 + (List.length (parts_toks parts) + 1))) in A by lia.
      apply agrees_app in A; [|split; [repeat constructor|constructor; [cbn; lia|constructor]]|eapply placed_weak; [apply P|lia|lia]]. destruct A as [_ A].
      apply agrees_skip in A; [|replace (i + 1 + 1) with (i + 2) by lia; eapply placed_weak; [apply P|lia|lia]]. destruct A as [A N]. replace (i + 1 + 1) with (i + 2) in A by lia.
      rewrite rew_app. unfold rew_from at 1. cbn [List.length seq combine flat_map fst snd]. rewrite E, app_nil_r. f_equal. rewrite rew_app. rewrite rew_one by (apply N; lia). cbn [app List.length]. f_equal. replace (i + 1 + 1) with (i + 2) by lia. now apply K.
    + rewrite toks_call. replace (S (S (List.length (parts_toks parts) + 1))) with (2 + (List.length (parts_toks parts) + 1)) in A by lia. apply agrees_skip in A; [|eapply placed_weak; [apply P|lia|lia]]. destruct A as [A N].
      change ((PNAME, s) :: (POTHER, "(") :: parts_toks parts ++ [(POTHER, ")")]) with ([(PNAME, s); (POTHER, "(")] ++ (parts_toks parts ++ [(POTHER, ")")])).
      rewrite rew_app, rew_none by (intros p Hp; apply N; cbn in Hp; lia). cbn [app List.length]. do 2 f_equal. now apply K.
  - rewrite with_meth. rewrite nodes_meth in A. rewrite toks_meth in A |- *. rewrite toks_meth. unfold method_of in *. cbn [app List.length] in A |- *. rewrite app_length in A. cbn [List.length] in A.
    replace (S (S (S (S (List.length (parts_toks parts) + 1))))) with (4 + (List.length (parts_toks parts) + 1)) in A by lia. apply agrees_skip in A; [|eapply placed_weak; [apply placed_pnodes|lia|lia]]. destruct A as [A N].
    change ((PNAME, o) :: (POTHER, ".") :: (PNAME, m) :: (POTHER, "(") :: parts_toks parts ++ [(POTHER, ")")]) with ([(PNAME, o); (POTHER, "."); (PNAME, m); (POTHER, "(")] ++ (parts_toks parts ++ [(POTHER, ")")])).
    rewrite rew_app, rew_none by (intros p Hp; apply N; cbn in Hp; lia). cbn [app List.length]. do 4 f_equal.
    rewrite rew_app. rewrite <- (app_nil_r (pnodes (i + 4) k parts)) in A. apply agrees_app in A; [|apply placed_pnodes|apply placed_nil]. destruct A as [B1 B2]. f_equal; [now apply rew_parts|]. apply rew_one. apply B2; [lia|intros []].
Qed.

Definition named (n : @node op) : nat * string := (place n, fst (snd (snd n))).
Lemma object_at_nodes l : forall k, map number l = seq k (List.length l) -> StronglySorted lt (map place l) ->
  (forall x, In x l -> object_at k (map named l) (place x) = Some (object_of x)) /\ (forall p, ~ In p (map place l) -> object_at k (map named l) p = None).
Proof.
  induction l as [|y l IH]; intros k Hn Hs; [split; [intros x []|reflexivity]|]. cbn [map List.length seq] in Hn. injection Hn as Hy Hn. cbn [map] in Hs. inversion Hs as [|? ? Hs' Hf]; subst.
  destruct (IH _ Hn Hs') as [A B]. split.
  - intros x [<-|Hx]; cbn [map object_at named]; [now rewrite Nat.eqb_refl|]. destruct (Nat.eqb_spec (place y) (place x)) as [E|]; [|now apply A].
    rewrite Forall_forall in Hf. specialize (Hf (place x) (in_map place _ _ Hx)). lia.
  - intros p Hp. cbn [map object_at named]. destruct (Nat.eqb_spec (place y) p) as [E|]; [exfalso; apply Hp; now left|]. apply B. intros H. apply Hp. now right.
Qed.
Lemma nodes_count t i k : List.length (nodes i k t) = ncalls t.
Proof. rewrite <- (map_length number), numbers. apply seq_length. Qed.
Lemma places_agree t : agrees (object_at 0 (places t)) 0 (List.length (toks_of t)) (nodes 0 0 t).
Proof.
  destruct (object_at_nodes (nodes 0 0 t) 0) as [A B]; [now rewrite numbers, nodes_count|apply (placed_nodes t 0 0)|]. split; [exact A|]. intros p _. apply B.
Qed.
Lemma rewritten_tree t : rewritten (toks_of t) (places t) = toks_of (with_objects 0 t).
Proof. apply (rew_tree (object_at 0 (places t)) t 0 0). apply places_agree. Qed.
Lemma objects_named l : forall k, map number l = seq k (List.length l) -> map (fun p => obj_name (fst p) (snd (snd p))) (combine (seq k (List.length (map named l))) (map named l)) = map object_of l.
Proof.
  induction l as [|x l IH]; intros k H; [reflexivity|]. cbn [map List.length seq] in H. injection H as Hx H. cbn [map List.length seq combine]. rewrite (IH (S k) H). f_equal. unfold object_of. now rewrite Hx.
Qed.
Lemma objects_places t : objects (places t) = map object_of (nodes 0 0 t).
Proof. apply objects_named. now rewrite numbers, nodes_count. Qed.
End Tree.
