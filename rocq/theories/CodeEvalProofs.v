(** Preparing, fitting and evaluating factors given by text. *)
From Coq Require Import Permutation Sorted.
From Verif Require Import Base TokensModel EvalBinsProofs BuildModel EvalModel EvalSpec EvalMarkProofs EvalCaptureProofs EvalTopProofs EvalTextProofs EvalProofs PyLexModel PyLexSpec PyLexProofs EvalLexProofs
  DescModel CategoricalModel PipeModel MemorizeModel MemorizeSpec FitModel FitSpec FitProofs EntryModel CodeModel CodeSpec CodeTreeProofs CodeProofs.
Open Scope string_scope.
Open Scope list_scope.

Lemma dget_in {V} (l : list (string * V)) k v : NoDup (map fst l) -> In (k, v) l -> dget String.eqb k l = Some v.
Proof.
  induction l as [|[k' v'] l IH]; intros Hn Hi; [destruct Hi|]. cbn in *. inversion Hn as [|? ? H1 H2]; subst. destruct Hi as [[= -> ->]|Hi]; [now rewrite String.eqb_refl|].
  destruct (String.eqb_spec k' k) as [->|]; [|now apply IH]. exfalso. apply H1. apply (in_map fst) in Hi. exact Hi.
Qed.
Lemma dget_none {V} (l : list (string * V)) k : ~ In k (map fst l) -> dget String.eqb k l = None.
Proof.
  induction l as [|[k' v'] l IH]; intros Hn; [reflexivity|]. cbn in *. destruct (String.eqb_spec k' k) as [->|]; [exfalso; apply Hn; now left|]. apply IH. intros H. apply Hn. now right.
Qed.
Lemma Forall2_map_l {A B C} (f : A -> B) (P : B -> C -> Prop) l : forall m, Forall2 P (map f l) m -> Forall2 (fun a => P (f a)) l m.
Proof. induction l as [|a l IH]; intros m H; inversion H; subst; constructor; auto. Qed.

(** * Relating computations *)
Definition rel {A B} (R : A -> B -> Prop) (r : result A) (r' : result B) : Prop :=
  match r, r' with Ok a, Ok b => R a b | Err x, Err y => x = y | _, _ => False end.
Lemma rel_bind {A B A' B'} (R : A -> B -> Prop) (R' : A' -> B' -> Prop) r r' (f : A -> result A') (g : B -> result B') (r'' : result B') : rel R r r' -> (forall a b, R a b -> rel R' (f a) (g b)) -> r'' = bind r' g -> rel R' (bind r f) r''.
Proof. intros H K ->. destruct r as [a|x], r' as [b|y]; cbn in *; try contradiction; auto. Qed.
Lemma bind_ok {A} (r : result A) : r = bind r Ok.
Proof. now destruct r. Qed.
Lemma foldM_rel {A B X} (R : A -> B -> Prop) (f : A -> X -> result A) (g : B -> X -> result B) l : (forall a b x, In x l -> R a b -> rel R (f a x) (g b x)) -> forall a b, R a b -> rel R (foldM f l a) (foldM g l b).
Proof.
  induction l as [|x l IH]; intros H a b Hab; [exact Hab|]. cbn [foldM]. pose proof (H a b x (or_introl eq_refl) Hab) as K. destruct (f a x) as [a'|], (g b x) as [b'|]; cbn in K |- *; try contradiction; [|exact K].
  apply IH; [|exact K]. intros; apply H; [now right|assumption].
Qed.
Section Ext.
Context {val D St : Type}.
Lemma teval_ext (t : @texpr val D St) : forall st st', (forall o, st o = st' o) -> forall d, teval st t d = teval st' t d.
Proof.
  induction t as [f|f args IH|tr a b c IHa IHb IHc|o c args IH] using texpr_rect'; intros st st' H d.
  - reflexivity.
  - rewrite !teval_op. f_equal. unfold tevals. apply mapM_ext_in. intros a Ha. rewrite Forall_forall in IH. now apply IH.
  - cbn [teval]. rewrite (IHa st st' H). destruct (teval st' a d) as [v|]; cbn [bind]; [|reflexivity]. destruct (tr v) as [[|]|]; cbn [bind]; [now apply IHb|now apply IHc|reflexivity].
  - rewrite !teval_call, H. destruct (st' o); [|reflexivity]. f_equal. unfold tevals. apply mapM_ext_in. intros a Ha. rewrite Forall_forall in IH. now apply IH.
Qed.
Lemma memorize_ext (t : @texpr val D St) d a b o : (forall o, a o = b o) -> rel (fun x y => forall o, x o = y o) (memorize_object t d a o) (memorize_object t d b o).
Proof.
  intros H. unfold memorize_object. rewrite H. destruct (b o) as [s|]; [|reflexivity]. destruct (find_call t o) as [[c args]|]; [|reflexivity].
  assert (E : tevals a args d = tevals b args d) by (apply mapM_ext_in; intros x _; now apply teval_ext). rewrite E. destruct (tevals b args d) as [vs|]; cbn [bind]; [|reflexivity]. destruct (c_chunk c s vs); cbn; [|reflexivity]. intros k. unfold put. now destruct (String.eqb k o).
Qed.
Lemma finish_ext (t : @texpr val D St) a b o : (forall o, a o = b o) -> rel (fun x y => forall o, x o = y o) (finish_object t a o) (finish_object t b o).
Proof.
  intros H. unfold finish_object. rewrite H. destruct (b o) as [s|]; [|reflexivity]. destruct (find_call t o) as [[c args]|]; [|reflexivity]. destruct (c_finish c s); cbn; [|reflexivity]. intros k. unfold put. now destruct (String.eqb k o).
Qed.
End Ext.

Section Eval.
Context {val op St D : Type}.
Local Notation cx := (@cx op).
Local Notation part := (ptok + cx)%type.
Variable parse : list ptok -> result cx.
Variable look : D -> @namespace val.
Variable pybuiltins : @namespace val.
Variable apply : op -> list val -> result val.
Variable truth : val -> result bool.
Variable call : val -> list (option ptok) -> list val -> result val.
Variable call_method : val -> string -> list (option ptok) -> list val -> result val.
Variable stateful : val -> bool.
Variable t_new : val -> St.
Variable t_chunk : val -> list (option ptok) -> St -> list val -> result St.
Variable t_finish : val -> St -> result St.
Variable t_transform : val -> list (option ptok) -> St -> list val -> result val.
Variable objval : string -> val.
Variable vnone : val.
Variable builtins : @namespace val.
Variable e : @env val.
Local Notation tr := (transform_of stateful builtins e).
Local Notation ncalls := (@ncalls val op stateful builtins e).
Local Notation nodes := (@nodes val op stateful builtins e).
Local Notation pnodes := (@pnodes val op stateful builtins e).
Local Notation places := (@places val op stateful builtins e).
Local Notation with_objects := (@with_objects val op stateful builtins e).
Local Notation pwith := (@parts_with_objects val op stateful builtins e).
Local Notation meaning := (@meaning val op St D look pybuiltins apply truth call call_method stateful t_new t_chunk t_finish t_transform builtins e).
Local Notation pmeaning := (@pmeaning val op St D look pybuiltins apply truth call call_method stateful t_new t_chunk t_finish t_transform builtins e).
Local Notation class_of := (class_of t_new t_chunk t_finish t_transform).
Local Notation psem fs d := (psem look pybuiltins apply truth call call_method t_chunk t_transform objval vnone fs d).
Local Notation load fs d := (load look pybuiltins objval fs d).
Local Notation object fs d := (object look fs d).
Local Notation object_method := (object_method t_chunk t_transform vnone).
Local Notation name_value := (name_value look pybuiltins builtins e).

(** * Evaluation *)
Section Sem.
Variable fs : @factor_state val.
Variable d : D.
Fixpoint pargs (l : list part) (st : @store St) : result (list val) * @store St :=
  match l with
  | [] => (Ok [], st)
  | inl _ :: r => pargs r st
  | inr x :: r => andthen (psem fs d x st) (fun v st => andthen (pargs r st) (fun vs st => (Ok (v :: vs), st)))
  end.
Lemma psem_node o parts st : psem fs d (CNode o parts) st = andthen (pargs parts st) (fun vs st => (apply o vs, st)).
Proof. reflexivity. Qed.
Lemma psem_call s parts st : psem fs d (CCall s parts) st = andthen (load fs d st s, st) (fun v st => andthen (pargs parts st) (fun vs st => (call v (shape parts) vs, st))).
Proof. reflexivity. Qed.
Lemma psem_meth o m parts st : psem fs d (CMeth o m parts) st =
  match object fs d st o with
  | Some v => andthen (pargs parts st) (object_method v o m (shape parts))
  | None => andthen (load fs d st o, st) (fun v st => andthen (pargs parts st) (fun vs st => (call_method v m (shape parts) vs, st)))
  end.
Proof. reflexivity. Qed.

Variable st : @store St.
Definition names_ok (names : list string) : Prop := forall s, In s names -> load fs d st s = name_value s d /\ object fs d st s = None.
Definition objects_ok (l : list (@node op)) : Prop := forall n, In n l -> object fs d st (object_of n) = tr (snd (named n)).
Lemma object_stored o v : object fs d st o = Some v -> exists s, st o = Some s.
Proof. unfold CodeModel.object. destruct (look d o); [discriminate|]. destruct (st o) as [s|]; [eauto|discriminate]. Qed.
Lemma pargs_eval parts : Forall (on_part (fun t => forall i k, names_ok (tree_names t) -> objects_ok (nodes i k t) -> psem fs d (with_objects k t) st = (teval st (meaning k t) d, st))) parts ->
  forall i k, names_ok (pnames parts) -> objects_ok (pnodes i k parts) -> pargs (pwith k parts) st = (tevals st (pmeaning k parts) d, st).
Proof.
  induction 1 as [|p r Hp _ IH]; intros i k Hn Ho; [reflexivity|]. destruct p as [tok|x]; cbn [CodeTreeProofs.pnodes CodeSpec.parts_with_objects CodeTreeProofs.pmeaning pargs] in *.
  - apply (IH (S i)); auto.
  - cbn in Hp. rewrite (Hp i k); [|intros s Hs; apply Hn; cbn; apply in_app_iff; now left|intros n H; apply Ho; apply in_app_iff; now left].
    unfold tevals. cbn [mapM]. destruct (teval st (meaning k x) d); cbn [andthen bind]; [|reflexivity].
    erewrite IH; [|intros s Hs; apply Hn; cbn; apply in_app_iff; now right|intros n H; apply Ho; apply in_app_iff; right; exact H].
    unfold tevals. destruct (mapM _ (pmeaning (k + ncalls x) r)); reflexivity.
Qed.
Lemma tree_eval t : forall i k, names_ok (tree_names t) -> objects_ok (nodes i k t) -> psem fs d (with_objects k t) st = (teval st (meaning k t) d, st).
Proof.
  induction t as [s|o parts IH|b c f IHb IHc IHf|s parts IH|o m parts IH] using cx_ind'; intros i k Hn Ho.
  - cbn. f_equal. apply Hn. now left.
  - rewrite with_node, meaning_node, psem_node, teval_op. rewrite (pargs_eval parts IH i k); [|exact Hn|exact Ho]. destruct (tevals _ _ d); reflexivity.
  - cbn [CodeSpec.with_objects CodeSpec.meaning CodeSpec.nodes tree_names CodeModel.psem teval] in *.
    assert (Nb : names_ok (tree_names b)) by (intros s Hs; apply Hn; apply in_app_iff; now left).
    assert (Nc : names_ok (tree_names c)) by (intros s Hs; apply Hn; apply in_app_iff; right; apply in_app_iff; now left).
    assert (Nf : names_ok (tree_names f)) by (intros s Hs; apply Hn; apply in_app_iff; right; apply in_app_iff; now right).
    erewrite IHc; [|exact Nc|intros n H; apply Ho; apply in_app_iff; right; apply in_app_iff; left; exact H]. destruct (teval st (meaning (k + ncalls b) c) d) as [v|]; cbn [andthen bind]; [|reflexivity].
    destruct (truth v) as [[|]|]; cbn [bind]; [|erewrite IHf; [reflexivity|exact Nf|intros n H; apply Ho; apply in_app_iff; right; apply in_app_iff; right; exact H]|reflexivity].
    apply (IHb i); [exact Nb|intros n H; apply Ho; apply in_app_iff; now left].
  - rewrite with_call, meaning_call. rewrite nodes_call in Ho. cbn [tree_names] in Hn. fold (pnames parts) in Hn.
    assert (Np : names_ok (pnames parts)) by (intros x Hx; apply Hn; now right).
    destruct (tr s) as [v|] eqn:E.
    + pose proof (Ho _ (or_introl eq_refl)) as Eo. change (snd (named (i, (k, (s, parts))))) with s in Eo. change (object_of (i, (k, (s, parts)))) with (obj_name k s) in Eo. rewrite E in Eo.
      rewrite psem_meth, Eo. erewrite pargs_eval; [|exact IH|exact Np|intros n H; apply Ho; right; exact H]. rewrite shape_with, teval_call. destruct (object_stored _ _ Eo) as [x Ex]. rewrite Ex.
      destruct (tevals st (pmeaning (S k) parts) d); cbn [andthen bind]; [|reflexivity]. unfold CodeModel.object_method. now rewrite Ex.
    + rewrite psem_call, teval_op. destruct (Hn s (or_introl eq_refl)) as [-> _]. unfold tevals. cbn [mapM teval]. destruct (name_value s d) as [v|]; cbn [andthen bind]; [|reflexivity].
      erewrite pargs_eval; [|exact IH|exact Np|exact Ho]. rewrite shape_with. unfold tevals. destruct (mapM _ (pmeaning k parts)); reflexivity.
  - rewrite with_meth, meaning_meth. rewrite nodes_meth in Ho. cbn [tree_names] in Hn. fold (pnames parts) in Hn.
    assert (Np : names_ok (pnames parts)) by (intros x Hx; apply Hn; now right).
    rewrite psem_meth, teval_op. destruct (Hn o (or_introl eq_refl)) as [-> ->]. unfold tevals. cbn [mapM teval]. destruct (name_value o d) as [v|]; cbn [andthen bind]; [|reflexivity].
    erewrite pargs_eval; [|exact IH|exact Np|exact Ho]. rewrite shape_with. unfold tevals. destruct (mapM _ (pmeaning k parts)); reflexivity.
Qed.
Lemma pargs_eval' parts i k : names_ok (pnames parts) -> objects_ok (pnodes i k parts) -> pargs (pwith k parts) st = (tevals st (pmeaning k parts) d, st).
Proof. apply pargs_eval. apply Forall_forall. intros [tok|x] _; cbn; [exact Logic.I|]. apply tree_eval. Qed.
End Sem.

(** * One factor *)
Variable code : string.
Variable t : cx.
Hypothesis Hlex : py_lex code = Ok (toks_of t).
Hypothesis Hfit : neighbours_fit (toks_of t) = true.
Hypothesis Hreads : reads stateful builtins e parse t.
Hypothesis Hfree : names_free stateful builtins e t.
Local Notation mpn := (memorize_passes_needed py_lex (text_names py_lex parse) stateful builtins).
Local Notation objs := (objects (places t)).

Lemma names_of_code : text_names py_lex parse code = Ok (tree_names t).
Proof. unfold text_names. rewrite Hlex. cbn [bind]. now rewrite (rd_code _ _ _ _ _ Hreads). Qed.
Lemma code_plain : plain (toks_of t).
Proof. now apply (py_lex_plain code). Qed.
Lemma with_objects_plain : plain (toks_of (with_objects 0 t)).
Proof. rewrite <- rewritten_tree. eapply rewritten_plain; [apply code_plain|apply (rd_calls _ _ _ _ _ Hreads)]. Qed.
Lemma name_in_toks (x : cx) : forall s, In s (tree_names x) -> In (PNAME, s) (toks_of x).
Proof.
  assert (Hp : forall parts, Forall (on_part (fun x : cx => forall s, In s (tree_names x) -> In (PNAME, s) (toks_of x))) parts -> forall s, In s (pnames parts) -> In (PNAME, s) (parts_toks parts)).
  { induction 1 as [|p r Hp _ IH]; intros s Hs; [destruct Hs|]. rewrite parts_toks_cons. apply in_app_iff. destruct p as [tok|y]; cbn in Hs; [right; now apply IH|]. apply in_app_iff in Hs. destruct Hs as [Hs|Hs]; [left; now apply Hp|right; now apply IH]. }
  induction x as [s|o parts IH|b c f IHb IHc IHf|s parts IH|o m parts IH] using cx_ind'; intros z Hz.
  - destruct Hz as [<-|[]]. now left.
  - rewrite toks_node. now apply Hp.
  - cbn [tree_names toks_of] in *. rewrite !in_app_iff in Hz. rewrite in_app_iff. cbn. rewrite in_app_iff. cbn. destruct Hz as [Hz|[Hz|Hz]]; auto 6.
  - rewrite toks_call. cbn [tree_names] in Hz. destruct Hz as [<-|Hz]; [now left|]. right. right. apply in_app_iff. left. now apply Hp.
  - rewrite toks_meth. cbn [tree_names] in Hz. destruct Hz as [<-|Hz]; [now left|]. apply in_app_iff. right. right. apply in_app_iff. left. now apply Hp.
Qed.
Lemma names_not_objects s : In s (tree_names t) -> ~ In s objs.
Proof. intros H K. exact (Hfree s K (name_in_toks t s H)). Qed.
Lemma node_word n : In n (nodes 0 0 t) -> plain_word (snd (named n)).
Proof.
  destruct n as [p [j [s parts]]]. intros Hn. pose proof (node_found stateful builtins e t 0 0 _ Hn) as [_ [[a [b [Ea _]]] _]]. cbn.
  assert (Hi : In (PNAME, s) (toks_of t)) by (rewrite Ea; apply in_app_iff; right; now left).
  pose proof (simple_punctuation _ (proj1 code_plain)) as P. split; [destruct (opens s) eqn:E|destruct (closes s) eqn:E]; try reflexivity; specialize (P PNAME s Hi); [assert (X : PNAME = POTHER) by (apply P; now left)|assert (X : PNAME = POTHER) by (apply P; right; now left)]; discriminate.
Qed.
Lemma node_balanced p j s parts : In (p, (j, (s, parts))) (nodes 0 0 t) -> balanced (parts_toks parts) /\ balanced (parts_toks (pwith (S j) parts)).
Proof.
  intros Hn. pose proof (rd_brackets _ _ _ _ _ Hreads _ _ _ _ Hn) as B. split; [exact B|]. eapply same_balanced; [|exact B].
  apply (same_parts' stateful builtins e parts (p + 2) (S j)). intros n H. apply node_word. pose proof (node_found stateful builtins e t 0 0 _ Hn) as [_ [_ [_ [F _]]]]. now apply F.
Qed.
Lemma node_at n : In n (nodes 0 0 t) -> object_at 0 (places t) (place n) = Some (object_of n).
Proof. apply (places_agree stateful builtins e t). Qed.
Lemma node_object n : In n (nodes 0 0 t) -> In (object_of n) objs.
Proof. rewrite objects_places. apply in_map. Qed.
Lemma at_unique i j o : object_at 0 (places t) i = Some o -> object_at 0 (places t) j = Some o -> i = j.
Proof.
  assert (H : forall i, object_at 0 (places t) i = Some o -> exists n, In n (nodes 0 0 t) /\ place n = i /\ object_of n = o).
  { intros k Hk. destruct (places_agree stateful builtins e t) as [A B]. destruct (in_dec Nat.eq_dec k (map place (nodes 0 0 t))) as [Hin|Hn].
    - apply in_map_iff in Hin. destruct Hin as [n [<- Hin]]. rewrite (A n Hin) in Hk. injection Hk as <-. eauto.
    - destruct (object_at_nodes (nodes 0 0 t) 0) as [_ X]; [now rewrite numbers, nodes_count|apply (placed_nodes stateful builtins e t 0 0)|]. specialize (X k Hn). change (places t) with (map named (nodes 0 0 t)) in Hk. congruence. }
  intros Hi Hj. destruct (H i Hi) as [n [N1 [<- E1]]]. destruct (H j Hj) as [m [M1 [<- E2]]].
  assert (E : n = m); [|now subst]. rewrite <- E2 in E1. pose proof (objects_nodup_list (nodes 0 0 t) (ncalls t) 0 (numbers stateful builtins e t 0 0)) as ND.
  revert E1 N1 M1 ND. generalize (nodes 0 0 t). intros l E1 N1 M1 ND. induction l as [|x l IH]; [destruct N1|]. cbn [map] in ND. inversion ND as [|? ? D1 D2]; subst. destruct N1 as [->|N1], M1 as [->|M1]; auto.
  - exfalso. apply D1. apply (in_map object_of) in M1. congruence.
  - exfalso. apply D1. apply (in_map object_of) in N1. congruence.
Qed.
Lemma objects_perm : Permutation objs (map fst (calls (meaning 0 t))).
Proof.
  rewrite objects_places. pose proof (calls_perm look pybuiltins apply truth call call_method stateful t_new t_chunk t_finish t_transform builtins e t 0 0) as CP. now apply perm_objects in CP.
Qed.
Lemma object_name_form o : In o objs -> o <> "transform".
Proof. rewrite objects_places. intros H. apply in_map_iff in H. destruct H as [n [<- _]]. unfold object_of. destruct (obj_name_head (number n) (fst (snd (snd n)))) as [x ->]. discriminate. Qed.

(** A call in the arguments of another is inside it. *)
Lemma inner_inside p j s parts n : In (p, (j, (s, parts))) (nodes 0 0 t) -> In n (pnodes (p + 2) (S j) parts) -> inside (toks_of t) (places t) (obj_name j s) (object_of n).
Proof.
  intros Hn Hi. pose proof (node_found stateful builtins e t 0 0 _ Hn) as [_ [[before [after [Et Ep]]] [_ [F _]]]]. cbn in Ep. exists p, (place n). split; [apply (node_at _ Hn)|]. split; [apply node_at; now apply F|].
  destruct (placed_pnodes stateful builtins e parts (p + 2) (S j)) as [_ Fp]. rewrite Forall_forall in Fp. specialize (Fp n Hi).
  set (q := place n - (p + 2)). assert (Hq : q < List.length (parts_toks parts)) by (unfold q; lia).
  destruct (nth_error (parts_toks parts) q) as [g|] eqn:Eg; [|apply nth_error_None in Eg; lia]. apply nth_error_split in Eg. destruct Eg as [a [b [Ea La]]].
  rewrite toks_call in Et. exists before, (PNAME, s), ((POTHER, "(") :: a), g, (b ++ [(POTHER, ")")] ++ after). split; [|split; [|split; [|split]]].
  - rewrite Et, Ea. cbn [app]. rewrite <- !app_assoc. reflexivity.
  - lia.
  - rewrite app_length. cbn [List.length]. unfold q in La. lia.
  - discriminate.
  - intros b1 x b2 E. destruct (node_balanced _ _ _ _ Hn) as [[_ B] _]. destruct b1 as [|y b1]; [cbn in E; injection E as <- E; vm_compute; reflexivity|]. cbn in E. injection E as <- E.
    cbn [app]. rewrite depth_cons. change (dz (POTHER, "(")) with 1%Z. specialize (B (b1 ++ [x]) (b2 ++ g :: b)). rewrite Ea, E in B. assert (0 <= depth (b1 ++ [x]))%Z; [|lia]. apply B. now rewrite <- !app_assoc.
Qed.

Record prepared_state (fs : @factor_state val) : Prop := mkPrepared {
  ps_inner : inner_first (meaning 0 t) (fs_pass_bins fs);
  ps_eval : py_lex (fs_eval_code fs) = Ok (toks_of (with_objects 0 t));
  ps_memorize : forall p j s parts, In (p, (j, (s, parts))) (nodes 0 0 t) -> exists text, dget String.eqb (obj_name j s) (fs_memorize_code fs) = Some text /\
      py_lex text = Ok (toks_of (CMeth (obj_name j s) "memorize_chunk" (pwith (S j) parts)));
  ps_transforms : forall n, In n (nodes 0 0 t) -> dget String.eqb (object_of n) (fs_transforms fs) = tr (snd (named n));
  ps_others : forall o, ~ In o objs -> dget String.eqb o (fs_transforms fs) = None;
  ps_names : forall s, In s (tree_names t) -> vlookup (fs_env fs) s = vlookup (e ++ [builtins]) s }.

Lemma prepare : exists fs, mpn code e = Ok fs /\ prepared_state fs.
Proof.
  destruct (passes_py_lemma (text_names py_lex parse) stateful builtins code e (tree_names t) (toks_of t) (places t) names_of_code Hlex Hfit (rd_calls _ _ _ _ _ Hreads)) as [fs [Em [B1 [B2 [B3 [_ B5]]]]]].
  { intros o Ho [i [Hi _]]. apply (Hfree o Ho). eapply nth_error_In. exact Hi. }
  exists fs. split; [exact Em|].
  destruct (eval_code_lemma py_lex (text_names py_lex parse) stateful builtins code e fs Em) as [mentioned [toks [ms [A1 [A2 [A3 [A4 [A5 [A6 [A7 [A8 A9]]]]]]]]]]].
  rewrite names_of_code in A1. injection A1 as <-. rewrite Hlex in A2. injection A2 as <-. pose proof (transform_calls_unique _ _ _ _ A3 (rd_calls _ _ _ _ _ Hreads)) as Ems. rewrite Ems in *. clear A3 Ems ms.
  pose proof (calls_perm look pybuiltins apply truth call call_method stateful t_new t_chunk t_finish t_transform builtins e t 0 0) as CP.
  rewrite rewritten_tree in A4.
  split.
  - split; [etransitivity; [exact B1|]; rewrite objects_places; now apply perm_objects in CP|].
    intros o c args o' p q bin bin' Hc Ho' Hp Hin Hq Hin'. destruct (call_node _ _ _ _ _ _ _ _ _ _ _ _ _ _ _ _ _ _ CP Hc) as [i [j [s [parts [v [Hn [-> [Ev [-> ->]]]]]]]]].
    pose proof (pcalls_perm' look pybuiltins apply truth call call_method stateful t_new t_chunk t_finish t_transform builtins e parts (i + 2) (S j)) as PP. apply perm_objects in PP.
    eapply Permutation_in in Ho'; [|apply Permutation_sym; exact PP]. apply in_map_iff in Ho'. destruct Ho' as [n [<- Hn']].
    apply (B3 (obj_name j s) (object_of n) p q); [exists bin; auto|exists bin'; auto|]. eapply inner_inside; eassumption.
  - apply py_lex_back; [apply with_objects_plain|exact A4].
  - intros p j s parts Hn. pose proof (node_found stateful builtins e t 0 0 _ Hn) as [_ [_ [[pre' [suf' Ew]] _]]].
    assert (Ho : In (obj_name j s) objs) by (apply (node_object _ Hn)). destruct (B5 _ Ho) as [pre [seg [suf [text [C1 [C2 [C3 C4]]]]]]]. exists text. split; [exact C3|].
    pose proof C1 as C1'. rewrite rewritten_tree, Ew in C1'. rewrite toks_meth in C1', Ew.
    assert (Ep : pre = pre').
    { unfold method_of in C1, Ew. cbn [app] in C1, Ew. rewrite <- rewritten_tree in Ew. unfold rewritten in C1, Ew. eapply (rew_pos_unique (object_at 0 (places t)) (obj_name j s) (toks_of t) 0).
      - now apply Hfree.
      - now apply object_name_form.
      - intros x y. apply at_unique.
      - exact C1.
      - exact Ew. }
    subst pre'. rewrite <- app_assoc in C1'. apply app_inv_head in C1'. apply app_inv_head in C1'. symmetry in C1'.
    pose proof (argument_list_unique _ _ _ _ (proj2 (node_balanced _ _ _ _ Hn)) C2 C1') as Es. rewrite toks_meth, <- Es.
    apply py_lex_back; [|exact C4]. eapply call_plain. rewrite <- C1, rewritten_tree. apply with_objects_plain.
  - intros n Hn. assert (Hv : exists v, tr (snd (named n)) = Some v) by (destruct n as [p [j [s parts]]]; apply (node_found stateful builtins e t 0 0 _ Hn)). destruct Hv as [v Ev]. rewrite Ev.
    apply dget_in; [rewrite A5; exact A6|]. unfold CodeSpec.places in A7. apply Forall2_map_l in A7.
    assert (G : forall l (tf : list (string * val)), Forall2 (fun (a : @node op) p => vlookup (e ++ [builtins]) (snd (fst a, fst (snd (snd a)))) = Some (snd p)) l tf -> map fst tf = map object_of l -> In n l -> In (object_of n, v) tf).
    { intros l tf F. induction F as [|x [o w] l tf Hx F IH]; intros E Hi; [destruct Hi|]. cbn in E. injection E as E1 E2. destruct Hi as [->|Hi]; [left|right; now apply IH].
      rewrite E1. f_equal. unfold transform_of in Ev. change (snd (named n)) with (fst (snd (snd n))) in Ev. cbn in Hx. rewrite Hx in Ev. destruct (stateful w); [now injection Ev|discriminate]. }
    apply (G _ _ A7); [rewrite A5; apply objects_places|exact Hn].
  - intros o Ho. apply dget_none. now rewrite A5.
  - intros s Hs. rewrite A9. apply str_in_iff in Hs. now rewrite Hs.
Qed.

(** ** Fitting and evaluating *)
Section Fit.
Variable fs : @factor_state val.
Hypothesis Hfs : prepared_state fs.
Local Notation eval_text d code st := (eval_text py_lex parse look pybuiltins apply truth call call_method t_chunk t_transform objval vnone fs d code st).
Definition store_ok (st : @store St) : Prop := forall o, (exists s, st o = Some s) <-> In o objs.
Lemma store_none st o : store_ok st -> ~ In o objs -> st o = None.
Proof. intros H Ho. destruct (st o) as [s|] eqn:E; [|reflexivity]. exfalso. apply Ho, H. eauto. Qed.
Lemma put_ok st o s : store_ok st -> In o objs -> store_ok (put st o s).
Proof. intros H Ho k. unfold put. destruct (String.eqb_spec k o) as [->|]; [|apply H]. split; [auto|eauto]. Qed.
Lemma names_fine d st : store_ok st -> names_ok fs d st (tree_names t).
Proof.
  intros Hst s Hs. pose proof (names_not_objects s Hs) as Hn. split.
  - unfold CodeModel.load, CodeSpec.name_value, factor_locals, eval_locals, new_vld. cbn [vlookup]. unfold empty_ns. rewrite (store_none st s Hst Hn). cbn [option_map]. rewrite <- (ps_names _ Hfs s Hs). now destruct (look d s).
  - unfold CodeModel.object. rewrite (store_none st s Hst Hn). now destruct (look d s).
Qed.
Lemma objects_fine d st : store_ok st -> no_object_columns look stateful builtins e t d -> objects_ok fs d st (nodes 0 0 t).
Proof.
  intros Hst Hd n Hn. pose proof (node_object n Hn) as Ho. unfold CodeModel.object. rewrite (Hd _ Ho). destruct (proj2 (Hst _) Ho) as [s ->]. now apply ps_transforms.
Qed.
Lemma eval_fine d st : store_ok st -> no_object_columns look stateful builtins e t d -> fst (eval_text d (fs_eval_code fs) st) = teval st (meaning 0 t) d.
Proof.
  intros Hst Hd. unfold CodeModel.eval_text. rewrite (ps_eval _ Hfs). cbn [bind]. rewrite (rd_eval _ _ _ _ _ Hreads). rewrite (tree_eval fs d st t 0 0); [reflexivity|now apply names_fine|now apply objects_fine].
Qed.
Lemma object_node o : In o objs -> exists p j s parts v, In (p, (j, (s, parts))) (nodes 0 0 t) /\ o = obj_name j s /\ tr s = Some v /\ find_call (meaning 0 t) o = Some (class_of v (around parts), pmeaning (S j) parts).
Proof.
  rewrite objects_places. intros H. apply in_map_iff in H. destruct H as [[p [j [s parts]]] [<- Hn]]. destruct (node_found stateful builtins e t 0 0 _ Hn) as [[v Ev] _]. exists p, j, s, parts, v. split; [exact Hn|]. split; [reflexivity|]. split; [exact Ev|].
  apply find_call_some; [apply tree_calls_nodup|]. eapply node_call; [apply (calls_perm look pybuiltins apply truth call call_method stateful t_new t_chunk t_finish t_transform builtins e t 0 0)|exact Hn|exact Ev].
Qed.
Lemma memorize_fine d st o : store_ok st -> no_object_columns look stateful builtins e t d -> In o objs ->
  exists text, dget String.eqb o (fs_memorize_code fs) = Some text /\ (match eval_text d text st with (Ok _, st) => Ok st | (Err x, _) => Err x end) = memorize_object (meaning 0 t) d st o.
Proof.
  intros Hst Hd Ho. destruct (object_node o Ho) as [p [j [s [parts [v [Hn [-> [Ev Ec]]]]]]]]. destruct (ps_memorize _ Hfs _ _ _ _ Hn) as [text [E1 E2]]. exists text. split; [exact E1|].
  unfold CodeModel.eval_text. rewrite E2. cbn [bind]. rewrite (rd_memorize _ _ _ _ _ Hreads _ _ _ _ Hn). rewrite psem_meth.
  pose proof (objects_fine d st Hst Hd _ Hn) as Eo. change (object_of (p, (j, (s, parts)))) with (obj_name j s) in Eo. change (snd (named (p, (j, (s, parts))))) with s in Eo. rewrite Ev in Eo. rewrite Eo.
  pose proof (node_found stateful builtins e t 0 0 _ Hn) as [_ [_ [_ [F1 F2]]]].
  rewrite (pargs_eval' fs d st parts (p + 2) (S j)).
  - rewrite shape_with. unfold memorize_object. destruct (object_stored fs d st _ _ Eo) as [x Ex]. rewrite Ex, Ec. destruct (tevals st (pmeaning (S j) parts) d) as [vs|]; cbn [andthen bind]; [|reflexivity].
    unfold CodeModel.object_method. rewrite Ex. cbn [c_chunk CodeSpec.class_of]. change (String.eqb "memorize_chunk" "transform") with false. change (String.eqb "memorize_chunk" "memorize_chunk") with true. cbn iota. destruct (t_chunk v (around parts) x vs); reflexivity.
  - intros z Hz. apply (names_fine d st Hst). apply F2. now right.
  - intros n H. apply (objects_fine d st Hst Hd). now apply F1.
Qed.
Lemma memorize_ok d st o st' : store_ok st -> In o objs -> memorize_object (meaning 0 t) d st o = Ok st' -> store_ok st'.
Proof.
  intros Hst Ho. unfold memorize_object. destruct (st o); [|discriminate]. destruct (find_call (meaning 0 t) o) as [[c args]|]; [|discriminate]. destruct (tevals st args d) as [vs|]; [|discriminate]. cbn [bind]. destruct (c_chunk c s vs); [|discriminate]. cbn [bind]. intros [= <-]. now apply put_ok.
Qed.
Lemma finish_ok st o st' : store_ok st -> In o objs -> finish_object (meaning 0 t) st o = Ok st' -> store_ok st'.
Proof.
  intros Hst Ho. unfold finish_object. destruct (st o); [|discriminate]. destruct (find_call (meaning 0 t) o) as [[c args]|]; [|discriminate]. destruct (c_finish c s); [|discriminate]. cbn [bind]. intros [= <-]. now apply put_ok.
Qed.
Lemma finish_fine st o : store_ok st -> In o objs -> (match st o, dget String.eqb o (fs_transforms fs) with Some s, Some v => let* s' := t_finish v s in Ok (put st o s') | _, _ => Err KeyError end) = finish_object (meaning 0 t) st o.
Proof.
  intros Hst Ho. destruct (object_node o Ho) as [p [j [s [parts [v [Hn [-> [Ev Ec]]]]]]]]. unfold finish_object. destruct (proj2 (Hst _) Ho) as [x ->]. rewrite Ec. pose proof (ps_transforms _ Hfs _ Hn) as E. change (object_of (p, (j, (s, parts)))) with (obj_name j s) in E. rewrite E. change (snd (named (p, (j, (s, parts))))) with s. rewrite Ev. reflexivity.
Qed.
Lemma new_store_ok : store_ok (new_objects (meaning 0 t)).
Proof.
  intros o. unfold new_objects. split.
  - intros [s H]. destruct (find_call (meaning 0 t) o) as [x|] eqn:E; [|discriminate]. apply find_call_in in E. apply (in_map fst) in E. cbn in E. exact (Permutation_in _ (Permutation_sym objects_perm) E).
  - intros Ho. destruct (object_node o Ho) as [p [j [s [parts [v [Hn [-> [Ev Ec]]]]]]]]. rewrite Ec. eauto.
Qed.
Lemma new_store_same o : option_map t_new (dget String.eqb o (fs_transforms fs)) = new_objects (meaning 0 t) o.
Proof.
  unfold new_objects. destruct (in_dec string_dec o objs) as [Ho|Ho].
  - destruct (object_node o Ho) as [p [j [s [parts [v [Hn [-> [Ev Ec]]]]]]]]. rewrite Ec. pose proof (ps_transforms _ Hfs _ Hn) as E. change (object_of (p, (j, (s, parts)))) with (obj_name j s) in E. rewrite E. change (snd (named (p, (j, (s, parts))))) with s. now rewrite Ev.
  - rewrite (ps_others _ Hfs o Ho). cbn. destruct (find_call (meaning 0 t) o) as [x|] eqn:E; [|reflexivity]. exfalso. apply Ho. apply find_call_in in E. apply (in_map fst) in E. cbn in E. exact (Permutation_in _ (Permutation_sym objects_perm) E).
Qed.

Variable bin_order : list string -> list string.
Hypothesis Hbin : forall l, Permutation (bin_order l) l.
Local Notation bins := (map bin_order (fs_pass_bins fs)).
Lemma bins_inner : inner_first (meaning 0 t) bins.
Proof.
  destruct (ps_inner _ Hfs) as [A B]. split.
  - etransitivity; [|exact A]. clear A B. induction (fs_pass_bins fs) as [|b l IH]; [constructor|]. cbn. now apply Permutation_app.
  - intros o c args o' p q bin bin' H1 H2 H3 H4 H5 H6. rewrite nth_error_map in H3, H5. destruct (nth_error (fs_pass_bins fs) p) as [b|] eqn:E1; [|discriminate]. destruct (nth_error (fs_pass_bins fs) q) as [b'|] eqn:E2; [|discriminate]. cbn in H3, H5. injection H3 as <-. injection H5 as <-.
    apply (B o c args o' p q b b' H1 H2 E1); [eapply Permutation_in; [apply Hbin|exact H4]|exact E2|eapply Permutation_in; [apply Hbin|exact H6]].
Qed.
Lemma bin_objects p bin o : nth_error bins p = Some bin -> In o bin -> In o objs.
Proof.
  intros E Hi. apply (Permutation_in _ (Permutation_sym objects_perm)).
  destruct bins_inner as [A _]. eapply Permutation_in; [exact A|]. apply in_concat. exists bin. split; [eapply nth_error_In; exact E|exact Hi].
Qed.

(** The states of the factor correspond to stores. *)
Context {V I C : Type}.
Variable as_obj : val -> @fobj V I C.
Variable origin_of : factor -> option origin.
Local Notation tf_chunk := (tf_chunk py_lex parse look pybuiltins apply truth call call_method t_chunk t_transform objval vnone bin_order origin_of).
Local Notation tf_finish := (tf_finish t_finish bin_order).
Local Notation tf_eval := (tf_eval py_lex parse look pybuiltins apply truth call call_method t_chunk t_transform objval vnone origin_of as_obj).
Definition state_is (s : @tstate val St) (st : @store St) : Prop := fst s = fs /\ store_ok (snd s) /\ forall o, snd s o = st o.
Variable codes : factor -> @texpr val D St.
Variable binss : factor -> list (list string).
Variable f : factor.
Hypothesis Hcode : codes f = meaning 0 t.
Hypothesis Hbins : binss f = bins.
Lemma chunk_rel s st p d : state_is s st -> no_object_columns look stateful builtins e t d -> rel state_is (tf_chunk f s p d) (ef_chunk codes binss origin_of f st p d).
Proof.
  destruct s as [fs' st0]. intros [E [Hst Hr]] Hd. cbn in E. subst fs'. cbn [fst snd] in *. unfold CodeModel.tf_chunk, ef_chunk. rewrite Hcode, Hbins, nth_error_map. destruct (nth_error (fs_pass_bins fs) p) as [bin|] eqn:Eb; cbn [option_map]; [|reflexivity].
  assert (Ho : forall o, In o (bin_order bin) -> In o objs) by (intros o; apply (bin_objects p); now rewrite nth_error_map, Eb).
  eapply (rel_bind (fun a b => store_ok a /\ forall o, a o = b o) state_is _ _ _ Ok); [|intros a b [A B]; cbn; repeat split; auto; apply A|apply bind_ok].
  apply foldM_rel; [|split; auto]. intros a b o Hi [A B]. destruct (memorize_fine d a o A Hd (Ho o Hi)) as [text [-> E2]]. cbn [lookup bind]. rewrite E2.
  pose proof (memorize_ext (meaning 0 t) d a b o B) as X. pose proof (memorize_ok d a o) as Y. destruct (memorize_object (meaning 0 t) d a o) as [x|], (memorize_object (meaning 0 t) d b o) as [y|]; cbn in X |- *; try contradiction; [|reflexivity].
  split; [apply Y; auto|exact X].
Qed.
Lemma finish_rel s st p : state_is s st -> rel state_is (tf_finish f s p) (ef_finish codes binss f st p).
Proof.
  destruct s as [fs' st0]. intros [E [Hst Hr]]. cbn in E. subst fs'. cbn [fst snd] in *. unfold CodeModel.tf_finish, ef_finish. rewrite Hcode, Hbins, nth_error_map. destruct (nth_error (fs_pass_bins fs) p) as [bin|] eqn:Eb; cbn [option_map]; [|reflexivity].
  assert (Ho : forall o, In o (bin_order bin) -> In o objs) by (intros o; apply (bin_objects p); now rewrite nth_error_map, Eb).
  eapply (rel_bind (fun a b => store_ok a /\ forall o, a o = b o) state_is _ _ _ Ok); [|intros a b [A B]; cbn; repeat split; auto; apply A|apply bind_ok].
  apply foldM_rel; [|split; auto]. intros a b o Hi [A B]. match goal with |- rel _ ?x _ => replace x with (finish_object (meaning 0 t) a o) by (symmetry; exact (finish_fine a o A (Ho o Hi))) end.
  pose proof (finish_ext (meaning 0 t) a b o B) as X. pose proof (finish_ok a o) as Y. destruct (finish_object (meaning 0 t) a o) as [x|], (finish_object (meaning 0 t) b o) as [y|]; cbn in X |- *; try contradiction; [|exact X].
  split; [apply Y; auto|exact X].
Qed.
Lemma eval_rel s st d : state_is s st -> no_object_columns look stateful builtins e t d -> tf_eval f s d = ef_eval codes origin_of as_obj f st d.
Proof.
  destruct s as [fs' st0]. intros [E [Hst Hr]] Hd. cbn in E. subst fs'. cbn [fst snd] in *. unfold CodeModel.tf_eval, ef_eval. rewrite Hcode. rewrite eval_fine; auto. now rewrite (teval_ext _ st0 st Hr).
Qed.
Lemma new_rel : state_is (fs, fun o => option_map t_new (dget String.eqb o (fs_transforms fs))) (new_objects (codes f)).
Proof. rewrite Hcode. split; [reflexivity|]. cbn. split; [|apply new_store_same]. intros o. rewrite new_store_same. apply new_store_ok. Qed.
Lemma run_rel (data : nat -> list D) : (forall n d, In d (data n) -> no_object_columns look stateful builtins e t d) -> forall k s st, state_is s st ->
  rel state_is (MemorizeSpec.run tf_chunk tf_finish s (MemorizeSpec.calls_for data k f)) (MemorizeSpec.run (ef_chunk codes binss origin_of) (ef_finish codes binss) st (MemorizeSpec.calls_for data k f)).
Proof.
  intros Hd k s st H. unfold MemorizeSpec.run. apply foldM_rel; [|exact H]. intros a b ev Hev R. unfold MemorizeSpec.calls_for in Hev. apply in_flat_map in Hev. destruct Hev as [p [_ Hev]]. apply in_app_or in Hev. destruct Hev as [Hev|[<-|[]]].
  - apply in_map_iff in Hev. destruct Hev as [d [<- Hin]]. cbn [MemorizeSpec.effect]. apply chunk_rel; [exact R|]. eapply Hd, Hin.
  - cbn [MemorizeSpec.effect]. now apply finish_rel.
Qed.
End Fit.
End Eval.
