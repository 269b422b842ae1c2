(** C103: the columns of a term depend on the terms before it, not on those after it. *)
From Coq Require Import ZArith QArith Permutation.
From Verif Require Import Base DescModel BuildModel BuildSpec MemorizeModel MemorizeSpec RedundancySpec CategoricalModel CategoricalSpec PipeModel PipeSpec
  PipeProofs PipeSeedSpec EntrySpec IncrProps ApartProofs LaterSpec LaterProofs.
Open Scope string_scope.
Open Scope list_scope.
Open Scope nat_scope.

(** C103.  Leaving out terms which come too late to matter to [t] leaves the columns of [t] as they are: coding, names and,
    for all data, entries. *)
Theorem earlier_terms_decide : forall {V I C S D : Type} (vone : V) (vmul : V -> V -> V) (visnan : V -> bool) (ilabel : nat -> I) (ieqb : I -> I -> bool)
  (passes : factor -> result (S * Z)) (chunk : factor -> S -> nat -> D -> result S) (finish : factor -> S -> nat -> result S)
  (eval : factor -> S -> D -> result (@fobj V I C)) (origin_of : factor -> option origin) (code_cm : list pval -> option C -> bool -> result (@ctr V)) (df_index : D -> option (list I))
  (w : run_of_python) (data : nat -> list D) na (tl : list term) (keep : term -> bool) x y t,
  let builders := design_matrix_builders passes chunk finish eval origin_of code_cm (py_hash w) (py_set_order w) (py_order_mem w) (py_order_exam w) (py_addr w) (py_hash_order w) in
  let build := build vone vmul visnan ilabel ieqb eval origin_of df_index in
  (forall a b, ieqb a b = true <-> a = b) -> indexed eval -> lawful [tl; filter keep tl] w -> builders data na [tl; filter keep tl] = Ok [x; y] ->
  In t tl -> keep t = true -> (forall u, In u tl -> keep u = false -> too_late x tl t u) ->
  (exists ss, In (t, ss) (codings_of (ds_info x)) /\ In (t, ss) (codings_of (ds_info y))) /\ names_of x t = names_of y t /\
  forall d na' want m m' labels, build [x; y] d na' want = Ok ([m; m'], labels) -> part_of x m t = part_of y m' t.
Proof.
  intros V I C S D vone vmul visnan ilabel ieqb passes chunk finish eval origin_of code_cm df_index w data na tl keep x y t builders build Hi Hx L Eb Ht Hk Hl. split; [|split].
  - destruct (later_lemma passes chunk finish eval origin_of code_cm w data na tl keep x y t L Eb Ht Hk Hl) as [ss [H1 [H2 _]]]. eauto.
  - exact (later_names passes chunk finish eval origin_of code_cm w data na tl keep x y t L Eb Ht Hk Hl).
  - intros d na' want m m' labels Hb. exact (later_columns vone vmul visnan ilabel ieqb Hi passes chunk finish eval origin_of code_cm df_index Hx w data na tl keep x y t d na' want m m' labels L Eb Ht Hk Hl Hb).
Qed.
Print Assumptions earlier_terms_decide.

(** The same for designs made apart. *)
Theorem earlier_terms_decide_apart : forall {V I C S D : Type}
  (passes : factor -> result (S * Z)) (chunk : factor -> S -> nat -> D -> result S) (finish : factor -> S -> nat -> result S)
  (eval : factor -> S -> D -> result (@fobj V I C)) (origin_of : factor -> option origin) (code_cm : list pval -> option C -> bool -> result (@ctr V))
  (w : run_of_python) (chunks : list D) na (tl : list term) (keep : term -> bool) x y t,
  let builders := design_matrix_builders passes chunk finish eval origin_of code_cm (py_hash w) (py_set_order w) (py_order_mem w) (py_order_exam w) (py_addr w) (py_hash_order w) in
  lawful [tl; filter keep tl] w -> builders (fun _ => chunks) na [tl] = Ok [x] -> builders (fun _ => chunks) na [filter keep tl] = Ok [y] ->
  In t tl -> keep t = true -> (forall u, In u tl -> keep u = false -> too_late x tl t u) ->
  (exists ss, In (t, ss) (codings_of (ds_info x)) /\ In (t, ss) (codings_of (ds_info y))) /\ names_of x t = names_of y t.
Proof.
  intros V I C S D passes chunk finish eval origin_of code_cm w chunks na tl keep x y t builders L Ex Ey Ht Hk Hl.
  destruct (together_builders passes chunk finish eval origin_of code_cm w chunks na [tl; filter keep tl] L) as [ds Eb]; [discriminate|intros l [<-|[<-|[]]]; eauto|].
  assert (Hd : exists x1 y1, ds = [x1; y1]).
  { rewrite builders_prepare in Eb. destruct (get_action na) as [act|]; cbn [bind] in Eb; [|discriminate]. destruct (prepare _ _ _ _ _ _ _ _ _ _ _ _ _) as [[[[num cat] fis] kn]|]; cbn [bind mapM] in Eb; [|discriminate].
    destruct (design_for _ _ _ _ tl); cbn [bind] in Eb; [|discriminate]. destruct (design_for _ _ _ _ _); cbn [bind] in Eb; [|discriminate]. injection Eb as <-. cbn [map]. eauto. }
  destruct Hd as [x1 [y1 ->]].
  destruct (apart_builders passes chunk finish eval origin_of code_cm w chunks na _ [0] _ L Eb) as [dx [E1 F1]]. destruct (apart_builders passes chunk finish eval origin_of code_cm w chunks na _ [1] _ L Eb) as [dy [E2 F2]].
  cbn in E1, E2, F1, F2. fold builders in E1, E2. rewrite Ex in E1. injection E1 as <-. rewrite Ey in E2. injection E2 as <-.
  inversion F1 as [|? ? ? ? [A1 _] _]; subst. inversion F2 as [|? ? ? ? [A2 _] _]; subst. clear F1 F2.
  assert (G : forall a b : @design V S, anonymous (ds_info a) = anonymous (ds_info b) -> codings_of (ds_info a) = codings_of (ds_info b) /\ names_of a t = names_of b t /\ forall f, numeric_in a f -> numeric_in b f).
  { clear. intros [[c1 i1 d1 s1 n1] k1] [[c2 i2 d2 s2 n2] k2] [= -> Ei -> -> ->]. split; [reflexivity|]. split; [reflexivity|].
    intros f [fi [n [H1 H2]]]. unfold numeric_in, infos_of in *. cbn [ds_info di_infos] in *. destruct i1 as [i1|]; [|destruct H1]. destruct i2 as [i2|]; [|discriminate]. injection Ei as Ei.
    apply (in_map (fun p => (fst p, anon_info (snd p)))) in H1. fold (anon_infos i1) in H1. rewrite Ei in H1. apply in_map_iff in H1. destruct H1 as [[g gi] [E Hg]]. injection E as -> _ Ek. exists gi, n. split; [exact Hg|congruence]. }
  destruct (G _ _ A1) as [C1 [N1 Nu1]]. destruct (G _ _ A2) as [C2 [N2 _]]. destruct (G _ _ (eq_sym A1)) as [_ [_ Nu2]].
  assert (Hl' : forall u, In u tl -> keep u = false -> too_late x1 tl t u).
  { intros u Hu Ku. destruct (Hl u Hu Ku) as [H|H]; [left|now right]. intros B. apply H. intros f Hf. apply B. apply Nu2, Hf. }
  destruct (later_lemma passes chunk finish eval origin_of code_cm w (fun _ => chunks) na tl keep x1 y1 t L Eb Ht Hk Hl') as [ss [H1 [H2 _]]].
  split; [exists ss; rewrite <- C1, <- C2; auto|]. rewrite <- N1, <- N2. exact (later_names passes chunk finish eval origin_of code_cm w (fun _ => chunks) na tl keep x1 y1 t L Eb Ht Hk Hl').
Qed.
Print Assumptions earlier_terms_decide_apart.

(** * Examples *)
(** Rows have two categories. *)
Definition lrow := (string * string)%type.
Definition leval (f : factor) (_ : unit) (d : list lrow) : result (@fobj Q nat unit) :=
  Ok (mkObj (Plain (DSeq false (map (fun r => VStr (if String.eqb f "a" then fst r else snd r)) d))) 1 1 false [] None).
Definition lbuilders := design_matrix_builders (fun _ => Ok (tt, 0%Z)) (fun _ s _ _ => Ok s) (fun _ s _ => Ok s) leval (fun _ => None) zcm
  (py_hash zrun) (py_set_order zrun) (py_order_mem zrun) (py_order_exam zrun) (py_addr zrun) (py_hash_order zrun).
Definition lbuild := build 1%Q Qmult (fun _ => false) (fun n => n) Nat.eqb leval (fun _ => None) (fun _ : list lrow => None).
Definition ld : list lrow := [("p", "u"); ("q", "v"); ("p", "v")].
Definition ltl : list term := [["a"; "b"]; ["a"]; ["b"]].
Definition lds keep := match lbuilders (fun _ => [ld]) (NAStr "drop") [ltl; filter keep ltl] with Ok ds => ds | Err _ => [] end.
(** [0 + a:b + a + b] without [a:b], and without [a]. *)
Definition no_ab (t : term) : bool := Nat.ltb (length t) 2.
Definition no_a (t : term) : bool := negb (term_eqb t ["a"]).
Example later_ex : exists x y, lbuilders (fun _ => [ld]) (NAStr "drop") [ltl; filter no_ab ltl] = Ok [x; y] /\
  (forall u, In u ltl -> no_ab u = false -> too_late x ltl ["b"] u) /\ names_of x ["b"] = ["b[T.v]"] /\ names_of x ["a"; "b"] = ["a[T.q]:b[T.v]"] /\ column_names (ds_info y) = ["a[p]"; "a[q]"; "b[T.v]"] /\
  exists m m', lbuild [x; y] ld (NAStr "drop") false = Ok ([m; m'], None) /\ part_of x m ["b"] = [[0; 1; 1]]%Q /\ part_of y m' ["b"] = [[0; 1; 1]]%Q.
Proof.
  destruct (lds no_ab) as [|x [|y [|]]] eqn:E; try (vm_compute in E; discriminate). exists x, y. vm_compute in E. injection E as <- <-. split; [vm_compute; reflexivity|]. split.
  - intros u [<-|[<-|[<-|[]]]]; [|vm_compute; discriminate|vm_compute; discriminate]. intros _. right. left. cbn. lia.
  - split; [vm_compute; reflexivity|]. split; [vm_compute; reflexivity|]. split; [vm_compute; reflexivity|]. eexists. eexists. split; [vm_compute; reflexivity|]. split; vm_compute; reflexivity.
Qed.
Example later_hyps : indexed leval /\ lawful [ltl; filter no_ab ltl] zrun.
Proof.
  split; [intros f s d o i [= <-]; discriminate|]. apply zrun_lawful. repeat apply Forall_cons; try apply Forall_nil; intros f Hf; cbn in Hf; intuition (subst; cbn; auto).
Qed.
(** Terms before [b] do matter to it. *)
Example earlier_matters : exists x y, lbuilders (fun _ => [ld]) (NAStr "drop") [ltl; filter no_a ltl] = Ok [x; y] /\ names_of x ["b"] = ["b[T.v]"] /\ names_of y ["b"] = ["b[u]"; "b[v]"].
Proof.
  destruct (lds no_a) as [|x [|y [|]]] eqn:E; try (vm_compute in E; discriminate). exists x, y. vm_compute in E. injection E as <- <-. split; [vm_compute; reflexivity|]. split; vm_compute; reflexivity.
Qed.
