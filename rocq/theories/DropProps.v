(** C101: rows with missing values, dropped by patsy or beforehand. *)
From Coq Require Import ZArith QArith Permutation Sorted.
From Verif Require Import Base NumModel StateModel DescModel FormulaModel BuildModel BuildSpec MemorizeModel MemorizeSpec RedundancySpec CategoricalModel CategoricalSpec PipeModel PipeSpec
  PipeSeedSpec FitModel FitSpec EntryModel IncrModel IncrSpec IncrProps ArrangeSpec ArrangeProofs DropSpec DropProofs.
Import StateModel.
Open Scope string_scope.
Open Scope list_scope.
Open Scope nat_scope.

(** C101.  If the rows that stay show as much as all rows (no stateful transform that remembers something else, and
    every level), then dropping the others beforehand makes no difference: the same design, the same matrix and the
    same predictions. *)
Theorem drop_before_or_after : forall {V I C S D : Type} (vone : V) (vmul : V -> V -> V) (visnan : V -> bool) (ilabel : nat -> I) (ieqb : I -> I -> bool)
  (passes : factor -> result (S * Z)) (chunk : factor -> S -> nat -> D -> result S) (finish : factor -> S -> nat -> result S)
  (eval : factor -> S -> D -> result (@fobj V I C)) (origin_of : factor -> option origin) (code_cm : list pval -> option C -> bool -> result (@ctr V)) (df_index : D -> option (list I))
  (w1 : run_of_python) (tls : list (list term)) d na na' want n ds1 r,
  let builders w := design_matrix_builders passes chunk finish eval origin_of code_cm (py_hash w) (py_set_order w) (py_order_mem w) (py_order_exam w) (py_addr w) (py_hash_order w) in
  let build := build vone vmul visnan ilabel ieqb eval origin_of df_index in
  (forall a b, ieqb a b = true <-> a = b) -> indexed eval -> lawful tls w1 -> tls <> [] -> has_rows eval df_index ds1 d n ->
  builders w1 (fun _ => [d]) na tls = Ok ds1 -> build ds1 d na' want = Ok r ->
  exists act, get_action na' = Ok act /\ let ks := staying eval visnan origin_of act ds1 d n in
    forall d' w2, lawful tls w2 -> df_index d' = option_map (fun i => pick i ks) (df_index d) ->
      (forall act, get_action na = Ok act -> forall f, In f (factors_of tls) -> unaffected passes chunk finish eval w1 w2 (na_what act) ks d d' f) ->
      exists ds2 r', builders w2 (fun _ => [d']) na tls = Ok ds2 /\ Forall2 (fun x y => anonymous (ds_info x) = anonymous (ds_info y)) ds1 ds2 /\
        build ds2 d' na' want = Ok r' /\ fst r' = fst r /\
        (labelled eval df_index ds1 d -> snd r' = snd r) /\ (~ labelled eval df_index ds1 d -> snd r' = if want then Some (map ilabel (seq 0 (length ks))) else None) /\
        forall x na'' want' p, build ds1 x na'' want' = Ok p -> build ds2 x na'' want' = Ok p.
Proof.
  intros V I C S D vone vmul visnan ilabel ieqb passes chunk finish eval origin_of code_cm df_index w1 tls d na na' want n ds1 r builders build Hi Hx L1 Ht Hr Hb Hm.
  pose proof L1 as [A1 [A2 [A3 _]]].
  destruct (PipeProofs.builders_good _ _ _ _ _ _ _ _ _ _ _ _ A1 A2 A3 _ _ _ _ Hb) as [N1 [C1 [D1 _]]].
  assert (Hne : ds1 <> []) by (intros ->; destruct tls; [contradiction|discriminate]).
  assert (Hok : designs_ok ds1) by (split; assumption).
  destruct (drop_build vone vmul visnan ilabel ieqb Hi eval origin_of df_index Hx ds1 d d na' want n r Hok Hne Hr Hm) as [act [Ha _]].
  exists act. split; [exact Ha|]. intros ks d' w2 L2 Hdf Hu.
  destruct (drop_rearranges passes chunk finish eval origin_of code_cm df_index w1 w2 tls L1 d d' ks na ds1 Hu Hb Hdf) as [_ [_ R]].
  destruct (drop_builders vone vmul visnan ilabel ieqb Hi passes chunk finish eval origin_of code_cm df_index Hx w1 w2 tls L1 L2 d d' ks na ds1 Hu Hb) as [ds2 [E2 [An Bd]]].
  destruct (drop_build vone vmul visnan ilabel ieqb Hi eval origin_of df_index Hx ds1 d d' na' want n r Hok Hne Hr Hm) as [act' [Ha' G]].
  assert (act' = act) by congruence. subst act'. destruct (G R) as [r' [E' [G1 [G2 G3]]]].
  exists ds2, r'. repeat (split; [solve [auto]|]). exact Bd.
Qed.
Print Assumptions drop_before_or_after.

(** Code without stateful transforms remembers nothing, so for it only the levels count. *)
Theorem stateless_alike : forall {val data St V I C : Type} (code : factor -> @texpr val data St) (bins : factor -> list (list string)) (origin_of : factor -> option origin) (as_obj : val -> @fobj V I C) d d' f,
  bins f = [] -> fitted_alike (ef_passes code bins) (ef_chunk code bins origin_of) (ef_finish code bins) (ef_eval code origin_of as_obj) d d' f.
Proof.
  intros val data St V I C code bins origin_of as_obj d d' f Hb s [s0 [k [P R]]]. exists s. split; [|reflexivity]. exists s0, k. split; [exact P|].
  unfold ef_passes in P. rewrite Hb in P. cbn in P. injection P as <- <-. exact R.
Qed.
Print Assumptions stateless_alike.

(** * Examples *)
(** Rows with two categories and a number; the factors [a], [b] and [center(x)]. *)
Definition drow := (pval * pval * Qc)%type.
Definition dval := (list pval + arr)%type.
Definition d_as_arr (v : dval) : result arr := match v with inl _ => Err (TypeError "not a number") | inr x => Ok x end.
Definition dcode (f : factor) : @texpr dval (list drow) tstate :=
  if String.eqb f "a" then TLeaf (fun d => Ok (inl (map (fun r => fst (fst r)) d)))
  else if String.eqb f "b" then TLeaf (fun d => Ok (inl (map (fun r => snd (fst r)) d)))
  else TCall "o" (on_values d_as_arr inr center_class) [TLeaf (fun d => Ok (inr (A1 (map snd d))))].
Definition dbins (f : factor) : list (list string) := if String.eqb f "center(x)" then [["o"]] else [].
Definition dobj (v : dval) : @fobj Q nat unit :=
  match v with
  | inl l => mkObj (Plain (DSeq false l)) 1 1 false [] None
  | inr x => let cells := map (map this) (snd (to_2d x)) in let n := fst (to_2d x) in mkObj (Plain (DArray true 2 n)) 2 n true cells None
  end.
Definition deval := ef_eval dcode (fun _ => None) dobj.
Definition dbuilders := design_matrix_builders (ef_passes dcode dbins) (ef_chunk dcode dbins (fun _ => None)) (ef_finish dcode dbins) deval (fun _ => None) zcm
  (py_hash zrun) (py_set_order zrun) (py_order_mem zrun) (py_order_exam zrun) (py_addr zrun) (py_hash_order zrun).
Definition dbuild := build 1%Q Qmult (fun _ => false) (fun n => n) Nat.eqb deval (fun _ => None) (fun _ : list drow => None).
Definition dresult tl (d : list drow) := let* ds := dbuilders (fun _ => [d]) (NAStr "drop") [tl] in dbuild ds d (NAStr "drop") false.

(** With NA_action="drop" the whole data decides about the levels and about what transforms remember, also the rows
    that are dropped: a level that is only in such rows has a column of zeros, which is not there if the rows are
    left out beforehand; and center() subtracts the mean of all rows. *)
Definition d1 : list drow := [(VStr "p", VStr "u", qz 1); (VStr "q", VNone, qz 2); (VStr "p", VStr "w", qz 9)].
Theorem drop_first_refuted :
  (exists d, dresult [["a"]; ["b"]] d = Ok ([mkMat 2 [[1; 1]; [0; 0]; [0; 1]]]%Q, None) /\ dresult [["a"]; ["b"]] (pick d [0; 2]) = Ok ([mkMat 2 [[1; 1]; [0; 1]]]%Q, None)) /\
  (exists d, dresult [["b"]; ["center(x)"]] d = Ok ([mkMat 2 [[1; 0]; [0; 1]; [-3; 5]]]%Q, None) /\
             dresult [["b"]; ["center(x)"]] (pick d [0; 2]) = Ok ([mkMat 2 [[1; 0]; [0; 1]; [-4; 4]]]%Q, None)).
Proof. split; exists d1; split; vm_compute; reflexivity. Qed.
Print Assumptions drop_first_refuted.

(** Here every level is in a complete row. *)
Definition d2 : list drow := [(VStr "q", VStr "u", qz 1); (VStr "q", VNone, qz 2); (VStr "p", VStr "w", qz 9)].
Definition dtl : list (list term) := [[["a"]; ["b"]]].
Definition dds := match dbuilders (fun _ => [d2]) (NAStr "drop") dtl with Ok ds => ds | Err _ => [] end.
Example drop_ex : dresult [["a"]; ["b"]] d2 = Ok ([mkMat 2 [[0; 1]; [1; 0]; [0; 1]]]%Q, None) /\ dresult [["a"]; ["b"]] (pick d2 [0; 2]) = dresult [["a"]; ["b"]] d2 /\
  (forall act, get_action (NAStr "drop") = Ok act -> staying deval (fun _ => false) (fun _ => None) act dds d2 3 = [0; 2]).
Proof. split; [vm_compute; reflexivity|]. split; [vm_compute; reflexivity|]. intros act [= <-]. vm_compute. reflexivity. Qed.
Definition text (v : pval) : Prop := v = VNone \/ exists t, v = VStr t.
Lemma text_remains nan l l' : Forall text l -> incl l' l -> (forall v, In v l -> v <> VNone -> In v l') ->
  remains zrun zrun (mkNA nan true) (@Plain unit (DSeq false l)) (Plain (DSeq false l')).
Proof.
  intros F Hi Hst. rewrite Forall_forall in F. set (na := mkNA nan true).
  assert (Str : forall x, occurs na l x -> exists t, x = VStr t).
  { intros x [[Hx Hm]|[_ [b Hx]]]; destruct (F _ Hx) as [E|[t E]]; try discriminate; subst; [|eauto]. exfalso. apply Hm. now right. }
  apply rm_levels with (cells := l) (cells' := l'); try reflexivity; auto; try (constructor; [constructor|intros [? [? E]]; discriminate|discriminate]).
  - intros x Hx Hm. apply Hst; [exact Hx|]. intros ->. apply Hm. now right.
  - intros [v [Hv [_ Hs]]]. exfalso. destruct (F v Hv) as [->|[t ->]]; (destruct Hs as [Hs|[[b Hs] _]]; discriminate).
  - apply Forall_forall. intros v Hv. destruct (F v Hv) as [->|[t ->]]; (split; [discriminate|]); now right.
  - intros x y Hx Hy E. destruct (Str x Hx) as [t ->], (Str y Hy) as [u ->]. unfold same in E. cbn in E. apply String.eqb_eq in E. now subst.
  - intros x Hx. left. apply Forall_forall. intros v Hv. right. exact (Str v (Hx v Hv)).
Qed.
Example drop_hyps : indexed deval /\ lawful dtl zrun /\ has_rows deval (fun _ => None) dds d2 3 /\
  forall act, get_action (NAStr "drop") = Ok act -> forall f, In f (factors_of dtl) ->
    unaffected (ef_passes dcode dbins) (ef_chunk dcode dbins (fun _ => None)) (ef_finish dcode dbins) deval zrun zrun (na_what act) [0; 2] d2 (pick d2 [0; 2]) f.
Proof.
  split; [|split; [|split]].
  - intros f s d o i. unfold deval, ef_eval. destruct (teval s (dcode f) d) as [v|]; [|discriminate]. cbn. intros [= <-]. destruct v; discriminate.
  - apply zrun_lawful. constructor; [|constructor]. intros f [<-|[<-|[]]]; cbn; auto.
  - split; [discriminate|]. intros fi o [Hfi [s [c [_ E]]]]. revert E. assert (F : fi = mkFI 0 "a" (FCat 2) \/ fi = mkFI 1 "b" (FCat 2)) by (vm_compute in Hfi |- *; destruct Hfi as [<-|[<-|[]]]; auto).
    destruct F as [-> | ->]; cbn; intros [= <-]; reflexivity.
  - intros act [= <-] f Hf. cbn in Hf. assert (Fb : dbins f = []) by (destruct Hf as [<-|[<-|[]]]; reflexivity). split; [now apply stateless_alike|].
    intros s o _ Eo. destruct Hf as [<-|[<-|[]]]; cbn in Eo; injection Eo as <-; (eexists; split; [reflexivity|]); cbn [dobj o_value];
      (split; [split; [constructor; cbn; match goal with |- data_arranged _ (DSeq _ ?l) (DSeq _ ?m) => exact (da_seq [0; 2] false false l) end|repeat split; reflexivity]|]);
      (apply text_remains; [repeat apply Forall_cons; try apply Forall_nil; unfold text; eauto|intros v Hv; cbn in *; tauto|intros v Hv Hn; cbn in *; intuition congruence]).
Qed.
