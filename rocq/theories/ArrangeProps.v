(** C91: the rows of the data and the rows of the matrix. *)
From Coq Require Import ZArith QArith Permutation Sorted.
From Verif Require Import Base NumModel StateModel StateSpec StateProofs LinModel SplineModel BsModel DescModel FormulaModel BuildModel BuildSpec MemorizeModel MemorizeSpec RedundancySpec CategoricalModel CategoricalSpec PipeModel PipeSpec
  PipeSeedSpec FitModel FitSpec EntryModel IncrModel IncrSpec IncrClassSpec IncrClassProofs IncrProps ArrangeSpec ArrangeProofs ArrangeFitProofs.
Open Scope string_scope.
Open Scope list_scope.
Open Scope nat_scope.

(** C91.  If matrices can be built for some data, then they can be built for any rearrangement of its rows (another
    order, some of the rows only, or rows repeated), and have the same rows, rearranged; with the rows that are
    dropped for missing values being the same ones. *)
Theorem rows_rearranged : forall {V I C S D : Type} (vone : V) (vmul : V -> V -> V) (visnan : V -> bool) (ilabel : nat -> I) (ieqb : I -> I -> bool)
  (eval : factor -> S -> D -> result (@fobj V I C)) (origin_of : factor -> option origin) (df_index : D -> option (list I)) ds d na want n r,
  let build := build vone vmul visnan ilabel ieqb eval origin_of df_index in
  (forall a b, ieqb a b = true <-> a = b) -> indexed eval -> designs_ok ds -> ds <> [] -> has_rows eval df_index ds d n -> build ds d na want = Ok r ->
  exists kept, StronglySorted lt kept /\ (forall k, In k kept -> k < n) /\ (forall act, get_action na = Ok act -> na_on act = NARaise -> kept = seq 0 n) /\
    forall ks d', (forall k, In k ks -> k < n) -> rearranges ks eval df_index ds d d' ->
      exists r', build ds d' na want = Ok r' /\
        (labelled eval df_index ds d -> arranged_results ks ilabel kept want true r r') /\ (~ labelled eval df_index ds d -> arranged_results ks ilabel kept want false r r').
Proof.
  intros V I C S D vone vmul visnan ilabel ieqb eval origin_of df_index ds d na want n r build Hi Hx Hok Hne Hn Hb.
  destruct (PipeHighProofs.build_built vone vmul visnan ilabel ieqb Hi eval origin_of df_index Hx ds d na want (fst r) (snd r) Hok) as [act [Ha _]]; [now rewrite <- surjective_pairing|].
  exists (kept (na_on act) (evals (PipeModel.eval_info visnan eval origin_of (concat (map ds_known ds)) (na_what act) d) (all_infos (map ds_info ds))) n).
  split; [apply kept_sorted|]. split; [intros k; apply kept_lt|]. split; [intros a Ea E; assert (a = act) by congruence; subst a; now rewrite E|].
  intros ks d' Hk Hr. destruct (build_arranged vone vmul visnan ilabel ieqb Hi eval origin_of df_index Hx ks ds d d' na want n r Hok Hne Hn Hk Hr Hb) as [a [Ea H]].
  assert (a = act) by congruence. subst a. exact H.
Qed.
Print Assumptions rows_rearranged.

(** Also when the design is made from the rearranged data: it is the same design, and the matrix for that data
    has the rows rearranged. *)
Theorem order_of_rows : forall {val data St V I C row cell : Type} (vone : V) (vmul : V -> V -> V) (visnan : V -> bool) (ilabel : nat -> I) (ieqb : I -> I -> bool)
  (code : factor -> @texpr val data St) (bins : factor -> list (list string)) (origin_of : factor -> option origin) (as_obj : val -> @fobj V I C)
  (code_cm : list pval -> option C -> bool -> result (@ctr V)) (df_index : data -> option (list I))
  (rows_of : data -> list row) (holds : val -> list cell -> Prop) (d : data) (w1 : run_of_python) (tls : list (list term)) na na' want ds1 r,
  let eval := ef_eval code origin_of as_obj in
  let builders w := design_matrix_builders (ef_passes code bins) (ef_chunk code bins origin_of) (ef_finish code bins) eval origin_of code_cm (py_hash w) (py_set_order w) (py_order_mem w) (py_order_exam w) (py_addr w) (py_hash_order w) in
  let build := build vone vmul visnan ilabel ieqb eval origin_of df_index in
  (forall a b, ieqb a b = true <-> a = b) -> indexed eval -> rows_of d <> [] -> lawful tls w1 -> tls <> [] -> (forall i, df_index d = Some i -> length i = length (rows_of d)) ->
  builders w1 (fun _ => [d]) na tls = Ok ds1 -> build ds1 d na' want = Ok r ->
  exists kept, StronglySorted lt kept /\ (forall k, In k kept -> k < length (rows_of d)) /\ (forall act, get_action na' = Ok act -> na_on act = NARaise -> kept = seq 0 (length (rows_of d))) /\
    forall ks d' w2, Permutation ks (seq 0 (length (rows_of d))) -> rows_of d' = pick (rows_of d) ks -> df_index d' = option_map (fun i => pick i ks) (df_index d) -> lawful tls w2 ->
      (forall act, get_action na = Ok act -> forall f, In f (factors_of tls) -> order_free rows_of holds as_obj ks d d' w1 w2 (na_what act) (code f) (bins f)) ->
      exists ds2 r', builders w2 (fun _ => [d']) na tls = Ok ds2 /\ Forall2 (fun x y => anonymous (ds_info x) = anonymous (ds_info y)) ds1 ds2 /\ build ds2 d' na' want = Ok r' /\
        (labelled eval df_index ds1 d -> arranged_results ks ilabel kept want true r r') /\ (~ labelled eval df_index ds1 d -> arranged_results ks ilabel kept want false r r').
Proof.
  intros val data St V I C row cell vone vmul visnan ilabel ieqb code bins origin_of as_obj code_cm df_index rows_of holds d w1 tls na na' want ds1 r eval builders build Hi Hx Hrow L1 Ht Hlen Hb Hm.
  assert (Ha : exists act, get_action na' = Ok act) by (unfold build, PipeModel.build in Hm; destruct (get_action na') as [a|]; [eauto|discriminate]). destruct Ha as [act Ha].
  exists (kept (na_on act) (evals (PipeModel.eval_info visnan eval origin_of (concat (map ds_known ds1)) (na_what act) d) (all_infos (map ds_info ds1))) (length (rows_of d))).
  split; [apply kept_sorted|]. split; [intros k; apply kept_lt|]. split; [intros a Ea E; assert (a = act) by congruence; subst a; now rewrite E|].
  intros ks d' w2 Hks Hd' Hdf L2 H.
  destruct (order_lemma vone vmul visnan ilabel ieqb Hi code bins origin_of as_obj code_cm df_index Hx rows_of holds d d' ks Hrow Hd' Hks w1 w2 tls L1 L2 na na' want ds1 r Ht H Hb Hdf Hlen Hm) as [a [Ea G]].
  assert (a = act) by congruence. subst a. exact G.
Qed.
Print Assumptions order_of_rows.

(** * Examples *)
(** Rows have a category (or None) and a number; [a] is categorical, [x] numerical. *)
Definition arow := (pval * Z)%type.
Definition aeval (f : factor) (s : unit) (d : list arow) : result (@fobj Z Z unit) :=
  if String.eqb f "a" then Ok (mkObj (Plain (DSeq false (map fst d))) 1 1 false [] None)
  else Ok (mkObj (Plain (DArray true 2 1)) 2 1 true (map (fun r => [snd r]) d) (Some (map (fun r => (10 * snd r)%Z) d))).
Definition acm (levels : list pval) (c : option unit) (full : bool) : result (@ctr Z) :=
  let n := List.length levels in
  let unit_row (k : nat) (i : nat) := if Nat.eqb i k then 1%Z else 0%Z in
  let label v := match v with VStr s => s | _ => "?" end in
  if full then Ok (mkCtr (map (fun i => map (fun k => unit_row k i) (seq 0 n)) (seq 0 n)) (map (fun v => "[" ++ label v ++ "]")%string levels))
  else Ok (mkCtr (map (fun i => map (fun k => unit_row k i) (seq 1 (n - 1))) (seq 0 n)) (map (fun v => "[T." ++ label v ++ "]")%string (tl levels))).
Definition abuilders := design_matrix_builders (fun _ => Ok (tt, 0%Z)) (fun _ _ _ _ => Ok tt) (fun _ _ _ => Ok tt) aeval (fun _ => None) acm
  (py_hash zrun) (py_set_order zrun) (py_order_mem zrun) (py_order_exam zrun) (py_addr zrun) (py_hash_order zrun).
Definition adata : list arow := [(VStr "p", 1%Z); (VNone, 2%Z); (VStr "q", 3%Z); (VStr "p", 4%Z)].
Definition abuild := build 1%Z Z.mul (fun _ => false) Z.of_nat Z.eqb aeval (fun _ => None) (fun _ : list arow => None).
Definition ads := match abuilders (fun _ => [adata]) (NAStr "drop") [[["a"]; ["x"]]] with Ok ds => ds | Err _ => [] end.
Example rows_rearranged_ex : abuild ads adata (NAStr "drop") true = Ok ([mkMat 3 [[1; 0; 1]; [0; 1; 0]; [1; 3; 4]]]%Z, Some [10; 30; 40]%Z) /\
  abuild ads (pick adata [3; 1; 2; 2; 0]) (NAStr "drop") true = Ok ([mkMat 4 [[1; 0; 0; 1]; [0; 1; 1; 0]; [4; 3; 3; 1]]]%Z, Some [40; 30; 30; 10]%Z).
Proof. split; vm_compute; reflexivity. Qed.
Lemma pick_none {A} ks : pick (@nil A) ks = [].
Proof. induction ks as [|[] ks IH]; [reflexivity|exact IH..]. Qed.
Example rows_rearranged_hyps : indexed aeval /\ designs_ok ads /\ ads <> [] /\ has_rows aeval (fun _ => None) ads adata 4 /\
  (forall ks, rearranges ks aeval (fun _ => None) ads adata (pick adata ks)) /\ labelled aeval (fun _ => None) ads adata.
Proof.
  assert (B : abuilders (fun _ => [adata]) (NAStr "drop") [[["a"]; ["x"]]] = Ok ads) by (vm_compute; reflexivity).
  destruct (PipeProofs.builders_good _ _ _ _ _ _ _ _ _ _ _ _ (fun l => Permutation_refl l) (fun _ l => Permutation_refl l) (fun _ l => Permutation_refl l) _ _ _ _ B) as [_ [H1 [H2 _]]].
  split; [|split; [split; assumption|split; [vm_compute; discriminate|split; [split; [discriminate|]|split; [split; [reflexivity|]|]]]]].
  - intros f s d o i. unfold aeval. destruct (String.eqb f "a"); intros [= <-]; cbn; intros [= <-]. rewrite !map_length. split; [reflexivity|]. intros categories na org codes. unfold categorical_to_int. cbn [o_value shape_fix bind]. discriminate.
  - intros fi o [Hfi [s [c [_ E]]]]. revert E. assert (F : fi = mkFI 0 "a" (FCat 2) \/ fi = mkFI 1 "x" (FNum 1)) by (vm_compute in Hfi |- *; destruct Hfi as [<-|[<-|[]]]; auto).
    destruct F as [-> | ->]; cbn; intros [= <-]; reflexivity.
  - intros fi s c o _ _. unfold aeval. destruct (String.eqb (fi_factor fi) "a"); intros [= <-]; (eexists; split; [reflexivity|]).
    + split; [constructor; cbn; rewrite <- pick_map; constructor|]. cbn -[pick]. rewrite pick_none. repeat split; reflexivity.
    + split; [constructor; constructor|]. do 3 (split; [reflexivity|]). split; [exact (eq_sym (pick_map _ adata ks))|exact (f_equal Some (eq_sym (pick_map _ adata ks)))].
  - right. exists (mkFI 1 "x" (FNum 1)). eexists _, _. split; [split; [vm_compute; auto|]|].
    + eexists _, _. split; [vm_compute; reflexivity|reflexivity].
    + reflexivity.
Qed.

(** The factors [a] and [center(x)] of IncrProps: the rows of [zd'] are those of [zd] in another order. *)
Definition zd : zdata := [("p", qz 1); ("q", qz 2); ("r", qz 9)].
Definition zd' : zdata := [("r", qz 9); ("p", qz 1); ("q", qz 2)].
Definition ztl : list (list term) := [[["a"]; ["center(x)"]]].
Definition zresult_of (d : zdata) := let* ds := zbuilders (fun _ => [d]) (NAStr "drop") ztl in
  build 1%Q Qmult (fun _ => false) (fun n => n) Nat.eqb (ef_eval zcode (fun _ => None) zobj) (fun _ => None) (fun _ : zdata => None) ds d (NAStr "drop") false.
Example order_of_rows_ex : zd' = pick zd [2; 0; 1] /\
  zresult_of zd = Ok ([mkMat 3 [[1; 0; 0]; [0; 1; 0]; [0; 0; 1]; [-3; -2; 5]]]%Q, None) /\ zresult_of zd' = Ok ([mkMat 3 [[0; 1; 0]; [0; 0; 1]; [1; 0; 0]; [5; -3; -2]]]%Q, None).
Proof. split; [reflexivity|]. split; vm_compute; reflexivity. Qed.
Lemma inl_rows (l : list string) (d : zdata) : map (fun r : zrow => inl (fst r)) d = map (@inl _ (list Qc)) l -> l = map fst d.
Proof. revert l. induction d as [|r d IH]; intros [|s l] M; try discriminate; [reflexivity|]. cbn in M. injection M as M1 M2. cbn. f_equal; auto. Qed.
Example order_of_rows_lawful : lawful ztl zrun.
Proof. apply zrun_lawful. constructor; [|constructor]. intros f [<-|[<-|[]]]; cbn; auto. Qed.
Example order_of_rows_hyps : forall na f, In f (factors_of ztl) -> order_free (fun d => d) zholds zobj [2; 0; 1] zd zd' zrun zrun na (zcode f) (zbins f).
Proof.
  intros na f Hf.
  assert (Hne : forall d, In d [zd; zd'] -> d <> []) by (intros d [<-|[<-|[]]]; easy).
  assert (Hin : forall d, In d [zd; zd'] -> incl d zd) by (intros d [<-|[<-|[]]] r Hr; cbn in *; tauto).
  cbn in Hf. destruct Hf as [<-|[<-|[]]].
  - split; [constructor|]. split; [split; [apply perm_nil|intros o c args o' p q bin bin' []]|].
    assert (Val : forall d v, In d [zd; zd'] -> means zholds (PerRow (fun r : zrow => inl (fst r))) d v -> v = inl (map fst d)).
    { intros d v Hd M. destruct v as [l|x]; cbn in M; [f_equal; now apply inl_rows|]. exfalso. destruct M as [rows [E _]]. destruct d as [|r d]; [now apply (Hne [] Hd)|]. destruct rows; discriminate. }
    exists (PerRow (fun r : zrow => inl (fst r))). split; [apply rw_leaf; intros d _; eexists; split; [reflexivity|]; cbn; now rewrite map_map|]. split.
    + apply st_categories with (value := fun r : zrow => VStr (fst r)) (c := None).
      * intros d v Hd M. rewrite (Val d v Hd M). cbn. split; [|split; reflexivity]. replace (map (fun r : zrow => VStr (fst r)) d) with (map VStr (map fst d)) by apply map_map. constructor; [constructor|intros [? [? E]]; discriminate|discriminate].
      * intros [v [Hv [_ Hs]]]. exfalso. cbn in Hv. destruct Hv as [<-|[<-|[<-|[]]]]; (destruct Hs as [Hs|[[b Hs] _]]; discriminate).
      * repeat constructor; try discriminate; now right.
      * intros x y [[Hx _]|[_ [b Hb]]] [[Hy _]|[_ [b' Hb']]] E; try (cbn in Hb; destruct Hb as [Hb|[Hb|[Hb|[]]]]; discriminate); try (cbn in Hb'; destruct Hb' as [Hb'|[Hb'|[Hb'|[]]]]; discriminate).
        cbn in Hx, Hy. destruct Hx as [<-|[<-|[<-|[]]]], Hy as [<-|[<-|[<-|[]]]]; try reflexivity; discriminate.
      * intros l Hl. left. apply Forall_forall. intros x Hx. right. destruct (Hl x Hx) as [[Ho _]|[_ [b Hb]]]; [|cbn in Hb; destruct Hb as [Hb|[Hb|[Hb|[]]]]; discriminate].
        cbn in Ho. destruct Ho as [<-|[<-|[<-|[]]]]; eauto.
    + intros v v' M M'. rewrite (Val zd v (or_introl eq_refl) M), (Val zd' v' (or_intror (or_introl eq_refl)) M'). split; [|reflexivity].
      split; [constructor; exact (da_seq [2; 0; 1] false false [VStr "p"; VStr "q"; VStr "r"])|]. repeat split; reflexivity.
  - split; [cbn; repeat constructor; intros []|]. split; [split; [apply Permutation_refl|intros o c args o' p q bin bin' Hc Ho; cbn in Hc; destruct Hc as [Hc|[]]; injection Hc as <- <- <-; destruct Ho]|].
    assert (Val : forall (g : zrow -> list Qc) d v, (forall r, length (g r) = 1) -> In d [zd; zd'] -> means zholds (PerRow (fun r : zrow => inr (g r))) d v ->
       exists x, v = inr x /\ snd (to_2d x) = map g d /\ fst (to_2d x) = 1).
    { intros g d v Hg Hd M. cbn [means] in M. rewrite <- (map_map g inr) in M. apply (proj2 zarrays) in M; [|destruct d; [exfalso; now apply (Hne [] Hd)|discriminate]]. destruct M as [x [Ex Hx]]. destruct v as [l|y]; [discriminate|]. injection Ex as ->.
      exists x. split; [reflexivity|]. split; [apply Hx|]. now destruct (cells_cols g 1 d x (Hne d Hd) (fun r _ => Hg r) Hx). }
    exists (PerRow (fun r => inr (entrywise 1 (fun j q => (q - col_mean (map (fun r : zrow => [snd r]) zd) j)%Qc) [snd r]))). split; [|split].
    + eapply rw_call; [apply rw_cons; [|apply rw_nil]|].
      * apply rw_leaf. intros d _. eexists. split; [reflexivity|]. instantiate (1 := PerRow (fun r => inr [snd r])). cbn. exists (map (fun r => [snd r]) d). rewrite map_map. split; [reflexivity|]. split; [cbn; now rewrite map_map|]. split; [reflexivity|]. cbn. rewrite map_map. apply Forall_forall. intros r Hr. apply in_map_iff in Hr. destruct Hr as [z [<- _]]. reflexivity.
      * apply (values_by_row zd z_as_arr inr zholds inr center_class [fun r => [snd r]]); [apply zarrays|]. apply (center_by_row zd 1); [easy|reflexivity].
    + apply st_numbers with (n := 1). intros d v Hd M. apply Val in M; [|reflexivity|exact Hd]. destruct M as [x [-> [_ E]]]. cbn [zobj o_value]. rewrite E. constructor. lia.
    + intros v v' M M'. apply Val in M; [|reflexivity|now left]. apply Val in M'; [|reflexivity|right; now left]. destruct M as [x [-> [E1 E2]]], M' as [y [-> [E3 E4]]]. split; [|cbn [zobj o_value guess_categorical negb value_rows o_rows]; now rewrite E1].
      split; [cbn [zobj o_value]; rewrite E2, E4; constructor; constructor|]. cbn [zobj o_ndim o_ncols o_isnum o_rows o_index]. rewrite E1, E2, E3, E4. repeat split; reflexivity.
Qed.
