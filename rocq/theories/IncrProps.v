(** C83: building designs from data in chunks. *)
From Coq Require Import ZArith QArith Permutation.
From Verif Require Import Base NumModel StateModel StateSpec StateProofs LinModel SplineModel BsModel DescModel FormulaModel BuildModel BuildSpec MemorizeModel MemorizeSpec RedundancySpec CategoricalModel CategoricalSpec PipeModel PipeSpec
  PipeSeedSpec FitModel FitSpec EntryModel IncrModel IncrSpec IncrProofs IncrClassSpec IncrClassProofs.
Import StateModel StateSpec.
Open Scope string_scope.
Open Scope list_scope.
Open Scope nat_scope.

(** C83.  If a design can be built from data given in some chunks, it can be built from the same rows in any other
    chunks and any order (also by another run of Python), for example all at once; it is the same design, and
    the same matrices come out of it for any data. *)
Theorem incremental_at_once : forall {val data St V I C row cell : Type} (vone : V) (vmul : V -> V -> V) (visnan : V -> bool) (ilabel : nat -> I) (ieqb : I -> I -> bool)
  (code : factor -> @texpr val data St) (bins : factor -> list (list string)) (origin_of : factor -> option origin) (as_obj : val -> @fobj V I C)
  (code_cm : list pval -> option C -> bool -> result (@ctr V)) (df_index : data -> option (list I))
  (rows_of : data -> list row) (holds : val -> list cell -> Prop) (xs ys : list data) (all : list row) (w1 w2 : run_of_python) (tls : list (list term)) na ds1,
  let passes := ef_passes code bins in let chunk := ef_chunk code bins origin_of in let finish := ef_finish code bins in let eval := ef_eval code origin_of as_obj in
  let builders w := design_matrix_builders passes chunk finish eval origin_of code_cm (py_hash w) (py_set_order w) (py_order_mem w) (py_order_exam w) (py_addr w) (py_hash_order w) in
  let build := build vone vmul visnan ilabel ieqb eval origin_of df_index in
  (forall a b, ieqb a b = true <-> a = b) -> indexed eval ->
  Permutation (flat_map rows_of xs) all -> Permutation (flat_map rows_of ys) all -> xs <> [] -> ys <> [] -> (forall d, In d (xs ++ ys) -> rows_of d <> []) ->
  lawful tls w1 -> lawful tls w2 ->
  (forall act, get_action na = Ok act -> forall f, In f (factors_of tls) -> chunk_free rows_of holds all (xs ++ ys) as_obj w1 w2 (na_what act) (code f) (bins f)) ->
  builders w1 (fun _ => xs) na tls = Ok ds1 ->
  exists ds2, builders w2 (fun _ => ys) na tls = Ok ds2 /\
    Forall2 (fun x y => anonymous (ds_info x) = anonymous (ds_info y)) ds1 ds2 /\
    forall us vs d na' want r, Forall2 (paired ds1 ds2) us vs -> build us d na' want = Ok r -> build vs d na' want = Ok r.
Proof.
  intros val data St V I C row cell vone vmul visnan ilabel ieqb code bins origin_of as_obj code_cm df_index rows_of holds xs ys all w1 w2 tls na ds1 passes chunk finish eval builders build Hi Hx P1 P2 N1 N2 F L1 L2 H Hb.
  exact (incremental_lemma vone vmul visnan ilabel ieqb Hi code bins origin_of as_obj code_cm df_index Hx rows_of holds xs ys all P1 P2 N1 N2 F w1 w2 tls L1 L2 na ds1 H Hb).
Qed.
Print Assumptions incremental_at_once.

(** The transforms of patsy learn the same from any chunks and then work row by row. *)
Theorem center_by_row : forall {row} (all : list row) k (g : row -> list Qc), all <> [] -> (forall r, In r all -> length (g r) = k) ->
  by_row row_cells all center_class [PerRow g] (PerRow (fun r => entrywise k (fun j q => (q - col_mean (map g all) j)%Qc) (g r))).
Proof. intros row all k g Hn Hg. now apply center_row_lemma. Qed.
Print Assumptions center_by_row.
Theorem standardize_by_row : forall {row} (all : list row) sqrt ce re ddof k (g : row -> list Qc), all <> [] -> (forall r, In r all -> length (g r) = k) ->
  (re = true -> ddof < length all /\ forall j, j < k -> sqrt (col_dev (map g all) j / qn (length all - ddof))%Qc <> 0%Qc) ->
  by_row row_cells all (standardize_class sqrt ce re ddof) [PerRow g] (PerRow (fun r => entrywise k (std_entry sqrt (map g all) ce re ddof) (g r))).
Proof. intros row all sqrt ce re ddof k g Hn Hg Hs. now apply std_row_lemma. Qed.
Print Assumptions standardize_by_row.
(** bs, cr, cc and te: if they can be fitted on all the data at once and then applied to it. *)
Theorem bs_by_row : forall {row} (all : list row) (value : row -> Qc) a st m, all <> [] ->
  bs_memorize a [A1 (map value all)] = Ok st -> bs_transform a st (A1 (map value all)) = Ok m ->
  by_row row_cells all (bs_class a) [PerRow (fun r => [value r])] (PerRow (fun r => one_row (bs_transform a st (A1 [value r])))).
Proof. intros row all value a st [n m] _ Hm Ht. exact (bs_row_lemma all value a st n m Hm Ht). Qed.
Print Assumptions bs_by_row.
Theorem crs_by_row : forall {row} (all : list row) (value : row -> Qc) qr cyclic a st m, all <> [] ->
  crs_memorize cyclic a [A1 (map value all)] = Ok st -> crs_transform qr cyclic st (A1 (map value all)) = Ok m ->
  by_row row_cells all (crs_class qr cyclic a) [PerRow (fun r => [value r])] (PerRow (fun r => one_row (crs_transform qr cyclic st (A1 [value r])))).
Proof. intros row all value qr cyclic a st [n m] _ Hm Ht. exact (crs_row_lemma all value qr cyclic a st n m Hm Ht). Qed.
Print Assumptions crs_by_row.
Theorem te_by_row : forall {row} (all : list row) (gs : list (nat * (row -> list Qc))) qr c cn m, all <> [] -> gs <> [] ->
  (forall k g, In (k, g) gs -> 0 < k /\ forall r, In r all -> length (g r) = k) ->
  te_memorize c [margins gs all] = Ok cn -> te_transform qr cn (margins gs all) = Ok m ->
  by_row row_cells all (te_class qr c) (map (fun kg => PerRow (snd kg)) gs) (PerRow (fun r => one_row (te_transform qr cn (margins gs [r])))).
Proof. intros row all gs qr c cn [n m] Hn Hg Hk Hm Ht. exact (te_row_lemma all Hn gs Hg Hk qr c cn n m Hm Ht). Qed.
Print Assumptions te_by_row.
(** Also as transforms of values that are arrays only in part. *)
Theorem values_by_row : forall {row val cell St} (all : list row) (as_arr : val -> result arr) (of_arr : arr -> val) (holds : val -> list cell -> Prop) (embed : list Qc -> cell)
  (c : @tclass arr St) (gs : list (row -> list Qc)) g, arrays_among as_arr of_arr holds embed ->
  by_row row_cells all c (map PerRow gs) (PerRow g) ->
  by_row holds all (on_values as_arr of_arr c) (map (fun g => PerRow (fun r => embed (g r))) gs) (PerRow (fun r => embed (g r))).
Proof. intros row val cell St all as_arr of_arr holds embed c gs g H. now apply lift_row_lemma. Qed.
Print Assumptions values_by_row.

(** * Example *)
(** Rows have a category and a number; the factors are [a] (strings), [center(x)] and [bs(x, df=2, degree=1)].
    The same three rows come as two chunks, and in another order at once. *)
Definition zval := (list string + arr)%type.
Definition zrow := (string * Qc)%type.
Definition zdata := list zrow.
Definition z_as_arr (v : zval) : result arr := match v with inl _ => Err (TypeError "not a number") | inr x => Ok x end.
Definition zholds (v : zval) (cells : list (string + list Qc)) : Prop :=
  match v with inl l => cells = map inl l | inr x => exists rows, cells = map inr rows /\ row_cells x rows end.
Definition zbs := mkBsArgs (Some 2%Z) None 1%Z false None None.
Definition zx : @texpr zval zdata tstate := TLeaf (fun d => Ok (inr (A1 (map snd d)))).
Definition zcode (f : factor) : @texpr zval zdata tstate :=
  if String.eqb f "a" then TLeaf (fun d => Ok (inl (map fst d)))
  else if String.eqb f "center(x)" then TCall "o" (on_values z_as_arr inr center_class) [zx]
  else TCall "o" (on_values z_as_arr inr (bs_class zbs)) [zx].
Definition zbins (f : factor) : list (list string) := if String.eqb f "a" then [] else [["o"]].
Definition zobj (v : zval) : @fobj Q nat unit :=
  match v with
  | inl l => mkObj (Plain (DSeq false (map VStr l))) 1 1 false [] None
  | inr x => let cells := map (map this) (snd (to_2d x)) in let n := fst (to_2d x) in
             mkObj (Plain (DArray true 2 n)) 2 n true cells None
  end.
Definition zcm (levels : list pval) (c : option unit) (full : bool) : result (@ctr Q) :=
  let n := List.length levels in
  let unit_row (k : nat) (i : nat) := if Nat.eqb i k then 1%Q else 0%Q in
  let label v := match v with VStr s => s | _ => "?" end in
  if full then Ok (mkCtr (map (fun i => map (fun k => unit_row k i) (seq 0 n)) (seq 0 n)) (map (fun v => "[" ++ label v ++ "]")%string levels))
  else Ok (mkCtr (map (fun i => map (fun k => unit_row k i) (seq 1 (n - 1))) (seq 0 n)) (map (fun v => "[T." ++ label v ++ "]")%string (tl levels))).
Definition znames : list factor := ["a"; "b"; "center(x)"; "bs(x, df=2, degree=1)"].
Definition zmember (f : factor) (l : list (bool * factor)) (n : Z) : Z := if existsb (fun p => String.eqb (snd p) f) l then n else 0%Z.
Definition zrun : run_of_python := mkRun (fun l => zmember "a" l 1 + zmember "b" l 2 + zmember "center(x)" l 4 + zmember "bs(x, df=2, degree=1)" l 8)%Z (fun l => l) (fun _ l => l) (fun _ l => l) (fun _ => 0) (fun l => l).
Lemma zmember_in f (l : list factor) n : zmember f (map (fun f => (false, f)) l) n = if in_dec string_dec f l then n else 0%Z.
Proof.
  unfold zmember. destruct (existsb _ _) eqn:E; destruct (in_dec string_dec f l) as [H|H]; try reflexivity; exfalso.
  - apply H. apply existsb_exists in E. destruct E as [p [Hp E]]. apply in_map_iff in Hp. destruct Hp as [g [<- Hg]]. apply String.eqb_eq in E. cbn in E. now subst.
  - apply not_true_iff_false in E. apply E. apply existsb_exists. exists (false, f). split; [apply in_map_iff; eauto|apply String.eqb_refl].
Qed.
Lemma zrun_lawful tls : Forall (fun tl => incl (concat tl) znames) tls -> lawful tls zrun.
Proof.
  intros H. repeat (split; [intros; apply Permutation_refl|]). eapply Forall_impl; [|exact H]. clear. intros tl Hi a b Ha Hb _ _. cbn [py_hash zrun]. rewrite !zmember_in.
  assert (G : (forall f, In f znames -> (In f a <-> In f b)) <-> same_factors a b).
  { split; [|intros E f _; apply E]. intros E f. split; intros Hf; apply (E f); auto. }
  rewrite <- G. clear G. split.
  - intros H f Hf. unfold znames in Hf. destruct (in_dec string_dec "a" a), (in_dec string_dec "a" b), (in_dec string_dec "b" a), (in_dec string_dec "b" b), (in_dec string_dec "center(x)" a), (in_dec string_dec "center(x)" b),
      (in_dec string_dec "bs(x, df=2, degree=1)" a), (in_dec string_dec "bs(x, df=2, degree=1)" b); try discriminate; destruct Hf as [<-|[<-|[<-|[<-|[]]]]]; split; intros; assumption || contradiction.
  - intros H. assert (E : forall f n, In f znames -> (if in_dec string_dec f a then n else 0%Z) = if in_dec string_dec f b then n else 0%Z).
    { intros f n Hf. pose proof (H f Hf). destruct (in_dec string_dec f a), (in_dec string_dec f b); tauto. }
    unfold znames in E. rewrite !E by (cbn; auto 6). reflexivity.
Qed.
Definition zbuilders := design_matrix_builders (ef_passes zcode zbins) (ef_chunk zcode zbins (fun _ => None)) (ef_finish zcode zbins) (ef_eval zcode (fun _ => None) zobj) (fun _ => None) zcm
  (py_hash zrun) (py_set_order zrun) (py_order_mem zrun) (py_order_exam zrun) (py_addr zrun) (py_hash_order zrun).
Definition zchunks : list zdata := [[("p", qz 1); ("q", qz 2)]; [("r", qz 9)]].
Definition zwhole : list zdata := [[("r", qz 9); ("p", qz 1); ("q", qz 2)]].
Definition ztls : list (list term) := [[["a"]]; [["center(x)"]]; [["bs(x, df=2, degree=1)"]]].
Definition zall : list zrow := concat zchunks.
Definition zbuild ds := build 1%Q Qmult (fun _ => false) (fun n => n) Nat.eqb (ef_eval zcode (fun _ => None) zobj) (fun _ => None) (fun _ : zdata => None) ds [("q", qz 3); ("p", qz 8)] (NAStr "drop") false.
Definition zresult (data : list zdata) := let* ds := zbuilders (fun _ => data) (NAStr "drop") ztls in zbuild ds.
Example incremental_ex : zresult zchunks = zresult zwhole /\
  zresult zchunks = Ok ([mkMat 2 [[0; 1]; [1; 0]; [0; 0]]; mkMat 2 [[-1; 4]]; mkMat 2 [[6 # 7; 1 # 7]; [1 # 7; 6 # 7]]]%Q, None).
Proof. split; vm_compute; reflexivity. Qed.
Lemma zarrays : arrays_among z_as_arr inr zholds inr.
Proof.
  split; [reflexivity|]. intros [l|x] rows Hr; cbn.
  - split; [|intros [x [E _]]; discriminate]. intros E. exfalso. destruct rows; [easy|]. destruct l; discriminate.
  - split.
    + intros [rows' [E R]]. exists x. split; [reflexivity|]. replace rows with rows'; [exact R|]. clear - E. revert rows' E. induction rows as [|r rows IH]; intros [|r' rows'] E; try discriminate; [reflexivity|]. cbn in E. injection E as -> E. f_equal. auto.
    + intros [y [[= <-] R]]. eauto.
Qed.
Lemma zx_rowwise data : rowwise (fun d => d) zholds zall data zx (PerRow (fun r => inr [snd r])).
Proof.
  apply rw_leaf. intros d _. eexists. split; [reflexivity|]. cbn. exists (map (fun r => [snd r]) d). rewrite map_map. split; [reflexivity|]. split; [cbn; now rewrite map_map|]. split; [reflexivity|]. cbn. rewrite map_map. apply Forall_forall. intros r Hr. apply in_map_iff in Hr. destruct Hr as [z [<- _]]. reflexivity.
Qed.
Example incremental_hyps : (forall na f, In f (factors_of ztls) -> chunk_free (fun d => d) zholds zall (zchunks ++ zwhole) zobj zrun zrun na (zcode f) (zbins f)) /\
  indexed (ef_eval zcode (fun _ => None) zobj) /\ lawful ztls zrun /\ Permutation (flat_map (fun d => d) zwhole) zall /\
  exists ds, zbuilders (fun _ => zchunks) (NAStr "drop") ztls = Ok ds.
Proof.
  split; [|split; [|split; [|split]]].
  - intros na f Hf.
    assert (Num : forall k (g : zrow -> list Qc), (forall r, In r zall -> length (g r) = k) -> steady (fun d => d) zholds zall (zchunks ++ zwhole) zobj zrun zrun na (PerRow (fun r => inr (g r)))).
    { intros k g Hg. apply st_numbers with (n := k). intros d v Hd M. cbn [means] in M. assert (Hne : d <> []) by (cbn in Hd; destruct Hd as [<-|[<-|[<-|[]]]]; easy).
      rewrite <- (map_map g inr) in M. apply (proj2 zarrays) in M; [|now destruct d]. destruct M as [x [Ex Hx]]. destruct v as [l|y]; [discriminate|]. injection Ex as ->. cbn.
      assert (Hin : incl d zall) by (intros r Hr; cbn in Hd |- *; repeat (destruct Hd as [<-|Hd]; [cbn in Hr; tauto|]); destruct Hd).
      destruct (cells_cols g k d x Hne) as [-> _]; auto. constructor. lia. }
    cbn in Hf. destruct Hf as [<-|[<-|[<-|[]]]].
    + split; [constructor|]. split; [split; [apply perm_nil|intros o c args o' p q bin bin' []]|].
      exists (PerRow (fun r : zrow => inl (fst r))). split; [apply rw_leaf; intros d _; eexists; split; [reflexivity|]; cbn; now rewrite map_map|].
      apply st_categories with (value := fun r : zrow => VStr (fst r)) (c := None).
      * intros d v Hd M. cbn [means] in M. destruct v as [l|x].
        -- cbn in M |- *. assert (l = map fst d) as -> by (clear - M; revert l M; induction d as [|r d IH]; intros [|s l] M; try discriminate; [reflexivity|]; cbn in M; injection M as <- M; cbn; f_equal; auto).
           split; [|split; reflexivity]. replace (map (fun r : zrow => VStr (fst r)) d) with (map VStr (map fst d)) by apply map_map. constructor; [constructor|intros [? [? E]]; discriminate|discriminate].
        -- exfalso. destruct M as [rows [E _]]. cbn in Hd. destruct Hd as [<-|[<-|[<-|[]]]]; destruct rows; discriminate.
      * intros [v [Hv [_ Hs]]]. exfalso. cbn in Hv. destruct Hv as [<-|[<-|[<-|[]]]]; (destruct Hs as [Hs|[[b Hs] _]]; discriminate).
      * repeat constructor; try discriminate; now right.
      * intros x y [[Hx _]|[_ [b Hb]]] [[Hy _]|[_ [b' Hb']]] E; try (cbn in Hb; destruct Hb as [Hb|[Hb|[Hb|[]]]]; discriminate); try (cbn in Hb'; destruct Hb' as [Hb'|[Hb'|[Hb'|[]]]]; discriminate).
        cbn in Hx, Hy. destruct Hx as [<-|[<-|[<-|[]]]], Hy as [<-|[<-|[<-|[]]]]; try reflexivity; discriminate.
      * intros l Hl. left. apply Forall_forall. intros x Hx. right. destruct (Hl x Hx) as [[Ho _]|[_ [b Hb]]]; [|cbn in Hb; destruct Hb as [Hb|[Hb|[Hb|[]]]]; discriminate].
        cbn in Ho. destruct Ho as [<-|[<-|[<-|[]]]]; eauto.
    + split; [cbn; repeat constructor; intros []|]. split; [split; [apply Permutation_refl|intros o c args o' p q bin bin' Hc Ho; cbn in Hc; destruct Hc as [Hc|[]]; injection Hc as <- <- <-; destruct Ho]|].
      eexists. split; [eapply rw_call; [apply rw_cons; [apply zx_rowwise|apply rw_nil]|]|apply (Num 1)].
      * apply (values_by_row zall z_as_arr inr zholds inr center_class [fun r => [snd r]]); [apply zarrays|]. apply (center_by_row zall 1); [easy|reflexivity].
      * intros r _. reflexivity.
    + split; [cbn; repeat constructor; intros []|]. split; [split; [apply Permutation_refl|intros o c args o' p q bin bin' Hc Ho; cbn in Hc; destruct Hc as [Hc|[]]; injection Hc as <- <- <-; destruct Ho]|].
      assert (B : match bs_memorize zbs [A1 (map snd zall)] with
                  | Ok st => match bs_transform zbs st (A1 (map snd zall)) with Ok _ => forallb (fun r => Nat.eqb (length (one_row (bs_transform zbs st (A1 [snd r])))) 2) zall | Err _ => false end
                  | Err _ => false end = true) by (vm_compute; reflexivity).
      destruct (bs_memorize zbs [A1 (map snd zall)]) as [st|] eqn:Em; [|discriminate]. destruct (bs_transform zbs st (A1 (map snd zall))) as [m|] eqn:Et; [|discriminate].
      eexists. split; [eapply rw_call; [apply rw_cons; [apply zx_rowwise|apply rw_nil]|]|apply (Num 2)].
      * apply (values_by_row zall z_as_arr inr zholds inr (bs_class zbs) [fun r => [snd r]]); [apply zarrays|]. exact (bs_by_row zall snd zbs st m ltac:(discriminate) Em Et).
      * intros r Hr. rewrite forallb_forall in B. apply Nat.eqb_eq, B, Hr.
  - intros f s d o i. unfold ef_eval. destruct (wrap_exc _ _ _) as [[l|l]|]; cbn; [intros [= <-]; discriminate..|discriminate].
  - apply zrun_lawful. apply Forall_forall. intros tl [<-|[<-|[<-|[]]]] f [<-|[]]; cbn; auto.
  - cbn. apply (Permutation_middle [_; _] []).
  - assert (B : match zbuilders (fun _ => zchunks) (NAStr "drop") ztls with Ok _ => true | Err _ => false end = true) by (vm_compute; reflexivity).
    destruct (zbuilders _ _ _) as [ds|]; [eauto|discriminate].
Qed.
