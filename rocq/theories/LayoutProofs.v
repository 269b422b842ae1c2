(** Proofs for C95. *)
From Verif Require Import Base OriginModel TokensModel ParseFormulaModel RedundancyModel UtilModel DescModel FormulaModel BuildModel MemorizeModel CategoricalModel
  PipeModel EvalModel FitModel EntryModel CodeModel LayoutSpec.
Open Scope nat_scope.
Open Scope string_scope.
Open Scope list_scope.

Lemma same_refl {A} (r : result A) : same_result r r.
Proof. destruct r; constructor. constructor. Qed.
Lemma same_bind {A B} (r1 r2 : result A) (k1 k2 : A -> result B) :
  same_result r1 r2 -> (forall a, same_result (k1 a) (k2 a)) -> same_result (bind r1 k1) (bind r2 k2).
Proof. intros [a|e e' He] Hk; cbn; [apply Hk|now constructor]. Qed.
Lemma same_mapM {A B} (f1 f2 : A -> result B) l : (forall x, same_result (f1 x) (f2 x)) -> same_result (mapM f1 l) (mapM f2 l).
Proof. intros H. induction l as [|x l IH]; cbn [mapM]; [apply same_refl|]. apply same_bind; [apply H|]. intros y. apply same_bind; [exact IH|]. intros ys. apply same_refl. Qed.
Lemma same_foldM {A S} (f1 f2 : S -> A -> result S) l : (forall s x, same_result (f1 s x) (f2 s x)) -> forall s, same_result (foldM f1 l s) (foldM f2 l s).
Proof. intros H. induction l as [|x l IH]; cbn [foldM]; intros s; [apply same_refl|]. apply same_bind; [apply H|]. intros s'. apply IH. Qed.
Lemma same_place {A} msg o o' : @same_result A (Err (PatsyError msg o)) (Err (PatsyError msg o')).
Proof. constructor. constructor. Qed.

(** * Categorical data *)
Section Cat.
Context {C : Type}.
Lemma same_code na o1 o2 (v : @value C) levels : same_result (categorical_to_int v levels na o1) (categorical_to_int v levels na o2).
Proof.
  unfold categorical_to_int.
  assert (Hs : forall table values, same_result (mapM (code_value na o1 table) values) (mapM (code_value na o2 table) values)).
  { intros table values. apply same_mapM. intros x. unfold code_value. apply same_bind; [apply same_refl|]. intros b.
    destruct b; [apply same_refl|]. destruct (hashable x); cbn [negb]; [|apply same_place]. destruct (dget _ _ _); [apply same_refl|apply same_place]. }
  assert (Hc : forall d, same_result
    (let* values := shape_fix d in
     if negb (forallb hashable levels) then Err (PatsyError "Error interpreting categorical data: all items must be hashable" o1)
     else match d with
          | DBools _ l =>
              let* f := lookup (dget key_eqb (VBool false) (level_to_int levels)) in
              if Nat.eqb f 0 then
                let* t := lookup (dget key_eqb (VBool true) (level_to_int levels)) in
                if Nat.eqb t 1 then Ok (map (fun b : bool => if b then 1%Z else 0%Z) l) else mapM (code_value na o1 (level_to_int levels)) values
              else mapM (code_value na o1 (level_to_int levels)) values
          | _ => mapM (code_value na o1 (level_to_int levels)) values
          end)
    (let* values := shape_fix d in
     if negb (forallb hashable levels) then Err (PatsyError "Error interpreting categorical data: all items must be hashable" o2)
     else match d with
          | DBools _ l =>
              let* f := lookup (dget key_eqb (VBool false) (level_to_int levels)) in
              if Nat.eqb f 0 then
                let* t := lookup (dget key_eqb (VBool true) (level_to_int levels)) in
                if Nat.eqb t 1 then Ok (map (fun b : bool => if b then 1%Z else 0%Z) l) else mapM (code_value na o2 (level_to_int levels)) values
              else mapM (code_value na o2 (level_to_int levels)) values
          | _ => mapM (code_value na o2 (level_to_int levels)) values
          end)).
  { intros d. apply same_bind; [apply same_refl|]. intros values. destruct (negb (forallb hashable levels)); [apply same_place|].
    destruct d; try apply Hs. apply same_bind; [apply same_refl|]. intros f. destruct (Nat.eqb f 0); [|apply Hs].
    apply same_bind; [apply same_refl|]. intros t. destruct (Nat.eqb t 1); [apply same_refl|apply Hs]. }
  destruct v as [d c blevels|d].
  - destruct blevels as [l|]; [|apply Hc]. destruct (tuple_eqb l levels); [apply Hc|apply same_place].
  - destruct d; try apply Hc. destruct (tuple_eqb _ _); [apply same_refl|apply same_place].
Qed.
Lemma same_sniff na o1 o2 st (v : @value C) : same_result (sniff na o1 st v) (sniff na o2 st v).
Proof.
  assert (Hd : forall st d, same_result (sniff_data (C := C) na o1 st d) (sniff_data na o2 st d)).
  { intros st' d. unfold sniff_data. destruct d; try apply same_refl; (apply same_bind; [apply same_refl|]; intros values; apply same_bind; [|intros; apply same_refl];
      apply same_foldM; intros s x; unfold sniff_value; apply same_bind; [apply same_refl|]; intros b; destruct b; [apply same_refl|]; destruct x as [| | | | | | | |? ? h]; try apply same_refl;
      match goal with |- context [hashable ?v] => destruct (hashable v) end; try apply same_refl; apply same_place). }
  unfold sniff. destruct v as [d c [l|]|d]; [apply same_refl|apply Hd|apply Hd].
Qed.
Context {F D : Type} (feqb : F -> F -> bool).
Lemma same_examine (ev1 ev2 : F -> D -> result (@value C)) (org1 org2 : F -> option origin) na order addr hash_order factors chunks :
  (forall f d, same_result (ev1 f d) (ev2 f d)) ->
  same_result (examine_factor_types feqb ev1 org1 na order addr hash_order factors chunks) (examine_factor_types feqb ev2 org2 na order addr hash_order factors chunks).
Proof.
  intros He. unfold examine_factor_types. apply same_bind; [|intros; apply same_refl].
  generalize (@mkEx C F [] [] factors). generalize 0. induction chunks as [|d chunks IH]; intros n st; cbn [examine_chunks]; [apply same_refl|].
  apply same_bind.
  - apply same_foldM. intros s f. unfold examine_step. apply same_bind; [apply He|]. intros v.
    destruct (_ || _)%bool.
    + apply same_bind; [apply same_sniff|]. intros [sn fin]. apply same_refl.
    + apply same_bind; [|intros; apply same_refl]. unfold column_count. destruct v as [|[]]; try apply same_refl. destruct (Nat.ltb _ _); [apply same_place|apply same_refl].
  - intros st'. destruct (ex_needed st'); [apply same_refl|apply IH].
Qed.
End Cat.

(** * Memorization *)
Section Mem.
Context {F S D : Type} (feqb : F -> F -> bool).
Lemma same_memorize (p1 p2 : F -> result (S * Z)) (c1 c2 : F -> S -> nat -> D -> result S) (f1 f2 : F -> S -> nat -> result S) data order fuel factors :
  (forall f, same_result (p1 f) (p2 f)) -> (forall f s p d, same_result (c1 f s p d) (c2 f s p d)) -> (forall f s p, same_result (f1 f s p) (f2 f s p)) ->
  same_result (factors_memorize feqb p1 c1 f1 data order fuel factors) (factors_memorize feqb p2 c2 f2 data order fuel factors).
Proof.
  intros Hp Hc Hf. unfold factors_memorize. apply same_bind.
  - apply same_foldM. intros s f. unfold start. apply same_bind; [apply Hp|]. intros. apply same_refl.
  - intros [states pn]. generalize (states, @nil (@event F D)). generalize (map fst (filter (fun q : F * Z => Z.ltb 0 (snd q)) pn)). generalize 0.
    induction fuel as [|fuel IH]; intros p needed st; cbn [passes_loop]; (destruct needed as [|x needed]; [apply same_refl|]); [apply same_refl|].
    apply same_bind.
    + unfold pass_chunks. apply same_foldM. intros s d. apply same_foldM. intros s' f. unfold one_chunk. apply same_bind; [apply same_refl|]. intros y.
      apply same_bind; [apply Hc|]. intros. apply same_refl.
    + intros st1. apply same_bind.
      * apply same_foldM. intros [[ss log] nd] f. unfold one_finish. apply same_bind; [apply same_refl|]. intros y. apply same_bind; [apply Hf|]. intros. apply same_refl.
      * intros [[ss log] nd]. apply IH.
Qed.
End Mem.

(** * The pipeline *)
Section Pipe.
Context {V I C S D : Type}.
Variables (vone : V) (vmul : V -> V -> V) (visnan : V -> bool) (ilabel : nat -> I) (ieqb : I -> I -> bool).
Variables passes : factor -> result (S * Z).
Variables chunk1 chunk2 : factor -> S -> nat -> D -> result S.
Variables finish1 finish2 : factor -> S -> nat -> result S.
Variables eval1 eval2 : factor -> S -> D -> result (@fobj V I C).
Variables origin1 origin2 : factor -> option origin.
Hypothesis Hchunk : forall f s p d, same_result (chunk1 f s p d) (chunk2 f s p d).
Hypothesis Hfinish : forall f s p, same_result (finish1 f s p) (finish2 f s p).
Hypothesis Heval : forall f s d, same_result (eval1 f s d) (eval2 f s d).
Variable code_cm : list pval -> option C -> bool -> result (@ctr V).
Variable hash : list (bool * factor) -> Z.
Variable set_order : list factor -> list factor.
Variables order_mem order_exam : nat -> list factor -> list factor.
Variable addr : pval -> nat.
Variable hash_order : list pval -> list pval.
Variable df_index : D -> option (list I).

Lemma same_builders data na tls :
  same_result (design_matrix_builders passes chunk1 finish1 eval1 origin1 code_cm hash set_order order_mem order_exam addr hash_order data na tls)
              (design_matrix_builders passes chunk2 finish2 eval2 origin2 code_cm hash set_order order_mem order_exam addr hash_order data na tls).
Proof.
  unfold design_matrix_builders. apply same_bind; [apply same_refl|]. intros act.
  apply same_bind; [apply same_memorize; auto; intros; apply same_refl|]. intros [states log].
  apply same_bind; [|intros [num cat]; apply same_refl]. apply same_examine. intros f d. apply same_bind; [apply same_refl|]. intros s.
  apply same_bind; [apply Heval|]. intros o. apply same_refl.
Qed.
Lemma same_info kn na d fi : same_result (eval_info visnan eval1 origin1 kn na d fi) (eval_info visnan eval2 origin2 kn na d fi).
Proof.
  unfold eval_info. apply same_bind; [apply same_refl|]. intros [s cats]. apply same_bind; [apply Heval|]. intros o. apply same_bind.
  - destruct (fi_kind fi); [apply same_refl|]. apply same_bind; [apply same_code|]. intros. apply same_refl.
  - intros r. unfold eval_factor. destruct (fi_kind fi), r; try apply same_refl. destruct (Nat.ltb _ _); [apply same_place|]. destruct (negb _); [apply same_place|].
    destruct (negb _); [|apply same_refl]. destruct idx; [apply same_refl|apply same_place].
Qed.
Lemma same_check {A} eqb msg o1 o2 seen (v : A) : same_result (check_match eqb msg o1 seen v) (check_match eqb msg o2 seen v).
Proof. unfold check_match. destruct seen; [|apply same_refl]. destruct (eqb _ _); [apply same_refl|apply same_place]. Qed.
Lemma same_handle act (values : list (@arr V I)) masks (os1 os2 : list (option origin)) : List.length os1 = List.length os2 ->
  same_result (handle_NA act values masks os1) (handle_NA act values masks os2).
Proof.
  intros Hl. unfold handle_NA. rewrite <- Hl. unfold assert. destruct (_ && _)%bool; [|apply same_refl].
  destruct values; [apply same_refl|]. destruct masks as [|m0 masks]; [apply same_refl|]. destruct act; [apply same_refl|].
  assert (H : forall ms o1 o2, List.length o1 = List.length o2 -> same_result
     (match find (fun p : list bool * option origin => existsb (fun b => b) (fst p)) (List.combine ms o1) with Some (_, org) => Err (PatsyError "factor contains missing values" org) | None => Ok (a :: values) end)
     (match find (fun p : list bool * option origin => existsb (fun b => b) (fst p)) (List.combine ms o2) with Some (_, org) => Err (PatsyError "factor contains missing values" org) | None => Ok (a :: values) end)).
  { induction ms as [|m ms IH]; intros [|x o1] [|y o2] E; try discriminate; cbn; try apply same_refl. destruct (existsb _ m); [apply same_place|]. apply IH. now injection E. }
  now apply H.
Qed.
Lemma same_build_matrices ev1 ev2 df act w dis : (forall fi, same_result (ev1 fi) (ev2 fi)) ->
  same_result (build_design_matrices vone vmul ilabel ieqb origin1 ev1 df act w dis) (build_design_matrices vone vmul ilabel ieqb origin2 ev2 df act w dis).
Proof.
  intros Hev. unfold build_design_matrices. apply same_bind; [apply same_refl|]. intros bs. apply same_bind.
  - apply same_foldM. intros st b. apply same_foldM. intros [[d rows] idx] fi. unfold eval_one. destruct (dmem _ _ _); [apply same_refl|].
    apply same_bind; [apply Hev|]. intros e. apply same_bind; [apply same_check|]. intros rows'. apply same_bind; [|intros; apply same_refl].
    destruct (ev_index e); [apply same_check|apply same_refl].
  - intros [[d rows] idx]. apply same_bind; [|intros; apply same_refl]. apply same_handle.
    destruct rows as [n|]; [destruct w|]; rewrite ?app_length, !map_length; reflexivity.
Qed.
Lemma same_build ds d na w :
  same_result (build vone vmul visnan ilabel ieqb eval1 origin1 df_index ds d na w) (build vone vmul visnan ilabel ieqb eval2 origin2 df_index ds d na w).
Proof. unfold build. apply same_bind; [apply same_refl|]. intros act. apply same_build_matrices. intros fi. apply same_info. Qed.

Variable upcast : V -> V.
Variable vobj : V.
Variable tokenize : string -> list pytok * option exn.
Variable norm : string -> string.
Variable is_float : string -> bool.
Variable have_pandas : bool.
(** Formulas that mean the same. *)
Definition alike (fl1 fl2 : @formula_like V I S) : Prop :=
  fl1 = fl2 \/ exists s1 s2 md, fl1 = FStr s1 /\ fl2 = FStr s2 /\ formula_desc tokenize norm is_float s1 = Ok md /\ formula_desc tokenize norm is_float s2 = Ok md.
Local Notation try1 := (try_incr_builders passes chunk1 finish1 eval1 origin1 code_cm hash set_order order_mem order_exam addr hash_order tokenize norm is_float).
Local Notation try2 := (try_incr_builders passes chunk2 finish2 eval2 origin2 code_cm hash set_order order_mem order_exam addr hash_order tokenize norm is_float).
Lemma same_try fl1 fl2 data na : alike fl1 fl2 -> same_result (try1 fl1 data na) (try2 fl2 data na).
Proof.
  assert (Hd : forall md, same_result (desc_builders passes chunk1 finish1 eval1 origin1 code_cm hash set_order order_mem order_exam addr hash_order data na md)
                                      (desc_builders passes chunk2 finish2 eval2 origin2 code_cm hash set_order order_mem order_exam addr hash_order data na md)).
  { intros md. unfold desc_builders. apply same_bind; [apply same_builders|]. intros ds. apply same_refl. }
  intros [<-|[s1 [s2 [md [-> [-> [E1 E2]]]]]]].
  - destruct fl1 as [x|l r|n|s|md|r|a]; cbn [try_incr_builders]; try apply same_refl.
    + apply same_bind; [apply same_builders|]. intros ds. apply same_refl.
    + apply same_bind; [apply same_refl|]. intros md. apply Hd.
    + apply Hd.
    + apply same_bind; [apply same_refl|]. intros [md|]; [apply Hd|apply same_refl].
  - cbn [try_incr_builders]. rewrite E1, E2. cbn [bind]. apply Hd.
Qed.
Lemma same_highlevel fl1 fl2 d na rt : alike fl1 fl2 ->
  same_result (highlevel_design vone vmul visnan ilabel ieqb passes chunk1 finish1 eval1 origin1 code_cm hash set_order order_mem order_exam addr hash_order df_index upcast vobj tokenize norm is_float have_pandas fl1 d na rt)
              (highlevel_design vone vmul visnan ilabel ieqb passes chunk2 finish2 eval2 origin2 code_cm hash set_order order_mem order_exam addr hash_order df_index upcast vobj tokenize norm is_float have_pandas fl2 d na rt).
Proof.
  intros H. unfold highlevel_design. destruct (match rt with RDataFrame => _ | _ => _ end); [apply same_refl|]. destruct (match rt with RUnknown => _ | _ => _ end); [apply same_refl|].
  apply same_bind; [now apply same_try|]. intros [[l r]|].
  - apply same_bind; [apply same_build|]. intros [ms labels]. apply same_refl.
  - destruct H as [<-|[s1 [s2 [md [-> [-> _]]]]]]; apply same_refl.
Qed.
Lemma same_dmatrix fl1 fl2 d na rt : alike fl1 fl2 ->
  same_result (dmatrix vone vmul visnan ilabel ieqb passes chunk1 finish1 eval1 origin1 code_cm hash set_order order_mem order_exam addr hash_order df_index upcast vobj tokenize norm is_float have_pandas fl1 d na rt)
              (dmatrix vone vmul visnan ilabel ieqb passes chunk2 finish2 eval2 origin2 code_cm hash set_order order_mem order_exam addr hash_order df_index upcast vobj tokenize norm is_float have_pandas fl2 d na rt).
Proof. intros H. unfold dmatrix. apply same_bind; [now apply same_highlevel|]. intros [l r]. apply same_refl. Qed.
Lemma same_dmatrices fl1 fl2 d na rt : alike fl1 fl2 ->
  same_result (dmatrices vone vmul visnan ilabel ieqb passes chunk1 finish1 eval1 origin1 code_cm hash set_order order_mem order_exam addr hash_order df_index upcast vobj tokenize norm is_float have_pandas fl1 d na rt)
              (dmatrices vone vmul visnan ilabel ieqb passes chunk2 finish2 eval2 origin2 code_cm hash set_order order_mem order_exam addr hash_order df_index upcast vobj tokenize norm is_float have_pandas fl2 d na rt).
Proof. intros H. unfold dmatrices. apply same_bind; [now apply same_highlevel|]. intros [l r]. apply same_refl. Qed.
End Pipe.

(** * Factors given as text *)
Lemma same_wrap {A} msg o1 o2 (r : result A) : same_result (wrap_exc msg o1 r) (wrap_exc msg o2 r).
Proof. destruct r; cbn; [apply same_refl|apply same_place]. Qed.
Section Text.
Context {V I C val op St D : Type}.
Local Notation cx := (@cx op).
Variable parse : list ptok -> result cx.
Variable lex : string -> result (list ptok).
Variable look : D -> @namespace val.
Variable pybuiltins : @namespace val.
Variable apply : op -> list val -> result val.
Variable truth : val -> result bool.
Variable call : val -> list (option ptok) -> list val -> result val.
Variable call_method : val -> string -> list (option ptok) -> list val -> result val.
Variable t_chunk : val -> list (option ptok) -> St -> list val -> result St.
Variable t_finish : val -> St -> result St.
Variable t_transform : val -> list (option ptok) -> St -> list val -> result val.
Variable objval : string -> val.
Variable vnone : val.
Variable bin_order : list string -> list string.
Variables origin1 origin2 : factor -> option origin.
Variable as_obj : val -> @fobj V I C.
Lemma same_tf_chunk f s p d : same_result
  (tf_chunk lex parse look pybuiltins apply truth call call_method t_chunk t_transform objval vnone bin_order origin1 f s p d)
  (tf_chunk lex parse look pybuiltins apply truth call call_method t_chunk t_transform objval vnone bin_order origin2 f s p d).
Proof.
  unfold tf_chunk. destruct s as [fs st]. destruct (nth_error _ _); [|apply same_refl]. apply same_bind; [|intros; apply same_refl].
  apply same_foldM. intros st' o. apply same_bind; [apply same_refl|]. intros code. apply same_wrap.
Qed.
Lemma same_tf_eval f s d : same_result
  (tf_eval lex parse look pybuiltins apply truth call call_method t_chunk t_transform objval vnone origin1 as_obj f s d)
  (tf_eval lex parse look pybuiltins apply truth call call_method t_chunk t_transform objval vnone origin2 as_obj f s d).
Proof. unfold tf_eval. destruct s as [fs st]. apply same_bind; [apply same_wrap|]. intros. apply same_refl. Qed.
End Text.
Lemma same_ok {A} (r1 r2 : result A) x : same_result r1 r2 -> (r1 = Ok x <-> r2 = Ok x).
Proof. intros [a|e e' _]; split; congruence. Qed.
