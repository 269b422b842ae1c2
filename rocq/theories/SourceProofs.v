(** The same pipeline on two kinds of data from which the factors get the same values. *)
From Coq Require Import Permutation.
From Verif Require Import Base OriginModel TokensModel ParseFormulaModel RedundancyModel UtilModel DescModel FormulaModel BuildModel BuildSpec BuildInfoProofs MemorizeModel MemorizeSpec CategoricalModel CategoricalTypeProofs
  PipeModel PipeSpec PipeProofs PipeHighProofs PipeSeedSpec.
Open Scope nat_scope.
Open Scope string_scope.
Open Scope list_scope.

(** * Results related by a relation *)
Definition both {A B} (R : A -> B -> Prop) (r1 : result A) (r2 : result B) : Prop :=
  match r1, r2 with Ok a, Ok b => R a b | Err x, Err y => x = y | _, _ => False end.
Lemma both_eq {A} (r1 r2 : result A) : both eq r1 r2 -> r1 = r2.
Proof. destruct r1, r2; cbn; intros H; try contradiction; now subst. Qed.
Lemma both_refl {A} (r : result A) : both eq r r.
Proof. destruct r; reflexivity. Qed.
Lemma both_bind {A B A' B'} (R : A -> B -> Prop) (Q : A' -> B' -> Prop) r1 r2 k1 k2 : both R r1 r2 -> (forall a b, R a b -> both Q (k1 a) (k2 b)) -> both Q (bind r1 k1) (bind r2 k2).
Proof. destruct r1, r2; cbn; intros H G; try contradiction; auto. Qed.
Lemma both_foldM {A B X Y} (R : A -> B -> Prop) (Q : X -> Y -> Prop) (f1 : A -> X -> result A) (f2 : B -> Y -> result B) l1 l2 :
  Forall2 Q l1 l2 -> (forall a b x y, R a b -> In x l1 -> Q x y -> both R (f1 a x) (f2 b y)) -> forall a b, R a b -> both R (foldM f1 l1 a) (foldM f2 l2 b).
Proof.
  intros F. induction F as [|x y l1 l2 H F IH]; intros Hf a b Hab; cbn [foldM]; [exact Hab|].
  apply (both_bind R); [apply Hf; auto; now left|]. intros a' b' H'. apply IH; [|exact H']. intros. apply Hf; auto. now right.
Qed.
Lemma forall2_eq {A} (l : list A) : Forall2 eq l l.
Proof. induction l; constructor; auto. Qed.

(** * Memorization *)
Lemma forall2_back {A B} (R : A -> B -> Prop) l m : Forall2 R l m -> forall b, In b m -> exists a, In a l /\ R a b.
Proof. induction 1 as [|x y l m Hxy H IH]; intros b []; [subst; exists x; split; [now left|exact Hxy]|]. destruct (IH b H0) as [a [Ha Hr]]. exists a. split; [now right|exact Hr]. Qed.

Section Mem.
Context {S D1 D2 : Type}.
Variable passes : factor -> result (S * Z).
Variable chunk1 : factor -> S -> nat -> D1 -> result S.
Variable chunk2 : factor -> S -> nat -> D2 -> result S.
Variable finish : factor -> S -> nat -> result S.
Variable order : nat -> list factor -> list factor.
Hypothesis Hord : forall n l, Permutation (order n l) l.
(** What holds of all states that a factor can get. *)
Variable G : factor -> S -> Prop.
Variable fs : list factor.
Hypothesis Gnew : forall f s k, In f fs -> passes f = Ok (s, k) -> G f s.
Hypothesis Gchunk : forall f s p d s', In f fs -> G f s -> chunk1 f s p d = Ok s' -> G f s'.
Hypothesis Gfinish : forall f s p s', In f fs -> G f s -> finish f s p = Ok s' -> G f s'.
Variable same : D1 -> D2 -> Prop.
Hypothesis Hchunk : forall d1 d2 f s p, same d1 d2 -> In f fs -> G f s -> chunk1 f s p d1 = chunk2 f s p d2.
Variable data1 : nat -> list D1.
Variable data2 : nat -> list D2.
Hypothesis Hdata : forall n, Forall2 same (data1 n) (data2 n).

Definition good (states : list (factor * S)) : Prop := forall f s, dget String.eqb f states = Some s -> In f fs -> G f s.
Lemma good_set states f s : good states -> (In f fs -> G f s) -> good (dset String.eqb f s states).
Proof.
  intros H Hs g u E Hg. rewrite (CategoricalTypeProofs.dget_dset' String.eqb String.eqb_eq) in E. destruct (String.eqb_spec f g) as [->|N]; [injection E as <-; auto|eapply H; eassumption].
Qed.
(** The same states, and as many calls for data. *)
Definition alike (a : list (factor * S) * list (@event factor D1)) (b : list (factor * S) * list (@event factor D2)) : Prop :=
  fst a = fst b /\ good (fst a) /\ length (filter is_iteration (snd a)) = length (filter is_iteration (snd b)).
Lemma iter_snoc {D} (l : list (@event factor D)) x : length (filter is_iteration (l ++ [x])) = length (filter is_iteration l) + length (filter is_iteration [x]).
Proof. now rewrite filter_app, app_length. Qed.

Lemma both_chunks p needed a b : incl needed fs -> alike a b -> both alike (pass_chunks String.eqb chunk1 data1 order p needed a) (pass_chunks String.eqb chunk2 data2 order p needed b).
Proof.
  intros Hn [E1 [E2 E3]]. unfold pass_chunks. apply (both_foldM alike same); [apply Hdata| |].
  - intros a' b' d1 d2 Hab _ Hd. apply (both_foldM alike eq); [apply forall2_eq| |exact Hab].
    intros [st l1] [st' l2] f g [F1 [F2 F3]] Hf <-. cbn [fst snd] in F1, F2, F3. subst st'. unfold one_chunk. cbn [fst snd].
    assert (Hin : In f fs) by (apply Hn; eapply Permutation_in; [apply Hord|exact Hf]).
    destruct (dget String.eqb f st) as [s|] eqn:Es; cbn [lookup bind]; [|reflexivity]. rewrite <- (Hchunk d1 d2 f s p Hd Hin (F2 f s Es Hin)).
    destruct (chunk1 f s p d1) as [s'|] eqn:Ec; cbn [bind]; [|reflexivity]. cbn. split; [reflexivity|]. cbn [fst snd]. split; [|rewrite (iter_snoc l1), (iter_snoc l2); f_equal; exact F3].
    apply good_set; [exact F2|]. intros _. eapply Gchunk; eauto.
  - split; [exact E1|]. split; [exact E2|]. cbn [snd]. rewrite (iter_snoc (snd a)), (iter_snoc (snd b)). f_equal. exact E3.
Qed.
Lemma both_passes pn : forall fuel p needed a b, incl needed fs -> alike a b ->
  both alike (passes_loop String.eqb chunk1 finish data1 order fuel pn p needed a) (passes_loop String.eqb chunk2 finish data2 order fuel pn p needed b).
Proof.
  induction fuel as [|fuel IH]; intros p needed a b Hn Hab; cbn [passes_loop]; (destruct needed as [|x needed]; [exact Hab|]); [reflexivity|].
  apply (both_bind alike); [now apply both_chunks|]. intros a1 b1 H1.
  set (R := fun (u : list (factor * S) * list (@event factor D1) * list factor) (v : list (factor * S) * list (@event factor D2) * list factor) => alike (fst u) (fst v) /\ snd u = snd v /\ incl (snd u) fs).
  apply (both_bind R).
  - apply (both_foldM R eq); [apply forall2_eq| |split; [|split; [reflexivity|exact Hn]]]; [|destruct a1, b1; exact H1].
    intros [[st l1] nd] [[st' l2] nd'] f g [[F1 [F2 F3]] [F4 F5]] Hf <-. cbn [fst snd] in *. subst st' nd'. unfold one_finish.
    assert (Hin : In f fs) by (apply Hn; eapply Permutation_in; [apply Hord|exact Hf]).
    destruct (dget String.eqb f st) as [s|] eqn:Es; cbn [lookup bind]; [|reflexivity]. destruct (finish f s p) as [s'|] eqn:Ec; cbn [bind]; [|reflexivity].
    destruct (dget String.eqb f pn) as [k|]; cbn [lookup bind]; [|reflexivity]. split; [split; [reflexivity|split]|split; [reflexivity|]]; cbn [fst snd].
    + apply good_set; [exact F2|]. intros _. eapply Gfinish; eauto.
    + rewrite (iter_snoc l1), (iter_snoc l2); f_equal; exact F3.
    + destruct (Z.eqb _ _); [|exact F5]. intros g Hg. apply filter_In in Hg. apply F5, Hg.
  - intros [[st l1] nd] [[st' l2] nd'] [F1 [F2 F3]]. cbn [fst snd] in *. subst nd'. apply IH; [exact F3|exact F1].
Qed.
Lemma dset_keys {A} f (k : A) d p : In p (dset String.eqb f k d) -> In (fst p) (map fst d) \/ fst p = f.
Proof.
  induction d as [|[h v] d IH]; cbn [dset In]; [intros [<-|[]]; now right|]. destruct (String.eqb h f) eqn:E; intros [<-|H]; cbn [map fst In]; auto.
  - left. right. now apply in_map.
  - destruct (IH H); auto.
Qed.
Lemma start_fst : forall l st r, incl l fs -> good (fst st) -> incl (map fst (snd st)) fs -> foldM (start String.eqb passes) l st = Ok r -> good (fst r) /\ incl (map fst (snd r)) fs.
Proof.
  induction l as [|f l IH]; intros st r Hl H1 H2; cbn [foldM]; [intros [= <-]; auto|]. unfold start at 1. destruct (passes f) as [[s k]|] eqn:E; cbn [bind]; [|discriminate].
  apply IH; [intros x Hx; apply Hl; now right| |]; cbn [fst snd].
  - apply good_set; [exact H1|]. intros Hf. eapply Gnew; eassumption.
  - intros g Hg. apply in_map_iff in Hg. destruct Hg as [[g' k'] [<- Hg]]. cbn [fst]. clear - Hg H2 Hl.
    destruct (dset_keys f k _ _ Hg) as [X|X]; [now apply H2|]. cbn [fst] in X. subst g'. apply Hl. now left.
Qed.
Lemma both_memorize fuel : both alike (factors_memorize String.eqb passes chunk1 finish data1 order fuel fs) (factors_memorize String.eqb passes chunk2 finish data2 order fuel fs).
Proof.
  unfold factors_memorize. destruct (foldM (start String.eqb passes) fs ([], [])) as [[states pn]|] eqn:E; cbn [bind]; [|reflexivity].
  assert (H0 : good (fst (@nil (factor * S), @nil (factor * Z)))) by (intros f s X; cbn in X; discriminate X). assert (H0' : incl (map fst (snd (@nil (factor * S), @nil (factor * Z)))) fs) by (intros x []).
  destruct (start_fst fs _ _ (incl_refl _) H0 H0' E) as [H1 H2]. cbn [fst snd] in H1, H2.
  apply both_passes; [|split; [reflexivity|split; [exact H1|reflexivity]]]. intros f Hf. apply in_map_iff in Hf. destruct Hf as [q [<- Hq]]. apply filter_In in Hq. apply H2. now apply in_map.
Qed.
End Mem.

(** * Types of factors *)
Section Exam.
Context {C D1 D2 : Type}.
Variable ev1 : factor -> D1 -> result (@value C).
Variable ev2 : factor -> D2 -> result (@value C).
Variable origin_of : factor -> option origin.
Variable order : nat -> list factor -> list factor.
Hypothesis Hord : forall n l, Permutation (order n l) l.
Variable fs : list factor.
Variable same : D1 -> D2 -> Prop.
Hypothesis Hev : forall d1 d2 f, same d1 d2 -> In f fs -> ev1 f d1 = ev2 f d2.
Lemma both_chunks_examined na l1 l2 : Forall2 same l1 l2 -> forall n st, incl (ex_needed st) fs ->
  examine_chunks String.eqb ev1 origin_of na order n l1 st = examine_chunks String.eqb ev2 origin_of na order n l2 st.
Proof.
  intros F. induction F as [|d1 d2 l1 l2 H F IH]; intros n st Hs; cbn [examine_chunks]; [reflexivity|].
  set (R := fun a b : @examined C factor => a = b /\ incl (ex_needed a) fs).
  assert (B : both R (foldM (examine_step String.eqb ev1 origin_of na d1) (order n (ex_needed st)) st) (foldM (examine_step String.eqb ev2 origin_of na d2) (order n (ex_needed st)) st)).
  { apply (both_foldM R eq); [apply forall2_eq| |split; [reflexivity|exact Hs]]. intros a b f g [<- Ha] Hf <-. unfold examine_step.
    assert (Hin : In f fs) by (apply Hs; eapply Permutation_in; [apply Hord|exact Hf]). rewrite <- (Hev d1 d2 f H Hin). destruct (ev1 f d1) as [v|]; cbn [bind]; [|reflexivity].
    assert (Hr : forall g, incl (remove String.eqb g (ex_needed a)) fs) by (intros g h Hh; apply filter_In in Hh; apply Ha, Hh).
    destruct (_ || _)%bool.
    - destruct (sniff _ _ _ _) as [[sn fin]|]; cbn [bind]; [|reflexivity]. split; [reflexivity|]. cbn [ex_needed]. destruct fin; auto.
    - destruct (column_count _ _); cbn [bind]; [|reflexivity]. split; [reflexivity|]. cbn [ex_needed]. auto. }
  destruct (foldM (examine_step String.eqb ev1 origin_of na d1) _ _) as [a|], (foldM (examine_step String.eqb ev2 origin_of na d2) _ _) as [b|]; cbn [both bind] in *; try contradiction; [|now subst].
  destruct B as [<- Ha]. destruct (ex_needed a) eqn:E; [reflexivity|]. apply IH. solve [exact Ha | now rewrite E | now rewrite <- E].
Qed.
Lemma both_examine na addr hash_order l1 l2 : Forall2 same l1 l2 ->
  examine_factor_types String.eqb ev1 origin_of na order addr hash_order fs l1 = examine_factor_types String.eqb ev2 origin_of na order addr hash_order fs l2.
Proof. intros F. unfold examine_factor_types. f_equal. apply both_chunks_examined; [exact F|apply incl_refl]. Qed.
End Exam.

(** * The pipeline *)
Section Pipe.
Context {V I C S D1 D2 : Type}.
Variables (vone : V) (vmul : V -> V -> V) (visnan : V -> bool) (ilabel : nat -> I) (ieqb : I -> I -> bool).
Variable passes : factor -> result (S * Z).
Variable chunk1 : factor -> S -> nat -> D1 -> result S.
Variable chunk2 : factor -> S -> nat -> D2 -> result S.
Variable finish : factor -> S -> nat -> result S.
Variable eval1 : factor -> S -> D1 -> result (@fobj V I C).
Variable eval2 : factor -> S -> D2 -> result (@fobj V I C).
Variable origin_of : factor -> option origin.
Variable code_cm : list pval -> option C -> bool -> result (@ctr V).
Variable hash : list (bool * factor) -> Z.
Variable set_order : list factor -> list factor.
Variables order_mem order_exam : nat -> list factor -> list factor.
Variable addr : pval -> nat.
Variable hash_order : list pval -> list pval.
Variable df1 : D1 -> option (list I).
Variable df2 : D2 -> option (list I).
Hypothesis Hset : forall l, Permutation (set_order l) l.
Hypothesis Hmem : forall n l, Permutation (order_mem n l) l.
Hypothesis Hexam : forall n l, Permutation (order_exam n l) l.
Variable G : factor -> S -> Prop.
Hypothesis Gnew : forall f s k, passes f = Ok (s, k) -> G f s.
Hypothesis Gchunk : forall f s p d s', G f s -> chunk1 f s p d = Ok s' -> G f s'.
Hypothesis Gfinish : forall f s p s', G f s -> finish f s p = Ok s' -> G f s'.
(** The factors [fs] get the same values from both. *)
Definition same_for (fs : list factor) (d1 : D1) (d2 : D2) : Prop :=
  forall f s, In f fs -> G f s -> eval1 f s d1 = eval2 f s d2 /\ forall p, chunk1 f s p d1 = chunk2 f s p d2.
Local Notation builders1 := (design_matrix_builders passes chunk1 finish eval1 origin_of code_cm hash set_order order_mem order_exam addr hash_order).
Local Notation builders2 := (design_matrix_builders passes chunk2 finish eval2 origin_of code_cm hash set_order order_mem order_exam addr hash_order).
Local Notation build1 := (build vone vmul visnan ilabel ieqb eval1 origin_of df1).
Local Notation build2 := (build vone vmul visnan ilabel ieqb eval2 origin_of df2).

(** The states a design knows. *)
Definition known_good (d : @design V S) : Prop := forall f fi s lv, In (f, fi) (infos_of (ds_info d)) -> fi_factor fi = f /\ (dget Nat.eqb (fi_id fi) (ds_known d) = Some (s, lv) -> G f s).

Lemma both_builders data1 data2 na tls : (forall n, Forall2 (same_for (factors_of tls)) (data1 n) (data2 n)) -> builders1 data1 na tls = builders2 data2 na tls.
Proof.
  intros Hd. unfold design_matrix_builders. destruct (get_action na) as [act|]; cbn [bind]; [|reflexivity].
  set (fs := all_factors set_order tls).
  assert (Hd' : forall n, Forall2 (same_for fs) (data1 n) (data2 n)).
  { intros n. specialize (Hd n). induction Hd as [|x y l1 l2 H F IH]; constructor; [|exact IH]. intros f s Hf Hs. apply H; [now apply (all_factors_in set_order Hset)|exact Hs]. }
  pose proof (both_memorize passes chunk1 chunk2 finish order_mem Hmem G fs (fun f s k _ => Gnew f s k) (fun f s p d s' _ => Gchunk f s p d s') (fun f s p s' _ => Gfinish f s p s')
    (same_for fs) (fun d1 d2 f s p H Hf Hs => proj2 (H f s Hf Hs) p) data1 data2 Hd' (pass_bound passes fs)) as B.
  destruct (factors_memorize String.eqb passes chunk1 finish data1 order_mem _ fs) as [[st1 l1]|], (factors_memorize String.eqb passes chunk2 finish data2 order_mem _ fs) as [[st2 l2]|]; cbn [both bind] in *; try contradiction; [|now subst].
  destruct B as [E [Gd El]]. cbn [fst snd] in E, Gd, El. subst st2. rewrite <- El.
  rewrite (both_examine _ (fun f d => let* s := lookup (dget String.eqb f st1) in let* o := eval2 f s d in Ok (o_value o)) origin_of order_exam Hexam fs (same_for fs)) with (l2 := data2 (length (filter is_iteration l1))); [reflexivity| |apply Hd'].
  intros d1 d2 f H Hf. destruct (dget String.eqb f st1) as [s|] eqn:Es; cbn [lookup bind]; [|reflexivity]. now rewrite (proj1 (H f s Hf (Gd f s Es Hf))).
Qed.

Lemma trained_good data f s : trained passes chunk1 finish data f s -> G f s.
Proof.
  intros [s0 [k [Ep Er]]]. apply Gnew in Ep. revert s0 Ep Er. generalize (Z.to_nat k). intros n. unfold run.
  assert (H : forall es s0 s, (forall x, In x es -> match x with EChunk g _ _ | EFinish g _ => g = f | EIter _ => True end) -> G f s0 -> foldM (effect chunk1 finish) es s0 = Ok s -> G f s).
  { induction es as [|x es IH]; intros s0 s1 Hx H0; cbn [foldM]; [intros [= <-]; exact H0|]. pose proof (Hx x (or_introl eq_refl)) as E.
    destruct (effect chunk1 finish s0 x) as [s'|] eqn:Ee; cbn [bind]; [|discriminate]. apply IH; [intros y Hy; apply Hx; now right|].
    destruct x as [m|g p d|g p]; cbn [effect] in Ee; [injection Ee as <-; exact H0| |]; subst g; eauto. }
  intros s0 H0 E. revert E. apply H; [|exact H0]. intros x Hx. unfold calls_for in Hx. apply in_flat_map in Hx. destruct Hx as [p [_ Hx]]. apply in_app_iff in Hx. destruct Hx as [Hx|[<-|[]]]; [|reflexivity]. apply in_map_iff in Hx. destruct Hx as [d [<- _]]. reflexivity.
Qed.
Lemma both_matrices (ev1 ev2 : finfo -> result (@evaluated V I)) df act want dis : (forall fi, In fi (all_infos dis) -> ev1 fi = ev2 fi) ->
  build_design_matrices vone vmul ilabel ieqb origin_of ev1 df act want dis = build_design_matrices vone vmul ilabel ieqb origin_of ev2 df act want dis.
Proof.
  intros H. unfold build_design_matrices. destruct (mapM builder_of dis) as [bs|] eqn:Eb; cbn [bind]; [|reflexivity].
  assert (Hb : forall b fi, In b bs -> In fi (map snd (fst (fst b))) -> ev1 fi = ev2 fi).
  { apply mapM_ok_Forall2 in Eb. intros b fi Hb Hfi. apply H. destruct (forall2_back _ _ _ Eb b Hb) as [x [Hx E]]. unfold builder_of in E. apply in_flat_map. exists x. split; [exact Hx|].
    unfold infos_of. destruct (di_infos x); [|discriminate]. destruct (di_codings x); [|discriminate]. injection E as <-. exact Hfi. }
  f_equal. clear - Hb. match goal with |- foldM ?f bs ?s = foldM ?g bs ?s => assert (X : both eq (foldM f bs s) (foldM g bs s)); [|now apply both_eq] end.
  apply (both_foldM eq eq); [apply forall2_eq| |reflexivity]. intros a b x y <- Hx <-. apply (both_foldM eq eq); [apply forall2_eq| |reflexivity].
  intros u v fi fi' <- Hfi <-. unfold eval_one. rewrite (Hb x fi Hx Hfi). apply both_refl.
Qed.
Lemma both_build data na tls ds used d1 d2 na' want : builders1 data na tls = Ok ds -> incl used ds -> same_for (factors_of tls) d1 d2 -> df1 d1 = df2 d2 ->
  build1 used d1 na' want = build2 used d2 na' want.
Proof.
  intros Eb Hu Hs Hdf. unfold build. destruct (get_action na') as [act|]; cbn [bind]; [|reflexivity]. rewrite Hdf. apply both_matrices.
  intros fi Hfi. unfold all_infos in Hfi. apply in_flat_map in Hfi. destruct Hfi as [di [Hdi Hfi]]. apply in_map_iff in Hdi. destruct Hdi as [x [<- Hx]]. apply in_map_iff in Hfi. destruct Hfi as [[f fi'] [E Hfi]]. cbn [snd] in E. subst fi'.
  destruct (builders_good _ _ _ _ _ _ _ _ _ _ _ _ Hset Hmem Hexam _ _ _ _ Eb) as [_ [_ [_ [act0 [_ K]]]]]. destruct (K x (Hu x Hx) f fi Hfi) as [Ef [Hf [s [lv [c [L Kn]]]]]].
  unfold eval_info. assert (Kd : dget Nat.eqb (fi_id fi) (concat (map ds_known used)) = Some (s, lv)).
  { destruct used as [|u used]; [destruct Hx|]. cbn [map concat]. apply get_known, Kn, Hu. now left. }
  rewrite Kd. cbn [lookup bind]. rewrite Ef. assert (Gs : G f s) by (destruct L; eapply trained_good; eassumption). now rewrite (proj1 (Hs f s Hf Gs)).
Qed.

Variable upcast : V -> V.
Variable vobj : V.
Variable tokenize : string -> list pytok * option exn.
Variable norm : string -> string.
Variable is_float : string -> bool.
Variable have_pandas : bool.
Local Notation high1 := (highlevel_design vone vmul visnan ilabel ieqb passes chunk1 finish eval1 origin_of code_cm hash set_order order_mem order_exam addr hash_order df1 upcast vobj tokenize norm is_float have_pandas).
Local Notation high2 := (highlevel_design vone vmul visnan ilabel ieqb passes chunk2 finish eval2 origin_of code_cm hash set_order order_mem order_exam addr hash_order df2 upcast vobj tokenize norm is_float have_pandas).
Lemma both_highlevel formula d1 d2 na rt : (forall md, formula_desc tokenize norm is_float formula = Ok md -> same_for (factors_of [lhs_termlist md; rhs_termlist md]) d1 d2) -> df1 d1 = df2 d2 ->
  high1 (FStr formula) d1 na rt = high2 (FStr formula) d2 na rt.
Proof.
  intros Hs Hdf. unfold highlevel_design. destruct (match rt with RDataFrame => _ | _ => _ end); [reflexivity|]. destruct (match rt with RUnknown => _ | _ => _ end); [reflexivity|].
  cbn [try_incr_builders]. destruct (formula_desc tokenize norm is_float formula) as [md|]; cbn [bind]; [|reflexivity]. specialize (Hs md eq_refl). unfold desc_builders.
  rewrite <- (both_builders (fun _ => [d1]) (fun _ => [d2])) by (intros _; constructor; [exact Hs|constructor]).
  destruct (builders1 (fun _ => [d1]) na [lhs_termlist md; rhs_termlist md]) as [[|l [|r [|]]]|] eqn:Eb; cbn [bind]; try reflexivity.
  rewrite (both_build _ _ _ _ [l; r] d1 d2 na _ Eb (incl_refl _) Hs Hdf). reflexivity.
Qed.
End Pipe.
