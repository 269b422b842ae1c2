(** Neither the splitting into chunks nor the order of the rows matters. *)
From Coq Require Import Permutation.
From Verif Require Import Base PySort DescModel BuildModel BuildSpec BuildProofs BuildTopProofs MemorizeModel MemorizeSpec CategoricalModel CategoricalSpec CategoricalKeyProofs CategoricalSortProofs CategoricalProofs CategoricalProps
  FitModel FitSpec FitProofs PipeModel PipeSpec PipeProofs PipeHighProofs PipeSeedSpec PipeSeedProofs PipeSeedTopProofs EntryModel EntryFitProofs IncrSpec.
Open Scope nat_scope.
Open Scope list_scope.

(** * Fitting *)
Section Fit.
Context {val data St row cell : Type}.
Variable rows_of : data -> list row.
Variable holds : val -> list cell -> Prop.
Variables xs ys : list data.
Variable all : list row.
Hypothesis Hx : Permutation (flat_map rows_of xs) all.
Hypothesis Hy : Permutation (flat_map rows_of ys) all.
Hypothesis Hxn : xs <> [].
Hypothesis Hyn : ys <> [].
Hypothesis Hfull : forall d, In d (xs ++ ys) -> rows_of d <> [].
Local Notation texpr := (@texpr val data St).
Local Notation rowwise := (rowwise (St := St) rows_of holds all (xs ++ ys)).
Local Notation rowwises := (rowwises (St := St) rows_of holds all (xs ++ ys)).
Local Notation means := (means holds).
Local Notation all_mean := (all_mean holds).

Lemma chunk_incl d : In d (xs ++ ys) -> incl (rows_of d) all.
Proof.
  intros H r Hr. apply in_app_iff in H. destruct H as [H|H]; [apply (Permutation_in _ Hx)|apply (Permutation_in _ Hy)]; apply in_flat_map; eauto.
Qed.
(** All the calls in [e] can be fitted on [chunks]. *)
Definition fits_on (chunks : list data) (e : texpr) : Prop := forall o c args, In (o, (c, args)) (calls e) -> exists s, fitted_state chunks c args = Ok s.
Definition fitted_alike (e : texpr) : Prop :=
  (forall d, fitted_value xs e d = fitted_value ys e d) /\ fits_on ys e.
Definition fitted_rows (e : texpr) (m : meaning) : Prop := forall d, In d (xs ++ ys) -> exists v, fitted_value xs e d = Ok v /\ means m (rows_of d) v.

Scheme rowwise_ind' := Minimality for IncrSpec.rowwise Sort Prop
  with rowwises_ind' := Minimality for IncrSpec.rowwises Sort Prop.
Combined Scheme rowwise_both from rowwise_ind', rowwises_ind'.

Lemma state_fit zs (c : @tclass val St) (args : list texpr) : forall vss, Forall2 (fun d vs => fitted_values xs args d = Ok vs) zs vss ->
  (forall d, fitted_values ys args d = fitted_values xs args d) -> forall s0,
  foldM (fun s d => let* vs := fitted_values xs args d in c_chunk c s vs) zs s0 = foldM (c_chunk c) vss s0 /\
  foldM (fun s d => let* vs := fitted_values ys args d in c_chunk c s vs) zs s0 = foldM (c_chunk c) vss s0.
Proof.
  induction 1 as [|d vs zs vss E F IH]; intros Hd s0; [split; reflexivity|]. cbn [foldM]. rewrite Hd, E. cbn [bind]. destruct (c_chunk c s0 vs); cbn [bind]; [now apply IH|split; reflexivity].
Qed.
Lemma values_pieces (args : list texpr) ms zs : incl zs (xs ++ ys) -> (forall d, In d (xs ++ ys) -> exists vs, fitted_values xs args d = Ok vs /\ all_mean ms (rows_of d) vs) ->
  exists vss, Forall2 (fun d vs => fitted_values xs args d = Ok vs) zs vss /\ Forall2 (all_mean ms) (map rows_of zs) vss.
Proof.
  intros Hi H. induction zs as [|d zs IH]; [exists []; split; constructor|]. destruct IH as [vss [A B]]; [intros z Hz; apply Hi; now right|].
  destruct (H d (Hi d (or_introl eq_refl))) as [vs [E M]]. exists (vs :: vss). split; constructor; assumption.
Qed.
Lemma no_empty zs : incl zs (xs ++ ys) -> ~ In [] (map rows_of zs).
Proof. intros Hi H. apply in_map_iff in H. destruct H as [d [E Hd]]. exact (Hfull d (Hi d Hd) E). Qed.
Lemma concat_rows zs : concat (map rows_of zs) = flat_map rows_of zs.
Proof. now rewrite flat_map_concat_map. Qed.

Lemma rowwise_lemma :
  (forall e m, rowwise e m -> fits_on xs e -> fitted_alike e /\ fitted_rows e m) /\
  (forall args ms, rowwises args ms -> (forall a, In a args -> fits_on xs a) ->
    (forall d, fitted_values ys args d = fitted_values xs args d) /\ (forall a, In a args -> fits_on ys a) /\
    forall d, In d (xs ++ ys) -> exists vs, fitted_values xs args d = Ok vs /\ all_mean ms (rows_of d) vs).
Proof.
  apply rowwise_both.
  - intros f m H _. split; [split; [reflexivity|intros o c args []]|]. exact H.
  - intros f args ms m _ IH H Hf. destruct IH as [A [B G]].
    { intros a Ha o c l Hc. apply (Hf o). cbn. eapply in_flat_calls; eauto. }
    split; [split|].
    + intros d. now rewrite !fitted_op, A.
    + intros o c l Hc. cbn in Hc. apply in_flat_map in Hc. destruct Hc as [a [Ha Hc]]. exact (B a Ha o c l Hc).
    + intros d Hd. rewrite fitted_op. destruct (G d Hd) as [vs [-> M]]. cbn [bind]. apply (H (rows_of d)); [now apply Hfull|now apply chunk_incl|exact M].
  - intros truth a b e va t mb me _ IHa Ht _ IHb _ IHe Hf. cbn in Hf.
    destruct IHa as [[A1 A2] A3]; [intros o c l Hc; apply (Hf o); cbn; rewrite !in_app_iff; auto|].
    destruct IHb as [[B1 B2] B3]; [intros o c l Hc; apply (Hf o); cbn; rewrite !in_app_iff; auto|].
    destruct IHe as [[E1 E2] E3]; [intros o c l Hc; apply (Hf o); cbn; rewrite !in_app_iff; auto|].
    split; [split|].
    + intros d. cbn [fitted_value]. rewrite A1. destruct (fitted_value ys a d) as [v|]; cbn [bind]; [|reflexivity]. destruct (truth v) as [[]|]; cbn [bind]; auto.
    + intros o c l Hc. cbn in Hc. rewrite !in_app_iff in Hc. destruct Hc as [Hc|[Hc|Hc]]; eauto.
    + intros d Hd. cbn [fitted_value]. destruct (A3 d Hd) as [v [-> M]]. cbn in M. subst v. cbn [bind]. rewrite Ht. cbn [bind]. destruct t; auto.
  - intros o c args ms m _ IH [H1 H2] Hf. destruct IH as [A [B G]].
    { intros a Ha o' c' l Hc. apply (Hf o'). cbn. right. eapply in_flat_calls; eauto. }
    destruct (Hf o c args (or_introl eq_refl)) as [s Hs].
    destruct (values_pieces args ms xs) as [vx [X1 X2]]; [intros z Hz; apply in_app_iff; auto|exact G|].
    destruct (values_pieces args ms ys) as [vy [Y1 Y2]]; [intros z Hz; apply in_app_iff; auto|exact G|].
    assert (Ex : fit_on c vx = Ok s) by (unfold fit_on; rewrite <- Hs; unfold fitted_state; now rewrite (proj1 (state_fit xs c args vx X1 A (c_new c)))).
    assert (Px : pieces_of_all holds all ms vx) by (exists (map rows_of xs); split; [clear - Hxn; destruct xs; [contradiction|discriminate]|split; [apply no_empty; intros z Hz; apply in_app_iff; auto|split; [now rewrite concat_rows|exact X2]]]).
    assert (Py : pieces_of_all holds all ms vy) by (exists (map rows_of ys); split; [clear - Hyn; destruct ys; [contradiction|discriminate]|split; [apply no_empty; intros z Hz; apply in_app_iff; auto|split; [now rewrite concat_rows|exact Y2]]]).
    assert (Ey : fitted_state ys c args = Ok s).
    { rewrite <- (H1 vx vy s Px Py Ex). unfold fit_on, fitted_state. now rewrite (proj2 (state_fit ys c args vy Y1 A (c_new c))). }
    split; [split|].
    + intros d. now rewrite !fitted_call, A, Hs, Ey.
    + intros o' c' l Hc. cbn in Hc. destruct Hc as [Hc|Hc]; [injection Hc as <- <- <-; eauto|]. apply in_flat_map in Hc. destruct Hc as [a [Ha Hc]]. exact (B a Ha o' c' l Hc).
    + intros d Hd. rewrite fitted_call, Hs. cbn [bind]. destruct (G d Hd) as [vs [-> M]]. cbn [bind]. apply (H2 vx s (rows_of d) vs Px Ex); [now apply Hfull|now apply chunk_incl|exact M].
  - intros _. split; [reflexivity|]. split; [intros a []|]. intros d _. exists []. split; [reflexivity|constructor].
  - intros e m args ms _ IHe _ IHa Hf. destruct IHe as [[E1 E2] E3]; [apply Hf; now left|]. destruct IHa as [A1 [A2 A3]]; [intros a Ha; apply Hf; now right|].
    split; [|split].
    + intros d. specialize (A1 d). unfold fitted_values in *. cbn [mapM]. now rewrite E1, A1.
    + intros a [<-|Ha]; auto.
    + intros d Hd. destruct (E3 d Hd) as [v [Ev Mv]]. destruct (A3 d Hd) as [vs [Evs Mvs]]. exists (v :: vs). split; [|constructor; assumption].
      unfold fitted_values in *. cbn [mapM]. rewrite Ev. cbn [bind]. rewrite Evs. reflexivity.
Qed.
End Fit.

(** * Types *)
Section Types.
Context {C F D row : Type}.
Variable ev : F -> D -> result (@value C).
Variable origin_of : F -> option origin.
Variable na : na_types.
Local Notation sniffer := (@sniffer C).

Lemma occurs_incl a b x : incl a b -> occurs na a x -> occurs na b x.
Proof. intros H [[A B]|[A [v B]]]; [left|right]; eauto. Qed.
Lemma add_in x s w : In x (set_add s w) -> In x s \/ x = w.
Proof. unfold set_add. destruct (set_mem w s); [auto|]. rewrite in_app_iff. intros [H|[H|[]]]; auto. Qed.
Lemma sniff_value_occurs org s v s' x : sniff_value na org s v = Ok s' -> In x s' -> In x s \/ occurs na [v] x.
Proof.
  unfold sniff_value. intros H Hi. destruct (na_cases na v) as [[E M]|[[E M]|E]]; rewrite E in H; cbn [bind] in H; [| |discriminate].
  - injection H as <-. auto.
  - assert (NB : Ok (set_add s v) = Ok s' -> In x s \/ occurs na [v] x).
    { intros [= <-]. apply add_in in Hi. destruct Hi as [Hi| ->]; [auto|]. right. left. split; [now left|exact M]. }
    destruct v; try (apply NB; exact H).
    + injection H as <-. apply add_in in Hi. destruct Hi as [Hi| ->]; [apply add_in in Hi; destruct Hi as [Hi| ->]; [auto|]|]; right; right; (split; [eexists; reflexivity|exists b; now left]).
    + destruct (hashable (VTuple l)); [auto|discriminate].
    + cbn [CategoricalModel.hashable] in H. destruct hashable; [auto|discriminate].
Qed.
Lemma sniff_values_occurs org values : forall s s' x, foldM (sniff_value na org) values s = Ok s' -> In x s' -> In x s \/ occurs na values x.
Proof.
  induction values as [|v values IH]; intros s s' x H Hi; cbn [foldM] in H; [injection H as <-; auto|].
  destruct (sniff_value na org s v) as [s1|] eqn:E1; [|discriminate]. cbn [bind] in H. destruct (IH s1 s' x H Hi) as [A|A].
  - destruct (sniff_value_occurs org s v s1 x E1 A) as [B|B]; [auto|]. right. eapply occurs_incl; [|exact B]. intros z [<-|[]]. now left.
  - right. eapply occurs_incl; [|exact A]. intros z Hz. now right.
Qed.
Lemma sniff_data_occurs org (st st' : sniffer) d l fin x : consists_of d l -> ~ is_pandas d -> (forall n, d <> DBools n []) ->
  sniff_data na org st d = Ok (st', fin) -> sn_contrast st' = sn_contrast st /\ (In x (sn_set st') -> In x (sn_set st) \/ occurs na l x).
Proof.
  intros Hc Hp Hb H. destruct Hc as [n l Hle|n l|n v|cats codes l Hf]; cbn [sniff_data shape_fix bind] in H.
  - injection H as <- <-. split; [reflexivity|]. cbn. intros Hi. right. right. split; [destruct Hi as [<-|[<-|[]]]; eexists; reflexivity|]. destruct l as [|b l]; [exfalso; now apply (Hb n)|]. exists b. now left.
  - destruct (foldM _ _ _) as [s|] eqn:E; [|discriminate]. cbn in H. injection H as <- <-. split; [reflexivity|]. cbn. eapply sniff_values_occurs, E.
  - destruct (foldM _ _ _) as [s|] eqn:E; [|discriminate]. cbn in H. injection H as <- <-. split; [reflexivity|]. cbn. eapply sniff_values_occurs, E.
  - exfalso. apply Hp. now exists cats, codes.
Qed.
Lemma sniff_occurs org (st st' : sniffer) v l fin c : chunk_values v l -> contrast_in v = c -> sn_contrast st = c \/ sn_contrast st = None ->
  sniff na org st v = Ok (st', fin) -> sn_contrast st' = c /\ forall x, In x (sn_set st') -> In x (sn_set st) \/ occurs na l x.
Proof.
  intros [d l' H1 H2 H3|d k l' H1 H2 H3] Hc Hs H; cbn in H, Hc; subst.
  - split; [|intros x; now apply (sniff_data_occurs org st st' d l' fin x H1 H2 H3 H)].
    destruct (sniff_data_occurs org st st' d l' fin VNone H1 H2 H3 H) as [-> _]. destruct Hs; congruence.
  - split; [|intros x; now apply (sniff_data_occurs org _ st' d l' fin x H1 H2 H3 H)].
    now destruct (sniff_data_occurs org _ st' d l' fin VNone H1 H2 H3 H) as [-> _].
Qed.
Lemma look_occurs f c chunks ls : Forall2 (fun d l => exists v, ev f d = Ok v /\ chunk_values v l /\ contrast_in v = c) chunks ls -> forall (sn sn' : sniffer) cells,
  look ev origin_of na f chunks sn = Ok sn' -> sn_contrast sn = c \/ sn_contrast sn = None -> (forall x, In x (sn_set sn) -> occurs na cells x) -> incl (concat ls) cells ->
  (chunks <> [] -> sn_contrast sn' = c) /\ forall x, In x (sn_set sn') -> occurs na cells x.
Proof.
  induction 1 as [|d l chunks ls [v [Ev [Hv Hc]]] Hr IH]; intros sn sn' cells H Hs Ho Hi; cbn [look] in H; [injection H as <-; split; [contradiction|exact Ho]|].
  rewrite Ev in H. cbn [bind] in H. destruct (sniff na (origin_of f) sn v) as [[st fin]|] eqn:Es; [|discriminate]. cbn [bind] in H. cbn [concat] in Hi.
  destruct (sniff_occurs (origin_of f) sn st v l fin c Hv Hc Hs Es) as [A B].
  assert (Ho' : forall x, In x (sn_set st) -> occurs na cells x).
  { intros x Hx. destruct (B x Hx) as [G|G]; [auto|]. eapply occurs_incl; [|exact G]. intros z Hz. apply Hi, in_app_iff. auto. }
  destruct fin; [injection H as <-; auto|]. destruct (IH st sn' cells H (or_introl A) Ho') as [G1 G2]; [intros z Hz; apply Hi, in_app_iff; auto|].
  split; [|exact G2]. intros _. destruct chunks as [|d' r]; [|apply G1; discriminate]. cbn in H. now injection H as <-.
Qed.

(** What is found out about categorical data. *)
Variable rows_of : D -> list row.
Variable value : row -> pval.
Variable all : list row.
Lemma covers_perm a b k : Permutation a b -> covers na a k -> covers na b k.
Proof. intros P [v [A B]]. exists v. split; [now apply (Permutation_in _ P)|exact B]. Qed.
Lemma concat_values chunks : concat (map (fun d => map value (rows_of d)) chunks) = map value (flat_map rows_of chunks).
Proof. induction chunks as [|d r IH]; [reflexivity|]. cbn. now rewrite map_app, IH. Qed.
Lemma categories_found f c chunks : chunks <> [] -> Permutation (flat_map rows_of chunks) all ->
  (forall d, In d chunks -> exists v, ev f d = Ok v /\ chunk_values v (map value (rows_of d)) /\ guess_categorical v = true /\ contrast_in v = c) ->
  zero_one_pure na (map value all) -> Forall (usable na) (map value all) ->
  exists sn, type_of ev origin_of na f chunks = Ok (Some (TCat sn)) /\ sn_levels sn = None /\ sn_contrast sn = c /\ NoDup (keys (sn_set sn)) /\
    (forall k, In k (keys (sn_set sn)) <-> covers na (map value all) k) /\ forall x, In x (sn_set sn) -> occurs na (map value all) x.
Proof.
  intros Hn HP Hv Hz Hu. set (ls := map (fun d => map value (rows_of d)) chunks).
  assert (HP' : Permutation (concat ls) (map value all)) by (unfold ls; rewrite concat_values; now apply Permutation_map).
  assert (F1 : Forall2 (fun d l => exists v, ev f d = Ok v /\ chunk_values v l /\ contrast_in v = c) chunks ls).
  { unfold ls. clear - Hv. induction chunks as [|d r IH]; cbn [map]; constructor; [|apply IH; intros; apply Hv; now right]. destruct (Hv d (or_introl eq_refl)) as [v [A [B [_ G]]]]. eauto. }
  assert (F2 : Forall2 (chunk_is ev f) chunks ls) by (eapply forall2_impl; [|exact F1]; intros d l [v [A [B _]]]; exists v; auto).
  assert (U : Forall (usable na) (concat ls)) by (eapply Permutation_Forall; [apply Permutation_sym, HP'|exact Hu]).
  destruct (look_ok ev origin_of na f chunks ls F2 U new_sniffer) as [sn El].
  assert (T : type_of ev origin_of na f chunks = Ok (Some (TCat sn))).
  { unfold type_of. destruct chunks as [|d r]; [contradiction|]. destruct (Hv d (or_introl eq_refl)) as [v [A [_ [G _]]]]. rewrite A. cbn [bind]. rewrite G, El. reflexivity. }
  destruct (look_keys ev origin_of na f chunks ls F2 new_sniffer sn [] El eq_refl (NoDup_nil _)) as [L [N K]].
  - intros k. split; [intros []|intros G; now apply covers_nil in G].
  - cbn [app]. apply pure_iff. rewrite pure_iff in Hz. intros A B k G. apply Hz; (eapply covers_perm; [exact HP'|]); assumption.
  - destruct (look_occurs f c chunks ls F1 new_sniffer sn (map value all) El (or_intror eq_refl)) as [Cc Oc]; [intros x []|intros x Hx; now apply (Permutation_in _ HP')|].
    exists sn. split; [exact T|]. split; [exact L|]. split; [now apply Cc|]. split; [exact N|]. split; [|exact Oc].
    intros k. rewrite K. cbn [app]. split; apply covers_perm; [exact HP'|apply Permutation_sym, HP'].
Qed.
End Types.

(** Sets with the same elements. *)
Lemma same_elements na cells s t : NoDup (keys s) -> NoDup (keys t) -> (forall k, In k (keys s) <-> In k (keys t)) ->
  (forall x, In x s -> occurs na cells x) -> (forall x, In x t -> occurs na cells x) ->
  (forall x y, occurs na cells x -> occurs na cells y -> same x y -> x = y) -> Permutation t s.
Proof.
  intros N1 N2 K O1 O2 H.
  assert (G : forall a b, (forall k, In k (keys a) -> In k (keys b)) -> (forall x, In x a -> occurs na cells x) -> (forall x, In x b -> occurs na cells x) -> forall x, In x a -> In x b).
  { clear - H. intros a b K Oa Ob x Hx. assert (Hk : In (key_of x) (keys b)) by (apply K; now apply in_map). apply in_map_iff in Hk. destruct Hk as [y [E Hy]].
    rewrite (H x y); auto. apply same_iff. now symmetry. }
  apply NoDup_Permutation; [eapply NoDup_map_inv, N2|eapply NoDup_map_inv, N1|]. intros x. split; apply G; auto; intros k; apply K.
Qed.

(** * The designs *)
Lemma f2_in {A B} (P : A -> B -> Prop) l m : Forall2 P l m -> Forall2 (fun a b => P a b /\ In a l /\ In b m) l m.
Proof. induction 1 as [|a b l m H F IH]; constructor; [cbn; auto|]. eapply forall2_impl; [|exact IH]. cbn. tauto. Qed.
Lemma f2_and {A B} (P Q : A -> B -> Prop) l m : Forall2 P l m -> Forall2 Q l m -> Forall2 (fun a b => P a b /\ Q a b) l m.
Proof. induction 1; intros H'; inversion H'; subst; constructor; auto. Qed.
Section Top.
Context {val data St V I C row cell : Type}.
Variables (vone : V) (vmul : V -> V -> V) (visnan : V -> bool) (ilabel : nat -> I) (ieqb : I -> I -> bool).
Hypothesis ieqb_eq : forall a b, ieqb a b = true <-> a = b.
Variable code : factor -> @texpr val data St.
Variable bins : factor -> list (list string).
Variable origin_of : factor -> option origin.
Variable as_obj : val -> @fobj V I C.
Variable code_cm : list pval -> option C -> bool -> result (@ctr V).
Variable df_index : data -> option (list I).
Local Notation passes := (ef_passes code bins).
Local Notation chunk := (ef_chunk code bins origin_of).
Local Notation finish := (ef_finish code bins).
Local Notation eval := (ef_eval code origin_of as_obj).
Hypothesis Hidx : indexed eval.
Variable rows_of : data -> list row.
Variable holds : val -> list cell -> Prop.
Variables xs ys : list data.
Variable all : list row.
Hypothesis Hx : Permutation (flat_map rows_of xs) all.
Hypothesis Hy : Permutation (flat_map rows_of ys) all.
Hypothesis Hxn : xs <> [].
Hypothesis Hyn : ys <> [].
Hypothesis Hfull : forall d, In d (xs ++ ys) -> rows_of d <> [].
Variables w1 w2 : run_of_python.
Variable tls : list (list term).
Hypothesis L1 : lawful tls w1.
Hypothesis L2 : lawful tls w2.
Local Notation builders w := (design_matrix_builders passes chunk finish eval origin_of code_cm (py_hash w) (py_set_order w) (py_order_mem w) (py_order_exam w) (py_addr w) (py_hash_order w)).
Local Notation build := (build vone vmul visnan ilabel ieqb eval origin_of df_index).
Local Notation eval_info := (eval_info visnan eval origin_of).
Local Notation chunk_free na f := (chunk_free rows_of holds all (xs ++ ys) as_obj w1 w2 na (code f) (bins f)).
Definition alike (f : factor) (s s' : @store St) : Prop := forall d, eval f s d = eval f s' d.

Lemma numbers_found (ev : factor -> data -> result (@value C)) na f n chunks : chunks <> [] -> (forall d, In d chunks -> exists v, ev f d = Ok v /\ numerical v n) ->
  type_of ev origin_of na f chunks = Ok (Some (TNum n)).
Proof.
  intros Hn H. destruct chunks as [|d r]; [contradiction|]. destruct (H d (or_introl eq_refl)) as [v [E N]]. unfold type_of. rewrite E. cbn [bind].
  destruct N as [l|x|nd nc N]; cbn; try reflexivity. destruct nd as [|[|[|nd]]]; try reflexivity. lia.
Qed.
Lemma declared_found (ev : factor -> data -> result (@value C)) na f levels c chunks : chunks <> [] -> (forall d, In d chunks -> exists v, ev f d = Ok v /\ declares v levels c) ->
  exists sn, type_of ev origin_of na f chunks = Ok (Some (TCat sn)) /\ sn_levels sn = Some levels /\ sn_contrast sn = c.
Proof.
  intros Hn H. destruct chunks as [|d r]; [contradiction|]. destruct (H d (or_introl eq_refl)) as [v [E N]]. unfold type_of. rewrite E. cbn [bind look]. rewrite E. cbn [bind].
  destruct N as [x c l|cats codes|cats codes c]; cbn; eexists; (split; [reflexivity|]); split; reflexivity.
Qed.
Lemma learned_incr na : (forall f, In f (factors_of tls) -> chunk_free na f) ->
  learned_alike passes chunk finish eval origin_of w1 w2 alike (fun _ => xs) (fun _ => ys) na tls.
Proof.
  intros H f s k lv c Hf HL. destruct (H f Hf) as [Hnd [Hin [m [Hr Hs]]]].
  assert (Tr : trained passes chunk finish (fun _ => xs) f s) by (destruct HL; assumption).
  apply (trained_fit code bins origin_of xs (fun _ => xs) (fun _ => eq_refl)) in Tr.
  destruct (fit_factor_ok xs (code f) Hnd (bins f) s Hin Tr) as [Hst Hev].
  assert (Fx : fits_on xs (code f)) by (intros o cc args Hc; destruct (Hst o cc args Hc) as [z [E _]]; eauto).
  destruct (proj1 (rowwise_lemma rows_of holds xs ys all Hx Hy Hxn Hyn Hfull) (code f) m Hr Fx) as [[Hal Fy] Hrows].
  destruct (proj2 (fit_factor_exists ys (code f) Hnd (bins f) Hin) Fy) as [s' Tr'].
  destruct (fit_factor_ok ys (code f) Hnd (bins f) s' Hin Tr') as [_ Hev'].
  assert (Ha : alike f s s') by (intros d; unfold ef_eval; now rewrite Hev, Hev', Hal).
  apply (trained_fit code bins origin_of ys (fun _ => ys) (fun _ => eq_refl)) in Tr'.
  exists s'. split; [exact Ha|].
  assert (V1 : forall d, In d (xs ++ ys) -> exists v, value_with eval s f d = Ok (o_value (as_obj v)) /\ means holds m (rows_of d) v).
  { intros d Hd. destruct (Hrows d Hd) as [v [E M]]. exists v. split; [|exact M]. unfold value_with, ef_eval. rewrite Hev, E. reflexivity. }
  assert (V2 : forall d, In d (xs ++ ys) -> exists v, value_with eval s' f d = Ok (o_value (as_obj v)) /\ means holds m (rows_of d) v).
  { intros d Hd. destruct (V1 d Hd) as [v [E M]]. exists v. split; [|exact M]. unfold value_with in *. now rewrite <- Ha. }
  assert (Ex : forall z (P : @value C -> Prop), (z = s \/ z = s') -> (forall d v, In d (xs ++ ys) -> means holds m (rows_of d) v -> P (o_value (as_obj v))) ->
    forall d, In d (xs ++ ys) -> exists v, value_with eval z f d = Ok v /\ P v).
  { intros z P [-> | ->] HP d Hd; [destruct (V1 d Hd) as [v [E M]]|destruct (V2 d Hd) as [v [E M]]]; eexists; (split; [exact E|]); eauto. }
  assert (Ix : incl xs (xs ++ ys)) by (intros z Hz; apply in_app_iff; auto). assert (Iy : incl ys (xs ++ ys)) by (intros z Hz; apply in_app_iff; auto).
  destruct Hs as [n Hn|value cc Hv Hz Hu Hone Hord|levels cc Hd].
  - assert (Tx : type_of (value_with eval s) origin_of na f xs = Ok (Some (TNum n))).
    { apply numbers_found; [exact Hxn|]. intros d Hd. apply (Ex s (fun v => numerical v n)); auto. }
    assert (Ty : type_of (value_with eval s') origin_of na f ys = Ok (Some (TNum n))).
    { apply numbers_found; [exact Hyn|]. intros d Hd. apply (Ex s' (fun v => numerical v n)); auto. }
    destruct HL as [z n' T0 Y0|z sn' lv' c' T0 Y0 E0]; unfold exam_chunks in Y0; rewrite Tx in Y0; [|discriminate]. injection Y0 as <-. now constructor.
  - destruct (categories_found (value_with eval s) origin_of na rows_of value all f cc xs Hxn Hx) as [sn1 [T1 [S1 [S2 [S3 [S4 S5]]]]]]; auto.
    { intros d Hd. destruct (V1 d (Ix d Hd)) as [v [E M]]. destruct (Hv d v (Ix d Hd) M) as [G1 [G2 G3]]. eauto. }
    destruct (categories_found (value_with eval s') origin_of na rows_of value all f cc ys Hyn Hy) as [sn2 [T2 [R1 [R2 [R3 [R4 R5]]]]]]; auto.
    { intros d Hd. destruct (V2 d (Iy d Hd)) as [v [E M]]. destruct (Hv d v (Iy d Hd) M) as [G1 [G2 G3]]. eauto. }
    destruct HL as [z n' T0 Y0|z sn' lv' c' T0 Y0 E0]; unfold exam_chunks in Y0; rewrite T1 in Y0; [discriminate|]. injection Y0 as <-.
    apply (learned_cat _ _ _ _ _ _ _ _ _ _ f s' sn2); [exact Tr'|exact T2|]. rewrite <- E0. unfold levels_contrast. rewrite S1, R1, S2, R2. f_equal. symmetry.
    assert (P : Permutation (sn_set sn2) (sn_set sn1)) by (apply (same_elements na (map value all)); auto; intros k; rewrite S4, R4; reflexivity).
    apply (sorted_perm w1 w2 (sn_set sn1)).
    + apply distinct_iff. exact S3.
    + apply Hord. exact S5.
    + apply L1.
    + etransitivity; [apply L2|exact P].
  - destruct (declared_found (value_with eval s) na f levels cc xs Hxn) as [sn1 [T1 [S1 S2]]]; [intros d Hd'; apply (Ex s (fun v => declares v levels cc)); auto|].
    destruct (declared_found (value_with eval s') na f levels cc ys Hyn) as [sn2 [T2 [R1 R2]]]; [intros d Hd'; apply (Ex s' (fun v => declares v levels cc)); auto|].
    destruct HL as [z n' T0 Y0|z sn' lv' c' T0 Y0 E0]; unfold exam_chunks in Y0; rewrite T1 in Y0; [discriminate|]. injection Y0 as <-.
    apply (learned_cat _ _ _ _ _ _ _ _ _ _ f s' sn2); [exact Tr'|exact T2|]. rewrite <- E0. unfold levels_contrast. now rewrite S1, R1, S2, R2.
Qed.

(** Designs that are alike build the same matrices. *)
Lemma build_alike ds1 ds2 d na want r : designs_ok ds1 -> designs_ok ds2 -> Forall2 (design_alike alike) ds1 ds2 ->
  (forall x y, In x ds1 -> In y ds1 -> ds_known x = ds_known y) -> (forall x y, In x ds2 -> In y ds2 -> ds_known x = ds_known y) ->
  (forall x f fi, In x ds1 -> In (f, fi) (infos_of (ds_info x)) -> fi_factor fi = f) ->
  build ds1 d na want = Ok r -> build ds2 d na want = Ok r.
Proof.
  intros O1 O2 Hf K1 K2 Hff. destruct r as [ms labels]. apply (build_values vone vmul visnan ilabel ieqb ieqb_eq eval origin_of df_index Hidx ds1 ds2 d na want ms labels O1 O2).
  apply f2_in in Hf. eapply forall2_impl; [|exact Hf]. intros x y [[H1 H2] [I1 I2]]. split; [exact H1|].
  pose proof (f2_in _ _ _ (f2_and _ _ _ _ H2 (infos_pairs _ _ (proj1 (infos_anon _ _ H1))))) as F. eapply forall2_impl; [|exact F].
  intros [f fi] [g gi] [[[s1 [s2 [lv [G1 [G2 G3]]]]] [E1 E2]] [J1 J2]] nw. cbn [fst snd] in *. subst g.
  assert (Kn : forall (ds : list (@design V (@store St))) z gi0 v, In z ds -> (forall a b, In a ds -> In b ds -> ds_known a = ds_known b) -> dget Nat.eqb (fi_id gi0) (ds_known z) = Some v -> dget Nat.eqb (fi_id gi0) (concat (map ds_known ds)) = Some v).
  { intros ds z gi0 v Hz Hk E. destruct ds as [|a ds]; [destruct Hz|]. cbn [map concat]. destruct v as [sv lvv]. apply get_known. rewrite (Hk a z (or_introl eq_refl) Hz). exact E. }
  unfold PipeModel.eval_info. rewrite (Kn ds1 x _ _ I1 K1 G1), (Kn ds2 y _ _ I2 K2 G2). cbn [lookup bind].
  pose proof (Hff x f fi I1 J1) as Ef. destruct fi as [i1 f1 k1], gi as [i2 f2 k2]. cbn in E2, Ef. injection E2 as <- <-. subst f1. cbn [fi_factor fi_kind]. now rewrite (G3 d).
Qed.

Lemma incremental_lemma na ds1 : (forall act, get_action na = Ok act -> forall f, In f (factors_of tls) -> chunk_free (na_what act) f) ->
  builders w1 (fun _ => xs) na tls = Ok ds1 -> exists ds2, builders w2 (fun _ => ys) na tls = Ok ds2 /\
    Forall2 (fun x y => anonymous (ds_info x) = anonymous (ds_info y)) ds1 ds2 /\
    forall us vs d na' want r, Forall2 (paired ds1 ds2) us vs -> build us d na' want = Ok r -> build vs d na' want = Ok r.
Proof.
  intros H Hb. destruct (builders_alike vone vmul visnan passes chunk finish eval origin_of code_cm w1 w2 alike (fun _ => xs) (fun _ => ys) na tls ds1 L1 L2) as [ds2 [E [F [K1 K2]]]]; [|exact Hb|].
  { intros act Ha. apply learned_incr. now apply H. }
  exists ds2. split; [exact E|]. split; [eapply forall2_impl; [|exact F]; intros x y [G _]; exact G|].
  intros us vs d na' want r Hp.
  pose proof L1 as [A1 [A2 [A3 _]]]. pose proof L2 as [B1 [B2 [B3 _]]].
  destruct (builders_good _ _ _ _ _ _ _ _ _ _ _ _ A1 A2 A3 _ _ _ _ Hb) as [_ [C1 [D1 [act1 [_ G1]]]]].
  destruct (builders_good _ _ _ _ _ _ _ _ _ _ _ _ B1 B2 B3 _ _ _ _ E) as [_ [C2 [D2 [act2 [_ G2]]]]].
  assert (Iu : incl us ds1). { clear - Hp. induction Hp as [|x y us vs Hxy Hp IH]; [intros z []|]. intros z [<-|Hz]; [eapply in_combine_l, Hxy|auto]. }
  assert (Iv : incl vs ds2). { clear - Hp. induction Hp as [|x y us vs Hxy Hp IH]; [intros z []|]. intros z [<-|Hz]; [eapply in_combine_r, Hxy|auto]. }
  assert (Sub : forall (ds us : list (@design V (@store St))), incl us ds -> Forall (fun d => constructed (ds_info d)) ds -> identities (all_infos (map ds_info ds)) -> designs_ok us).
  { clear. intros ds us Hu Hcon Hident. split; [rewrite Forall_forall in *; intros x Hi; apply Hcon, Hu, Hi|]. intros a b Ha' Hb'. apply Hident; unfold all_infos in *; [clear Hb'; rename Ha' into Hi|clear Ha'; rename Hb' into Hi];
      apply in_flat_map in Hi; destruct Hi as [x [Hi1 Hi2]]; apply in_flat_map; exists x; (split; [|exact Hi2]); apply in_map_iff in Hi1; destruct Hi1 as [y [<- Hy]]; apply in_map; auto. }
  assert (Kn : forall (ds us : list (@design V (@store St))), incl us ds -> (forall d, In d ds -> ds_known d = ds_known (hd d ds)) -> forall x y, In x us -> In y us -> ds_known x = ds_known y).
  { clear. intros ds us Hu K x y Hx Hy. rewrite (K x (Hu x Hx)), (K y (Hu y Hy)). destruct ds as [|z ds]; [destruct (Hu x Hx)|reflexivity]. }
  apply build_alike; eauto.
  - clear - F Hp. eapply forall2_impl; [|exact Hp]. intros x y Hxy. unfold paired in Hxy. clear - F Hxy. induction F as [|a b ds1 ds2 Hab F IH]; cbn in Hxy; [destruct Hxy|]. destruct Hxy as [[= <- <-]|Hxy]; auto.
  - intros x f fi Hx' Hfi. now destruct (G1 x (Iu x Hx') f fi Hfi).
Qed.
End Top.
