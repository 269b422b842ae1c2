(** Rearranging the rows of the data rearranges the rows of the matrices. *)
From Coq Require Import Sorted.
From Verif Require Import Base DescModel DescProofs BuildModel BuildSpec BuildProofs BuildSubtermProofs BuildInfoProofs BuildMatrixProofs BuildAllProofs BuildTopProofs MemorizeModel CategoricalModel PipeModel PipeSpec PipeProofs PipeHighProofs ArrangeSpec.
Open Scope nat_scope.
Open Scope list_scope.

(** * Picking *)
Lemma pick_cons {A} (l : list A) k ks : pick l (k :: ks) = match nth_error l k with Some x => [x] | None => [] end ++ pick l ks.
Proof. reflexivity. Qed.
Lemma pick_map {A B} (f : A -> B) l ks : pick (map f l) ks = map f (pick l ks).
Proof. induction ks as [|k ks IH]; [reflexivity|]. rewrite !pick_cons, map_app, IH, nth_error_map. destruct (nth_error l k); reflexivity. Qed.
Lemma mapM_nth {A B} (f : A -> result B) l : forall r k, mapM f l = Ok r ->
  match nth_error l k, nth_error r k with Some a, Some b => f a = Ok b | None, None => True | _, _ => False end.
Proof.
  induction l as [|a l IH]; intros r k H; cbn in H; [injection H as <-; now destruct k|].
  destruct (f a) as [b|] eqn:E; cbn in H; [|discriminate]. destruct (mapM f l) as [r'|] eqn:Er; cbn in H; [|discriminate]. injection H as <-.
  destruct k as [|k]; cbn; [exact E|]. now apply IH.
Qed.
Lemma mapM_pick {A B} (f : A -> result B) l r ks : mapM f l = Ok r -> mapM f (pick l ks) = Ok (pick r ks).
Proof.
  intros H. induction ks as [|k ks IH]; [reflexivity|]. rewrite !pick_cons. pose proof (mapM_nth f l r k H) as N.
  destruct (nth_error l k), (nth_error r k); try contradiction; [|exact IH]. cbn. now rewrite N, IH.
Qed.
Lemma mapM_len {A B} (f : A -> result B) l : forall r, mapM f l = Ok r -> length r = length l.
Proof.
  induction l as [|a l IH]; intros r H; cbn in H; [now injection H as <-|].
  destruct (f a); cbn in H; [|discriminate]. destruct (mapM f l); cbn in H; [|discriminate]. injection H as <-. cbn. f_equal. now apply IH.
Qed.

(** * Codes *)
Lemma shape_arranged ks d d' vals : data_arranged ks d d' -> shape_fix d = Ok vals -> shape_fix d' = Ok (pick vals ks).
Proof.
  intros []; cbn [shape_fix].
  - intros [= <-]. now rewrite pick_map.
  - destruct (Nat.ltb 1 n); [discriminate|]. intros [= <-]. now rewrite pick_map.
  - now intros [= <-].
  - discriminate.
Qed.
Lemma shape_length d vals : shape_fix d = Ok vals -> length vals = data_rows d.
Proof. destruct d; cbn [shape_fix data_rows]; try destruct (Nat.ltb _ _); try discriminate; intros [= <-]; try rewrite map_length; reflexivity. Qed.

Section Codes.
Context {C : Type}.
Variables (levels : list pval) (na : na_types) (org : option origin).
Definition code_data (d : @cdata) : result (list Z) :=
    let* values := shape_fix d in
    if negb (forallb hashable levels) then Err (PatsyError "Error interpreting categorical data: all items must be hashable" org)
    else
      let table := level_to_int levels in
      let slow := mapM (code_value na org table) values in
      match d with
      | DBools _ l =>
          let* f := lookup (dget key_eqb (VBool false) table) in
          if Nat.eqb f 0 then
            let* t := lookup (dget key_eqb (VBool true) table) in
            if Nat.eqb t 1 then Ok (map (fun b : bool => if b then 1%Z else 0%Z) l) else slow
          else slow
      | _ => slow
      end.
Lemma code_arranged ks d d' codes : data_arranged ks d d' -> code_data d = Ok codes -> code_data d' = Ok (pick codes ks) /\ length codes = data_rows d.
Proof.
  intros A. unfold code_data. destruct (shape_fix d) as [vals|] eqn:E; cbn [bind]; [|discriminate]. pose proof (shape_length d vals E) as L. rewrite (shape_arranged ks d d' vals A E). cbn [bind].
  destruct (negb _); [discriminate|]. cbv zeta.
  assert (M : forall c, mapM (code_value na org (level_to_int levels)) vals = Ok c -> mapM (code_value na org (level_to_int levels)) (pick vals ks) = Ok (pick c ks) /\ length c = data_rows d).
  { intros c Hc. split; [now apply mapM_pick|]. rewrite <- L. eapply mapM_len, Hc. }
  destruct A; try exact (M codes).
  destruct (dget key_eqb (VBool false) (level_to_int levels)) as [f|]; cbn [lookup bind]; [|discriminate]. destruct (Nat.eqb f 0); [|exact (M codes)].
  destruct (dget key_eqb (VBool true) (level_to_int levels)) as [t|]; cbn [lookup bind]; [|discriminate]. destruct (Nat.eqb t 1); [|exact (M codes)].
  intros [= <-]. split; [now rewrite pick_map|apply map_length].
Qed.
Lemma codes_arranged ks (v v' : @value C) codes : value_arranged ks v v' -> categorical_to_int v levels na org = Ok codes ->
  categorical_to_int v' levels na org = Ok (pick codes ks) /\ length codes = match v with Boxed d _ _ | Plain d => data_rows d end.
Proof.
  assert (U : forall v : @value C, categorical_to_int v levels na org = match v with
     | Plain (DPandas categories codes) => if tuple_eqb categories levels then Ok codes else Err (PatsyError "mismatching levels" org)
     | Plain d => code_data d
     | Boxed d _ (Some l) => if tuple_eqb l levels then code_data d else Err (PatsyError "mismatching levels" org)
     | Boxed d _ None => code_data d end) by (intros [d c [l|]|[]]; reflexivity).
  rewrite !U. intros [d d' c [l|] A|d d' A].
  - destruct (tuple_eqb l levels); [|discriminate]. now apply code_arranged.
  - now apply code_arranged.
  - destruct A as [cats cs|n l|b b' l|b n c]; try (apply code_arranged; constructor).
    destruct (tuple_eqb cats levels); [|discriminate]. now intros [= <-].
Qed.
End Codes.

(** * Evaluation *)
Section Top.
Context {V I C S D : Type}.
Variables (vone : V) (vmul : V -> V -> V) (visnan : V -> bool) (ilabel : nat -> I) (ieqb : I -> I -> bool).
Hypothesis ieqb_eq : forall a b, ieqb a b = true <-> a = b.
Variable eval : factor -> S -> D -> result (@fobj V I C).
Variable origin_of : factor -> option origin.
Variable df_index : D -> option (list I).
Hypothesis Hidx : indexed eval.
Local Notation eval_info := (eval_info visnan eval origin_of).
Local Notation build := (build vone vmul visnan ilabel ieqb eval origin_of df_index).
Variable ks : list nat.

Definition earr (e : @evaluated V I) : @evaluated V I := mkEv (vpick ks (ev_value e)) (pick (ev_isna e) ks) (option_map (fun i => pick i ks) (ev_index e)).
Lemma info_arranged kn na d d' fi e : (forall s c o, dget Nat.eqb (fi_id fi) kn = Some (s, c) -> eval (fi_factor fi) s d = Ok o -> exists o', eval (fi_factor fi) s d' = Ok o' /\ arranged ks o o') ->
  eval_info kn na d fi = Ok e -> eval_info kn na d' fi = Ok (earr e) /\
  exists s c o, dget Nat.eqb (fi_id fi) kn = Some (s, c) /\ eval (fi_factor fi) s d = Ok o /\ vrows (ev_value e) = value_rows (fi_kind fi) o /\ ev_index e = o_index o.
Proof.
  intros H. unfold PipeModel.eval_info. destruct (dget Nat.eqb (fi_id fi) kn) as [[s c]|]; cbn [lookup bind]; [|discriminate].
  destruct (eval (fi_factor fi) s d) as [o|] eqn:Eo; cbn [bind]; [|discriminate]. destruct (H s c o eq_refl Eo) as [o' [-> [A1 [A2 [A3 [A4 [A5 A6]]]]]]]. cbn [bind].
  destruct (fi_kind fi) as [n|n] eqn:Ek; cbn [bind].
  - unfold eval_factor. rewrite Ek, A2, A3, A4, A5, A6. destruct (Nat.ltb 2 (o_ndim o)); [discriminate|]. destruct (negb (Nat.eqb _ _)); [discriminate|]. destruct (negb (o_isnum o)); [destruct (o_index o); discriminate|].
    intros [= <-]. split; [unfold earr; cbn; now rewrite pick_map|]. exists s, c, o. cbn. auto.
  - destruct (categorical_to_int (o_value o) c na (origin_of (fi_factor fi))) as [codes|] eqn:Ec; cbn [bind]; [|discriminate].
    destruct (codes_arranged c na _ ks _ _ _ A1 Ec) as [-> L]. cbn [bind]. unfold eval_factor. rewrite Ek, A6. intros [= <-]. split; [unfold earr; cbn; now rewrite pick_map|].
    exists s, c, o. cbn. auto.
Qed.

(** * Kept rows *)
Lemma in_existsb k l : existsb (Nat.eqb k) l = true <-> In k l.
Proof. rewrite existsb_exists. split; [intros [x [H E]]; apply Nat.eqb_eq in E; now subst|intros H; exists k; split; [exact H|apply Nat.eqb_refl]]. Qed.
Lemma filter_sorted {A} (R : A -> A -> Prop) g l : StronglySorted R l -> StronglySorted R (filter g l).
Proof.
  induction 1 as [|a l Hs IH Hf]; cbn; [constructor|]. destruct (g a); [|exact IH]. constructor; [exact IH|]. apply Forall_forall. intros x Hx. apply filter_In in Hx. rewrite Forall_forall in Hf. now apply Hf.
Qed.
Lemma seq_sorted n : forall o, StronglySorted lt (seq o n).
Proof. induction n as [|n IH]; intros o; cbn; constructor; [apply IH|]. apply Forall_forall. intros x Hx. apply in_seq in Hx. lia. Qed.
Lemma kept_sorted act (es : list (@evaluated V I)) n : StronglySorted lt (kept act es n).
Proof. destruct act; cbn; [apply filter_sorted|]; apply seq_sorted. Qed.
Lemma kept_lt act (es : list (@evaluated V I)) n k : In k (kept act es n) -> k < n.
Proof. destruct act; cbn; [rewrite filter_In; intros [H _]|intros H]; apply in_seq in H; lia. Qed.

Lemma missing_arranged (es : list (@evaluated V I)) n j k : (forall e, In e es -> length (ev_isna e) = n) -> (forall k, In k ks -> k < n) -> nth_error ks j = Some k ->
  missing_in (map earr es) j = missing_in es k.
Proof.
  intros Hl Hk Hj. unfold missing_in. induction es as [|e es IH]; [reflexivity|]. cbn [map existsb]. rewrite IH by (intros; apply Hl; now right). f_equal. cbn [earr ev_isna].
  pose proof (pick_nth (ev_isna e) ks j) as P. rewrite Hj, (Hl e (or_introl eq_refl)) in P. specialize (P Hk).
  assert (Hkn : k < length (ev_isna e)) by (rewrite (Hl e (or_introl eq_refl)); apply Hk; eapply nth_error_In, Hj).
  destruct (nth_error (ev_isna e) k) as [b|] eqn:E; [|apply nth_error_None in E; lia].
  now rewrite (nth_error_nth _ _ _ E), (nth_error_nth _ _ _ P).
Qed.
Lemma filter_positions (g : nat -> bool) (h : nat -> bool) l : forall o, (forall j k, nth_error l j = Some k -> h (o + j) = g k) ->
  Forall2 (fun k p => o <= p /\ nth_error l (p - o) = Some k) (filter g l) (filter h (seq o (length l))).
Proof.
  induction l as [|k l IH]; intros o H; cbn [filter length seq]; [constructor|].
  assert (F : Forall2 (fun k0 p => o <= p /\ nth_error (k :: l) (p - o) = Some k0) (filter g l) (filter h (seq (Datatypes.S o) (length l)))).
  { eapply forall2_impl; [|apply (IH (Datatypes.S o))].
    - intros a p [Hp Hn]. split; [lia|]. replace (p - o) with (Datatypes.S (p - Datatypes.S o)) by lia. exact Hn.
    - intros j k' Hj. specialize (H (Datatypes.S j) k' Hj). now rewrite Nat.add_succ_r in H. }
  pose proof (H 0 k eq_refl) as E0. rewrite Nat.add_0_r in E0. rewrite E0. destruct (g k); [|exact F]. constructor; [|exact F]. split; [lia|]. now rewrite Nat.sub_diag.
Qed.
(** The rows of the new data that are kept. *)
Lemma kept_arranged act (es : list (@evaluated V I)) n : (forall e, In e es -> length (ev_isna e) = n) -> (forall k, In k ks -> k < n) ->
  positions ks (of_kept ks (kept act es n)) (kept act (map earr es) (length ks)).
Proof.
  intros Hl Hk. unfold positions, of_kept. destruct act; cbn [kept].
  - eapply forall2_impl; [|apply (filter_positions (fun k => existsb (Nat.eqb k) (filter (fun k => negb (missing_in es k)) (seq 0 n))) (fun j => negb (missing_in (map earr es) j)) ks 0)].
    + intros a p [_ E]. now rewrite Nat.sub_0_r in E.
    + intros j k Hj. cbn [Nat.add]. rewrite (missing_arranged es n j k Hl Hk Hj). apply eq_true_iff_eq. rewrite in_existsb, filter_In, in_seq. split; [|tauto].
      intros E. split; [|exact E]. apply nth_error_In, Hk in Hj. lia.
  - pose proof (filter_positions (fun k => existsb (Nat.eqb k) (seq 0 n)) (fun _ => true) ks 0) as F.
    assert (T : forall l : list nat, filter (fun _ => true) l = l) by (induction l as [|x l IH]; cbn; congruence). rewrite T in F.
    eapply forall2_impl; [|apply F].
    + intros a p [_ E]. now rewrite Nat.sub_0_r in E.
    + intros j k Hj. symmetry. apply in_existsb, in_seq. apply nth_error_In, Hk in Hj. lia.
Qed.
Lemma positions_exist {A} (whole items : list A) : incl items whole -> exists l, positions whole items l.
Proof.
  induction items as [|x items IH]; intros H; [exists []; constructor|]. destruct IH as [l Hl]; [intros y Hy; apply H; now right|].
  destruct (In_nth_error whole x (H x (or_introl eq_refl))) as [p Hp]. exists (p :: l). now constructor.
Qed.
Lemma positions_pick {A} (whole items : list A) l : positions whole items l -> pick whole l = items.
Proof. unfold positions. induction 1 as [|x p items l E F IH]; [reflexivity|]. rewrite pick_cons, E, IH. reflexivity. Qed.
Lemma of_kept_incl l : incl (of_kept ks l) l.
Proof. intros k Hk. apply filter_In in Hk. now apply in_existsb. Qed.
Lemma of_kept_in l : incl (of_kept ks l) ks.
Proof. intros k Hk. now apply filter_In in Hk. Qed.

(** * Matrices *)
Lemma matrix_arranged ev ev' kp rows new n (x : @design_info V) m :
  (forall f fi, dget String.eqb f (infos_of x) = Some fi -> exists e, ev fi = Ok e /\ ev' fi = Ok (earr e) /\ vrows (ev_value e) = n) ->
  (forall k, In k ks -> k < n) -> positions kp (of_kept ks kp) rows -> positions ks (of_kept ks kp) new ->
  matrix_is vone vmul ev kp x m -> matrix_is vone vmul ev' new x (mkMat (length rows) (map (fun col => pick col rows) (m_cols m))).
Proof.
  intros He Hk Hr Hn [H1 H2]. split; cbn [m_rows m_cols]; [now rewrite <- (forall2_len _ _ _ Hr), <- (forall2_len _ _ _ Hn)|].
  induction H2 as [|id col ids cols E F IH]; cbn [map]; [constructor|constructor; [|exact IH]]. clear IH F.
  rewrite <- pick_map, E, pick_map, (positions_pick _ _ _ Hr). clear E Hr.
  assert (N : forall p k, nth_error ks p = Some k -> entry vone vmul (infos_of x) (values_in (infos_of x) ev') id p = entry vone vmul (infos_of x) (values_in (infos_of x) ev) id k).
  { intros p k Hp. rewrite <- (entry_pick vone vmul (infos_of x) (values_in (infos_of x) ev) ks id p k n); [|intros f v; unfold values_in; destruct (dget String.eqb f (infos_of x)) as [fi|] eqn:Ef; [|discriminate]; destruct (He f fi Ef) as [e [-> [_ G]]]; now intros [= <-]|exact Hk|exact Hp].
    apply entry_ext. intros f _. unfold values_in. destruct (dget String.eqb f (infos_of x)) as [fi|] eqn:Ef; [|reflexivity]. destruct (He f fi Ef) as [e [-> [-> _]]]. reflexivity. }
  clear - Hn N. induction Hn as [|k p items l E F IH]; [reflexivity|]. cbn [map]. rewrite IH. f_equal. symmetry. now apply N.
Qed.

Lemma build_arranged ds d d' na want n r : designs_ok ds -> ds <> [] -> has_rows eval df_index ds d n -> (forall k, In k ks -> k < n) ->
  rearranges ks eval df_index ds d d' -> build ds d na want = Ok r ->
  exists act, get_action na = Ok act /\ let kp := kept (na_on act) (evals (eval_info (concat (map ds_known ds)) (na_what act) d) (all_infos (map ds_info ds))) n in
    exists r', build ds d' na want = Ok r' /\
      (labelled eval df_index ds d -> arranged_results ks ilabel kp want true r r') /\ (~ labelled eval df_index ds d -> arranged_results ks ilabel kp want false r r').
Proof.
  intros Hok Hne [Hn1 Hn2] Hk [Hdf Hre] Hb. destruct r as [ms labels].
  destruct (build_built vone vmul visnan ilabel ieqb ieqb_eq eval origin_of df_index Hidx ds d na want ms labels Hok Hb) as [act [Ha [B Hf]]].
  exists act. split; [exact Ha|]. cbv zeta.
  set (ev := eval_info (concat (map ds_known ds)) (na_what act) d) in *. set (ev' := eval_info (concat (map ds_known ds)) (na_what act) d').
  set (fis := all_infos (map ds_info ds)) in *.
  assert (A : forall fi, In fi fis -> exists e, ev fi = Ok e /\ fits fi e /\ ev' fi = Ok (earr e) /\ vrows (ev_value e) = n /\
     (exists o, value_for eval ds d fi o /\ ev_index e = o_index o)).
  { intros fi Hfi. destruct (Hf fi Hfi) as [e [E1 E2]]. exists e. split; [exact E1|]. split; [exact E2|].
    destruct (info_arranged (concat (map ds_known ds)) (na_what act) d d' fi e) as [G1 [s [c [o [G2 [G3 [G4 G5]]]]]]]; [intros s c o; now apply Hre|exact E1|].
    split; [exact G1|]. assert (Vf : value_for eval ds d fi o) by (split; [exact Hfi|eauto]). split; [rewrite G4; now apply Hn2|eauto]. }
  assert (Es : forall l, incl l fis -> evals ev' l = map earr (evals ev l)).
  { induction l as [|fi l IH]; intros Hl; [reflexivity|]. unfold evals in *. cbn [flat_map]. rewrite map_app, IH by (intros z Hz; apply Hl; now right).
    destruct (A fi (Hl fi (or_introl eq_refl))) as [e [-> [_ [-> _]]]]. reflexivity. }
  specialize (Es fis (incl_refl _)).
  assert (In_es : forall e, In e (evals ev fis) -> exists fi, In fi fis /\ ev fi = Ok e).
  { intros e He. unfold evals in He. apply in_flat_map in He. destruct He as [fi [Hfi He]]. exists fi. split; [exact Hfi|]. destruct (ev fi); [|destruct He]. destruct He as [->|[]]. reflexivity. }
  assert (Er : forall e, In e (evals ev fis) -> vrows (ev_value e) = n /\ length (ev_isna e) = n).
  { intros e He. destruct (In_es e He) as [fi [Hfi E]]. destruct (A fi Hfi) as [e' [E' [[F1 _] [_ [R _]]]]]. assert (e' = e) by congruence. subst e'. split; [exact R|congruence]. }
  unfold built in B. cbn zeta in B. fold fis in B. destruct B as [n0 [full [B1 [B2 [B3 [B4 [B5 B6]]]]]]].
  assert (Hdis : map ds_info ds <> []) by (destruct ds; [contradiction|discriminate]).
  assert (Hsome : ~ (evals ev fis = [] /\ df_index d = None)) by (intros [X Y]; exact (Hdis (B4 X Y))).
  assert (n0 = n) as ->.
  { destruct (df_index d) as [i|] eqn:Ed; [rewrite <- (proj1 B1 i eq_refl); now apply Hn1|]. destruct (evals ev fis) as [|e es] eqn:Ee; [exfalso; now apply Hsome|].
    rewrite <- (proj2 B1 e (or_introl eq_refl)). apply (Er e). now left. }
  set (kp := kept (na_on act) (evals ev fis) n) in *.
  pose proof (kept_arranged (na_on act) (evals ev fis) n (fun e He => proj2 (Er e He)) Hk) as Hnew. fold kp in Hnew.
  set (new := kept (na_on act) (map earr (evals ev fis)) (length ks)) in *.
  destruct (positions_exist kp (of_kept ks kp) (of_kept_incl kp)) as [rows Hrows].
  assert (Lrows : length rows = length new) by (rewrite <- (forall2_len _ _ _ Hrows); exact (forall2_len _ _ _ Hnew)).
  set (ms' := map (fun m : @dmat V => mkMat (length rows) (map (fun col => pick col rows) (m_cols m))) ms).
  assert (Hm : Forall2 (matrix_is vone vmul ev' new) (map ds_info ds) ms').
  { unfold ms'. assert (Hin : forall x, In x (map ds_info ds) -> incl (map snd (infos_of x)) fis) by (intros x Hx z Hz; apply in_flat_map; eauto).
    clear - B5 A Hin Hk Hrows Hnew. clearbody fis ev ev' kp new. induction B5 as [|x m xs ms Hm F IH]; cbn [map]; [constructor|constructor; [|apply IH; intros z Hz; apply Hin; now right]].
    eapply matrix_arranged; [|exact Hk|exact Hrows|exact Hnew|exact Hm]. intros f fi Ef. destruct (A fi) as [e [E1 [_ [E2 [E3 _]]]]]; [|eauto].
    apply (Hin x (or_introl eq_refl)). apply dget_in in Ef. destruct Ef as [k' [Ef _]]. apply in_map_iff. exists (k', fi). auto. }
  assert (Len : length full = n).
  { eapply full_length with (fis := fis); [exact B1|exact B2|]. intros e He. destruct (In_es e He) as [fi [Hfi E]]. exists fi. split; [exact Hfi|]. destruct (A fi Hfi) as [e' [E' [F _]]]. assert (e' = e) by congruence. now subst. }
  assert (Bld : forall full', (forall i, df_index d' = Some i -> i = full') -> (forall e i, In e (evals ev fis) -> ev_index e = Some i -> pick i ks = full') ->
     (df_index d' = None -> (forall e, In e (evals ev fis) -> ev_index e = None) -> full' = map ilabel (seq 0 (length ks))) ->
     build ds d' na want = Ok (ms', if want then Some (pick full' new) else None)).
  { intros full' F1 F2 F3. unfold PipeModel.build. rewrite Ha. cbn [bind]. fold ev'.
    assert (Hc' : Forall constructed (map ds_info ds)) by (rewrite Forall_map; apply Hok).
    refine (proj2 (build_iff vone vmul ieqb origin_of ieqb_eq _ _ ilabel _ Hc' (proj2 Hok) _ _ _ _ _) _).
    - intros fi Hfi. destruct (A fi Hfi) as [e [_ [[G1 [G2 G3]] [E' [R _]]]]]. exists (earr e). split; [exact E'|]. assert (Hk' : forall k, In k ks -> k < vrows (ev_value e)) by (now rewrite R).
      split; [|split]; unfold earr; cbn [ev_value ev_isna ev_index].
      + rewrite vpick_rows by exact Hk'. apply pick_length. now rewrite G1.
      + intros i Hi. destruct (ev_index e) as [j|]; cbn in Hi; [|discriminate]. injection Hi as <-. rewrite vpick_rows by exact Hk'. apply pick_length. now rewrite (G2 j eq_refl).
      + destruct (fi_kind fi), (ev_value e); cbn in *; auto.
    - unfold built. cbn zeta. fold fis. rewrite Es. exists (length ks), full'. split; [|split; [|split; [|split; [|split]]]].
      + split.
        * intros i Hi. rewrite Hdf in Hi. destruct (df_index d) as [j|]; [|discriminate]. cbn in Hi. injection Hi as <-. apply pick_length. now rewrite (Hn1 j eq_refl).
        * intros e He. apply in_map_iff in He. destruct He as [e0 [<- He]]. cbn. apply vpick_rows. now rewrite (proj1 (Er e0 He)).
      + split; [exact F1|]. split.
        * intros e i He Hi. apply in_map_iff in He. destruct He as [e0 [<- He]]. cbn in Hi. destruct (ev_index e0) as [j|] eqn:Ej; [|discriminate]. injection Hi as <-. now apply (F2 e0).
        * intros X Y. apply F3; [exact X|]. intros e He. specialize (Y (earr e) (in_map earr _ _ He)). cbn in Y. now destruct (ev_index e).
      + intros Hact k Hkk. destruct (nth_error ks k) as [k'|] eqn:E; [|apply nth_error_None in E; lia]. rewrite (missing_arranged (evals ev fis) n k k'); [|intros e He; apply (Er e He)|exact Hk|exact E].
        apply B3; [exact Hact|]. apply Hk. eapply nth_error_In, E.
      + intros X Y. apply B4; [destruct (evals ev fis); [reflexivity|discriminate]|]. rewrite Hdf in Y. now destruct (df_index d).
      + exact Hm.
      + fold new. destruct want; [|reflexivity]. right. split; [|reflexivity]. intros [X Y]. apply Hsome. split; [destruct (evals ev fis); [reflexivity|discriminate]|]. rewrite Hdf in Y. now destruct (df_index d). }
  assert (Hmm : Forall2 (fun m m' => m_rows m = length kp /\ m_rows m' = length rows /\ m_cols m' = map (fun col => pick col rows) (m_cols m)) ms ms').
  { unfold ms'. clear - B5. clearbody kp. induction B5 as [|x m xs ms [Hm _] F IH]; cbn [map]; constructor; auto. }
  assert (Srt : StronglySorted lt new) by apply kept_sorted.
  (* labelled or not *)
  assert (Lab : (exists i, df_index d = Some i) \/ (exists e i, In e (evals ev fis) /\ ev_index e = Some i) \/ df_index d = None /\ forall e, In e (evals ev fis) -> ev_index e = None).
  { destruct (df_index d) as [i|]; [left; eauto|right]. destruct (some_index (evals ev fis)); [right; auto|left; auto]. }
  assert (Yes : labelled eval df_index ds d -> df_index d = None /\ (forall e, In e (evals ev fis) -> ev_index e = None) -> False).
  { intros [[i Hi]|[fi [o [i [Hv Hi]]]]] [X Y]; [congruence|]. destruct Hv as [Hfi [s [c [G1 G2]]]]. destruct (A fi Hfi) as [e [E1 [_ [_ [_ [o' [[_ [s' [c' [G1' G2']]]] Ei]]]]]]].
    assert (o' = o) by congruence. subst o'. assert (In e (evals ev fis)) as He by (apply in_flat_map; exists fi; split; [exact Hfi|rewrite E1; now left]). rewrite (Y e He) in Ei. congruence. }
  assert (No : ~ labelled eval df_index ds d -> df_index d = None /\ forall e, In e (evals ev fis) -> ev_index e = None).
  { intros HN. destruct Lab as [L|[[e [i [He Hi]]]|L]]; [exfalso; apply HN; now left| |exact L]. exfalso. apply HN. right. destruct (In_es e He) as [fi [Hfi E]]. destruct (A fi Hfi) as [e' [E' [_ [_ [_ [o [Vo Eo]]]]]]].
    assert (e' = e) by congruence. subst e'. exists fi, o, i. split; [exact Vo|congruence]. }
  destruct B2 as [L1 [L2 L3]].
  destruct Lab as [L|[L|L]].
  3:{ (* no labels *)
      eexists. split; [apply (Bld (map ilabel (seq 0 (length ks)))); [rewrite Hdf, (proj1 L); discriminate| |reflexivity]|].
      - intros e i He Hi. rewrite (proj2 L e He) in Hi. discriminate.
      - split; [intros HL; exfalso; now apply Yes|]. intros _. exists rows, new. do 4 (split; [assumption|]). cbn [snd]. destruct want; [|reflexivity]. f_equal.
        rewrite pick_map. f_equal. apply map_some_inj. rewrite pick_some.
        + apply map_ext_in. intros j Hj. rewrite nth_error_nth' with (d := 0); [rewrite seq_nth|rewrite seq_length]; auto; unfold new in Hj; apply kept_lt in Hj; auto.
        + intros j Hj. rewrite seq_length. unfold new in Hj. now apply kept_lt in Hj. }
  all: eexists; (split; [apply (Bld (pick full ks))|]).
  1,5: intros i Hi; rewrite Hdf in Hi; destruct (df_index d) as [j|]; [|discriminate]; cbn in Hi; injection Hi as <-; f_equal; now apply L1.
  1,4: intros e i He Hi; f_equal; now apply (L2 e).
  1,3: intros X Y; exfalso; destruct L as [i L]; try (rewrite Hdf, L in X; discriminate); destruct L as [j [L Lj]]; rewrite (Y i L) in Lj; discriminate.
  all: split; [intros HL|intros HL; exfalso; destruct (No HL) as [X Y]; destruct L as [i L]; try congruence; destruct L as [j [L Lj]]; rewrite (Y i L) in Lj; discriminate].
  all: exists rows, new; do 4 (split; [assumption|]); cbn [snd]; destruct want; [|reflexivity].
  all: destruct B6 as [[X [Y _]]|[_ ->]]; [exfalso; now apply Hsome|]; cbn [option_map]; f_equal.
  all: apply map_some_inj; rewrite pick_some by (intros j Hj; unfold new in Hj; apply kept_lt in Hj; rewrite pick_length; [exact Hj|now rewrite Len]).
  all: rewrite <- !pick_map.
  all: assert (G : forall l m, Forall2 (fun k p => nth_error ks p = Some k) l m -> map (nth_error (pick full ks)) m = map (nth_error full) l) by
    (induction 1 as [|k p l m E F IH]; [reflexivity|]; cbn [map]; rewrite IH; f_equal; rewrite pick_nth, E; [reflexivity|now rewrite Len]).
  all: rewrite (G _ _ Hnew); rewrite <- (positions_pick _ _ _ Hrows), <- pick_map; f_equal.
  all: rewrite pick_map; symmetry; apply pick_some; rewrite Len; intros k; unfold kp; apply kept_lt.
Qed.
End Top.
