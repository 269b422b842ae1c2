(** Properties of the polynomial coding. *)
From Coq Require Import Field_theory Reals Lra.
From Verif Require Import Base RankSpec RankProofs BuildModel MiscProofs PolySpec PolyModel PolyProofs PolyQrProofs.
Open Scope nat_scope.
Open Scope string_scope.
Open Scope list_scope.

(** For each matrix there is a QR decomposition, so that the assumptions on [qr] below can be met. *)
Theorem poly_qr_exists : forall (K : Type) (kO kI : K) kadd kmul ksub kopp kdiv kinv keqb sqrt sgn,
  euclidean kO kI kadd kmul ksub kopp kdiv kinv keqb sqrt sgn ->
  exists qr : list (list K) -> result (list (list K) * list (list K)),
    (forall n a, shaped n n a -> forall q r, qr a = Ok (q, r) -> unit_qr kO kI kadd kmul n (entry kO a) (entry kO q) (entry kO r)) /\
    (forall n a, shaped n n a -> exists q r, qr a = Ok (q, r)).
Proof.
  intros K kO kI kadd kmul ksub kopp kdiv kinv keqb sqrt sgn E. exists (gram_schmidt E). split; [apply (gram_schmidt_ok E)|]. intros n a _. unfold gram_schmidt. eauto.
Qed.
Print Assumptions poly_qr_exists.

Theorem poly_names_known : forall n,
  length (poly_names n) = n /\ NoDup (poly_names n) /\
  forall j, j < n -> nth j (poly_names n) "" =
    match j with 0 => ".Constant" | 1 => ".Linear" | 2 => ".Quadratic" | 3 => ".Cubic" | _ => ("^" ++ nat_str j)%string end.
Proof.
  assert (L : forall n, length (poly_names n) = n).
  { intros n. unfold poly_names. rewrite firstn_length, app_length, map_length, seq_length. cbn [length]. lia. }
  assert (N : forall n j, j < n -> nth j (poly_names n) "" =
    match j with 0 => ".Constant" | 1 => ".Linear" | 2 => ".Quadratic" | 3 => ".Cubic" | _ => ("^" ++ nat_str j)%string end).
  { intros n j Hj. unfold poly_names.
    assert (F : forall (l : list string) k j, j < k -> nth j (firstn k l) "" = nth j l "").
    { intros l k. revert l. induction k as [|k IH]; intros l i Hi; [lia|]. destruct l as [|x l]; [reflexivity|]. destruct i as [|i]; [reflexivity|]. cbn. apply IH. lia. }
    rewrite F by exact Hj. do 4 (destruct j as [|j]; [reflexivity|]). cbn [app nth].
    rewrite (nth_indep _ "" ("^" ++ nat_str 0)%string) by (rewrite map_length, seq_length; lia). rewrite (map_nth (fun i => ("^" ++ nat_str i)%string)), seq_nth by lia. reflexivity. }
  intros n. split; [apply L|]. split; [|apply N]. apply (NoDup_nth (poly_names n) ""). rewrite L. intros i j Hi Hj. rewrite !N by auto.
  do 4 (destruct i as [|i]; [do 4 (destruct j as [|j]; [reflexivity || discriminate|]); discriminate|]). do 4 (destruct j as [|j]; [discriminate|]).
  intros H. injection H as H. now apply nat_str_inj.
Qed.
Print Assumptions poly_names_known.

Section Poly.
Context (K : Type) (kO kI : K) (kadd kmul ksub : K -> K -> K) (kopp : K -> K) (kdiv : K -> K -> K) (kinv : K -> K)
  (keqb : K -> K -> bool) (sqrt sgn : K -> K).
Hypothesis E : euclidean kO kI kadd kmul ksub kopp kdiv kinv keqb sqrt sgn.
Variable qr : list (list K) -> result (list (list K) * list (list K)).
Hypothesis qr_ok : forall n a, shaped n n a -> forall q r, qr a = Ok (q, r) -> unit_qr kO kI kadd kmul n (entry kO a) (entry kO q) (entry kO r).
Hypothesis qr_total : forall n a, shaped n n a -> exists q r, qr a = Ok (q, r).
Local Notation poly_code := (poly_code kO kI kadd kmul ksub kdiv keqb sqrt sgn qr).
Local Notation orthogonal_polynomials := (orthogonal_polynomials kO kI kadd kmul sgn).
Local Notation entry := (entry kO).
Local Notation value s := (fun i => nth i s kO).
Local Notation default n := (map (kn kO kI kadd) (seq 0 n)).
Local Notation sum := (rsum kO kadd).

Theorem poly_is_orthogonal : forall scores n, n <> 0 ->
  let s := match scores with None => default n | Some s => s end in
  length s = n -> NoDup s ->
  exists m, shaped n n m /\ orthogonal_polynomials n (value s) (entry m) /\
    poly_code scores true n = Ok (m, poly_names n) /\
    poly_code scores false n = Ok (map (skipn 1) m, skipn 1 (poly_names n)).
Proof.
  intros scores n Hn s L N.
  assert (P : forall b, poly_code scores b n = poly_code (Some s) b n) by (intros b; destruct scores; [reflexivity|apply poly_code_default]).
  destruct (poly_code_ok E qr qr_ok qr_total s true n L Hn N) as [m [S [O H]]]. exists m. split; [exact S|]. split; [exact O|]. rewrite !P. split; [exact H|].
  exact (poly_code_unique E qr qr_ok qr_total s false n m L Hn N S O).
Qed.
(** The default scores are distinct and as many as the levels. *)
Theorem poly_default_scores : forall n, length (default n) = n /\ NoDup (default n) /\ forall i, i < n -> value (default n) i = kn kO kI kadd i.
Proof.
  intros n. split; [now rewrite map_length, seq_length|]. split; [apply (default_nodup E)|]. intros i Hi.
  rewrite (nth_indep _ kO (kn kO kI kadd 0)) by (now rewrite map_length, seq_length). now rewrite (map_nth (kn kO kI kadd)), seq_nth.
Qed.
(** There is only one matrix of orthogonal polynomials: it does not matter which decomposition was used. *)
Theorem poly_determined : forall s b n m, length s = n -> n <> 0 -> NoDup s -> shaped n n m -> orthogonal_polynomials n (value s) (entry m) ->
  poly_code (Some s) b n = Ok (if b then (m, poly_names n) else (map (skipn 1) m, skipn 1 (poly_names n))).
Proof. exact (poly_code_unique E qr qr_ok qr_total). Qed.
Theorem poly_scale_of_scores : forall s b n c d, length s = n -> n <> 0 -> NoDup s -> sgn c = kI ->
  poly_code (Some (map (fun v => kadd (kmul c v) d) s)) b n = poly_code (Some s) b n.
Proof. exact (poly_code_affine E qr qr_ok qr_total). Qed.
(** Coding again gives the same, even after the scores of the user were overwritten. *)
Theorem poly_code_again : forall s b n float_array, length s = n -> n <> 0 -> NoDup s ->
  poly_code (Some (scores_after kO kI kadd ksub kdiv float_array s)) b n = poly_code (Some s) b n.
Proof.
  intros s b n [] L Hn N; [|reflexivity]. unfold scores_after. rewrite (center_affine E). apply (poly_code_affine E qr qr_ok qr_total); auto. apply (pos_one E).
Qed.
Theorem poly_full_rank : forall s n m names, length s = n -> n <> 0 -> NoDup s -> poly_code (Some s) true n = Ok (m, names) ->
  invertible kO kI kadd kmul n (entry m) /\
  forall c names', poly_code (Some s) false n = Ok (c, names') ->
    length names' = n - 1 /\ invertible kO kI kadd kmul n (with_const kI (entry c)).
Proof.
  intros s n m names L Hn N H. destruct (poly_is_orthogonal (Some s) n Hn L N) as [m' [S [O [H1 H2]]]]. rewrite H in H1. injection H1 as -> ->.
  pose proof (orth_invertible E n (value s) (entry m') Hn O) as I. split; [exact I|]. intros c names' Hc. assert (C : c = map (skipn 1) m') by congruence. assert (C' : names' = skipn 1 (poly_names n)) by congruence. subst c names'. clear Hc. split.
  { rewrite skipn_length. now rewrite (proj1 (poly_names_known n)). }
  destruct I as [B [I1 I2]].
  assert (M : forall i j, i < n -> j < n -> with_const kI (entry (map (skipn 1) m')) i j = entry m' i j).
  { intros i j Hi Hj. destruct j as [|j]; cbn [with_const]; [symmetry; now apply O|]. unfold PolyModel.entry.
    rewrite (nth_indep _ [] (skipn 1 [])) by (rewrite map_length; destruct S; lia). rewrite map_nth. destruct (nth i m' []) as [|x l]; [now destruct j|reflexivity]. }
  exists B. split; intros i j Hi Hj.
  - etransitivity; [|exact (I1 i j Hi Hj)]. apply rsum_ext. intros l Hl. apply in_seq in Hl. now rewrite M by lia.
  - etransitivity; [|exact (I2 i j Hi Hj)]. apply rsum_ext. intros l Hl. apply in_seq in Hl. now rewrite M by lia.
Qed.
(** What the coefficients mean: projections of the level means on the polynomials. *)
Theorem poly_coefficients : forall s n m names mu beta, length s = n -> n <> 0 -> NoDup s -> poly_code (Some s) true n = Ok (m, names) ->
  (forall i, i < n -> mu i = sum (fun j => kmul (entry m i j) (beta j)) (seq 0 n)) ->
  kmul (kn kO kI kadd n) (beta 0) = sum mu (seq 0 n) /\
  forall j, 0 < j < n -> beta j = sum (fun i => kmul (entry m i j) (mu i)) (seq 0 n).
Proof.
  intros s n m names mu beta L Hn N H F. destruct (poly_is_orthogonal (Some s) n Hn L N) as [m' [S [O [H1 H2]]]]. rewrite H in H1. injection H1 as -> ->.
  exact (orth_coefficients E n (value s) (entry m') mu beta O F).
Qed.
(** A trend of degree [d] has no coefficients beyond [d]. *)
Theorem poly_trend : forall s n m names mu beta d c f, length s = n -> n <> 0 -> NoDup s -> poly_code (Some s) true n = Ok (m, names) ->
  (forall i, i < n -> mu i = sum (fun j => kmul (entry m i j) (beta j)) (seq 0 n)) ->
  polynomial kadd kmul d c f -> (forall i, i < n -> mu i = f (nth i s kO)) ->
  forall j, d < j < n -> beta j = kO.
Proof.
  intros s n m names mu beta d c f L Hn N H F P T j Hj.
  destruct (poly_coefficients s n m names mu beta L Hn N H F) as [_ B]. rewrite B by lia.
  destruct (poly_is_orthogonal (Some s) n Hn L N) as [m' [S [O [H1 H2]]]]. rewrite H in H1. injection H1 as -> ->.
  rewrite (rsum_ext kO kadd _ (fun i => kmul (entry m' i j) (f (nth i s kO)))) by (intros i Hi; apply in_seq in Hi; rewrite T by lia; reflexivity).
  apply (below_orth E n (value s) (entry m') (fun i => entry m' i j) j) with (k := d) (c := c) (f := f); auto; [| |lia].
  - intros k Hk. destruct (all_degrees E n (value s) (entry m') O k ltac:(lia)) as [c' [f' [P' [Q' R']]]]. exists c', f'. split; auto. split; auto. now apply (pos_nz E).
  - intros k Hk. apply O; lia.
Qed.
Theorem poly_wrong_scores : forall s b n, length s <> n -> exists msg, poly_code (Some s) b n = Err (PatsyError msg None).
Proof. intros s b n H. unfold PolyModel.poly_code. destruct (Nat.eqb_spec (length s) n) as [|_]; [contradiction|]. cbn. eauto. Qed.
(** Scores that repeat are not rejected: the linear column is zero. *)
Theorem poly_repeated_scores_refuted : forall c, poly_code (Some [c; c]) true 2 = Ok ([[kI; kO]; [kI; kO]], [".Constant"; ".Linear"]).
Proof. intros c. exact (repeated_zero E qr c qr_ok qr_total). Qed.
(** An array of scores of the user is overwritten. *)
Theorem poly_scores_unchanged_refuted : exists s, NoDup s /\ length s = 2 /\ scores_after kO kI kadd ksub kdiv true s <> s.
Proof. exact (scores_change E). Qed.
End Poly.
Print Assumptions poly_is_orthogonal.
Print Assumptions poly_default_scores.
Print Assumptions poly_determined.
Print Assumptions poly_scale_of_scores.
Print Assumptions poly_code_again.
Print Assumptions poly_full_rank.
Print Assumptions poly_coefficients.
Print Assumptions poly_trend.
Print Assumptions poly_wrong_scores.
Print Assumptions poly_repeated_scores_refuted.
Print Assumptions poly_scores_unchanged_refuted.

(** The real numbers meet the assumptions. *)
Definition real_sign (x : R) : R := if Rlt_dec 0 x then 1%R else if Rlt_dec x 0 then (-1)%R else 0%R.
Definition real_eqb (x y : R) : bool := if Req_EM_T x y then true else false.
Example reals_euclidean : euclidean 0%R 1%R Rplus Rmult Rminus Ropp Rdiv Rinv real_eqb R_sqrt.sqrt real_sign.
Proof.
  constructor.
  - exact Rfield.
  - intros x y. unfold real_eqb. destruct (Req_EM_T x y); split; congruence.
  - unfold real_sign. destruct (Rlt_dec 0 0); lra.
  - intros x H. unfold real_sign. destruct (Rlt_dec 0 x); [now left|]. destruct (Rlt_dec x 0); [right; lra|lra].
  - intros x. unfold real_sign. destruct (Rlt_dec 0 x), (Rlt_dec x 0), (Rlt_dec 0 (- x)), (Rlt_dec (- x) 0); lra.
  - intros x y. unfold real_sign. destruct (Rlt_dec 0 x), (Rlt_dec x 0), (Rlt_dec 0 y), (Rlt_dec y 0), (Rlt_dec 0 (x * y)), (Rlt_dec (x * y) 0); try nra;
      assert (X : x = 0%R \/ y = 0%R) by (try (left; lra); right; lra); destruct X; subst; lra.
  - intros x y. unfold real_sign. destruct (Rlt_dec 0 x), (Rlt_dec x 0), (Rlt_dec 0 y), (Rlt_dec y 0), (Rlt_dec 0 (x + y)), (Rlt_dec (x + y) 0); lra.
  - intros x H. assert (P : (0 <= x)%R) by (unfold real_sign in H; destruct (Rlt_dec 0 x); [lra|]; destruct (Rlt_dec x 0); lra).
    split; [now apply R_sqrt.sqrt_sqrt|]. pose proof (R_sqrt.sqrt_pos x) as Q. unfold real_sign. destruct (Rlt_dec 0 (R_sqrt.sqrt x)); [lra|]. destruct (Rlt_dec (R_sqrt.sqrt x) 0); lra.
Qed.
(** Three levels with the default scores: the polynomials -1, 0, 1 and 1, -2, 1, brought to length 1. *)
Example ex_poly_three :
  let a := R_sqrt.sqrt (/ 2) in let b := R_sqrt.sqrt (/ 6) in
  poly_code 0%R 1%R Rplus Rmult Rminus Rdiv real_eqb R_sqrt.sqrt real_sign (gram_schmidt reals_euclidean) (Some [0; 1; 2]%R) true 3 =
    Ok ([[1; - a; b]; [1; 0; -2 * b]; [1; a; b]]%R, [".Constant"; ".Linear"; ".Quadratic"]).
Proof.
  intros a b. assert (A : (a * a = / 2)%R) by (apply R_sqrt.sqrt_sqrt; lra). assert (B : (b * b = / 6)%R) by (apply R_sqrt.sqrt_sqrt; lra).
  assert (A0 : (0 < a)%R) by (apply R_sqrt.sqrt_lt_R0; lra). assert (B0 : (0 < b)%R) by (apply R_sqrt.sqrt_lt_R0; lra).
  apply (poly_determined _ _ _ _ _ _ _ _ _ _ _ _ reals_euclidean _ (gram_schmidt_ok reals_euclidean) ltac:(intros n m _; unfold gram_schmidt; eauto) [0; 1; 2]%R true 3); auto.
  - repeat constructor; cbn; intuition lra.
  - split; [reflexivity|]. repeat constructor.
  - split; [|split; [|split]].
    + intros i Hi. do 3 (destruct i as [|i]; [reflexivity|]). lia.
    + intros j Hj. assert (C : forall c, (0 < c)%R -> real_sign c = 1%R) by (intros c Hc; unfold real_sign; destruct (Rlt_dec 0 c); [reflexivity|lra]).
      destruct j as [|[|[|j]]]; [lia| | |lia].
      * exists a, (fun x => - a + x * a)%R. split; [apply (poly_step Rplus Rmult 0 a (- a)%R _ (fun _ => a)); [now constructor|reflexivity]|]. split; [now apply C|].
        intros i Hi. do 3 (destruct i as [|i]; [cbn; ring|]). lia.
      * exists (3 * b)%R, (fun x => b + x * (- (6 * b) + x * (3 * b)))%R. split; [|split; [apply C; lra|]].
        { apply (poly_step Rplus Rmult 1 (3 * b)%R b _ (fun x => - (6 * b) + x * (3 * b)))%R; [|reflexivity].
          apply (poly_step Rplus Rmult 0 (3 * b)%R (- (6 * b))%R _ (fun _ => 3 * b))%R; [now constructor|reflexivity]. }
        intros i Hi. do 3 (destruct i as [|i]; [cbn; ring|]). lia.
    + intros j k Hj Hk. destruct j as [|[|[|j]]]; try lia; destruct k as [|[|k]]; try lia; cbn; ring.
    + intros j Hj. destruct j as [|[|[|j]]]; try lia; cbn; nra.
Qed.
