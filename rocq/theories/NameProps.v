(** A design can be made unless names clash: C97. *)
From Coq Require Import Ascii.
From Verif Require Import Base NumModel ContrastModel RedundancySpec DescModel FormulaModel BuildModel BuildSpec NameSpec NameTextProofs NameStructProofs NameBuildProofs NameProofs BuildProps.
Open Scope string_scope.
Open Scope list_scope.

(** * Exactly when *)
Theorem design_made_unless_names_clash : forall (V : Type) num_cols (code_cm : factor -> bool -> result (@ctr V)) hash fis terms,
  typed num_cols code_cm fis terms -> different_terms terms -> collision_free hash (concat terms) ->
  exists cs, make_subterm_infos num_cols code_cm hash terms = Ok cs /\
    ((exists d, design_for num_cols code_cm hash fis terms = Ok d) <-> clear_names fis cs) /\
    (forall e, design_for num_cols code_cm hash fis terms = Err e -> e = AssertionError \/ exists m, e = ValueError m).
Proof.
  intros V num_cols code_cm hash fis terms Ht Hd Hcf.
  destruct (make_total num_cols code_cm hash terms Hd Hcf) as [cs Hm].
  - intros f b Hf Hn. destruct (isn_kind num_cols code_cm terms fis Ht f Hf) as [fi [_ [_ E]]]. destruct (fi_kind fi).
    + destruct E. congruence.
    + destruct E as [_ [_ E]]. destruct (E b) as [c [Ec _]]. eauto.
  - exists cs. split; [exact Hm|]. split; [split|].
    + intros [d Ed]. eapply clear_of_design; eassumption.
    + intros Hc. eapply design_of_clear; eassumption.
    + intros e Ee. eapply (design_error num_cols code_cm hash terms Hd Hcf cs Hm fis Ht e Ee).
Qed.
Print Assumptions design_made_unless_names_clash.

(** * Plain names never clash *)
Theorem plain_names_never_clash : forall (V : Type) num_cols (code_cm : factor -> bool -> result (@ctr V)) hash fis terms,
  typed num_cols code_cm fis terms -> different_terms terms -> collision_free hash (concat terms) ->
  Forall plain (concat terms) -> plain_suffixes code_cm (concat terms) ->
  exists d, design_for num_cols code_cm hash fis terms = Ok d.
Proof.
  intros V num_cols code_cm hash fis terms Ht Hd Hcf Hp Hs.
  destruct (design_made_unless_names_clash V num_cols code_cm hash fis terms Ht Hd Hcf) as [cs [Hm [Hi _]]].
  apply Hi. eapply plain_clear; eassumption.
Qed.
Print Assumptions plain_names_never_clash.

(** The example design of [BuildProps]: 1 + x + a + a:x. *)
Example plain_names_ex : typed exnum excm exfis exterms /\ different_terms exterms /\ collision_free exhash (concat exterms) /\
  Forall plain (concat exterms) /\ plain_suffixes excm (concat exterms) /\ design_for exnum excm exhash exfis exterms = Ok exd.
Proof.
  split.
  { intros f Hf. cbn in Hf. assert (H : f = "x" \/ f = "a") by intuition congruence. destruct H as [->| ->].
    - eexists. split; [reflexivity|]. split; reflexivity.
    - eexists. split; [reflexivity|]. split; [reflexivity|]. split; [reflexivity|]. intros full. eexists. split; [reflexivity|]. now destruct full. }
  split.
  { split; [repeat constructor; cbn; intuition discriminate|]. repeat constructor; reflexivity. }
  split; [exact exhash_free|]. split.
  { assert (L : forall c r, Ascii.eqb c "]"%char = false -> String c "" <> (r ++ "]")%string).
    { intros c [|d [|e r]] H E; try discriminate. injection E as ->. now rewrite Ascii.eqb_refl in H. }
    assert (P : forall c, opens c = false -> closes c = false -> Ascii.eqb c ":"%char = false -> plain (String c "")).
    { intros c H1 H2 H3. split; [|split]; [split; [discriminate|]| |discriminate].
      - cbn. now rewrite H1, H2, H3.
      - intros r. apply L. unfold closes in H2. destruct (Ascii.eqb c "]"%char); [|reflexivity]. rewrite orb_true_r in H2. discriminate. }
    cbn. repeat constructor; now apply P. }
  split; [|exact (proj1 exd_ok)].
  intros f full c _ [= <-]. destruct full; cbn [ct_suffixes]; (split; [repeat constructor; cbn; intuition discriminate|]); repeat constructor.
  - now exists "p".
  - now exists "q".
  - now exists "r".
  - now exists "T.q".
  - now exists "T.r".
Qed.

(** * The suffixes of the built-in codings are plain *)
Theorem builtin_suffixes_plain : forall (L : Type) leqb as_int readable argsort (b : @builtin L) (full : bool) (levels : list L) c,
  (if full then code_with_intercept leqb as_int readable argsort b levels else code_without_intercept leqb as_int readable argsort b levels) = Ok c ->
  NoDup (map readable levels) -> (forall l, In l levels -> depth 0 (readable l) = Some 0) ->
  (b = Helmert -> full = true -> ~ In "intercept" (map readable levels)) ->
  NoDup (cm_suffixes c) /\ Forall bracketed (cm_suffixes c).
Proof. exact @builtin_plain_lemma. Qed.
Print Assumptions builtin_suffixes_plain.

Definition nm_levels : list string := ["lo"; "mid (2)"; "hi"].
Example builtin_suffixes_ex :
  (exists c, code_without_intercept String.eqb (fun _ => None) (fun s => s) (fun l => l) (Treatment None) nm_levels = Ok c /\ cm_suffixes c = ["[T.mid (2)]"; "[T.hi]"]) /\
  NoDup nm_levels /\ (forall l, In l nm_levels -> depth 0 l = Some 0).
Proof.
  split; [eexists; split; vm_compute; reflexivity|]. split; [repeat constructor; cbn; intuition discriminate|].
  intros l [<-|[<-|[<-|[]]]]; reflexivity.
Qed.
(** A level called "intercept" under Helmert coding: two columns with one name. *)
Example helmert_clash_ex : exists c, code_with_intercept String.eqb (fun _ => None) (fun s => s) (fun l => l) Helmert ["a"; "intercept"] = Ok c /\
  cm_suffixes c = ["[H.intercept]"; "[H.intercept]"].
Proof. eexists. split; vm_compute; reflexivity. Qed.

(** * Without the condition, a correct formula may fail *)
Theorem design_always_made_refuted : ~ (forall num_cols (code_cm : factor -> bool -> result (@ctr Z)) hash fis terms,
  typed num_cols code_cm fis terms -> different_terms terms -> collision_free hash (concat terms) ->
  exists d, design_for num_cols code_cm hash fis terms = Ok d).
Proof.
  intros H. specialize (H [("Intercept", 1)] excm exhash [("Intercept", mkFI 1 "Intercept" (FNum 1))] [[]; ["Intercept"]]).
  destruct H as [d Hd].
  - intros f [<-|[]]. eexists. split; [reflexivity|]. split; reflexivity.
  - split; [repeat constructor; cbn; intuition|]. repeat constructor; reflexivity.
  - assert (S : forall a : list factor, incl a ["Intercept"] -> NoDup a -> a = [] \/ a = ["Intercept"]).
    { intros [|x [|y a]] Hi Hn; [auto|right; destruct (Hi x (or_introl eq_refl)) as [<-|[]]; reflexivity|exfalso].
      inversion Hn as [|? ? Hx _]; subst. apply Hx. left. destruct (Hi x) as [<-|[]]; [now left|]. destruct (Hi y) as [<-|[]]; [right; now left|]. reflexivity. }
    intros a b Ha Hb Na Nb. destruct (S a Ha Na) as [->| ->], (S b Hb Nb) as [->| ->]; cbn; (split; [intros E|intros E]); try reflexivity; try discriminate; try (intros f; reflexivity).
    + destruct (proj2 (E "Intercept") (or_introl eq_refl)).
    + destruct (proj1 (E "Intercept") (or_introl eq_refl)).
  - vm_compute in Hd. discriminate.
Qed.
Print Assumptions design_always_made_refuted.

(** Clashes: a variable called Intercept; a variable [x] with two columns beside one called "x[0]"; a level
    whose text closes the bracket; two levels with one text. *)
Example clash_intercept_ex : design_for [("Intercept", 1)] excm exhash [("Intercept", mkFI 1 "Intercept" (FNum 1))] [[]; ["Intercept"]] =
  Err (ValueError "mismatch between column_names and columns coded by given terms").
Proof. vm_compute. reflexivity. Qed.
Example clash_index_ex : design_for [("x", 2); ("x[0]", 1)] excm exhash [("x", mkFI 1 "x" (FNum 2)); ("x[0]", mkFI 2 "x[0]" (FNum 1))] [["x"]; ["x[0]"]] =
  Err (ValueError "mismatch between column_names and columns coded by given terms").
Proof. vm_compute. reflexivity. Qed.
Definition nm_cm (f : factor) (full : bool) : result (@ctr Z) :=
  Ok (if String.eqb f "a" then mkCtr [[1; 0]; [0; 1]]%Z ["[p]"; "[p]:b[T.q]"]
      else if full then mkCtr [[1; 0]; [0; 1]]%Z ["[o]"; "[q]"] else mkCtr [[0]; [1]]%Z ["[T.q]"]).
Example clash_level_ex : design_for [] nm_cm exhash [("a", mkFI 1 "a" (FCat 2)); ("b", mkFI 2 "b" (FCat 2))] [["a"]; ["a"; "b"]] =
  Err (ValueError "mismatch between column_names and columns coded by given terms").
Proof. vm_compute. reflexivity. Qed.
Example clash_text_ex : design_for (V := Z) [] (fun _ _ => Ok (mkCtr [[1; 0]; [0; 1]]%Z ["[1]"; "[1]"])) exhash [("a", mkFI 1 "a" (FCat 2))] [["a"]] =
  Err (ValueError "mismatch between column_names and columns coded by given terms").
Proof. vm_compute. reflexivity. Qed.
