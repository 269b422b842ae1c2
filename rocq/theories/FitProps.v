(** C77: fitting and evaluating the stateful transforms of a factor. *)
From Verif Require Import Base FitModel FitSpec FitProofs.
From Coq Require Import Permutation.
Open Scope string_scope.
Open Scope list_scope.

(** C77.  For all passes in which the calls inside a call come first (C30), in any order of the objects
    within the passes and any number of chunks: fitting succeeds if and only if every transform can be
    fitted on the values of its arguments on all chunks, and then the factor's value on any data, old or
    new, is the one given by transforms fitted like this. *)
Theorem fitted_factor_value : forall {val data St} (e : @texpr val data St) bins chunks,
  NoDup (map fst (calls e)) -> inner_first e bins ->
  ((exists st, fit_factor e bins chunks = Ok st) <->
   (forall o c args, In (o, (c, args)) (calls e) -> exists s, fitted_state chunks c args = Ok s)) /\
  (forall st, fit_factor e bins chunks = Ok st ->
     (forall o c args, In (o, (c, args)) (calls e) -> exists s, fitted_state chunks c args = Ok s /\ st o = Some s) /\
     forall d, teval st e d = fitted_value chunks e d).
Proof.
  intros val data St e bins chunks Hn Hi. split; [now apply fit_factor_exists|]. intros st H. now apply (fit_factor_ok chunks e Hn bins).
Qed.
Print Assumptions fitted_factor_value.

(** C77.  On data given in one chunk the factor is what Python would compute from the same expression with
    the transforms called directly; without conditional expressions, the factor can be fitted whenever
    Python can compute this. *)
Theorem one_chunk_is_direct : forall {val data St} (e : @texpr val data St) bins d,
  NoDup (map fst (calls e)) -> inner_first e bins ->
  (forall st, fit_factor e bins [d] = Ok st -> teval st e d = plain_value e d) /\
  (forall v, straight e -> plain_value e d = Ok v -> exists st, fit_factor e bins [d] = Ok st /\ teval st e d = Ok v).
Proof.
  intros val data St e bins d Hn Hi. split.
  - intros st H. destruct (fit_factor_ok [d] e Hn bins st Hi H) as [A B]. rewrite B. apply direct_one. intros o c args Hc. destruct (A o c args Hc) as [s [E _]]. eauto.
  - intros v Hs H. destruct (plain_fits d e Hs v H) as [A B]. apply (fit_factor_exists [d] e Hn bins Hi) in A. destruct A as [st A]. exists st. split; [exact A|].
    destruct (fit_factor_ok [d] e Hn bins st Hi A) as [_ C]. now rewrite C.
Qed.
Print Assumptions one_chunk_is_direct.

(** C77, a limit: with conditional expressions this fails.  [f(x) if False else y] is [y] in Python even
    where [f(x)] is an error, but the factor calls [f] to memorize [x]. *)
Theorem conditional_fit_refuted : forall {val data St} (v : val) (d : data) (s0 : St) err,
  let c := @mkClass val St s0 (fun _ _ => Err err) (fun s => Ok s) (fun _ _ => Ok v) in
  let e := TIf (fun _ => Ok false) (TLeaf (fun _ => Ok v)) (TCall "f" c [TLeaf (fun _ => Ok v)]) (TLeaf (fun _ => Ok v)) in
  NoDup (map fst (calls e)) /\ inner_first e [["f"]] /\ plain_value e d = Ok v /\ fit_factor e [["f"]] [d] = Err err.
Proof.
  intros val data St v d s0 err c e. split; [cbn; constructor; [intros []|constructor]|]. split; [|split; reflexivity].
  split; [cbn; apply Permutation_refl|]. intros o c' args o' p q bin bin' Hc Ho. cbn in Hc. destruct Hc as [Hc|[]]. injection Hc as <- <- <-. destruct Ho.
Qed.
Print Assumptions conditional_fit_refuted.

(** An example: [range(total(x) + x)], where [total] is the sum over all data seen when fitting (its value
    on any data), and [range] subtracts the smallest value seen; chunks are lists of numbers. *)
Definition ex_total : @tclass (list nat) nat :=
  mkClass 0 (fun s a => match a with [x] => Ok (s + list_sum x) | _ => Err (TypeError "") end) (fun s => Ok s)
    (fun s a => match a with [x] => Ok (map (fun _ => s) x) | _ => Err (TypeError "") end).
Definition ex_range : @tclass (list nat) nat :=
  mkClass 1000 (fun s a => match a with [x] => Ok (fold_left Nat.min x s) | _ => Err (TypeError "") end) (fun s => Ok s)
    (fun s a => match a with [x] => Ok (map (fun y => y - s) x) | _ => Err (TypeError "") end).
Definition ex_x : @texpr (list nat) (list nat) nat := TLeaf (fun d => Ok d).
Definition ex_e : @texpr (list nat) (list nat) nat :=
  TCall "o0" ex_range [TOp (fun l => match l with [a; b] => Ok (map (fun p => fst p + snd p) (combine a b)) | _ => Err (TypeError "") end) [TCall "o1" ex_total [ex_x]; ex_x]].
Example ex_fit :
  NoDup (map fst (calls ex_e)) /\ inner_first ex_e [["o1"]; ["o0"]] /\ straight ex_e /\
  (exists st, fit_factor ex_e [["o1"]; ["o0"]] [[3; 5]; [2; 7]] = Ok st /\ teval st ex_e [4; 10] = Ok [2; 8]) /\
  fitted_value [[3; 5]; [2; 7]] ex_e [4; 10] = Ok [2; 8] /\ plain_value ex_e [3; 5; 2; 7] = Ok [1; 3; 0; 5].
Proof.
  split; [repeat constructor; cbn; intuition discriminate|]. split.
  - split; [cbn; apply perm_swap|]. intros o c args o' p q bin bin' Hc Ho Hp Hb Hq Hb'. cbn in Hc. destruct Hc as [Hc|[Hc|[]]]; injection Hc as <- <- <-; cbn in Ho; [|destruct Ho].
    destruct Ho as [<-|[]]. destruct p as [|[|p]]; cbn in Hp; [..|now destruct p]; injection Hp as <-; [destruct Hb as [Hb|[]]; discriminate|].
    destruct q as [|[|q]]; cbn in Hq; [lia|injection Hq as <-; destruct Hb' as [Hb'|[]]; discriminate|now destruct q].
  - split; [cbn; auto|]. split; [eexists; split; vm_compute; reflexivity|]. split; vm_compute; reflexivity.
Qed.
