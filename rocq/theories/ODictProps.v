(** The OrderedDict patsy brings along. *)
From Verif Require Import Base BuildModel ODictModel ODictSpec ODictProofs.
Open Scope string_scope.
Open Scope list_scope.
Open Scope nat_scope.

(** Whatever calls are made (other than [clear]), each returns, or raises, what it would for the list of the items in the
    order in which their keys came. *)
Theorem ordered_dict_is_a_list : forall {K A} (eqb : K -> K -> bool), (forall a b, eqb a b = true <-> a = b) ->
  forall cs : list (call K A), Forall no_clear cs -> fst (perform_all eqb cs od_new) = fst (steps eqb cs []).
Proof. intros K A eqb Heq cs F. exact (proj1 (steps_ok eqb Heq cs _ _ _ F (stands_new eqb))). Qed.
Print Assumptions ordered_dict_is_a_list.
Example ex_ordered_dict :
  fst (perform_all String.eqb [CSet "b" 1; CSet "a" 2; CSet "c" 3; CSet "b" 4; CItems; CDel "a"; CDel "a"; CSet "a" 5; CReversed; CPopitem false; CPopitem true; CPop "z" None; CSetdefault "c" 9; CKeys; CValues; CLen; CPopitem true; CPopitem true] od_new)
  = [Ok RNone; Ok RNone; Ok RNone; Ok RNone; Ok (RItems [("b", 4); ("a", 2); ("c", 3)]); Ok RNone; Err KeyError; Ok RNone; Ok (RKeys ["a"; "c"; "b"]); Ok (RItem ("b", 4)); Ok (RItem ("a", 5));
     Err KeyError; Ok (RVal 3); Ok (RKeys ["c"]); Ok (RVals [3]); Ok (RNat 1); Ok (RItem ("c", 3)); Err KeyError].
Proof. reflexivity. Qed.

(** A copy has the items of the original, and calls on it are calls on a dictionary with those items. *)
Theorem ordered_dict_copy : forall {K A} (eqb : K -> K -> bool), (forall a b, eqb a b = true <-> a = b) ->
  forall cs ds : list (call K A), Forall no_clear cs -> Forall no_clear ds ->
  exists o, od_copy eqb (snd (perform_all eqb cs od_new)) = Ok o /\ fst (perform_all eqb ds o) = fst (steps eqb ds (snd (steps eqb cs []))).
Proof.
  intros K A eqb Heq cs ds Fc Fd. destruct (reach eqb Heq cs Fc) as [as_ H]. destruct (copy_ok eqb Heq _ _ _ H) as (o & as' & E & S). exists o. split; [exact E|]. exact (proj1 (steps_ok eqb Heq ds _ _ _ Fd S)).
Qed.
Print Assumptions ordered_dict_copy.
Example ex_copy : (let* o := od_copy String.eqb (snd (perform_all String.eqb [CSet "b" 1; CSet "a" 2] od_new)) in Ok (fst (perform_all String.eqb [CSet "c" 3; CItems] o)))
  = Ok [Ok RNone; Ok (RItems [("b", 1); ("a", 2); ("c", 3)])].
Proof. reflexivity. Qed.

(** The dictionary made from keys has each key once, in the order of the keys, with the one value. *)
Theorem ordered_dict_fromkeys : forall {K A} (eqb : K -> K -> bool), (forall a b, eqb a b = true <-> a = b) ->
  forall (ks : list K) (v : A) (cs : list (call K A)), Forall no_clear cs ->
  fst (perform_all eqb cs (od_fromkeys eqb ks v)) = fst (steps eqb cs (map (fun k => (k, v)) (firsts eqb ks))).
Proof.
  intros K A eqb Heq ks v cs F. destruct (fromkeys_ok eqb Heq ks v) as [as_ H]. rewrite (proj1 (steps_ok eqb Heq cs _ _ _ F H)). now rewrite put_firsts.
Qed.
Print Assumptions ordered_dict_fromkeys.
Example ex_fromkeys : fst (perform_all String.eqb [CItems; CReversed] (od_fromkeys String.eqb ["b"; "a"; "b"; "c"] 0)) = [Ok (RItems [("b", 0); ("a", 0); ("c", 0)]); Ok (RKeys ["c"; "a"; "b"])].
Proof. reflexivity. Qed.

(** Two of these dictionaries are equal if and only if they have the same items in the same order. *)
Theorem ordered_dict_eq : forall {K A} (eqb : K -> K -> bool) (veqb : A -> A -> bool), (forall a b, eqb a b = true <-> a = b) -> (forall a b, veqb a b = true <-> a = b) ->
  forall cs ds : list (call K A), Forall no_clear cs -> Forall no_clear ds ->
  exists b, od_eq eqb veqb (snd (perform_all eqb cs od_new)) (snd (perform_all eqb ds od_new)) = Ok b /\ (b = true <-> snd (steps eqb cs []) = snd (steps eqb ds [])).
Proof.
  intros K A eqb veqb Heq Hv cs ds Fc Fd. destruct (reach (A := A) eqb Heq cs Fc) as [as_ H]. destruct (reach (A := A) eqb Heq ds Fd) as [as' H']. exact (eq_ok eqb Heq veqb _ _ _ _ _ _ Hv H H').
Qed.
Print Assumptions ordered_dict_eq.
Example ex_eq : let d cs := snd (perform_all String.eqb cs od_new) in
  od_eq String.eqb Nat.eqb (d [CSet "a" 1; CSet "b" 2]) (d [CSet "b" 2; CSet "a" 1]) = Ok false /\
  od_eq String.eqb Nat.eqb (d [CSet "a" 1; CSet "b" 2]) (d [CSet "b" 2; CSet "a" 1; CPop "b" None; CUpdate [("b", 2)]]) = Ok true.
Proof. split; reflexivity. Qed.

(** [clear]: the length is 0, and yet all the keys are still there to iterate over, and asking for the items raises. *)
Theorem ordered_dict_clear : forall {K A} (eqb : K -> K -> bool), (forall a b, eqb a b = true <-> a = b) ->
  forall cs : list (call K A), Forall no_clear cs -> snd (steps eqb cs []) <> [] ->
  fst (perform_all eqb [CClear; CLen; CKeys; CItems] (snd (perform_all eqb cs od_new))) = [Ok RNone; Ok (RNat 0); Ok (RKeys (map fst (snd (steps eqb cs [])))); Err KeyError].
Proof.
  intros K A eqb Heq cs F N. destruct (reach (A := A) eqb Heq cs F) as [as_ H]. destruct (clear_ok eqb _ _ _ H N) as (E1 & E2 & E3). cbn [perform_all perform fst]. rewrite E1, E2, E3. reflexivity.
Qed.
Print Assumptions ordered_dict_clear.
(** So the calls do not agree with the list once [clear] is among them. *)
Theorem ordered_dict_with_clear_refuted : ~ forall cs : list (call string nat), fst (perform_all String.eqb cs od_new) = fst (steps String.eqb cs []).
Proof. intros H. specialize (H [CSet "a" 1; CClear; CKeys]). discriminate H. Qed.
Print Assumptions ordered_dict_with_clear_refuted.
Example ex_clear : fst (perform_all String.eqb [CSet "a" 1; CSet "b" 2; CClear; CSet "a" 3; CKeys] od_new) = [Ok RNone; Ok RNone; Ok RNone; Ok RNone; Ok (RKeys ["a"; "b"; "a"])].
Proof. reflexivity. Qed.
