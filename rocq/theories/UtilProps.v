(** Properties of patsy/util.py: C08 and the list part of C17. *)
From Verif Require Import Base UtilModel UtilSpec UtilProofs.

(** C08.  Every history of calls on a [PushbackAdapter] gives the results of an
    abstract list of what is still to come. *)
Theorem pushback_refines_stream : forall A (it : list A) (history : list (pb_op A)),
  adapter_run (pb_make it) history = stream_run it history.
Proof. exact (fun A it os => adapter_run_ok os (pb_make it)). Qed.
Print Assumptions pushback_refines_stream.

Example pushback_ex :
  adapter_run (pb_make [1; 2]) [OpPeek; OpNext; OpPush 7; OpPush 8; OpNext; OpNext; OpNext; OpHasMore; OpNext]
  = [OutVal 1; OutVal 1; OutUnit; OutUnit; OutVal 8; OutVal 7; OutVal 2; OutBool false; OutStop].
Proof. reflexivity. Qed.

(** C17.  [uniqueify_list] keeps exactly the first element of every group of
    equal elements, in order (for any equivalence [==]). *)
Theorem uniqueify_first_occurrences : forall A (eqb : A -> A -> bool),
  (forall x, eqb x x = true) -> (forall x y, eqb x y = eqb y x) ->
  (forall x y z, eqb x y = true -> eqb y z = true -> eqb x z = true) ->
  forall seq l, uniqueify_list eqb seq = l <-> first_occurrences eqb [] seq l.
Proof. exact (fun A eqb _ s t seq l => first_occ_lemma eqb s t seq l). Qed.
Print Assumptions uniqueify_first_occurrences.

Example uniqueify_ex : uniqueify_list Nat.eqb [3; 1; 3; 2; 1] = [3; 1; 2].
Proof. reflexivity. Qed.
