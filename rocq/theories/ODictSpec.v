(** What an ordered dictionary is: the list of its items, in the order in which the keys came. *)
From Verif Require Import Base ODictModel.
Open Scope nat_scope.

Section Spec.
Context {K A : Type}.
Variable eqb : K -> K -> bool.
Local Notation call := (ODictModel.call K A).

Definition of_key (k : K) (p : K * A) : bool := eqb (fst p) k.
Definition has (k : K) (l : list (K * A)) : bool := existsb (of_key k) l.
Definition value (k : K) (l : list (K * A)) : result A := match find (of_key k) l with Some p => Ok (snd p) | None => Err KeyError end.
Definition without (k : K) (l : list (K * A)) : list (K * A) := filter (fun p => negb (of_key k p)) l.
(** A key that is there keeps its place. *)
Definition put (k : K) (v : A) (l : list (K * A)) : list (K * A) :=
  if has k l then map (fun p => if of_key k p then (fst p, v) else p) l else l ++ [(k, v)].
Definition step (c : call) (l : list (K * A)) : result returned * list (K * A) :=
  match c with
  | CSet k v => (Ok RNone, put k v l)
  | CDel k => if has k l then (Ok RNone, without k l) else (Err KeyError, l)
  | CPop k d => if has k l then (returns RVal (value k l), without k l) else (match d with Some v => Ok (RVal v) | None => Err KeyError end, l)
  | CPopitem last =>
      match (if last then List.rev l else l) with
      | [] => (Err KeyError, l)
      | p :: r => (Ok (RItem p), if last then List.rev r else r)
      end
  | CSetdefault k v => if has k l then (returns RVal (value k l), l) else (Ok (RVal v), l ++ [(k, v)])
  | CUpdate m => (Ok RNone, fold_left (fun l p => put (fst p) (snd p) l) m l)
  | CGet k => (returns RVal (value k l), l)
  | CContains k => (Ok (RBool (has k l)), l)
  | CLen => (Ok (RNat (List.length l)), l)
  | CKeys => (Ok (RKeys (map fst l)), l)
  | CReversed => (Ok (RKeys (List.rev (map fst l))), l)
  | CValues => (Ok (RVals (map snd l)), l)
  | CItems => (Ok (RItems l), l)
  | CClear => (Ok RNone, [])
  end.
Fixpoint steps (cs : list call) (l : list (K * A)) : list (result returned) * list (K * A) :=
  match cs with
  | [] => ([], l)
  | c :: r => let (x, l') := step c l in let (xs, l'') := steps r l' in (x :: xs, l'')
  end.
Definition no_clear (c : call) : Prop := match c with CClear => False | _ => True end.
(** The keys without those that came before. *)
Definition firsts (ks : list K) : list K := fold_left (fun l k => if existsb (fun u => eqb u k) l then l else l ++ [k]) ks [].
End Spec.
