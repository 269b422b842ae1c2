(** Model of patsy/compat_ordereddict.py, the OrderedDict used when PATSY_AVOID_OPTIONAL_DEPENDENCIES is set
    (compat.py:28-31), under Python 3.  Links are lists of three items that refer to each other; a heap of links stands
    for them, with 0 for the sentinel.  Keys are hashable; keyword arguments, [__repr__], [__reduce__] and the views
    (which are for Python 2.7) are not modelled. *)
From Verif Require Import Base NumModel BuildModel.
Open Scope nat_scope.

Section ODict.
Context {K A : Type}.
Variable eqb : K -> K -> bool.

(** compat_ordereddict.py:35: [[PREV, NEXT, KEY]]; the sentinel has no key. *)
Record link := mkLink { l_prev : nat; l_next : nat; l_key : option K }.
(** The inherited dict, [__map] and the links. *)
Record odict := mkOD { od_dict : list (K * A); od_map : list (K * nat); od_heap : list link }.
Definition link_at (h : list link) (a : nat) : link := nth a h (mkLink 0 0 None).
Definition set_next (h : list link) (a n : nat) : list link := set_nth h a (mkLink (l_prev (link_at h a)) n (l_key (link_at h a))).
Definition set_prev (h : list link) (a n : nat) : list link := set_nth h a (mkLink n (l_next (link_at h a)) (l_key (link_at h a))).
(** [dict.__delitem__] *)
Definition ddel {B} (k : K) (d : list (K * B)) : list (K * B) := filter (fun p => negb (eqb (fst p) k)) d.

(** compat_ordereddict.py:45-50 [__init__] without arguments. *)
Definition od_new : odict := mkOD [] [] [mkLink 0 0 None].
(** compat_ordereddict.py:53-61 [__setitem__] *)
Definition od_set (k : K) (v : A) (o : odict) : odict :=
  if dmem eqb k (od_dict o) then mkOD (dset eqb k v (od_dict o)) (od_map o) (od_heap o)
  else
    let last := l_prev (link_at (od_heap o) 0) in
    let new := List.length (od_heap o) in
    let h := od_heap o ++ [mkLink last 0 (Some k)] in
    mkOD (dset eqb k v (od_dict o)) (dset eqb k new (od_map o)) (set_prev (set_next h last new) 0 new).
(** compat_ordereddict.py:63-70 [__delitem__]; what is returned, and the dictionary afterwards. *)
Definition od_del (k : K) (o : odict) : result unit * odict :=
  match dget eqb k (od_dict o) with
  | None => (Err KeyError, o)
  | Some _ =>
      match dget eqb k (od_map o) with
      | None => (Err KeyError, mkOD (ddel k (od_dict o)) (od_map o) (od_heap o))
      | Some a =>
          let l := link_at (od_heap o) a in
          (Ok tt, mkOD (ddel k (od_dict o)) (ddel k (od_map o)) (set_prev (set_next (od_heap o) (l_prev l) (l_next l)) (l_next l) (l_prev l)))
      end
  end.
(** compat_ordereddict.py:75-78, 83-86: the loops; [dir] is [curr[1]] or [curr[0]].  There are fewer steps than links. *)
Fixpoint walk (fuel : nat) (h : list link) (dir : link -> nat) (a : nat) : result (list K) :=
  if Nat.eqb a 0 then Ok []
  else match fuel with
       | 0 => Err OutOfFuel
       | S fuel =>
           match l_key (link_at h a) with
           | None => Err (TypeError "link without key")
           | Some k => let* r := walk fuel h dir (dir (link_at h a)) in Ok (k :: r)
           end
       end.
(** compat_ordereddict.py:72-78 [__iter__], also 124-126 [keys]. *)
Definition od_keys (o : odict) : result (list K) := walk (List.length (od_heap o)) (od_heap o) l_next (l_next (link_at (od_heap o) 0)).
(** compat_ordereddict.py:80-86 [__reversed__] *)
Definition od_reversed (o : odict) : result (list K) := walk (List.length (od_heap o)) (od_heap o) l_prev (l_prev (link_at (od_heap o) 0)).
(** [self[key]], inherited from dict. *)
Definition od_get (k : K) (o : odict) : result A := lookup (dget eqb k (od_dict o)).
(** compat_ordereddict.py:128-130, 140-143 [values], [itervalues] *)
Definition od_values (o : odict) : result (list A) := let* ks := od_keys o in mapM (fun k => od_get k o) ks.
(** compat_ordereddict.py:132-134, 145-148 [items], [iteritems] *)
Definition od_items (o : odict) : result (list (K * A)) := let* ks := od_keys o in mapM (fun k => let* v := od_get k o in Ok (k, v)) ks.
(** compat_ordereddict.py:88-98 [clear]: under Python 3 a dict has no [itervalues], and the AttributeError is ignored. *)
Definition od_clear (o : odict) : odict := mkOD [] (od_map o) (od_heap o).
(** compat_ordereddict.py:100-120 [popitem] *)
Definition od_popitem (last : bool) (o : odict) : result (K * A) * odict :=
  match od_dict o with
  | [] => (Err KeyError, o)
  | _ =>
      let root := link_at (od_heap o) 0 in
      let a := if last then l_prev root else l_next root in
      let l := link_at (od_heap o) a in
      let h := if last then set_prev (set_next (od_heap o) (l_prev l) 0) 0 (l_prev l)
               else set_prev (set_next (od_heap o) 0 (l_next l)) (l_next l) 0 in
      match l_key l with
      | None => (Err KeyError, mkOD (od_dict o) (od_map o) h)
      | Some k =>
          match dget eqb k (od_map o) with
          | None => (Err KeyError, mkOD (od_dict o) (od_map o) h)
          | Some _ =>
              match dget eqb k (od_dict o) with
              | None => (Err KeyError, mkOD (od_dict o) (ddel k (od_map o)) h)
              | Some v => (Ok (k, v), mkOD (ddel k (od_dict o)) (ddel k (od_map o)) h)
              end
          end
      end
  end.
(** compat_ordereddict.py:150-181 [update] with a list of pairs or (lines 174-176) with the items of another dict. *)
Definition od_update (l : list (K * A)) (o : odict) : odict := fold_left (fun o p => od_set (fst p) (snd p) o) l o.
(** compat_ordereddict.py:187-198 [pop]; [None] if no default is given. *)
Definition od_pop (k : K) (default : option A) (o : odict) : result A * odict :=
  match dget eqb k (od_dict o) with
  | Some v => match od_del k o with (Ok _, o') => (Ok v, o') | (Err e, o') => (Err e, o') end
  | None => (match default with Some v => Ok v | None => Err KeyError end, o)
  end.
(** compat_ordereddict.py:200-205 [setdefault] *)
Definition od_setdefault (k : K) (v : A) (o : odict) : A * odict :=
  match dget eqb k (od_dict o) with Some w => (w, o) | None => (v, od_set k v o) end.
(** compat_ordereddict.py:230-232 [copy] *)
Definition od_copy (o : odict) : result odict := let* l := od_items o in Ok (od_update l od_new).
(** compat_ordereddict.py:234-243 [fromkeys] *)
Definition od_fromkeys (ks : list K) (v : A) : odict := fold_left (fun o k => od_set k v o) ks od_new.
(** compat_ordereddict.py:245-252 [__eq__] for another OrderedDict. *)
Definition od_eq (veqb : A -> A -> bool) (o o' : odict) : result bool :=
  if Nat.eqb (List.length (od_dict o)) (List.length (od_dict o')) then
    let* l := od_items o in let* l' := od_items o' in Ok (list_eqb (fun p q => eqb (fst p) (fst q) && veqb (snd p) (snd q)) l l')
  else Ok false.

(** Calls, and what they return. *)
Inductive call :=
| CSet (k : K) (v : A) | CDel (k : K) | CPop (k : K) (default : option A) | CPopitem (last : bool) | CSetdefault (k : K) (v : A) | CUpdate (l : list (K * A))
| CGet (k : K) | CContains (k : K) | CLen | CKeys | CReversed | CValues | CItems | CClear.
Inductive returned := RNone | RVal (v : A) | RItem (p : K * A) | RBool (b : bool) | RNat (n : nat) | RKeys (l : list K) | RVals (l : list A) | RItems (l : list (K * A)).
Definition returns {B} (f : B -> returned) (r : result B) : result returned := let* x := r in Ok (f x).
(** One call on the dictionary. *)
Definition perform (c : call) (o : odict) : result returned * odict :=
  match c with
  | CSet k v => (Ok RNone, od_set k v o)
  | CDel k => let (r, o') := od_del k o in (returns (fun _ => RNone) r, o')
  | CPop k d => let (r, o') := od_pop k d o in (returns RVal r, o')
  | CPopitem last => let (r, o') := od_popitem last o in (returns RItem r, o')
  | CSetdefault k v => let (r, o') := od_setdefault k v o in (Ok (RVal r), o')
  | CUpdate l => (Ok RNone, od_update l o)
  | CGet k => (returns RVal (od_get k o), o)
  | CContains k => (Ok (RBool (dmem eqb k (od_dict o))), o)
  | CLen => (Ok (RNat (List.length (od_dict o))), o)
  | CKeys => (returns RKeys (od_keys o), o)
  | CReversed => (returns RKeys (od_reversed o), o)
  | CValues => (returns RVals (od_values o), o)
  | CItems => (returns RItems (od_items o), o)
  | CClear => (Ok RNone, od_clear o)
  end.
(** A sequence of calls: what each returns (the program goes on after an exception), and the dictionary left. *)
Fixpoint perform_all (cs : list call) (o : odict) : list (result returned) * odict :=
  match cs with
  | [] => ([], o)
  | c :: r => let (x, o') := perform c o in let (xs, o'') := perform_all r o' in (x :: xs, o'')
  end.
End ODict.
Arguments call : clear implicits.
