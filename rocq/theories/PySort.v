(** Python's [list.sort] / [sorted]: the stable sort determined by [<]. *)
From Coq Require Import Permutation Sorted.
From Verif Require Import Base.

Section Sort.
Context {A : Type} (ltb : A -> A -> bool).

(** Insert [x], which comes before all of [l] in the input: [y] moves in front of [x]
    only if [y < x]. *)
Fixpoint insert (x : A) (l : list A) : list A :=
  match l with
  | [] => [x]
  | y :: r => if ltb y x then y :: insert x r else x :: l
  end.
(** [list.sort()]: Python guarantees the result is sorted and that elements neither of
    which is smaller keep their order; insertion sort computes that list. *)
Definition py_sort (l : list A) : list A := fold_right insert [] l.

Lemma insert_perm x l : Permutation (x :: l) (insert x l).
Proof.
  induction l as [|y l IH]; cbn; [reflexivity|]. destruct (ltb y x); [|reflexivity].
  rewrite perm_swap. now constructor.
Qed.
Lemma py_sort_perm l : Permutation l (py_sort l).
Proof.
  induction l as [|x l IH]; cbn; [reflexivity|]. rewrite <- insert_perm. now constructor.
Qed.
Lemma py_sort_length l : length (py_sort l) = length l.
Proof. symmetry. apply Permutation_length, py_sort_perm. Qed.
Lemma py_sort_in l x : In x (py_sort l) <-> In x l.
Proof.
  split; apply Permutation_in; [symmetry|]; apply py_sort_perm.
Qed.

(** Not bigger. *)
Definition le (x y : A) : Prop := ltb y x = false.

Lemma insert_sorted x l (Hasym : forall a b, ltb a b = true -> ltb b a = false)
  (Htr : forall a b c, le a b -> le b c -> le a c) :
  StronglySorted le l -> StronglySorted le (insert x l).
Proof.
  induction 1 as [|y l Hs IH Hy]; cbn; [repeat constructor|].
  destruct (ltb y x) eqn:E.
  - constructor; [exact IH|]. rewrite Forall_forall in *. intros z Hz.
    apply (Permutation_in z (Permutation_sym (insert_perm x l))) in Hz.
    destruct Hz as [<-|Hz]; [now apply Hasym|auto].
  - constructor; [constructor; assumption|]. constructor; [exact E|].
    eapply Forall_impl; [|exact Hy]. intros z Hz. eapply Htr; [exact E|exact Hz].
Qed.
Lemma py_sort_sorted (Hasym : forall a b, ltb a b = true -> ltb b a = false)
  (Htr : forall a b c, le a b -> le b c -> le a c) l : StronglySorted le (py_sort l).
Proof.
  induction l as [|x l IH]; cbn; [constructor|]. now apply insert_sorted.
Qed.

(** Stability: the elements of a class of mutually incomparable ones keep their order. *)
Lemma py_sort_stable (p : A -> bool) (Hp : forall a b, p a = true -> p b = true -> ltb a b = false) l :
  filter p (py_sort l) = filter p l.
Proof.
  induction l as [|x l IH]; cbn [py_sort fold_right]; [reflexivity|]. fold (py_sort l).
  assert (Ins : forall x l, filter p (insert x l) = filter p (x :: l)).
  { clear - Hp. intros x l. induction l as [|y l IH]; cbn; [reflexivity|].
    destruct (ltb y x) eqn:E; [|reflexivity]. cbn. rewrite IH. cbn.
    destruct (p x) eqn:Px, (p y) eqn:Py; try reflexivity. rewrite (Hp y x Py Px) in E. discriminate. }
  rewrite Ins. cbn. now rewrite IH.
Qed.

(** Sorting by a key a list already sorted by [R] sorts by key, then [R]. *)
Lemma py_sort_refine (R : A -> A -> Prop) l
  (Hasym : forall a b, ltb a b = true -> ltb b a = false)
  (Htr : forall a b c, le a b -> le b c -> le a c) :
  StronglySorted R l ->
  StronglySorted (fun x y => ltb x y = true \/ (le x y /\ R x y)) (py_sort l).
Proof.
  induction 1 as [|x l Hs IH Hx]; cbn; [constructor|]. fold (py_sort l).
  assert (Hx' : Forall (R x) (py_sort l)).
  { rewrite Forall_forall in *. intros z Hz. apply Hx. now apply py_sort_in. }
  clear Hx Hs. revert IH Hx'. generalize (py_sort l). intros m Hm. induction Hm as [|y m Hm IH Hy]; intros Hx.
  - repeat constructor.
  - cbn. pose proof (Forall_inv Hx) as Hxy. pose proof (Forall_inv_tail Hx) as Hxm.
    destruct (ltb y x) eqn:E.
    + constructor; [now apply IH|]. rewrite Forall_forall in *. intros z Hz.
      apply (Permutation_in z (Permutation_sym (insert_perm x m))) in Hz.
      destruct Hz as [<-|Hz]; [now left|auto].
    + constructor; [constructor; assumption|]. constructor.
      * destruct (ltb x y) eqn:E2; [now left|right; split; assumption].
      * rewrite Forall_forall in *. intros z Hz.
        destruct (ltb x z) eqn:E3; [now left|]. right. split; [|auto].
        destruct (Hy z Hz) as [H|[H _]].
        -- apply Htr with y; [exact E|]. now apply Hasym.
        -- now apply Htr with y.
Qed.
End Sort.

(** Sorting commutes with relabelling. *)
Lemma insert_map {A B} (f : A -> B) lt1 lt2 x l :
  (forall a b, lt2 (f a) (f b) = lt1 a b) -> insert lt2 (f x) (map f l) = map f (insert lt1 x l).
Proof.
  intros H. induction l as [|y l IH]; cbn; [reflexivity|]. rewrite H. destruct (lt1 y x); [|reflexivity].
  cbn. now rewrite IH.
Qed.
Lemma py_sort_map {A B} (f : A -> B) lt1 lt2 l :
  (forall a b, lt2 (f a) (f b) = lt1 a b) -> py_sort lt2 (map f l) = map f (py_sort lt1 l).
Proof.
  intros H. induction l as [|x l IH]; cbn; [reflexivity|]. fold (py_sort lt2 (map f l)). rewrite IH.
  now apply insert_map.
Qed.
