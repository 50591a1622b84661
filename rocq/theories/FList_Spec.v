(** Specification vocabulary for the persistent list. *)
From Verif Require Import Base FList_Model.

Section Spec.
Context {A : Type}.
(** [p] points to a list with the given elements. *)
Inductive holds (h : @heap A) : ptr -> list A -> Prop :=
| holds_nil : holds h None []
| holds_cons : forall a v p l, nth_error h a = Some (v, p) -> holds h p l -> holds h (Some a) (v :: l).

(** Items only point to older items.  True of the empty heap, kept by every operation. *)
Definition ordered (h : @heap A) : Prop := forall a v b, nth_error h a = Some (v, Some b) -> (b < a)%nat.

(** Everything that was a list is still the same list. *)
Definition preserved (h h' : @heap A) : Prop := forall p l, holds h p l -> holds h' p l.

(** An operation succeeds, its result has the given elements, and no list has changed. *)
Definition gives (h : @heap A) (r : result (@heap A * ptr)) (l : list A) : Prop :=
  exists h' p', r = Ok (h', p') /\ holds h' p' l /\ ordered h' /\ preserved h h'.

(** The list without the first occurrence of [v]. *)
Fixpoint remove_first (eqb : A -> A -> bool) (v : A) (l : list A) : list A :=
  match l with [] => [] | x :: l' => if eqb v x then l' else x :: remove_first eqb v l' end.

(** [x], [f x], [f (f x)] and so on, [n] of them. *)
Fixpoint iterates (f : A -> A) (x : A) (n : nat) : list A :=
  match n with O => [] | S n' => x :: iterates f (f x) n' end.
End Spec.
