(** What the path operations are supposed to mean, on plain lists of keys. *)
From Verif Require Import Base.

(** [slice a b l]: the elements with index >= a and < b. *)
Definition slice {A} (a b : nat) (l : list A) : list A := firstn (b - a) (skipn a l).

(** [is_prefix p l]: l starts with p. *)
Definition is_prefix {A} (p l : list A) : Prop := exists r, l = p ++ r.
