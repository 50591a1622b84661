(** C03: path algebra. *)
From Verif Require Import Base Path_Model Path_Spec Path_Lemmas.

Definition ex_path : path := [lit "a"; lit "b.c"; lit ""; lit "d"].

(** Every path operation is the corresponding operation on the list of keys
    (on non-empty paths, and slices that end before the last key). *)
Theorem path_algebra_partial :
  (forall l, l <> [] -> path_of_keys l = Ok l) /\
  (forall p ps, p <> [] -> path_of_paths (p :: ps) = Ok (p ++ concat ps)) /\
  (forall p q, prepend p q = q ++ p) /\
  (forall k r, first (k :: r) = Some k /\ remainder (k :: r) = r) /\
  (forall p k, last (p ++ [k]) = Some k /\ parent (p ++ [k]) = p) /\
  (forall p, p <> [] -> length p = Z.of_nat (List.length p)) /\
  (forall p n, (n < List.length p)%nat -> sub_path p (Z.of_nat n) = skipn n p) /\
  (forall p a b, (a <= b)%nat -> (b < List.length p)%nat ->
     sub_path2 p (Z.of_nat a) (Z.of_nat b) = Ok (slice a b p)) /\
  (forall p a b, b < a -> sub_path2 p a b = Throw EConfig) /\
  (forall p q, p <> [] ->
     exists r, starts_with p q = Ok r /\ (r = true <-> is_prefix q p)) /\
  (forall p q, path_eq p q = true <-> p = q).
Proof.
  exact (conj path_of_keys_spec (conj path_of_paths_spec (conj prepend_spec
        (conj (fun k r => conj eq_refl eq_refl)
        (conj (fun p k => conj (last_spec p k) (parent_spec p k))
        (conj length_spec (conj sub_path_spec (conj sub_path2_spec
        (conj sub_path2_throws_reversed (conj starts_with_spec path_eq_spec)))))))))).
Qed.
Print Assumptions path_algebra_partial.

(** Missing from the full statement, because the code does otherwise: *)

(** length() of the empty path is 1. *)
Theorem path_length_empty_refuted : exists p, length p <> Z.of_nat (List.length p).
Proof. exists []. discriminate. Qed.
Print Assumptions path_length_empty_refuted.

(** sub_path(n) never drops the last key. *)
Theorem sub_path_keeps_last_key :
  forall p k n, (List.length p <= n)%nat -> sub_path (p ++ [k]) (Z.of_nat n) = [k].
Proof. exact sub_path_beyond. Qed.
Print Assumptions sub_path_keeps_last_key.

(** sub_path(0, length()) always throws, although it denotes the whole path. *)
Theorem sub_path_full_range_refuted :
  forall p, p <> [] -> sub_path2 p 0 (Z.of_nat (List.length p)) = Throw EConfig.
Proof. exact sub_path2_full_throws. Qed.
Print Assumptions sub_path_full_range_refuted.

(** The empty path asked whether it starts with a one-key path dereferences null. *)
Theorem path_starts_with_refuted : exists p q, starts_with p q = Stuck UNullDeref.
Proof. exists [], [lit "a"]. reflexivity. Qed.
Print Assumptions path_starts_with_refuted.

(** Instances. *)
Example ex_prepend : prepend [lit "x"] ex_path = ex_path ++ [lit "x"].
Proof. reflexivity. Qed.
Example ex_slice : sub_path2 ex_path 1 3 = Ok [lit "b.c"; lit ""].
Proof. reflexivity. Qed.
Example ex_starts : starts_with ex_path [lit "a"; lit "b.c"] = Ok true.
Proof. reflexivity. Qed.
Example ex_parent : parent ex_path = [lit "a"; lit "b.c"; lit ""].
Proof. reflexivity. Qed.
Example ex_length : length ex_path = 4.
Proof. reflexivity. Qed.
