(** C24: rendering is deterministic. *)
From Verif Require Import Base Util_Model Num_Model Path_Model Token_Model Value_Model Value_Spec Render_Model Render_Spec Render_Lemmas.
From Coq Require Import Permutation.

(** Values whose objects have the same entries, stored in whatever order, have the same text (or the same
    failure), for all options and all comments. *)
Theorem rendering_ignores_order : forall o ns v w, well_keyed v -> reordered v w -> render_value o ns v = render_value o ns w.
Proof. intros o ns v w K R. exact (render_alike o ns v w K R [] [] 0%nat true). Qed.
Print Assumptions rendering_ignores_order.

(** The keys of an object are in the order of compare: of two different keys exactly one comes first, and the
    order is transitive.  Missing for a strict order: a key of digits comes before itself, see below. *)
Theorem key_order_partial :
  (forall a b, a <> b -> compare_keys a b = negb (compare_keys b a)) /\
  (forall a b c, compare_keys a b = true -> compare_keys b c = true -> compare_keys a c = true).
Proof. exact (conj compare_total compare_trans). Qed.
Print Assumptions key_order_partial.

(** Every key of digits compares as less than itself: std::sort is given an order it does not allow. *)
Theorem key_order_refuted : forall a, forallb isdigit a = true <-> compare_keys a a = true.
Proof. exact compare_self. Qed.
Print Assumptions key_order_refuted.

(** Hypotheses met: nested objects in two orders. *)
Definition order_1 : value :=
  VObj true false [(lit "b", VScalar SNull); (lit "10", VList [VObj true false [(lit "x", VScalar (SInt 1 [])); (lit "", VScalar SNull)]]); (lit "9", VScalar (SBool true))].
Definition order_2 : value :=
  VObj true true [(lit "9", VScalar (SBool true)); (lit "10", VList [VObj true false [(lit "", VScalar SNull); (lit "x", VScalar (SInt 1 []))]]); (lit "b", VScalar SNull)].
Example rendering_ignores_order_case : well_keyed order_1 /\ reordered order_1 order_2 /\ order_1 <> order_2 /\
  exists t, render_value default_options (fun _ => Some (lit "a" ++ [nl] ++ lit "b", [lit "c"])) order_1 = Ok t /\ (30 < List.length t)%nat.
Proof.
  split; [|split; [|split; [discriminate|]]].
  - repeat (constructor; cbn; try intuition discriminate).
  - unfold order_1, order_2. eapply re_obj.
    + apply (Permutation_rev [_; _; _]).
    + cbn [rev app]. repeat constructor. cbn [snd]. eapply re_obj; [apply perm_swap|]. repeat constructor.
  - eexists. split; [vm_compute; reflexivity|]. apply Nat.ltb_lt. reflexivity.
Qed.
Example key_order_case : compare_keys (lit "9") (lit "10") = true /\ compare_keys (lit "10") (lit "a") = true /\ compare_keys (lit "a") (lit "b") = true.
Proof. split; [|split]; reflexivity. Qed.
