(** Reading decimal fractions as doubles. *)
From Coq Require Import ZArith Lia Bool List.
From Coq Require Import Floats.SpecFloat.
From Verif Require Import Base Util_Model Num_Model Value_Model Value_Spec Path_Model PathParser_Model Config_Model Config_Spec Config_Lemmas Duration_Model Duration_Spec Duration_Lemmas Round_Spec Round_Lemmas2 Round_Lemmas3 Round_Lemmas4 Round_Lemmas6 Round_Lemmas8.
Local Open Scope Z_scope.

Lemma no_word : forall s neg c r, take_sign s = (neg, c :: r) -> isalpha c = false -> parse_inf_nan s = None.
Proof.
  intros s neg c r T A. unfold parse_inf_nan. rewrite T. assert (U : isupper c = false /\ Ascii.eqb c "n" = false /\ Ascii.eqb c "i" = false).
  { unfold isalpha in A. apply orb_false_iff in A. split; [apply A|]. split; apply Ascii.eqb_neq; intros ->; destruct A as [_ A]; vm_compute in A; discriminate. }
  destruct U as [U1 [U2 U3]]. assert (W : lower c = c) by (unfold lower; rewrite U1; reflexivity). cbn [map firstn]. rewrite !W.
  assert (X : forall a l w, Ascii.eqb c a = false -> str_eqb (c :: l) (a :: w) = false) by (intros a l w H; unfold str_eqb; destruct (list_eq_dec ascii_dec (c :: l) (a :: w)) as [Q|]; [injection Q as Q _; rewrite Q, Ascii.eqb_refl in H; discriminate H|reflexivity]).
  change (lit "nan") with ("n"%char :: lit "an"). change (lit "inf") with ("i"%char :: lit "nf"). change (lit "infinity") with ("i"%char :: lit "nfinity"). rewrite !X by assumption. reflexivity.
Qed.
Lemma get_string_near : forall self ps p s m e, plain self -> simple_object self -> new_path ps = Ok p -> get p self = Some (VScalar (SDouble (S754_finite s m e) [])) ->
  exists t n, get_string self ps = Ok t /\ 0 <= n /\ fraction t (if s then - n else n) 6 /\ nearest_millionths (Zpos m) e n.
Proof.
  intros self ps p s m e H1 H2 Hp G. destruct (double_text s m e) as [n [N0 [F R]]]. exists (double_to_string (S754_finite s m e)), n.
  split; [|split; [exact N0|split; [exact F|exact R]]]. rewrite (get_string_spec self ps p H1 H2 Hp), G. reflexivity.
Qed.
