(** Rendering wrapped data, and setting values in documents. *)
From Verif Require Import Base BaseLemmas Util_Model Num_Model Path_Model PathParser_Model Token_Model Token_Spec Doc_Model Edit_Model Edit_Spec Edit_Lemmas7 Value_Model Value_Spec Value_Lemmas Config_Model Concat_Model ConfigParser_Model
  Render_Model Render_Spec Render_Lemmas Render_Lemmas6 Factory_Model Factory_Spec Factory_Lemmas.
From Coq Require Import Permutation.

Lemma parts_stuck : forall o d u, origin_comments o || comments o = true -> with_parts u ->
  render_value o (from_any_ref_notes d) (from_any_ref u) = Stuck UNullDeref.
Proof.
  intros o d u C P. assert (O : forall p at_, origin_of (from_any_ref_notes d) (origin_comments o || comments o) (at_ ++ [p]) = Stuck UNullDeref).
  { intros p at_. unfold origin_of. rewrite C. destruct at_; reflexivity. }
  destruct u as [| | | | | |[|u l]|[|ku m]]; try destruct P; unfold render_value.
  - cbn [from_any_ref map]. rewrite render_list. cbn [list_items sequence]. unfold before_element. rewrite O. reflexivity.
  - cbn [from_any_ref map]. unfold new_object. rewrite render_object. set (inner := if json o || negb true then (0 + 1)%nat else 0%nat).
    set (m' := (fst ku, from_any_ref (snd ku)) :: map (fun ku => (fst ku, from_any_ref (snd ku))) m).
    assert (F : Forall (fun kr => snd kr = @Stuck str UNullDeref) (sort_keys (object_items o (from_any_ref_notes d) [] 0 inner m'))).
    { eapply Permutation_Forall; [apply sort_perm|]. unfold object_items. apply Forall_map, Forall_forall. intros kv _. cbn [snd]. unfold field_item, before_field. rewrite O. reflexivity. }
    destruct (sort_keys (object_items o (from_any_ref_notes d) [] 0 inner m')) as [|[k r] rest] eqn:E.
    + pose proof (sort_perm (object_items o (from_any_ref_notes d) [] 0 inner m')) as S. rewrite E in S. apply Permutation_sym, Permutation_nil in S. discriminate S.
    + inversion F as [|? ? F1 F2]; subst. cbn [snd] in F1. subst r. cbn [map snd sequence bind]. reflexivity.
Qed.

Lemma data_writable : forall u, data u -> writable (from_any_ref u).
Proof.
  induction u as [|b|z|z|d|s|l IH|m IH] using data_induction; intro H; inversion H; subst; cbn [from_any_ref]; try (constructor; auto; fail).
  - apply w_list. match goal with F : Forall data _ |- _ => revert F end. clear H. induction IH as [|u l Hu _ IHl]; intro F; [constructor|]. inversion F; subst. constructor; auto.
  - unfold new_object. apply w_obj.
    + rewrite map_map. cbn [fst]. assumption.
    + match goal with F : Forall _ m |- _ => revert F end. clear H. match goal with N : NoDup _ |- _ => clear N end. induction IH as [|ku m Hu _ IHm]; intro F; [constructor|]. inversion F as [|? ? [F1 [F2 F3]] F4]; subst.
      cbn [map]. constructor; [cbn [fst snd]; auto|auto].
Qed.

Lemma plain_keyed : forall v, plain v -> well_keyed v.
Proof.
  induction v as [s|vs IH|r i m IH|n p o l|vs IH|vs IH|vs IH] using value_induction; intro H; inversion H; subst.
  - constructor.
  - constructor. match goal with F : Forall plain _ |- _ => revert F end. clear H. induction IH; intro F; inversion F; subst; constructor; auto.
  - constructor; [assumption|]. match goal with F : Forall _ m |- _ => revert F end. clear H. match goal with N : NoDup _ |- _ => clear N end. induction IH; intro F; inversion F; subst; constructor; auto.
Qed.
Lemma from_any_ref_keyed : forall v u, unwrapped v = Ok u -> well_keyed v -> well_keyed (from_any_ref u).
Proof.
  intros v u H K. pose proof (unwrap_wrap v u H) as M. clear H. revert M. generalize (from_any_ref u). revert K.
  induction v as [s|vs IH|r i m IH|n p o l|vs IH|vs IH|vs IH] using value_induction; intros K w M; inversion M; subst; inversion K; subst; try solve [constructor].
  - constructor. match goal with A : Forall2 matching _ _, B : Forall well_keyed _ |- _ => rename A into F; rename B into F1 end. clear M K. revert ws F.
    induction IH; intros ws F; inversion F; subst; constructor; inversion F1; subst; auto.
  - match goal with A : Forall2 _ _ _, B : Forall _ m |- _ => rename A into F; rename B into F1 end. constructor.
    + match goal with N : NoDup _ |- _ => revert N end. clear - F. assert (E : map fst m = map fst m'). { induction F as [|a b l l' [K _] F IHF]; [reflexivity|]. cbn. congruence. } rewrite E. auto.
    + clear M K. match goal with N : NoDup _ |- _ => clear N end. revert m' F. induction IH; intros ws F; inversion F as [|a b la lb [E1 E2] B]; subst; constructor; inversion F1; subst; auto.
Qed.
