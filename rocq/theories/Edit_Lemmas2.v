(** Consequences for has_value and for the other fields. *)
From Verif Require Import Base BaseLemmas Util_Model Num_Model Path_Model Path_Spec Path_Lemmas Token_Model PathParser_Model
  PathParser_Lemmas3 Doc_Model Doc_Spec Doc_Lemmas Doc_Lemmas2 Doc_Lemmas3 Edit_Model Edit_Spec Edit_Lemmas.

(** ** One child at a time *)

Lemma hasb_cons : forall n p c cs, hasb n p (c :: cs) = hasb n p [c] || hasb n p cs.
Proof. intros [|n] p c cs; [reflexivity|]. cbn [hasb existsb]. rewrite orb_false_r. reflexivity. Qed.
Lemma hasb_app : forall n p a b, hasb n p (a ++ b) = hasb n p a || hasb n p b.
Proof.
  intros n p a b. induction a as [|c a IH]; [destruct n; reflexivity|]. cbn [app].
  rewrite hasb_cons, (hasb_cons n p c a), IH. apply orb_assoc.
Qed.
Lemma hasb_nonfield : forall n p c, is_field c = false -> hasb n p [c] = false.
Proof. intros [|n] p c H; [reflexivity|]. destruct c; try reflexivity. discriminate. Qed.
Lemma hasb_field : forall n p fc, hasb (S n) p [NField fc] =
  match relate (key_of fc) p with
  | Same | Longer => true
  | Above r => match value_of fc with Some (NObject ocs) => hasb n r ocs | _ => false end
  | Apart => false
  end.
Proof. intros n p fc. cbn [hasb existsb]. apply orb_false_r. Qed.

Lemma others_cons : forall n p c cs, others n p (c :: cs) = others n p [c] ++ others n p cs.
Proof. intros [|n] p c cs; [reflexivity|]. cbn [others flat_map]. rewrite app_nil_r. reflexivity. Qed.
Lemma others_app : forall n p a b, others n p (a ++ b) = others n p a ++ others n p b.
Proof.
  intros n p a b. induction a as [|c a IH]; [destruct n; reflexivity|]. cbn [app].
  rewrite others_cons, (others_cons n p c a), IH. apply app_assoc.
Qed.
Lemma others_field : forall n p fc, others (S n) p [NField fc] =
  match relate (key_of fc) p with
  | Same | Longer => []
  | Apart => [render_node (NField fc)]
  | Above r => match value_of fc with Some (NObject ocs) => others n r ocs | _ => [render_node (NField fc)] end
  end.
Proof. intros n p fc. cbn [others flat_map]. apply app_nil_r. Qed.
Lemma others_tok : forall n p t, others n p [NTok t] = [].
Proof. intros [|n] p t; reflexivity. Qed.

(** ** Removing *)

Lemma changed_gone : forall set p cs cs', changed set p cs cs' -> set = false -> forall n, hasb n p cs' = false.
Proof.
  intros set p cs cs' H. induction H; intros Hs n; try discriminate; try congruence.
  - destruct n; reflexivity.
  - rewrite hasb_cons, hasb_nonfield by assumption. apply IHchanged. exact Hs.
  - apply IHchanged. exact Hs.
  - apply IHchanged. exact Hs.
  - rewrite hasb_cons, (IHchanged2 Hs), orb_false_r. destruct n as [|n]; [reflexivity|]. rewrite hasb_field.
    destruct (replace_parts _ _ _ H2 eq_refl) as [-> [-> _]]. rewrite H. apply IHchanged1. exact Hs.
  - rewrite hasb_cons, (IHchanged Hs), orb_false_r. destruct n as [|n]; [reflexivity|]. rewrite hasb_field.
    destruct (relate (key_of fc) p); try contradiction; [|reflexivity]. destruct (value_of fc) as [[]|]; try reflexivity. contradiction.
Qed.

(** ** Frame *)

Lemma prefix_compare : forall (a b c : path), is_prefix a c -> is_prefix b c -> is_prefix a b \/ is_prefix b a.
Proof.
  induction a as [|x a IH]; intros b c [r1 H1] [r2 H2]; [left; exists b; reflexivity|].
  destruct b as [|y b]; [right; exists (x :: a); reflexivity|]. subst c. injection H2 as -> H2.
  destruct (IH b (b ++ r2)) as [[r Hr]|[r Hr]].
  - exists r1. symmetry. exact H2.
  - exists r2. reflexivity.
  - left. exists r. cbn. congruence.
  - right. exists r. cbn. congruence.
Qed.
Lemma prefix_trans : forall (a b c : path), is_prefix a b -> is_prefix b c -> is_prefix a c.
Proof. intros a b c [r ->] [s ->]. exists (r ++ s). symmetry. apply app_assoc. Qed.

(** A key at or below [p] has nothing to do with a path unrelated to [p]. *)
Lemma below_unrelated : forall key p q, is_prefix p key -> unrelated p q -> relate key q = Apart.
Proof.
  intros key p q Hp [H1 H2]. pose proof (relate_spec key q) as R. destruct (relate key q) as [| |r|].
  - subst q. contradiction.
  - destruct R as [x [_ ->]]. exfalso. destruct (prefix_compare p q (q ++ x)) as [H|H]; auto. apply prefix_app.
  - destruct R as [_ ->]. exfalso. apply H1. eapply prefix_trans; [exact Hp|apply prefix_app].
  - reflexivity.
Qed.
Lemma same_longer_prefix : forall key p, relate key p = Same \/ relate key p = Longer -> is_prefix p key.
Proof.
  intros key p H. pose proof (relate_spec key p) as R. destruct H as [E|E]; rewrite E in R.
  - subst p. apply prefix_self.
  - destruct R as [x [_ ->]]. apply prefix_app.
Qed.
(** The same for a key above [p], except that a path below the key stays unrelated to the rest. *)
Lemma above_unrelated : forall key p r q, relate key p = Above r -> unrelated p q ->
  match relate key q with Above s => unrelated r s | Apart => True | _ => False end.
Proof.
  intros key p r q E [H1 H2]. pose proof (relate_spec key p) as R. rewrite E in R. destruct R as [_ ->].
  pose proof (relate_spec key q) as R. destruct (relate key q) as [| |s|]; [| | |exact I].
  - subst q. apply H2, prefix_app.
  - destruct R as [x [_ ->]]. apply H2. rewrite <- app_assoc. apply prefix_app.
  - destruct R as [_ ->]. split; intros [x ->]; [apply H1|apply H2]; exists x; apply app_assoc.
Qed.

Lemma changed_frame : forall set p cs cs', changed set p cs cs' -> forall n q, unrelated p q -> hasb n q cs' = hasb n q cs.
Proof.
  intros set p cs cs' H. induction H; intros n q Hu.
  - reflexivity.
  - rewrite hasb_cons, (hasb_cons n q c cs), (IHchanged _ _ Hu). reflexivity.
  - rewrite (hasb_cons n q c cs), hasb_nonfield; [apply IHchanged; exact Hu|]. destruct c; try reflexivity; discriminate.
  - rewrite (hasb_cons n q (NField fc) cs), <- (IHchanged _ _ Hu). destruct n as [|n]; [reflexivity|]. rewrite hasb_field.
    rewrite (below_unrelated _ p q (same_longer_prefix _ _ H) Hu). reflexivity.
  - rewrite hasb_cons, (hasb_cons n q (NField fc) cs), (IHchanged _ _ Hu). destruct n as [|n]; [reflexivity|]. rewrite !hasb_field.
    destruct (replace_parts _ _ _ H1 H2) as [-> _].
    rewrite (below_unrelated _ p q (same_longer_prefix _ _ (or_introl H0)) Hu). reflexivity.
  - rewrite hasb_cons, (hasb_cons n q (NField fc) cs), (IHchanged2 _ _ Hu). destruct n as [|n]; [reflexivity|]. rewrite !hasb_field.
    destruct (replace_parts _ _ _ H2 eq_refl) as [-> [-> _]]. rewrite H0. pose proof (above_unrelated _ _ _ _ H Hu) as A.
    destruct (relate (key_of fc) q); try contradiction; [|reflexivity]. rewrite (IHchanged1 _ _ A). reflexivity.
  - rewrite hasb_cons, (hasb_cons n q (NField fc) cs), (IHchanged _ _ Hu). reflexivity.
Qed.

Lemma changed_others : forall set p cs cs', changed set p cs cs' -> forall n, others n p cs' = others n p cs.
Proof.
  intros set p cs cs' H. induction H; intros n.
  - reflexivity.
  - rewrite others_cons, (others_cons n p c cs), IHchanged. reflexivity.
  - rewrite (others_cons n p c cs), IHchanged. destruct c; try discriminate. rewrite others_tok. reflexivity.
  - rewrite (others_cons n p (NField fc) cs), IHchanged. destruct n as [|n]; [reflexivity|]. rewrite others_field.
    destruct H as [-> | ->]; reflexivity.
  - rewrite others_cons, (others_cons n p (NField fc) cs), IHchanged. destruct n as [|n]; [reflexivity|]. rewrite !others_field.
    destruct (replace_parts _ _ _ H1 H2) as [-> _]. rewrite H0. reflexivity.
  - rewrite others_cons, (others_cons n p (NField fc) cs), IHchanged2. destruct n as [|n]; [reflexivity|]. rewrite !others_field.
    destruct (replace_parts _ _ _ H2 eq_refl) as [-> [-> _]]. rewrite H, H0, IHchanged1. reflexivity.
  - rewrite others_cons, (others_cons n p (NField fc) cs), IHchanged. reflexivity.
Qed.

(** ** Well-formedness *)

Lemma changed_braces : forall set p cs cs', changed set p cs cs' ->
  existsb is_open_curly cs' = existsb is_open_curly cs /\ (starts_open cs = true -> starts_open cs' = true) /\
  (ends_close cs = true -> ends_close cs' = true).
Proof.
  assert (Hnil : forall set p cs', changed set p [] cs' -> cs' = []) by (intros set p cs' H; inversion H; reflexivity).
  intros set p cs cs' H. induction H.
  - auto.
  - destruct IHchanged as [I1 [I2 I3]]. split; [cbn; rewrite I1; reflexivity|]. split; [auto|]. intro E.
    destruct cs as [|d cs]; [apply Hnil in H0; subst; exact E|]. destruct cs' as [|e cs']; [specialize (I3 E); discriminate|]. exact (I3 E).
  - destruct IHchanged as [I1 [I2 I3]]. destruct c; try discriminate. split; [cbn; rewrite I1; destruct t; try discriminate; reflexivity|].
    split; [destruct t; discriminate|]. intro E. destruct cs as [|d cs]; [destruct t; discriminate|]. exact (I3 E).
  - destruct IHchanged as [I1 [I2 I3]]. split; [exact I1|]. split; [discriminate|]. intro E.
    destruct cs as [|d cs]; [discriminate|]. exact (I3 E).
  - destruct IHchanged as [I1 [I2 I3]]. split; [exact I1|]. split; [discriminate|]. intro E.
    destruct cs as [|d cs]; [discriminate|]. destruct cs' as [|e cs']; [specialize (I3 E); discriminate|]. exact (I3 E).
  - destruct IHchanged2 as [I1 [I2 I3]]. split; [exact I1|]. split; [discriminate|]. intro E.
    destruct cs as [|d cs]; [discriminate|]. destruct cs' as [|e cs']; [specialize (I3 E); discriminate|]. exact (I3 E).
  - destruct IHchanged as [I1 [I2 I3]]. split; [exact I1|]. split; [discriminate|]. intro E.
    destruct cs as [|d cs]; [discriminate|]. destruct cs' as [|e cs']; [specialize (I3 E); discriminate|]. exact (I3 E).
Qed.

Lemma braces_change : forall cs cs', existsb is_open_curly cs' = existsb is_open_curly cs ->
  (starts_open cs = true -> starts_open cs' = true) -> (ends_close cs = true -> ends_close cs' = true) ->
  braces cs = true -> braces cs' = true.
Proof.
  intros cs cs' H1 H2 H3. unfold braces. rewrite H1. destruct (existsb is_open_curly cs); [|auto].
  intro E. apply andb_true_iff in E. destruct E as [E1 E2]. rewrite (H2 E1), (H3 E2). reflexivity.
Qed.

Lemma replace_wf : forall fc v fc', replace_value fc v = Ok fc' -> is_value_node v = true -> wf_node v = true ->
  wf_node (NField fc) = true -> wf_node (NField fc') = true.
Proof.
  intros fc v fc' H Hv Hw Hf. destruct (replace_parts _ _ _ H Hv) as [H1 [H2 H3]]. cbn [wf_node] in *.
  apply andb_true_iff in Hf. destruct Hf as [Hf1 Hf2]. rewrite (H3 _ Hf2 Hw), andb_true_r. unfold wf_field in *.
  rewrite H1, H2. destruct (key_of fc); [discriminate|reflexivity].
Qed.

Lemma changed_wf : forall set p cs cs', changed set p cs cs' -> wfs cs = true -> wfs cs' = true.
Proof.
  intros set p cs cs' H. induction H; intro Hw; try exact Hw;
    (unfold wfs in *; cbn [forallb] in *; apply andb_true_iff in Hw; destruct Hw as [Hc Hw]).
  - rewrite Hc. apply IHchanged. exact Hw.
  - apply IHchanged. exact Hw.
  - apply IHchanged. exact Hw.
  - rewrite (replace_wf _ _ _ H1 H2 H3 Hc). apply IHchanged. exact Hw.
  - rewrite (IHchanged2 Hw), andb_true_r. eapply replace_wf; try eassumption; [reflexivity|].
    cbn [wf_node] in Hc. apply andb_true_iff in Hc. destruct Hc as [_ Hc]. pose proof (value_wf _ _ H0 Hc) as Hv. cbn [wf_node] in *.
    apply andb_true_iff in Hv. destruct Hv as [Hb Hv]. rewrite (IHchanged1 Hv), andb_true_r.
    apply andb_true_iff in Hb. destruct Hb as [Hb Ho]. destruct (changed_braces _ _ _ _ H1) as [B1 [B2 B3]]. rewrite (B2 Ho), andb_true_r. eapply braces_change; eassumption.
  - rewrite Hc. apply IHchanged. exact Hw.
Qed.
