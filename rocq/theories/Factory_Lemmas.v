(** Wrapping and unwrapping. *)
From Verif Require Import Base BaseLemmas Util_Model Num_Model Path_Model PathParser_Model Token_Model Value_Model Value_Spec Value_Lemmas Value_Lemmas2 Duration_Model Config_Model Render_Model Factory_Model Factory_Spec.

(** ** Induction on plain data *)
Section Ind.
Variable P : unwrapped_value -> Prop.
Hypothesis H0 : P UBlank.
Hypothesis H1 : forall b, P (UBool b).
Hypothesis H2 : forall z, P (UInt z).
Hypothesis H3 : forall z, P (ULong z).
Hypothesis H4 : forall d, P (UDouble d).
Hypothesis H5 : forall s, P (UString s).
Hypothesis H6 : forall l, Forall P l -> P (UList l).
Hypothesis H7 : forall m, Forall (fun ku => P (snd ku)) m -> P (UMap m).
Fixpoint data_induction (u : unwrapped_value) : P u :=
  match u with
  | UBlank => H0 | UBool b => H1 b | UInt z => H2 z | ULong z => H3 z | UDouble d => H4 d | UString s => H5 s
  | UList l => H6 l ((fix all (l : list unwrapped_value) : Forall P l := match l with [] => Forall_nil _ | u :: l' => Forall_cons _ (data_induction u) (all l') end) l)
  | UMap m => H7 m ((fix all (m : list (str * unwrapped_value)) : Forall (fun ku => P (snd ku)) m :=
      match m with [] => Forall_nil _ | ku :: m' => Forall_cons ku (data_induction (snd ku)) (all m') end) m)
  end.
End Ind.

Fixpoint unwrapped_list (vs : list value) : result (list unwrapped_value) :=
  match vs with [] => Ok [] | v :: vs' => u <- unwrapped v ;; r <- unwrapped_list vs' ;; Ok (u :: r) end.
Fixpoint unwrapped_fields (m : list (str * value)) : result (list (str * unwrapped_value)) :=
  match m with [] => Ok [] | (k, v) :: m' => u <- unwrapped v ;; r <- unwrapped_fields m' ;; Ok ((k, u) :: r) end.
Lemma unwrapped_VList : forall vs, unwrapped (VList vs) = rmap UList (unwrapped_list vs).
Proof.
  intro vs. cbn [unwrapped]. match goal with |- bind ?a _ = _ => assert (E : a = unwrapped_list vs) end.
  { induction vs as [|v vs IH]; [reflexivity|]. cbn [unwrapped_list]. rewrite <- IH. reflexivity. }
  rewrite E. destruct (unwrapped_list vs); reflexivity.
Qed.
Lemma unwrapped_VObj : forall r i m, unwrapped (VObj r i m) = rmap UMap (unwrapped_fields m).
Proof.
  intros r i m. cbn [unwrapped]. match goal with |- bind ?a _ = _ => assert (E : a = unwrapped_fields m) end.
  { induction m as [|[k v] m IH]; [reflexivity|]. cbn [unwrapped_fields]. rewrite <- IH. reflexivity. }
  rewrite E. destruct (unwrapped_fields m); reflexivity.
Qed.

Lemma wrap_unwrap : forall u, unwrapped (from_any_ref u) = Ok u.
Proof.
  induction u as [|b|z|z|d|s|l IH|m IH] using data_induction; try reflexivity.
  - cbn [from_any_ref]. rewrite unwrapped_VList. assert (E : unwrapped_list (map from_any_ref l) = Ok l).
    { induction IH as [|u l H IH IHl]; [reflexivity|]. cbn [map unwrapped_list]. rewrite H, IHl. reflexivity. }
    rewrite E. reflexivity.
  - cbn [from_any_ref]. unfold new_object. rewrite unwrapped_VObj.
    assert (E : unwrapped_fields (map (fun ku => (fst ku, from_any_ref (snd ku))) m) = Ok m).
    { induction IH as [|[k u] m H IH IHm]; [reflexivity|]. cbn [map fst snd unwrapped_fields] in *. rewrite H, IHm. reflexivity. }
    rewrite E. reflexivity.
Qed.

Lemma unwrap_wrap : forall v u, unwrapped v = Ok u -> matching v (from_any_ref u).
Proof.
  induction v as [s|vs IH|r i m IH|n p o l|vs IH|vs IH|vs IH] using value_induction; intros u H; try discriminate H.
  - cbn in H. injection H as <-. destruct s; constructor.
  - rewrite unwrapped_VList in H. destruct (unwrapped_list vs) as [l| |] eqn:E; try discriminate H. injection H as <-. cbn [from_any_ref]. constructor.
    revert l E. induction IH as [|v vs Hv _ IHv]; intros l E; cbn [unwrapped_list] in E; [injection E as <-; constructor|].
    destruct (unwrapped v) as [u| |] eqn:U; try discriminate E. cbn [bind] in E. destruct (unwrapped_list vs) as [l'| |]; try discriminate E. injection E as <-.
    cbn [map]. constructor; auto.
  - rewrite unwrapped_VObj in H. destruct (unwrapped_fields m) as [l| |] eqn:E; try discriminate H. injection H as <-. cbn [from_any_ref]. unfold new_object. constructor.
    revert l E. induction IH as [|[k v] vs Hv _ IHv]; intros l E; cbn [unwrapped_fields] in E; [injection E as <-; constructor|].
    cbn [snd] in Hv. destruct (unwrapped v) as [u| |] eqn:U; try discriminate E. cbn [bind] in E. destruct (unwrapped_fields vs) as [l'| |]; try discriminate E. injection E as <-.
    cbn [map fst snd]. constructor; [split; [reflexivity|]; apply Hv; reflexivity|]. apply IHv. reflexivity.
Qed.

(** Exactly the values without unresolved parts can be unwrapped. *)
Lemma plain_unwraps : forall v, plain v -> exists u, unwrapped v = Ok u.
Proof.
  induction v as [s|vs IH|r i m IH|n p o l|vs IH|vs IH|vs IH] using value_induction; intro H; inversion H; subst.
  - eexists. reflexivity.
  - rewrite unwrapped_VList. assert (E : exists l, unwrapped_list vs = Ok l).
    { match goal with F : Forall plain vs |- _ => revert F end. clear H. induction IH as [|v vs Hv _ IHv]; intro F; [eexists; reflexivity|]. inversion F; subst.
      destruct (Hv ltac:(assumption)) as [u U]. destruct (IHv ltac:(assumption)) as [l L]. cbn [unwrapped_list]. rewrite U, L. eexists. reflexivity. }
    destruct E as [l ->]. eexists. reflexivity.
  - rewrite unwrapped_VObj. assert (E : exists l, unwrapped_fields m = Ok l).
    { match goal with F : Forall (fun kv => plain (snd kv)) m |- _ => revert F end. clear H. match goal with N : NoDup _ |- _ => clear N end. induction IH as [|[k v] vs Hv _ IHv]; intro F; [eexists; reflexivity|]. inversion F; subst. cbn [snd] in *.
      destruct (Hv ltac:(assumption)) as [u U]. destruct (IHv ltac:(assumption)) as [l L]. cbn [unwrapped_fields]. rewrite U, L. eexists. reflexivity. }
    destruct E as [l ->]. eexists. reflexivity.
Qed.

Lemma matching_unwrapped : forall v w, matching v w -> unwrapped v = unwrapped w.
Proof.
  induction v as [s|vs IH|r i m IH|n p o l|vs IH|vs IH|vs IH] using value_induction; intros w H; inversion H; subst; try reflexivity.
  - rewrite !unwrapped_VList. f_equal. match goal with F : Forall2 matching vs _ |- _ => revert F end. clear H. generalize dependent ws.
    induction IH as [|v vs Hv _ IHv]; intros ws F; inversion F; subst; [reflexivity|]. cbn [unwrapped_list]. rewrite (Hv y), (IHv l') by assumption. reflexivity.
  - rewrite !unwrapped_VObj. f_equal. match goal with F : Forall2 _ m _ |- _ => revert F end. clear H. generalize dependent m'.
    induction IH as [|[k v] vs Hv _ IHv]; intros ws F; inversion F as [|? [k' v'] ? ? [K V]]; subst; [reflexivity|]. cbn [fst snd] in *. subst. cbn [unwrapped_fields]. rewrite (Hv v'), (IHv l') by assumption. reflexivity.
Qed.

Lemma Forall2_len : forall A B (R : A -> B -> Prop) l l', Forall2 R l l' -> List.length l = List.length l'.
Proof. intros A B R l l' H. induction H; cbn; congruence. Qed.

(** Matching values compare equal. *)
Lemma same_number_text : forall a b, same_number a a -> (exists z t t', (a = SInt z t /\ b = SInt z t') \/ (a = SLong z t /\ b = SLong z t')) \/ (exists d t t', a = SDouble d t /\ b = SDouble d t') -> same_number a b.
Proof.
  intros a b [_ [_ [l [L1 [L2 E]]]]] [[z [t [t' [[-> ->]|[-> ->]]]]]|[d [t [t' [-> ->]]]]]; (split; [reflexivity|]; split; [reflexivity|]; exists l; split; [exact L1|]; split; [exact L2|exact E]).
Qed.
Lemma matching_contents : forall v w, matching v w -> well_keyed v -> comparable v -> same_contents v w.
Proof.
  induction v as [s|vs IH|r i m IH|n p o l|vs IH|vs IH|vs IH] using value_induction; intros w H K C; inversion H; subst; inversion K; subst; inversion C; subst; try solve [constructor].
  - apply same_num, same_number_text; [auto|]. left. eauto 7.
  - apply same_num, same_number_text; [auto|]. left. eauto 7.
  - apply same_num, same_number_text; [auto|]. right. eauto 7.
  - match goal with A : Forall2 matching _ _, B : Forall well_keyed _, D : Forall comparable _ |- _ => rename A into F; rename B into F1; rename D into F2 end.
    constructor. clear H K C. revert ws F. induction IH as [|v vs Hv _ IHv]; intros ws F; inversion F as [|a b la lb A B]; subst; [constructor|].
    inversion F1; inversion F2; subst. constructor; auto.
  - match goal with A : Forall2 _ m m', B : Forall (fun kv => well_keyed _) _, D : Forall (fun kv => comparable _) _ |- _ => rename A into F; rename B into F1; rename D into F2 end.
    constructor; [eapply Forall2_len; eassumption|]. clear H K C. match goal with N : NoDup _ |- _ => clear N end.
    revert m' F. induction IH as [|[k v] vs Hv _ IHv]; intros ws F k0 v0 E; inversion F as [|a [k' v'] la lb [E1 E2] B]; subst; [discriminate|].
    cbn [fst snd] in *. subst k'. cbn [find_key] in *. inversion F1; inversion F2; subst. cbn [snd] in *.
    destruct (str_eqb k0 k); [injection E as <-; exists v'; split; [reflexivity|]; apply Hv; assumption|]. eapply IHv; eassumption.
Qed.

(** ** Getters *)
Definition agree {A} (R : A -> A -> Prop) (x y : result A) : Prop :=
  match x, y with Ok a, Ok b => R a b | Throw e, Throw e' => e = e' | Stuck u, Stuck u' => u = u' | _, _ => False end.
Lemma agree_bind : forall A B (R : A -> A -> Prop) (Q : B -> B -> Prop) x y f g, agree R x y -> (forall a b, R a b -> agree Q (f a) (g b)) -> agree Q (bind x f) (bind y g).
Proof. intros A B R Q [a|e|u] [b|e'|u'] f g H K; cbn in *; try contradiction; auto. Qed.
Lemma agree_eq : forall A (x y : result A), agree eq x y -> x = y.
Proof. intros A [a|e|u] [b|e'|u'] H; cbn in H; try contradiction; congruence. Qed.
Lemma agree_refl : forall A (R : A -> A -> Prop) x, (forall a, R a a) -> agree R x x.
Proof. intros A R [a|e|u] H; cbn; auto. Qed.
Definition both (o o' : option value) : Prop := match o, o' with Some a, Some b => matching a b | None, None => True | _, _ => False end.

Lemma matching_type : forall v w, matching v w -> value_type v = value_type w.
Proof. intros v w H. destruct H; reflexivity. Qed.
Lemma matching_object : forall v w, matching v w -> is_object v = is_object w.
Proof. intros v w H. destruct H; reflexivity. Qed.
Lemma matching_refl_scalar : forall s, matching (VScalar s) (VScalar s).
Proof. intros []; constructor. Qed.
Lemma peek_matching : forall v w k, matching v w -> agree both (peek k v) (peek k w).
Proof.
  intros v w k H. destruct H; try reflexivity. cbn [peek agree].
  match goal with F : Forall2 _ _ _ |- _ => induction F as [|[k1 v1] [k2 v2] l l' [K V] F IH] end; [exact I|]. cbn [fst snd find_key] in *. subst k2. destruct (str_eqb k k1); [exact V|exact IH].
Qed.
Lemma transform_matching : forall v w t, matching v w -> t <> TString -> agree matching (transform v t) (transform w t).
Proof.
  intros v w t H T. destruct H; try (destruct t; try congruence; cbn; constructor; assumption).
  - unfold transform. destruct t; try congruence; cbn [bind value_type scalar_type]; try (constructor; fail).
    + destruct (lexical_cast_int64 s); [constructor|]. destruct (text_to_double s); constructor.
    + repeat match goal with |- context [if ?b then _ else _] => destruct b end; constructor.
    + destruct (str_eqb s (lit "null")); constructor.
Qed.
Lemma null_matching : forall v w, matching v w -> agree matching (throw_if_null v) (throw_if_null w).
Proof. intros v w H. unfold throw_if_null. rewrite (matching_type v w H). apply (agree_bind _ _ eq); [apply agree_refl; reflexivity|]. intros a b <-. destruct (vtype_eqb a TNull); [reflexivity|exact H]. Qed.
Lemma key_matching : forall v w k t, matching v w -> t <> TString -> agree matching (find_key_or_null v k t) (find_key_or_null w k t).
Proof.
  intros v w k t H T. unfold find_key_or_null. apply (agree_bind _ _ both).
  - unfold peek_assuming_resolved. pose proof (peek_matching v w k H) as P. destruct (peek k v), (peek k w); cbn in *; try contradiction; auto. subst. destruct (is_config_exn e0); reflexivity.
  - intros [a|] [b|] M; cbn in M; try contradiction; [|reflexivity]. destruct (vtype_eqb t TUnspecified); [exact M|].
    apply (agree_bind _ _ matching); [apply transform_matching; assumption|]. intros a' b' M'. rewrite (matching_type a' b' M'). apply (agree_bind _ _ eq); [apply agree_refl; reflexivity|].
    intros x y <-. destruct (vtype_eqb x t || vtype_eqb x TNull); [exact M'|reflexivity].
Qed.
Lemma sliced_agree : forall A (R : A -> A -> Prop) x y, agree R x y -> agree R (sliced x) (sliced y).
Proof. intros A R [a|e|u] [b|e'|u'] H; cbn in *; try contradiction; auto. subst. destruct (is_config_exn e'); reflexivity. Qed.
Lemma find_matching : forall p v w t o, matching v w -> t <> TString -> agree matching (find_or_null v p t o) (find_or_null w p t o).
Proof.
  induction p as [|k p IH]; intros v w t o H T; [reflexivity|]. cbn [find_or_null]. apply sliced_agree. destruct p as [|k2 p]; [apply key_matching; assumption|].
  apply (agree_bind _ _ eq); [apply agree_refl; reflexivity|]. intros _ _ _. apply (agree_bind _ _ matching).
  - unfold find_key_. apply (agree_bind _ _ matching); [apply key_matching; [assumption|discriminate]|]. intros. apply null_matching. assumption.
  - intros a b M. rewrite (matching_object a b M). destruct (is_object b); [apply IH; assumption|reflexivity].
Qed.
Lemma find_expr_matching : forall v w s t, matching v w -> t <> TString -> agree matching (Config_Model.find v s t) (Config_Model.find w s t).
Proof.
  intros v w s t H T. unfold Config_Model.find. apply (agree_bind _ _ eq); [apply agree_refl; reflexivity|]. intros p q <-.
  apply (agree_bind _ _ matching); [apply find_matching; assumption|]. intros. apply null_matching. assumption.
Qed.
Lemma peek_path_matching : forall p v w, matching v w -> agree both (peek_path v p) (peek_path w p).
Proof.
  induction p as [|k p IH]; intros v w H; [reflexivity|]. cbn [peek_path]. pose proof (peek_matching v w k H) as P.
  destruct (peek k v) as [a|e|u], (peek k w) as [b|e'|u']; cbn in P; try contradiction; try exact P; try reflexivity.
  destruct p as [|k2 p]; [exact P|]. destruct a, b; cbn in P; try contradiction; [|reflexivity]. rewrite (matching_object _ _ P). destruct (is_object v1); [apply IH; exact P|reflexivity].
Qed.
Lemma peek_expr_matching : forall v w s, matching v w -> agree both (has_path_peek v s) (has_path_peek w s).
Proof.
  intros v w s H. unfold has_path_peek. apply (agree_bind _ _ eq); [apply agree_refl; reflexivity|]. intros p q <-. apply sliced_agree, peek_path_matching, H.
Qed.

Definition same_number_value (s t : scalar) : Prop := matching (VScalar s) (VScalar t).
Lemma number_matching : forall v w s, matching v w -> agree same_number_value (get_number v s) (get_number w s).
Proof.
  intros v w s H. unfold get_number. apply (agree_bind _ _ matching); [apply find_expr_matching; [assumption|discriminate]|].
  intros a b M. destruct M; try reflexivity; cbn; constructor.
Qed.
Lemma list_matching : forall v w s, matching v w -> agree (Forall2 matching) (the_list v s) (the_list w s).
Proof.
  intros v w s H. unfold the_list, get_list. apply (agree_bind _ _ (fun o o' => match o, o' with Some a, Some b => Forall2 matching a b | None, None => True | _, _ => False end)).
  - apply (agree_bind _ _ matching); [apply find_expr_matching; [assumption|discriminate]|]. intros a b M. destruct M; cbn; auto.
  - intros [a|] [b|] M; cbn in *; try contradiction; auto.
Qed.
Lemma homogeneous_matching : forall A (pick : unwrapped_value -> option A) v w s, matching v w -> get_homogeneous pick v s = get_homogeneous pick w s.
Proof.
  intros A pick v w s H. apply agree_eq. unfold get_homogeneous. apply (agree_bind _ _ (Forall2 matching)); [apply list_matching, H|]. intros a b M.
  rewrite (matching_unwrapped (VList a) (VList b)) by (constructor; exact M). apply agree_refl. reflexivity.
Qed.

Lemma getters_agree : forall v w p, matching v w ->
  Config_Model.has_path v p = Config_Model.has_path w p /\ has_path_or_null v p = has_path_or_null w p /\ get_is_null v p = get_is_null w p /\
  get_bool v p = get_bool w p /\ get_int v p = get_int w p /\ get_long v p = get_long w p /\ get_double v p = get_double w p /\
  (forall unit, get_duration v p unit = get_duration w p unit) /\ get_any_ref v p = get_any_ref w p /\
  get_bool_list v p = get_bool_list w p /\ get_int_list v p = get_int_list w p /\ get_long_list v p = get_long_list w p /\
  get_double_list v p = get_double_list w p /\ get_string_list v p = get_string_list w p.
Proof.
  intros v w p H. repeat match goal with |- _ /\ _ => split end.
  - apply agree_eq. unfold Config_Model.has_path. apply (agree_bind _ _ both); [apply peek_expr_matching, H|]. intros [a|] [b|] M; cbn in M; try contradiction; [|reflexivity].
    rewrite (matching_type a b M). apply agree_refl. reflexivity.
  - apply agree_eq. unfold has_path_or_null. apply (agree_bind _ _ both); [apply peek_expr_matching, H|]. intros [a|] [b|] M; cbn in M; try contradiction; reflexivity.
  - apply agree_eq. unfold get_is_null, find_or_null_expr. apply (agree_bind _ _ matching).
    + apply (agree_bind _ _ eq); [apply agree_refl; reflexivity|]. intros q q' <-. apply find_matching; [exact H|discriminate].
    + intros a b M. rewrite (matching_type a b M). apply agree_refl. reflexivity.
  - apply agree_eq. unfold get_bool. apply (agree_bind _ _ matching); [apply find_expr_matching; [exact H|discriminate]|]. intros a b M. destruct M; reflexivity.
  - apply agree_eq. unfold get_int. apply (agree_bind _ _ same_number_value); [apply number_matching, H|]. intros a b M. inversion M; subst; apply agree_refl; reflexivity.
  - apply agree_eq. unfold get_long. apply (agree_bind _ _ same_number_value); [apply number_matching, H|]. intros a b M. inversion M; subst; apply agree_refl; reflexivity.
  - apply agree_eq. unfold get_double. apply (agree_bind _ _ same_number_value); [apply number_matching, H|]. intros a b M. inversion M; subst; apply agree_refl; reflexivity.
  - intro unit. apply agree_eq. unfold get_duration, get_timespan, get_value. apply (agree_bind _ _ eq).
    + apply (agree_bind _ _ matching); [apply find_expr_matching; [exact H|discriminate]|]. intros a b M. destruct M; try reflexivity; apply agree_refl; reflexivity.
    + intros a b <-. apply agree_refl. reflexivity.
  - apply agree_eq. unfold get_any_ref. apply (agree_bind _ _ matching); [apply find_expr_matching; [exact H|discriminate]|]. intros a b M. rewrite (matching_unwrapped a b M). apply agree_refl. reflexivity.
  - apply homogeneous_matching, H.
  - apply homogeneous_matching, H.
  - apply homogeneous_matching, H.
  - apply homogeneous_matching, H.
  - apply homogeneous_matching, H.
Qed.
