(** Looking up, whole values, clients and threads. *)
From Verif Require Import Base Util_Model Num_Model Path_Model PathParser_Model Token_Model Value_Model Value_Lemmas Duration_Model Config_Model
  Render_Model Resolve_Model Resolve_Lemmas4 Include_Model Share_Model Share_Spec Share_Lemmas Share_Lemmas2.

Lemma peek_layers_right : forall key (f : addr -> prog (option addr)) layers vs h, Forall2 (holds h) layers vs ->
  (forall h a v, In a layers -> holds h a v -> computes option_holds (f a) (peek key v) h) ->
  computes option_holds (peek_layers_h f layers) (peek_layers (peek key) vs) h.
Proof.
  intros key f layers. induction layers as [|a layers IH]; intros vs h F K; inversion F; subst; cbn [peek_layers_h peek_layers]; [apply computes_throw|].
  rename y into v. rename l' into vs.
  assert (T : forall h', extends h h' -> computes option_holds (peek_layers_h f layers) (peek_layers (peek key) vs) h').
  { intros h' E. apply IH; [eapply holds_all_extends; eauto|]. intros. apply K; [right; assumption|assumption]. }
  destruct (holds_cell h a v) as [c [N C]]; [assumption|]. eapply computes_read; [exact N|]. intros h1 E1. cbv beta.
  destruct C as (C1 & C2 & _ & C4 & _). rewrite C1, C2, C4. destruct (is_object v) eqn:O.
  - eapply computes_bind; [apply K; [left; reflexivity|eapply holds_extends; eauto]|]. intros h2 [w|] [u|] E2 Ho _; try contradiction.
    + eapply computes_step; [apply (ignores_right (S w)); [lia|exact Ho]|]. intros h3 i E3 Eq; unfold equal in Eq; subst i. destruct (ignores_fallbacks u).
      * apply computes_ret; [apply option_lasting|]. cbn. eapply holds_extends; eauto.
      * apply T. eapply extends_trans; [exact E1|]. eapply extends_trans; eauto.
    + destruct (is_unmergeable v); [apply computes_throw|]. apply T. eapply extends_trans; eauto.
  - destruct (is_unmergeable v) eqn:U; [apply computes_throw|]. destruct (is_resolved v) eqn:R; cbn [negb].
    + eapply computes_step; [apply (ignores_right (S a)); [lia|eapply holds_extends; eauto]|]. intros h3 i E3 Eq; unfold equal in Eq; subst i. destruct (ignores_fallbacks v); cbn [negb]; [apply computes_ret; [apply option_lasting|exact I]|apply computes_throw].
    + match goal with H : holds h a v |- _ => inversion H; subst end; try discriminate; match goal with M : nth_error h a = Some _ |- _ => rewrite N in M; injection M as -> end.
      apply T. exact E1.
Qed.

Lemma peek_right : forall n key a v h, (a < n)%nat -> holds h a v -> computes option_holds (peek_h n key a) (peek key v) h.
Proof.
  induction n as [|n IH]; intros key a v h L H; [lia|]. cbn [peek_h].
  inversion H; subst; (eapply computes_read; [eassumption|]); intros h1 E1; cbv beta iota; cbn [peek]; try (apply computes_ret; [apply option_lasting|exact I]).
  - apply computes_return. intros h2 E2. cbn. assert (F : fields_hold h2 m fs) by (apply (fields_lasting h); [exact (extends_trans _ _ _ E1 E2)|split; assumption]).
    pose proof (fields_find h2 key m fs F) as X. exact X.
  - apply peek_layers_right; [eapply holds_all_extends; eauto|]. intros h2 b w I' Hb. apply IH; [|exact Hb]. match goal with B : Forall _ l |- _ => rewrite Forall_forall in B; specialize (B b I') end. lia.
Qed.

Lemma sliced_agree : forall A B (R : heap -> A -> B -> Prop) h r u, agree R r u h -> agree R (sliced r) (sliced u) h.
Proof. intros A B R h [x|e|s] [y|e'|s'] H; cbn in *; try contradiction; subst; auto. destruct (is_config_exn e'); reflexivity. Qed.

Lemma peek_assuming_right : forall key a v h, holds h a v -> computes option_holds (peek_assuming_resolved_h a key) (peek_assuming_resolved v key) h.
Proof.
  intros key a v h H. unfold peek_assuming_resolved_h. replace (peek_assuming_resolved v key) with (sliced (peek key v)) by (unfold peek_assuming_resolved; destruct (peek key v); reflexivity).
  eapply (computes_handle _ _ _ _ option_holds option_holds _ _ sliced sliced); [intros; apply sliced_agree; assumption|apply (peek_right (S a)); [lia|exact H]].
Qed.

Lemma scalar_same_iff : forall a b, scalar_same a b = true <-> a = b.
Proof. intros a b. pose proof (same_eq (VScalar a) (VScalar b)) as X. cbn in X. split; [intro H; apply X in H; congruence|intros ->; apply (same_refl (VScalar b))]. Qed.

Lemma transform_scalar : forall s t v, transform (VScalar s) t = Ok v -> exists s', v = VScalar s'.
Proof.
  intros s t v. unfold transform. cbn [value_type bind]. destruct s; destruct t; cbn [scalar_type]; intro H;
    repeat match type of H with context [match ?x with _ => _ end] => destruct x end; try discriminate; injection H as <-; eexists; reflexivity.
Qed.
Lemma transform_other : forall v t, (forall s, v <> VScalar s) -> transform v t = (ty <- value_type v ;; match t, ty with TList, TObject => Throw EConfig | _, _ => Ok v end).
Proof. intros v t N. unfold transform. destruct v as [s|vs|r i m|? ? ? ?|vs|vs|vs]; try (exfalso; eapply N; reflexivity); cbn [value_type bind]; try reflexivity; destruct t; reflexivity. Qed.

Lemma transform_right : forall a v t h, holds h a v -> computes holds (transform_h a t) (transform v t) h.
Proof.
  intros a v t h H. unfold transform_h. destruct (holds_cell h a v H) as [c [N (_ & _ & _ & _ & C)]].
  assert (D : (exists s, v = VScalar s /\ c = CScalar s) \/ ((forall s, v <> VScalar s) /\ (forall s, c <> CScalar s))).
  { inversion H; subst; match goal with M : nth_error h a = Some _ |- _ => rewrite N in M; injection M as -> end; try (right; split; discriminate). left. eauto. }
  eapply computes_read; [exact N|]. intros h1 E1. destruct D as [[s [-> ->]]|[D1 D2]].
  - assert (X : computes holds (v <~ Return (transform (VScalar s) t) ;; match v with VScalar s' => if scalar_same s s' then ret a else new (CScalar s') | _ => ret a end)
      (u <- transform (VScalar s) t ;; Ok u) h1).
    { eapply computes_bind; [apply computes_pure|]. intros h2 x y E2 Exy T. unfold equal in Exy. subst x. destruct (transform_scalar _ _ _ T) as [s' ->].
      destruct (scalar_same s s') eqn:S.
      - apply scalar_same_iff in S. subst s'. apply computes_ret; [apply holds_lasting|]. eapply holds_extends; [|exact H]. eapply extends_trans; eauto.
      - apply computes_new. intros h3 E3. apply holds_scalar. apply nth_new. }
    destruct (transform (VScalar s) t); exact X.
  - rewrite transform_other by exact D1.
    replace (match c with CScalar _ => _ | _ => _ end) with (ty <~ Return (type_cell c) ;; match t, ty with TList, TObject => throw EConfig | _, _ => ret a end) by (destruct c; try reflexivity; exfalso; eapply D2; reflexivity).
    rewrite C. eapply computes_bind; [apply computes_pure|]. intros h2 x y E2 Exy _. unfold equal in Exy. subst x.
    assert (K : computes holds (ret a) (Ok v) h2) by (apply computes_ret; [apply holds_lasting|eapply holds_extends; [exact (extends_trans _ _ _ E1 E2)|exact H]]).
    destruct t; try exact K. destruct y; try exact K. apply computes_throw.
Qed.

Lemma typed_right : forall A B (R : heap -> A -> B -> Prop) a v h (f : vtype -> prog A) g, holds h a v ->
  (forall h' t, extends h h' -> computes R (f t) (g t) h') -> computes R (c <~ read a ;; t <~ Return (type_cell c) ;; f t) (t <- value_type v ;; g t) h.
Proof.
  intros A B R a v h f g H K. eapply computes_class; [exact H|]. intros h1 c E1 (_ & _ & _ & _ & C). rewrite C.
  eapply computes_bind; [apply computes_pure|]. intros h2 x y E2 Exy _. unfold equal in Exy. subst x. apply K. eapply extends_trans; eauto.
Qed.

Lemma throw_if_null_right : forall a v h, holds h a v -> computes holds (throw_if_null_h a) (throw_if_null v) h.
Proof.
  intros a v h H. unfold throw_if_null_h, throw_if_null. apply (typed_right _ _ holds a v h (fun t => if vtype_eqb t TNull then throw ENull else ret a) (fun t => if vtype_eqb t TNull then Throw ENull else Ok v)); [exact H|].
  intros h' t E. destruct (vtype_eqb t TNull); [apply computes_throw|apply computes_ret; [apply holds_lasting|eapply holds_extends; eauto]].
Qed.

Lemma find_key_or_null_right : forall a v key t h, holds h a v -> computes holds (find_key_or_null_h a key t) (find_key_or_null v key t) h.
Proof.
  intros a v key t h H. unfold find_key_or_null_h, find_key_or_null. eapply computes_bind; [apply peek_assuming_right; exact H|].
  intros h1 [b|] [w|] E1 Ho _; try contradiction; [|apply computes_throw]. cbn in Ho. destruct (vtype_eqb t TUnspecified); [apply computes_ret; [apply holds_lasting|exact Ho]|].
  eapply computes_bind; [apply transform_right; exact Ho|]. intros h2 b' w' E2 Hb' _.
  apply (typed_right _ _ holds b' w' h2 (fun ty => if vtype_eqb ty t || vtype_eqb ty TNull then ret b' else throw EWrongType) (fun ty => if vtype_eqb ty t || vtype_eqb ty TNull then Ok w' else Throw EWrongType)); [exact Hb'|].
  intros h3 ty E3. destruct (vtype_eqb ty t || vtype_eqb ty TNull); [apply computes_ret; [apply holds_lasting|eapply holds_extends; eauto]|apply computes_throw].
Qed.

Lemma find_or_null_right : forall p a v t o h, holds h a v -> computes holds (find_or_null_h a p t o) (find_or_null v p t o) h.
Proof.
  induction p as [|key next IH]; intros a v t o h H; cbn [find_or_null_h find_or_null].
  - apply computes_stuck.
  - eapply (computes_handle _ _ _ _ holds holds _ _ _ sliced); [intros; apply sliced_agree; assumption|]. destruct next as [|k2 next]; [apply find_key_or_null_right; exact H|].
    eapply computes_bind; [apply computes_pure|]. intros h1 _ _ E1 _ _. eapply computes_bind.
    { unfold find_key_h, find_key_. eapply computes_bind; [apply find_key_or_null_right; eapply holds_extends; eauto|]. intros h2 b w E2 Hb _. apply throw_if_null_right. exact Hb. }
    intros h2 b w E2 Hb _. eapply computes_class; [exact Hb|]. intros h3 c E3 (O & _). rewrite O. destruct (is_object w); [|apply computes_stuck]. apply IH. eapply holds_extends; eauto.
Qed.

Lemma find_right : forall a v e t h, holds h a v -> computes holds (find_h a e t) (find v e t) h.
Proof.
  intros a v e t h H. unfold find_h, find. eapply computes_bind; [apply computes_pure|]. intros h1 x y E1 Exy _. unfold equal in Exy. subst x.
  eapply computes_bind; [apply find_or_null_right; eapply holds_extends; eauto|]. intros h2 b w E2 Hb _. apply throw_if_null_right. exact Hb.
Qed.

(** ** Whole values *)
Lemma each_load : forall (f : addr -> prog value) l vs h, Forall2 (holds h) l vs -> (forall h a v, In a l -> holds h a v -> computes equal (f a) (Ok v) h) ->
  computes equal (each f l) (Ok vs) h.
Proof.
  intros f l. induction l as [|a l IH]; intros vs h F K; inversion F; subst; cbn [each].
  - apply computes_ret; [apply equal_lasting|reflexivity].
  - eapply computes_step; [apply K; [left; reflexivity|eassumption]|]. intros h1 x E1 Eq; unfold equal in Eq; subst x.
    eapply computes_step; [apply IH; [eapply holds_all_extends; eauto|intros; apply K; [right; assumption|assumption]]|]. intros h2 x E2 Eq; unfold equal in Eq; subst x.
    apply computes_ret; [apply equal_lasting|reflexivity].
Qed.
Lemma combine_split_fields : forall A (m : list (str * A)), combine (map fst m) (map snd m) = m.
Proof. induction m as [|[k a] m IH]; cbn; [reflexivity|]. now rewrite IH. Qed.

Lemma load_right : forall n a v h, (a < n)%nat -> holds h a v -> computes equal (load n a) (Ok v) h.
Proof.
  induction n as [|n IH]; intros a v h L H; [lia|]. cbn [load].
  assert (S : forall l vs h', Forall (fun b => b < a)%nat l -> Forall2 (holds h') l vs -> computes equal (each (load n) l) (Ok vs) h').
  { intros l vs h' B F. apply each_load; [exact F|]. intros h2 b w I' Hb. apply IH; [|exact Hb]. rewrite Forall_forall in B. specialize (B b I'). lia. }
  inversion H; subst; (eapply computes_read; [eassumption|]); intros h1 E1; cbv beta iota; try (apply computes_ret; [apply equal_lasting|reflexivity]);
    (eapply computes_step; [eapply S; [eassumption|eapply holds_all_extends; eauto]|]); intros h2 x E2 Eq; unfold equal in Eq; subst x; apply computes_ret; try apply equal_lasting; try reflexivity.
  unfold equal. f_equal. match goal with K : map fst m = map fst fs |- _ => rewrite K end. apply combine_split_fields.
Qed.

Definition all_hold (h : heap) (l : list addr) (vs : list value) : Prop := Forall2 (holds h) l vs.
Lemma all_lasting : lasting all_hold.
Proof. intros h h' l vs E F. eapply holds_all_extends; eauto. Qed.
Lemma each_store : forall A (g : A -> value) (f : A -> prog addr) l h, Forall (fun x => forall h, computes holds (f x) (Ok (g x)) h) l ->
  computes all_hold (each f l) (Ok (map g l)) h.
Proof.
  intros A g f l. induction l as [|x l IH]; intros h F; inversion F; subst; cbn [each map].
  - apply computes_ret; [apply all_lasting|constructor].
  - eapply computes_step; [match goal with H : forall h, computes holds (f x) _ h |- _ => apply H end|]. intros h1 a E1 Ha.
    eapply computes_step; [apply IH; assumption|]. intros h2 as_ E2 Hs. apply computes_ret; [apply all_lasting|]. constructor; [eapply holds_extends; eauto|exact Hs].
Qed.

Lemma hold_length : forall h l vs, Forall2 (holds h) l vs -> List.length l = List.length vs.
Proof. intros h l vs F. induction F; cbn; auto. Qed.
Lemma store_right : forall v h, computes holds (store v) (Ok v) h.
Proof.
  intro v. induction v as [s|vs IH|r i m IH|n p o l|vs IH|vs IH|vs IH] using value_induction; intro h; cbn [store].
  - apply computes_new. intros h' E. apply holds_scalar. apply nth_new.
  - eapply computes_step; [apply (each_store _ (fun v => v)); exact IH|]. intros h1 l E1 Hl. rewrite map_id in Hl. apply computes_new. intros h2 E2. eapply holds_list; [apply nth_new|eapply bound_new; eauto|eapply holds_all_new; eauto].
  - eapply computes_step; [apply (each_store _ (fun kv : str * value => snd kv)); exact IH|]. intros h1 l E1 Hl. apply computes_new. intros h2 E2.
    assert (K : map fst (combine (map fst m) l) = map fst m /\ map snd (combine (map fst m) l) = l).
    { unfold all_hold in Hl. apply hold_length in Hl. rewrite map_length in Hl. clear -Hl. revert l Hl. induction m as [|[k v] m IH]; intros [|a l] Hl; try discriminate; cbn; [auto|]. destruct (IH l) as [-> ->]; [cbn in Hl; lia|auto]. }
    eapply (fields_new h1); [reflexivity|exact E2|]. split; [exact (proj1 K)|]. rewrite (proj2 K). exact Hl.
  - apply computes_new. intros h' E. apply holds_ref. apply nth_new.
  - eapply computes_step; [apply (each_store _ (fun v => v)); exact IH|]. intros h1 l E1 Hl. rewrite map_id in Hl. apply computes_new. intros h2 E2. eapply holds_concat; [apply nth_new|eapply bound_new; eauto|eapply holds_all_new; eauto].
  - eapply computes_step; [apply (each_store _ (fun v => v)); exact IH|]. intros h1 l E1 Hl. rewrite map_id in Hl. apply computes_new. intros h2 E2. eapply holds_merge; [apply nth_new|eapply bound_new; eauto|eapply holds_all_new; eauto].
  - eapply computes_step; [apply (each_store _ (fun v => v)); exact IH|]. intros h1 l E1 Hl. rewrite map_id in Hl. apply computes_new. intros h2 E2. eapply holds_merge_obj; [apply nth_new|eapply bound_new; eauto|eapply holds_all_new; eauto].
Qed.

(** ** Clients *)
Lemma outcome_lasting : lasting same_outcome.
Proof. intros h h' x y E H. inversion H; subst; constructor. eapply holds_extends; eauto. Qed.
Lemma known_lasting : forall h h' xs ys, extends h h' -> Forall2 (same_outcome h) xs ys -> Forall2 (same_outcome h') xs ys.
Proof. intros h h' xs ys E F. induction F; constructor; auto. eapply outcome_lasting; eauto. Qed.
Lemma argument_right : forall h known vs x, Forall2 (same_outcome h) known vs ->
  (exists a v, argument known x = Some a /\ argument vs x = Some v /\ holds h a v) \/ (argument known x = None /\ argument vs x = None).
Proof.
  intros h known vs x F. revert x. unfold argument. induction F as [|o u known vs H F IH]; intros [|x]; cbn; auto.
  inversion H; subst; auto. left. eauto.
Qed.
Lemma gives_right : forall p u h, computes holds p u h -> computes same_outcome (c <~ p ;; ret (Gives c)) (v <- u ;; Ok (Gives v)) h.
Proof. intros p u h H. eapply computes_bind; [exact H|]. intros h' x y E Hx _. apply computes_ret; [apply outcome_lasting|constructor; exact Hx]. Qed.
Lemma refused_right : forall h, computes same_outcome (ret Refused) (Ok Refused) h.
Proof. intro h. apply computes_ret; [apply outcome_lasting|constructor]. Qed.
Lemma on_object_right : forall h a v p u, holds h a v -> (forall h', extends h h' -> computes same_outcome p u h') -> computes same_outcome (on_object a p) (for_object v u) h.
Proof.
  intros h a v p u H K. unfold on_object, for_object. eapply computes_class; [exact H|]. intros h1 c E1 (O & _). rewrite O. destruct (is_object v); [apply K; exact E1|apply refused_right].
Qed.
Lemma at_expression : forall h (f : path -> prog addr) g e, (forall h' p, extends h h' -> computes holds (f p) (g p) h') ->
  computes same_outcome (p <~ Return (new_path e) ;; c <~ f p ;; ret (Gives c)) (p <- new_path e ;; v <- g p ;; Ok (Gives v)) h.
Proof.
  intros h f g e K. eapply computes_bind; [apply computes_pure|]. intros h1 x y E1 Exy _. unfold equal in Exy. subst x. apply gives_right. apply K. exact E1.
Qed.

Section Clients.
Variable files : str -> option str.
Variable environment : list (str * str).
Variable include_depth resolve_depth : nat.
Notation perform_h := (perform_h files environment include_depth resolve_depth).
Notation perform := (perform files environment include_depth resolve_depth).

Ltac one F x := let a := fresh "a" in let v := fresh "v" in let A1 := fresh "A" in let A2 := fresh "A" in let H := fresh "H" in
  destruct (argument_right _ _ _ x F) as [[a [v [A1 [A2 H]]]]|[A1 A2]]; rewrite A1, A2; clear A1 A2.

Lemma perform_right : forall r known vs h, Forall2 (same_outcome h) known vs -> computes same_outcome (perform_h known r) (perform vs r) h.
Proof.
  intros r known vs h F. destruct r as [x y|x e y|x e|x e|x e|x k|x e|x e|x y al us|text o|x y|x q]; cbn [Share_Model.perform_h Share_Spec.perform].
  - one F x; [one F y|]; try apply refused_right. apply gives_right. apply with_fallback_right; [lia|assumption|assumption].
  - one F x; [one F y|]; try apply refused_right. apply on_object_right; [assumption|]. intros h1 E1. apply (at_expression h1 (fun p => with_value_h a p a0) (fun p => with_value v p v0)).
    intros h2 p E2. apply with_value_right; (eapply holds_extends; [eapply extends_trans; [exact E1|exact E2]|assumption]).
  - one F x; try apply refused_right. apply on_object_right; [assumption|]. intros h1 E1. apply (at_expression h1 (without_path_h a) (without_path v)).
    intros h2 p E2. apply without_path_right. eapply holds_extends; [eapply extends_trans; [exact E1|exact E2]|assumption].
  - one F x; try apply refused_right. apply on_object_right; [assumption|]. intros h1 E1. apply (at_expression h1 (with_only_path_h a) (with_only_path v)).
    intros h2 p E2. apply with_only_path_right. eapply holds_extends; [eapply extends_trans; [exact E1|exact E2]|assumption].
  - one F x; try apply refused_right. apply (at_expression h (at_path_h a) (at_path v)). intros h2 p E2. apply at_path_right.
  - one F x; try apply refused_right. apply gives_right. apply computes_throw.
  - one F x; try apply refused_right. apply on_object_right; [assumption|]. intros h1 E1. apply gives_right. apply find_right. eapply holds_extends; eauto.
  - one F x; try apply refused_right. apply on_object_right; [assumption|]. intros h1 E1. unfold get_object.
    replace (u <- (v0 <- find v e TObject;; Ok (if is_object v0 then Some v0 else None));; Ok (or_null u)) with (w <- find v e TObject ;; Ok (or_null (if is_object w then Some w else None))) by (destruct (find v e TObject); reflexivity).
    eapply computes_bind; [apply find_right; eapply holds_extends; eauto|]. intros h2 b w E2 Hb _. eapply computes_class; [exact Hb|]. intros h3 c E3 (O & _). rewrite O.
    apply computes_ret; [apply outcome_lasting|]. destruct (is_object w); constructor. eapply holds_extends; eauto.
  - one F x; [one F y|]; try apply refused_right. apply on_object_right; [assumption|]. intros h1 E1. apply on_object_right; [eapply holds_extends; eauto|]. intros h2 E2.
    assert (E : extends h h2) by (eapply extends_trans; eauto).
    eapply computes_step; [apply load_right; [lia|eapply holds_extends; [exact E|exact H]]|]. intros h3 x1 E3 Eq; unfold equal in Eq; subst x1.
    eapply computes_step; [apply load_right; [lia|eapply holds_extends; [eapply extends_trans; [exact E|exact E3]|exact H0]]|]. intros h4 x1 E4 Eq; unfold equal in Eq; subst x1.
    eapply computes_bind; [apply computes_pure|]. intros h5 x1 y1 E5 Eq _; unfold equal in Eq; subst x1. destruct y1 as [u|]; [|apply computes_ret; [apply outcome_lasting|constructor]].
    destruct (same u v) eqn:S.
    + apply same_eq in S. subst u. apply computes_ret; [apply outcome_lasting|]. constructor. eapply holds_extends; [|exact H]. eapply extends_trans; [exact E|]. eapply extends_trans; [exact E3|]. eapply extends_trans; eauto.
    + eapply computes_step; [apply store_right|]. intros h6 c E6 Hc. apply computes_ret; [apply outcome_lasting|constructor; exact Hc].
  - eapply computes_bind; [apply computes_pure|]. intros h1 x1 y1 E1 Eq _; unfold equal in Eq; subst x1. eapply computes_step; [apply store_right|]. intros h6 c E6 Hc. apply computes_ret; [apply outcome_lasting|constructor; exact Hc].
  - one F x; [one F y|]; try apply refused_right.
    eapply computes_step; [apply load_right; [lia|exact H]|]. intros h3 x1 E3 Eq; unfold equal in Eq; subst x1.
    eapply computes_step; [apply load_right; [lia|eapply holds_extends; [exact E3|exact H0]]|]. intros h4 x1 E4 Eq; unfold equal in Eq; subst x1.
    eapply computes_bind; [apply computes_pure|]. intros h5 x1 y1 E5 Eq _; unfold equal in Eq; subst x1. apply computes_ret; [apply outcome_lasting|constructor].
  - one F x; try apply refused_right. apply on_object_right; [assumption|]. intros h1 E1.
    eapply computes_step; [apply load_right; [lia|eapply holds_extends; [exact E1|exact H]]|]. intros h3 x1 E3 Eq; unfold equal in Eq; subst x1.
    eapply computes_bind; [apply computes_pure|]. intros h5 x1 y1 E5 Eq _; unfold equal in Eq; subst x1. apply computes_ret; [apply outcome_lasting|constructor].
Qed.

Definition outcomes (h : heap) (xs : list (outcome addr)) (ys : list (outcome value)) : Prop := Forall2 (same_outcome h) xs ys.
Lemma outcomes_lasting : lasting outcomes.
Proof. intros h h' xs ys E F. eapply known_lasting; eauto. Qed.

Lemma client_right : forall script known vs h, Forall2 (same_outcome h) known vs ->
  computes outcomes (client files environment include_depth resolve_depth known script) (alone files environment include_depth resolve_depth vs script) h.
Proof.
  induction script as [|r script IH]; intros known vs h F; cbn [client alone].
  - apply computes_ret; [apply outcomes_lasting|constructor].
  - eapply (computes_bind _ _ _ _ same_outcome).
    + eapply (computes_handle _ _ _ _ same_outcome same_outcome _ _ _ caught_by_client); [|apply perform_right; exact F].
      intros h' [x|e|s] [y|e'|s'] A; cbn in *; try contradiction; subst; auto. constructor.
    + intros h1 o u E1 Ho _. eapply computes_bind; [apply IH; apply Forall2_app; [eapply known_lasting; eauto|constructor; [exact Ho|constructor]]|].
      intros h2 xs ys E2 Hx _. apply computes_ret; [apply outcomes_lasting|]. constructor; [eapply outcome_lasting; eauto|exact Hx].
Qed.

(** ** Threads *)
Lemma agree_end : forall h r u, agree outcomes r u h -> same_end h r u.
Proof. intros h [x|e|s] [y|e'|s'] A; cbn in A; try contradiction; subst; constructor. exact A. Qed.

Definition meets_all {A} (h : heap) (ps : list (prog A)) (posts : list (result A -> heap -> Prop)) : Prop :=
  Forall2 (fun p post => meets p post h) ps posts.

Lemma step_meets : forall A (p : prog A) post h h' p', meets p post h -> step h p = (h', p') -> extends h h' /\ (meets p' post h').
Proof.
  intros A [r|a k|c k|a c k] post h h' p' M S; cbn in *; try contradiction; injection S as <- <-.
  - split; [apply extends_refl|exact M].
  - split; [apply extends_refl|]. pose proof (M h (extends_refl h)) as M1. destruct (nth_error h a) eqn:N; [exact M1|contradiction].
  - split; [apply extends_new|]. apply M. apply extends_refl.
Qed.

End Clients.
