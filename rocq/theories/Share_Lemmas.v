(** Programs that only read and create, under interference by others that only read and create. *)
From Verif Require Import Base Util_Model Num_Model Path_Model PathParser_Model Token_Model Value_Model Value_Lemmas Duration_Model Config_Model
  Render_Model Resolve_Model Include_Model Share_Model Share_Spec.

Definition extends (h h' : heap) : Prop := exists t, h' = h ++ t.
Lemma extends_refl : forall h, extends h h.
Proof. intro h. exists []. now rewrite app_nil_r. Qed.
Lemma extends_trans : forall h1 h2 h3, extends h1 h2 -> extends h2 h3 -> extends h1 h3.
Proof. intros h1 h2 h3 [t ->] [u ->]. exists (t ++ u). now rewrite app_assoc. Qed.
Lemma extends_new : forall h c, extends h (h ++ [c]).
Proof. intros h c. now exists [c]. Qed.
Lemma extends_nth : forall h h' a c, extends h h' -> nth_error h a = Some c -> nth_error h' a = Some c.
Proof. intros h h' a c [t ->] H. rewrite nth_error_app1; [exact H|]. apply nth_error_Some. rewrite H. discriminate. Qed.
#[export] Hint Resolve extends_refl extends_new : share.

Lemma holds_extends : forall v h h' a, extends h h' -> holds h a v -> holds h' a v.
Proof.
  intro v. induction v as [s|vs IH|r i m IH|n p o l|vs IH|vs IH|vs IH] using value_induction; intros h h' a E H; inversion H; subst.
  - apply holds_scalar. eapply extends_nth; eauto.
  - eapply holds_list; [eapply extends_nth; eauto|assumption|]. match goal with F : Forall2 _ _ vs |- _ => revert IH F; clear -E; intros IH F; induction F; inversion IH; subst; constructor; eauto end.
  - eapply holds_obj; [eapply extends_nth; eauto|assumption|assumption|]. match goal with F : Forall2 _ (map snd ?m0) (map snd m) |- _ => revert IH F; clear -E; generalize (map snd m0) end.
    induction m as [|[k w] m IHm]; cbn; intros l IH F; inversion F; subst; constructor; inversion IH; subst; cbn in *; eauto.
  - apply holds_ref. eapply extends_nth; eauto.
  - eapply holds_concat; [eapply extends_nth; eauto|assumption|]. match goal with F : Forall2 _ _ vs |- _ => revert IH F; clear -E; intros IH F; induction F; inversion IH; subst; constructor; eauto end.
  - eapply holds_merge; [eapply extends_nth; eauto|assumption|]. match goal with F : Forall2 _ _ vs |- _ => revert IH F; clear -E; intros IH F; induction F; inversion IH; subst; constructor; eauto end.
  - eapply holds_merge_obj; [eapply extends_nth; eauto|assumption|]. match goal with F : Forall2 _ _ vs |- _ => revert IH F; clear -E; intros IH F; induction F; inversion IH; subst; constructor; eauto end.
Qed.
Lemma holds_all_extends : forall h h' l vs, extends h h' -> Forall2 (holds h) l vs -> Forall2 (holds h') l vs.
Proof. intros h h' l vs E F. induction F; constructor; eauto using holds_extends. Qed.

Lemma holds_bound : forall h a v, holds h a v -> (a < List.length h)%nat.
Proof. intros h a v H. apply nth_error_Some. inversion H; subst; match goal with E : nth_error h a = _ |- _ => rewrite E end; discriminate. Qed.
Lemma holds_all_bound : forall h l vs, Forall2 (holds h) l vs -> Forall (fun b => b < List.length h)%nat l.
Proof. intros h l vs F. induction F; constructor; eauto using holds_bound. Qed.

Lemma holds_unique : forall v h a w, holds h a v -> holds h a w -> v = w.
Proof.
  assert (L : forall h vs, Forall (fun v => forall h a w, holds h a v -> holds h a w -> v = w) vs ->
    forall l ws, Forall2 (holds h) l vs -> Forall2 (holds h) l ws -> vs = ws).
  { intros h vs IH. induction IH as [|v vs Hv _ IHvs]; intros l ws F G; inversion F; subst; inversion G; subst; [reflexivity|]. f_equal; eauto. }
  intro v. induction v as [s|vs IH|r i m IH|n p o l|vs IH|vs IH|vs IH] using value_induction; intros h a w H G; inversion H; subst; inversion G; subst;
    match goal with E1 : nth_error h a = Some _, E2 : nth_error h a = Some _ |- _ => rewrite E1 in E2; inversion E2; subst end; try reflexivity; try (f_equal; eapply L; eassumption).
  f_equal. match goal with K1 : map fst ?q = map fst m, K2 : map fst ?q = map fst ?fs, F1 : Forall2 _ _ (map snd m), F2 : Forall2 _ _ (map snd ?fs) |- _ =>
    assert (S1 : map snd m = map snd fs); [|assert (S2 : map fst m = map fst fs) by congruence; clear -S1 S2; revert fs S1 S2] end.
  - eapply L; [|eassumption|eassumption]. clear -IH. induction IH; cbn; constructor; auto.
  - induction m as [|[k x] m IHm]; intros [|[k' x'] fs] S1 S2; try discriminate; [reflexivity|]. injection S1 as -> S1. injection S2 as -> S2. f_equal. auto.
Qed.

(** ** Meeting a postcondition whatever the others create *)
Fixpoint meets {A} (p : prog A) (post : result A -> heap -> Prop) (h : heap) : Prop :=
  match p with
  | Return r => forall h', extends h h' -> post r h'
  | Read a k => forall h', extends h h' ->
      match nth_error h' a with Some c => meets (k c) post h' | None => False end
  | New c k => forall h', extends h h' -> meets (k (List.length h')) post (h' ++ [c])
  | Write _ _ _ => False
  end.

Lemma meets_extends : forall A (p : prog A) post h h', extends h h' -> meets p post h -> meets p post h'.
Proof. intros A [r|a k|c k|a c k] post h h' E M; cbn in *; try contradiction; intros h'' E'; apply M; eapply extends_trans; eauto. Qed.

Definition agree {A B} (R : heap -> A -> B -> Prop) (r : result A) (u : result B) (h : heap) : Prop :=
  match r, u with
  | Ok x, Ok y => R h x y
  | Throw e, Throw e' => e = e'
  | Stuck s, Stuck s' => s = s'
  | _, _ => False
  end.
Definition lasting {A B} (R : heap -> A -> B -> Prop) : Prop := forall h h' x y, extends h h' -> R h x y -> R h' x y.
(** [p] gives what the pure computation gives *)
Definition computes {A B} (R : heap -> A -> B -> Prop) (p : prog A) (u : result B) (h : heap) : Prop :=
  meets p (fun r h' => agree R r u h') h.

Definition equal {A} (h : heap) (x y : A) : Prop := x = y.
Lemma equal_lasting : forall A, lasting (@equal A).
Proof. intros A h h' x y _ E. exact E. Qed.
Lemma holds_lasting : lasting holds.
Proof. intros h h' x y E H. eapply holds_extends; eauto. Qed.

Lemma computes_extends : forall A B (R : heap -> A -> B -> Prop) p u h h', extends h h' -> computes R p u h -> computes R p u h'.
Proof. intros. eapply meets_extends; eauto. Qed.

Lemma computes_return : forall A B (R : heap -> A -> B -> Prop) h r u, (forall h', extends h h' -> agree R r u h') -> computes R (Return r) u h.
Proof. intros A B R h r u H. exact H. Qed.
Lemma computes_ret : forall A B (R : heap -> A -> B -> Prop) h x y, lasting R -> R h x y -> computes R (ret x) (Ok y) h.
Proof. intros A B R h x y L H h' E. cbn. eapply L; eauto. Qed.
Lemma computes_throw : forall A B (R : heap -> A -> B -> Prop) h e, computes R (throw e) (Throw e) h.
Proof. intros A B R h e h' E. reflexivity. Qed.
Lemma computes_stuck : forall A B (R : heap -> A -> B -> Prop) h s, computes R (Return (Stuck s)) (Stuck s) h.
Proof. intros A B R h e h' E. reflexivity. Qed.
Lemma computes_pure : forall A h (r : result A), computes equal (Return r) r h.
Proof. intros A h [a|e|u] h' E; reflexivity. Qed.

Lemma meets_andthen : forall A B (p : prog A) (f : A -> prog B) post h,
  meets p (fun r h' => match r with Ok a => meets (f a) post h' | Throw e => post (Throw e) h' | Stuck u => post (Stuck u) h' end) h ->
  meets (andthen p f) post h.
Proof.
  intros A B p f post. induction p as [r|a k IH|c k IH|a c k IH]; intros h M; cbn in *; try contradiction.
  - destruct r as [a|e|u]; cbn; [|exact M|exact M]. apply (M h). apply extends_refl.
  - intros h' E. specialize (M h' E). destruct (nth_error h' a); auto.
  - intros h' E. auto.
Qed.
Lemma meets_post : forall A (p : prog A) (P Q : result A -> heap -> Prop) h, (forall r h', extends h h' -> P r h' -> Q r h') -> meets p P h -> meets p Q h.
Proof.
  intros A p P Q. induction p as [r|a k IH|c k IH|a c k IH]; intros h H M; cbn in *; try contradiction.
  - auto.
  - intros h' E. specialize (M h' E). destruct (nth_error h' a); [|auto]. apply IH; [|exact M]. intros r h'' E'. apply H. eapply extends_trans; eauto.
  - intros h' E. apply IH; [|auto]. intros r h'' E'. apply H. eapply extends_trans; [|exact E']. eapply extends_trans; [exact E|apply extends_new].
Qed.

Lemma computes_bind : forall A B A' B' (R : heap -> A -> B -> Prop) (R' : heap -> A' -> B' -> Prop) p u f g h,
  computes R p u h -> (forall h' x y, extends h h' -> R h' x y -> u = Ok y -> computes R' (f x) (g y) h') ->
  computes R' (andthen p f) (bind u g) h.
Proof.
  intros A B A' B' R R' p u f g h M K. apply meets_andthen. eapply meets_post; [|exact M].
  intros [x|e|s] h' E; destruct u as [y|e'|s']; cbn; try contradiction; intro H; [apply K; auto|subst; reflexivity|subst; reflexivity].
Qed.
(** the result needs no step in the pure computation *)
Lemma computes_step : forall A A' B' B (R : heap -> A -> B -> Prop) (R' : heap -> A' -> B' -> Prop) p y f u h,
  computes R p (Ok y) h -> (forall h' x, extends h h' -> R h' x y -> computes R' (f x) u h') -> computes R' (andthen p f) u h.
Proof. intros A A' B' B R R' p y f u h M K. apply (computes_bind _ _ _ _ R R' p (Ok y) f (fun _ => u)); [exact M|]. intros h' x y' E H Y. injection Y as <-. auto. Qed.
Lemma computes_read : forall A B (R : heap -> A -> B -> Prop) h a c (f : cell -> prog A) u, nth_error h a = Some c ->
  (forall h', extends h h' -> computes R (f c) u h') -> computes R (andthen (read a) f) u h.
Proof. intros A B R h a c f u N K. cbn. intros h' E. rewrite (extends_nth _ _ _ _ E N). apply K. exact E. Qed.
Lemma computes_new : forall h c v, (forall h', extends h h' -> holds (h' ++ [c]) (List.length h') v) -> computes holds (new c) (Ok v) h.
Proof. intros h c v K h' E. cbn. intros h'' E'. eapply holds_extends; eauto. Qed.
Lemma computes_handle : forall A B A' B' (R : heap -> A -> B -> Prop) (R' : heap -> A' -> B' -> Prop) p u f g h,
  (forall h' r u', agree R r u' h' -> agree R' (f r) (g u') h') -> computes R p u h -> computes R' (handle p f) (g u) h.
Proof.
  intros A B A' B' R R' p u f g. induction p as [r|a k IH|c k IH|a c k IH]; intros h H M; cbn in *; try contradiction.
  - intros h' E. apply H. apply M. exact E.
  - intros h' E. specialize (M h' E). destruct (nth_error h' a); [apply IH; auto|exact M].
  - intros h' E. apply IH; auto. apply M. exact E.
Qed.

Lemma nth_new : forall (h : heap) c, nth_error (h ++ [c]) (List.length h) = Some c.
Proof. intros h c. rewrite nth_error_app2 by lia. rewrite Nat.sub_diag. reflexivity. Qed.
Lemma holds_all_new : forall h h' c l vs, extends h h' -> Forall2 (holds h) l vs -> Forall2 (holds (h' ++ [c])) l vs.
Proof. intros h h' c l vs E F. eapply holds_all_extends; [|exact F]. eapply extends_trans; [exact E|apply extends_new]. Qed.
Lemma bound_new : forall h h' l vs, extends h h' -> Forall2 (holds h) l vs -> Forall (fun b => b < List.length h')%nat l.
Proof. intros h h' l vs E F. apply (holds_all_bound h' l vs). eapply holds_all_extends; eauto. Qed.

(** ** Fields *)
(** the entries of a map, with addresses and with contents *)
Definition fields_hold (h : heap) (m : list (str * addr)) (fs : fields) : Prop := map fst m = map fst fs /\ Forall2 (holds h) (map snd m) (map snd fs).
Lemma fields_lasting : lasting fields_hold.
Proof. intros h h' m fs E [K F]. split; [exact K|eapply holds_all_extends; eauto]. Qed.
Lemma fields_cons : forall h k a m k' v fs, fields_hold h ((k, a) :: m) ((k', v) :: fs) <-> k = k' /\ holds h a v /\ fields_hold h m fs.
Proof.
  intros h k a m k' v fs. unfold fields_hold. cbn. split.
  - intros [K F]. injection K as -> K. inversion F; subst. auto.
  - intros [-> [H [K F]]]. split; [f_equal; exact K|constructor; auto].
Qed.
Lemma fields_induct : forall h (P : list (str * addr) -> fields -> Prop), P [] [] ->
  (forall k a m v fs, holds h a v -> fields_hold h m fs -> P m fs -> P ((k, a) :: m) ((k, v) :: fs)) -> forall m fs, fields_hold h m fs -> P m fs.
Proof.
  intros h P P0 P1 m. induction m as [|[k a] m IH]; intros [|[k' v] fs] H.
  - exact P0.
  - destruct H as [K _]. discriminate.
  - destruct H as [K _]. discriminate.
  - apply fields_cons in H as [-> [H1 H2]]. apply P1; auto.
Qed.
Lemma fields_nil : forall h, fields_hold h [] [].
Proof. intro h. split; [reflexivity|constructor]. Qed.
Lemma fields_app : forall h m1 m2 f1 f2, fields_hold h m1 f1 -> fields_hold h m2 f2 -> fields_hold h (m1 ++ m2) (f1 ++ f2).
Proof. intros h m1 m2 f1 f2 [K1 F1] [K2 F2]. split; [rewrite !map_app, K1, K2; reflexivity|rewrite !map_app; apply Forall2_app; assumption]. Qed.
Lemma fields_find : forall h k m fs, fields_hold h m fs ->
  match find_key k m, find_key k fs with Some a, Some v => holds h a v | None, None => True | _, _ => False end.
Proof.
  intros h k m fs H. induction H as [|k' a m v fs Ha Hm IH] using fields_induct; cbn; [exact I|]. destruct (str_eqb k k'); auto.
Qed.
Lemma fields_filter : forall h (P : str -> bool) m fs, fields_hold h m fs ->
  fields_hold h (filter (fun ka => P (fst ka)) m) (filter (fun kv => P (fst kv)) fs).
Proof.
  intros h P m fs H. induction H as [|k a m v fs Ha Hm IH] using fields_induct; cbn; [apply fields_nil|]. destruct (P k); [apply fields_cons; auto|exact IH].
Qed.
Lemma find_in_snd : forall A k (m : list (str * A)) a, find_key k m = Some a -> In a (map snd m).
Proof. intros A k m a H. apply find_key_in in H. apply (in_map snd) in H. exact H. Qed.
Lemma fields_new : forall h h' c r i m fs, c = CObj r i m -> extends h h' -> fields_hold h m fs -> holds (h' ++ [c]) (List.length h') (VObj r i fs).
Proof.
  intros h h' c r i m fs -> E [K F]. eapply holds_obj; [apply nth_new|eapply bound_new; eauto|exact K|eapply holds_all_new; eauto].
Qed.

(** ** Classes *)
Definition class_of (c : cell) (v : value) : Prop :=
  object_cell c = is_object v /\ unmergeable_cell c = is_unmergeable v /\ delayed_cell c = is_delayed v /\ resolved_cell c = is_resolved v /\ type_cell c = value_type v.
Lemma holds_cell : forall h a v, holds h a v -> exists c, nth_error h a = Some c /\ class_of c v.
Proof. intros h a v H. inversion H; subst; eexists; (split; [eassumption|repeat split]). Qed.

Lemma computes_class : forall A B (R : heap -> A -> B -> Prop) h a v (f : cell -> prog A) u, holds h a v ->
  (forall h' c, extends h h' -> class_of c v -> computes R (f c) u h') -> computes R (andthen (read a) f) u h.
Proof. intros A B R h a v f u H K. apply holds_cell in H as [c [N C]]. eapply computes_read; [exact N|]. intros h' E. apply K; auto. Qed.

Lemma all_resolved_right : forall l vs h, Forall2 (holds h) l vs -> computes equal (all_resolved l) (Ok (forallb is_resolved vs)) h.
Proof.
  induction l as [|a l IH]; intros vs h F; inversion F; subst; cbn [all_resolved forallb].
  - apply computes_ret; [apply equal_lasting|reflexivity].
  - eapply computes_class; [eassumption|]. intros h' c E (_ & _ & _ & C & _). rewrite C. destruct (is_resolved _).
    + cbn. apply IH. eapply holds_all_extends; eauto.
    + apply computes_ret; [apply equal_lasting|reflexivity].
Qed.
Lemma fields_resolved_map : forall m, fields_resolved m = forallb is_resolved (map snd m).
Proof. intro m. unfold fields_resolved. induction m as [|kv m IH]; cbn; [reflexivity|]. now rewrite IH. Qed.
Lemma all_resolved_fields : forall m fs h, fields_hold h m fs -> computes equal (all_resolved (map snd m)) (Ok (fields_resolved fs)) h.
Proof. intros m fs h [_ F]. rewrite fields_resolved_map. apply all_resolved_right. exact F. Qed.
Lemma any_delayed_right : forall l vs h, Forall2 (holds h) l vs -> computes equal (any_delayed l) (Ok (existsb is_delayed vs)) h.
Proof.
  induction l as [|a l IH]; intros vs h F; inversion F; subst; cbn [any_delayed existsb].
  - apply computes_ret; [apply equal_lasting|reflexivity].
  - eapply computes_class; [eassumption|]. intros h' c E (_ & _ & C & _). rewrite C. destruct (is_delayed _).
    + apply computes_ret; [apply equal_lasting|reflexivity].
    + cbn. apply IH. eapply holds_all_extends; eauto.
Qed.

Lemma back_ignores : forall vs, (fix back (l : list value) : bool :=
         match l with [] => false | [v] => ignores_fallbacks v | _ :: l' => back l' end) vs = match rev vs with [] => false | v :: _ => ignores_fallbacks v end.
Proof.
  induction vs as [|v vs IH]; [reflexivity|]. cbn [rev]. destruct vs as [|w vs]; [reflexivity|]. rewrite IH. cbn [rev].
  destruct (rev vs ++ [w]) as [|x l] eqn:E; [destruct (rev vs); discriminate|]. reflexivity.
Qed.
Lemma Forall2_rev : forall A B (R : A -> B -> Prop) l m, Forall2 R l m -> Forall2 R (rev l) (rev m).
Proof. intros A B R l m F. induction F; cbn; [constructor|]. apply Forall2_app; [assumption|]. constructor; [assumption|constructor]. Qed.

Lemma ignores_right : forall n a v h, (a < n)%nat -> holds h a v -> computes equal (ignores_h n a) (Ok (ignores_fallbacks v)) h.
Proof.
  induction n as [|n IH]; intros a v h L H; [lia|]. cbn [ignores_h].
  assert (S : forall l vs, Forall (fun b => b < a)%nat l -> Forall2 (holds h) l vs -> forall h', extends h h' ->
    computes equal (match rev l with [] => ret false | b :: _ => ignores_h n b end) (Ok (match rev vs with [] => false | v :: _ => ignores_fallbacks v end)) h').
  { intros l vs B F h' E. apply Forall2_rev in F. apply Forall_rev in B. destruct (rev l) as [|b l']; inversion F; subst.
    - apply computes_ret; [apply equal_lasting|reflexivity].
    - inversion B; subst. apply IH; [lia|]. eapply holds_extends; eauto. }
  inversion H; subst; (eapply computes_read; [eassumption|]); intros h' E; cbn [ignores_fallbacks];
    try (apply computes_ret; [apply equal_lasting|reflexivity]); rewrite back_ignores; eapply S; eauto.
Qed.
