(** The programs of the operations compute what the value model computes. *)
From Verif Require Import Base Util_Model Num_Model Path_Model PathParser_Model Token_Model Value_Model Value_Lemmas Duration_Model Config_Model
  Render_Model Resolve_Model Include_Model Share_Model Share_Spec Share_Lemmas.

Lemma construct_right : forall h c this a l vs, class_of c this -> holds h a this -> Forall2 (holds h) l vs ->
  computes holds (construct_h c (a :: l)) (construct_delayed_merge this (this :: vs)) h.
Proof.
  intros h c this a l vs (C1 & _) Ha F. unfold construct_h, construct_delayed_merge. rewrite C1. destruct (is_object this) eqn:O.
  - unfold new_delayed_merge_object. rewrite O. cbn [negb].
    eapply computes_step; [apply any_delayed_right; constructor; eauto|]. intros h' d E Eq; unfold equal in Eq; subst d. destruct (existsb is_delayed (this :: vs)); [apply computes_throw|].
    apply computes_new. intros h'' E''. assert (G : Forall2 (holds h') (a :: l) (this :: vs)) by (eapply holds_all_extends; [exact E|constructor; eauto]).
    eapply holds_merge_obj; [apply nth_new|eapply bound_new; eauto|eapply holds_all_new; eauto].
  - cbn [new_delayed_merge]. apply computes_new. intros h'' E''. assert (G : Forall2 (holds h) (a :: l) (this :: vs)) by (constructor; eauto).
    eapply holds_merge; [apply nth_new|eapply bound_new; eauto|eapply holds_all_new; eauto].
Qed.

Lemma unmergeable_right : forall h a this c b other d, class_of c this -> holds h a this -> holds h b other -> nth_error h b = Some d ->
  computes holds (merged_with_the_unmergeable_h a c b d) (merged_with_the_unmergeable this other) h.
Proof.
  intros h a this c b other d C Ha Hb N. unfold merged_with_the_unmergeable_h, merged_with_the_unmergeable.
  eapply computes_step; [apply (ignores_right (S a)); [lia|exact Ha]|]. intros h' i E Eq; unfold equal in Eq; subst i. destruct (ignores_fallbacks this); [apply computes_throw|].
  assert (F : Forall2 (holds h) (match d with CMerge stack | CMergeObj stack => stack | _ => [b] end) (unmerged_values other)).
  { inversion Hb; subst; rewrite N in *; match goal with E : Some _ = Some _ |- _ => inversion E; subst end; cbn [unmerged_values]; try assumption; (constructor; [assumption|constructor]). }
  eapply computes_extends; [exact E|]. apply construct_right; auto.
Qed.

Lemma non_object_right : forall h a this c b other, nth_error h a = Some c -> holds h a this -> holds h b other ->
  computes holds (merged_with_non_object_h a c b) (merged_with_non_object this other) h.
Proof.
  intros h a this c b other N Ha Hb. unfold merged_with_non_object_h, merged_with_non_object.
  destruct (holds_cell _ _ _ Ha) as [c' [N' C]]. rewrite N in N'. injection N' as <-.
  eapply computes_step; [apply (ignores_right (S a)); [lia|exact Ha]|]. intros h' i E Eq; unfold equal in Eq; subst i. destruct (ignores_fallbacks this) eqn:I; [apply computes_throw|].
  pose proof C as (_ & _ & _ & C4 & _). rewrite C4. destruct (is_resolved this) eqn:Rs.
  - assert (G : holds h' a this) by (eapply holds_extends; eauto).
    inversion Ha; subst; match goal with M : nth_error h a = Some _ |- _ => rewrite M in N; injection N as <- end; try discriminate; unfold with_fallbacks_ignored.
    + cbn in I, Rs; congruence.
    + apply computes_new. intros h'' E''. eapply (fields_new h); [reflexivity|exact (extends_trans _ _ _ E E'')|]. split; eassumption.
  - eapply computes_extends; [exact E|]. apply construct_right; [exact C|exact Ha|]. constructor; [exact Hb|constructor].
Qed.

Lemma only_fallback_right : forall h m fs m2 fs2, fields_hold h m fs -> fields_hold h m2 fs2 ->
  fields_hold h (only_fallback_h m m2) (only_fallback fs fs2).
Proof.
  intros h m fs m2 fs2 H G. unfold only_fallback_h, only_fallback.
  replace (filter (fun kv : str * value => match find_key (fst kv) fs with Some _ => false | None => true end) fs2)
    with (filter (fun kv : str * value => match find_key (fst kv) m with Some _ => false | None => true end) fs2).
  - apply (fields_filter h (fun k => match find_key k m with Some _ => false | None => true end)). exact G.
  - apply filter_ext. intros [k v]. cbn. pose proof (fields_find h k m fs H) as F. destruct (find_key k m), (find_key k fs); auto; contradiction.
Qed.

Lemma same_addresses_eq : forall m ours, map fst ours = map fst m -> same_addresses m ours = true -> ours = m.
Proof.
  induction m as [|[k a] m IH]; intros [|[k' b] ours] K S; try discriminate; [reflexivity|]. cbn in S. apply andb_true_iff in S as [S1 S2]. apply Nat.eqb_eq in S1. injection K as -> K. subst b. f_equal. auto.
Qed.
Lemma same_addresses_length : forall m n, same_addresses m n = true -> List.length m = List.length n.
Proof. induction m as [|[k a] m IH]; intros [|[k' b] n] S; try discriminate; [reflexivity|]. cbn in S. apply andb_true_iff in S as [_ S]. cbn. f_equal. auto. Qed.

Lemma merge_ours_right : forall (f : addr -> addr -> prog addr) m fs h0 m2 fs2, fields_hold h0 m fs -> fields_hold h0 m2 fs2 ->
  (forall h a v b w, In a (map snd m) -> holds h a v -> holds h b w -> computes holds (f a b) (with_fallback v w) h) ->
  computes (fun h ours us => fields_hold h ours us /\ map fst ours = map fst m) (merge_ours_h f m m2) (merge_ours with_fallback fs fs2) h0.
Proof.
  intros f m fs h0 m2 fs2 H G K. revert h0 H G. revert fs. induction m as [|[k a] m IH]; intros fs h0 H G.
  - destruct fs as [|[k v] fs]; [|destruct H as [X _]; discriminate]. cbn. intros h' E. cbn. split; [apply fields_nil|reflexivity].
  - destruct fs as [|[k' v] fs]; [destruct H as [X _]; discriminate|]. apply fields_cons in H as [<- [Ha Hm]]. cbn [merge_ours_h merge_ours].
    eapply (computes_bind _ _ _ _ holds).
    + pose proof (fields_find h0 k m2 fs2 G) as F. destruct (find_key k m2) as [b|], (find_key k fs2) as [w|]; try contradiction.
      * apply K; [left; reflexivity|exact Ha|exact F].
      * apply computes_ret; [apply holds_lasting|exact Ha].
    + intros h1 kept u E1 Hk _. eapply computes_bind; [apply IH; [intros; apply K; auto; right; assumption|eapply fields_lasting; eauto|eapply fields_lasting; eauto]|].
      intros h2 ours us E2 [Ho Ho'] _. intros h3 E3. cbn. split; [|cbn; f_equal; exact Ho'].
      apply fields_cons. split; [reflexivity|]. split; [eapply holds_extends; [|exact Hk]; eapply extends_trans; eauto|eapply fields_lasting; eauto].
Qed.

Lemma with_fallback_right : forall n a b v w h, (a < n)%nat -> holds h a v -> holds h b w -> computes holds (with_fallback_h n a b) (with_fallback v w) h.
Proof.
  induction n as [|n IH]; intros a b v w h L Ha Hb; [lia|]. cbn [with_fallback_h].
  replace (with_fallback v w) with (if ignores_fallbacks v then Ok v
    else if is_unmergeable w then merged_with_the_unmergeable v w
    else match w with
       | VObj _ i2 m2 =>
           match v with
           | VObj r _ m =>
               ours <- merge_ours with_fallback m m2 ;;
               let merged := ours ++ only_fallback m m2 in
               Ok (VObj (fields_resolved merged) i2 merged)
           | VMergeObj _ => Throw EConfig
           | _ => merged_with_non_object v w
           end
       | _ => merged_with_non_object v w
       end) by (destruct v; reflexivity).
  eapply computes_step; [apply (ignores_right (S a)); [lia|exact Ha]|]. intros h1 i E1 Eq; unfold equal in Eq; subst i. destruct (ignores_fallbacks v) eqn:I.
  { apply computes_ret; [apply holds_lasting|eapply holds_extends; eauto]. }
  assert (Ha1 : holds h1 a v) by (eapply holds_extends; eauto). assert (Hb1 : holds h1 b w) by (eapply holds_extends; eauto). clear Ha Hb.
  destruct (holds_cell _ _ _ Ha1) as [c [Nc Cc]]. destruct (holds_cell _ _ _ Hb1) as [d [Nd Cd]].
  eapply computes_read; [exact Nc|]. intros h2 E2. eapply computes_read; [eapply extends_nth; eauto|]. intros h3 E3.
  assert (E13 : extends h1 h3) by (eapply extends_trans; eauto).
  assert (Ha : holds h3 a v) by (eapply holds_extends; eauto). assert (Hb : holds h3 b w) by (eapply holds_extends; eauto).
  assert (Nc3 : nth_error h3 a = Some c) by (eapply extends_nth; eauto). assert (Nd3 : nth_error h3 b = Some d) by (eapply extends_nth; eauto).
  clear h h1 h2 E1 E2 E3 E13 Ha1 Hb1 Nc Nd. destruct Cd as (_ & U & _). rewrite U. destruct (is_unmergeable w) eqn:Uw.
  { apply unmergeable_right; auto. }
  pose proof (non_object_right h3 a v c b w Nc3 Ha Hb) as NO.
  inversion Hb as [| |? r2 i2 m2 fs2 N2 B2 K2 F2| | | |]; subst w; try discriminate; match goal with N : nth_error h3 b = Some _ |- _ => rewrite Nd3 in N; injection N as -> end; try exact NO.
  inversion Ha as [| |? r i1 m fs N B K F| | | |]; subst v; match goal with N : nth_error h3 a = Some _ |- _ => rewrite Nc3 in N; injection N as -> end; try exact NO; [|apply computes_throw].
  assert (G : fields_hold h3 m fs) by (split; assumption). assert (G2 : fields_hold h3 m2 fs2) by (split; assumption).
  eapply computes_bind; [eapply merge_ours_right; [exact G|exact G2|]|].
  { intros h' a' v' b' w' I' H1 H2. apply IH; auto. rewrite Forall_forall in B. specialize (B a' I'). lia. }
  intros h4 ours us E4 [O1 O2] _. cbv beta zeta.
  assert (M : fields_hold h4 (ours ++ only_fallback_h m m2) (us ++ only_fallback fs fs2)).
  { apply fields_app; [exact O1|]. apply only_fallback_right; eapply fields_lasting; eauto. }
  eapply computes_step; [apply all_resolved_fields; exact M|]. intros h5 st E5 Eq; unfold equal in Eq; subst st.
  assert (M5 : fields_hold h5 (ours ++ only_fallback_h m m2) (us ++ only_fallback fs fs2)) by (eapply fields_lasting; eauto).
  destruct (same_addresses m (ours ++ only_fallback_h m m2)) eqn:S; cbn [negb].
  - assert (O3 : only_fallback_h m m2 = []).
    { apply same_addresses_length in S. rewrite app_length in S. assert (List.length ours = List.length m) by (rewrite <- (map_length fst), O2, map_length; reflexivity).
      destruct (only_fallback_h m m2); [reflexivity|cbn in S; lia]. }
    rewrite O3, app_nil_r in *. apply same_addresses_eq in S; [|exact O2]. subst ours.
    destruct (negb (Bool.eqb (fields_resolved (us ++ only_fallback fs fs2)) r) || negb (Bool.eqb i2 i1)) eqn:X.
    + apply computes_new. intros h6 E6. eapply fields_new; [reflexivity|exact E6|exact M5].
    + apply orb_false_iff in X as [X1 X2]. apply negb_false_iff, eqb_prop in X1. apply negb_false_iff, eqb_prop in X2. subst i2.
      apply computes_ret; [apply holds_lasting|]. rewrite X1. destruct M5 as [M51 M52]. eapply holds_obj; [eapply extends_nth; [exact (extends_trans _ _ _ E4 E5)|exact Nc3]|exact B|exact M51|exact M52].
  - apply computes_new. intros h6 E6. eapply fields_new; [reflexivity|exact E6|exact M5].
Qed.

(** ** Editing *)
Lemma holds_object_cell : forall h a v, holds h a v -> (exists r i m fs, nth_error h a = Some (CObj r i m) /\ v = VObj r i fs /\ fields_hold h m fs /\ Forall (fun b => b < a)%nat (map snd m)) \/
  ((forall r i fs, v <> VObj r i fs) /\ exists c, nth_error h a = Some c /\ (forall r i m, c <> CObj r i m) /\ class_of c v).
Proof.
  intros h a v H. destruct (holds_cell h a v H) as [c [N C]]. inversion H; subst; try (right; split; [discriminate|]; exists c; split; [exact N|]; split; [intros; match goal with M : nth_error h a = Some _ |- _ => rewrite M in N; injection N as <-; discriminate end|exact C]).
  left. do 4 eexists. split; [eassumption|]. split; [reflexivity|]. split; [split; assumption|assumption].
Qed.

Lemma with_value_key_right : forall h r i m fs key b w, fields_hold h m fs -> holds h b w ->
  computes holds (with_value_key_h (CObj r i m) key b) (with_value_key (VObj r i fs) key w) h.
Proof.
  intros h r i m fs key b w H Hb. cbn. apply (computes_new h (CObj r i _)). intros h' E. eapply fields_new; [reflexivity|exact E|]. unfold emplace.
  pose proof (fields_find h key m fs H) as F. destruct (find_key key m), (find_key key fs); try contradiction; [exact H|].
  apply fields_app; [exact H|]. apply fields_cons. split; [reflexivity|]. split; [exact Hb|apply fields_nil].
Qed.

Lemma at_path_right : forall h b w p, computes holds (at_path_h b p) (at_path w p) h.
Proof. intros h b w p. unfold at_path_h, at_path. destruct (last p); [apply computes_throw|apply computes_stuck]. Qed.

Lemma subtree_right : forall h r i m fs key b w next, fields_hold h m fs -> holds h b w ->
  computes holds (subtree <~ at_path_h b next ;; with_value_key_h (CObj r i m) key subtree) (subtree <- at_path w next ;; with_value_key (VObj r i fs) key subtree) h.
Proof. intros h r i m fs key b w next H Hb. eapply computes_bind; [apply at_path_right|]. intros h' x y E Hx _. apply with_value_key_right; [eapply fields_lasting; eauto|exact Hx]. Qed.

Lemma with_value_right : forall p a v b w h, holds h a v -> holds h b w -> computes holds (with_value_h a p b) (with_value v p w) h.
Proof.
  induction p as [|key next IH]; intros a v b w h Ha Hb; [apply computes_stuck|]. cbn [with_value_h with_value].
  destruct (holds_object_cell h a v Ha) as [(r & i & m & fs & N & -> & F & B)|[Nv [c [N [Nc C]]]]].
  - eapply computes_read; [exact N|]. intros h1 E1. cbv beta iota. assert (F1 : fields_hold h1 m fs) by (eapply fields_lasting; eauto). assert (Hb1 : holds h1 b w) by (eapply holds_extends; eauto).
    destruct next as [|k2 next]; [apply with_value_key_right; assumption|].
    pose proof (fields_find h1 key m fs F1) as X. destruct (find_key key m) as [child|], (find_key key fs) as [u|]; try contradiction.
    + eapply computes_class; [exact X|]. intros h2 c2 E2 (O & _). rewrite O. assert (F2 : fields_hold h2 m fs) by (eapply fields_lasting; eauto). destruct (is_object u).
      * eapply computes_bind; [apply with_value_key_right; [exact F2|eapply holds_extends; eauto]|]. intros h3 a' v' E3 Ha' _. apply IH; [exact Ha'|eapply holds_extends; [|exact Hb1]; eapply extends_trans; eauto].
      * apply subtree_right; [exact F2|eapply holds_extends; eauto].
    + apply subtree_right; assumption.
  - eapply computes_read; [exact N|]. intros h1 E1. destruct c; try (exfalso; eapply Nc; reflexivity); destruct v; try (exfalso; eapply Nv; reflexivity); apply computes_throw.
Qed.

Lemma one_field : forall h k a v, holds h a v -> fields_hold h [(k, a)] [(k, v)].
Proof. intros h k a v H. apply fields_cons. split; [reflexivity|]. split; [exact H|apply fields_nil]. Qed.

Lemma without_path_right : forall p a v h, holds h a v -> computes holds (without_path_h a p) (without_path v p) h.
Proof.
  induction p as [|key next IH]; intros a v h Ha; [apply computes_stuck|]. cbn [without_path_h without_path].
  destruct (holds_object_cell h a v Ha) as [(r & i & m & fs & N & -> & F & B)|[Nv [c [N [Nc C]]]]].
  - eapply computes_read; [exact N|]. intros h1 E1. cbv beta iota. assert (F1 : fields_hold h1 m fs) by (eapply fields_lasting; eauto). assert (Ha1 : holds h1 a (VObj r i fs)) by (eapply holds_extends; eauto).
    pose proof (fields_find h1 key m fs F1) as X. destruct (find_key key m) as [b|], (find_key key fs) as [u|]; try contradiction.
    + destruct next as [|k2 next].
      * assert (S : fields_hold h1 (filter (fun kb => negb (str_eqb (fst kb) key)) m) (filter (fun kv => negb (str_eqb (fst kv) key)) fs)) by (apply (fields_filter h1 (fun k => negb (str_eqb k key))); exact F1).
        cbv beta zeta. eapply computes_step; [apply all_resolved_fields; exact S|]. intros h2 st E2 Eq; unfold equal in Eq; subst st. apply computes_new. intros h3 E3. eapply fields_new; [reflexivity|exact E3|eapply fields_lasting; eauto].
      * eapply computes_class; [exact X|]. intros h2 c2 E2 (O & _). rewrite O. destruct (is_object u).
        -- eapply computes_bind; [apply IH; eapply holds_extends; eauto|]. intros h3 b' u' E3 Hb' _.
           eapply computes_step; [apply (all_resolved_fields [(key, b')] [(key, u')]); apply one_field; exact Hb'|]. intros h4 st E4 Eq; unfold equal in Eq; subst st.
           apply computes_new. intros h5 E5. eapply fields_new; [reflexivity|exact E5|]. apply one_field. eapply holds_extends; eauto.
        -- apply computes_ret; [apply holds_lasting|eapply holds_extends; eauto].
    + apply computes_ret; [apply holds_lasting|exact Ha1].
  - eapply computes_read; [exact N|]. intros h1 E1. destruct c; try (exfalso; eapply Nc; reflexivity); destruct v; try (exfalso; eapply Nv; reflexivity); apply computes_throw.
Qed.

Definition option_holds (h : heap) (o : option addr) (u : option value) : Prop :=
  match o, u with Some a, Some v => holds h a v | None, None => True | _, _ => False end.
Lemma option_lasting : lasting option_holds.
Proof. intros h h' [a|] [v|] E H; cbn in *; auto. eapply holds_extends; eauto. Qed.

Lemma with_only_right : forall p a v h, holds h a v -> computes option_holds (with_only_path_or_null_h a p) (with_only_path_or_null v p) h.
Proof.
  induction p as [|key next IH]; intros a v h Ha; [apply computes_stuck|]. cbn [with_only_path_or_null_h with_only_path_or_null].
  destruct (holds_object_cell h a v Ha) as [(r & i & m & fs & N & -> & F & B)|[Nv [c [N [Nc C]]]]].
  - eapply computes_read; [exact N|]. intros h1 E1. cbv beta iota. assert (F1 : fields_hold h1 m fs) by (eapply fields_lasting; eauto).
    eapply (computes_bind _ _ _ _ option_holds).
    + destruct next as [|k2 next]; [apply computes_ret; [apply option_lasting|exact I]|].
      pose proof (fields_find h1 key m fs F1) as X. destruct (find_key key m) as [b|], (find_key key fs) as [u|]; try contradiction; [|apply computes_stuck].
      eapply computes_class; [exact X|]. intros h2 c2 E2 (O & _). rewrite O. destruct (is_object u); [apply IH; eapply holds_extends; eauto|apply computes_stuck].
    + intros h2 [b|] [u|] E2 Ho _; try contradiction.
      * eapply computes_class; [exact Ho|]. intros h3 c3 E3 (_ & _ & _ & S & _). rewrite S.
        eapply computes_step; [apply (computes_new h3 _ (VObj (is_resolved u) i [(key, u)])); intros h4 E4; eapply fields_new; [reflexivity|exact E4|apply one_field; eapply holds_extends; eauto]|].
        intros h4 a' E4 Ha'. apply computes_ret; [apply option_lasting|exact Ha'].
      * apply computes_ret; [apply option_lasting|exact I].
  - eapply computes_read; [exact N|]. intros h1 E1. destruct c; try (exfalso; eapply Nc; reflexivity); destruct v; try (exfalso; eapply Nv; reflexivity); apply computes_throw.
Qed.

Lemma with_only_path_right : forall p a v h, holds h a v -> computes holds (with_only_path_h a p) (with_only_path v p) h.
Proof.
  intros p a v h Ha. unfold with_only_path_h, with_only_path.
  destruct (holds_object_cell h a v Ha) as [(r & i & m & fs & N & -> & F & B)|[Nv [c [N [Nc C]]]]].
  - eapply computes_read; [exact N|]. intros h1 E1. eapply computes_bind; [apply with_only_right; eapply holds_extends; eauto|].
    intros h2 [b|] [u|] E2 Ho _; try contradiction.
    + apply computes_ret; [apply holds_lasting|exact Ho].
    + apply computes_new. intros h3 E3. eapply fields_new; [reflexivity|exact E3|apply fields_nil].
  - eapply computes_read; [exact N|]. intros h1 E1. destruct c; try (exfalso; eapply Nc; reflexivity); destruct v; try (exfalso; eapply Nv; reflexivity); apply computes_throw.
Qed.
