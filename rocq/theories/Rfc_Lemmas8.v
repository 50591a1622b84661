(** JSON documents as fallbacks of each other. *)
From Verif Require Import Base BaseLemmas Util_Model Num_Model Path_Model Token_Model PathParser_Model Doc_Model Value_Model Value_Spec Value_Lemmas Value_Lemmas2 Value_Lemmas3 Concat_Model ConfigParser_Model Escape_Spec Round_Spec Duration_Model Config_Model Config_Spec
  Resolve_Model Resolve_Lemmas Include_Model Layers_Model Rfc_Spec Rfc_Spec2 Rfc_Spec3 Rfc_Lemmas4 Rfc_Lemmas6 Rfc_Lemmas7.

Lemma member_in : forall k ms j, member k ms = Some j -> In (k, j) ms.
Proof. intros k ms j. induction ms as [|[q w] ms IH]; intro H; [discriminate|]. cbn [member] in H. destruct (str_eqb k q) eqn:E; [apply str_eqb_eq in E; injection H as ->; subst; left; reflexivity|right; auto]. Qed.
Lemma member_none : forall k ms, member k ms = None -> ~ In k (map fst ms).
Proof.
  intros k ms. induction ms as [|[q w] ms IH]; intros H I; [exact I|]. cbn [member] in H. destruct (str_eqb k q) eqn:E; [discriminate|]. destruct I as [I|I]; [cbn in I; subst q; rewrite str_eqb_refl in E; discriminate|exact (IH H I)].
Qed.
Lemma find_some : forall k (m : fields), In k (map fst m) -> exists v, find_key k m = Some v.
Proof. intros k m H. destruct (find_key k m) as [v|] eqn:E; [eauto|]. apply find_key_none in E. contradiction. Qed.
Definition both (ms1 ms2 : list (str * json)) : list (str * json) := map (fun '(k, j) => (k, match member k ms2 with Some j2 => overlay j j2 | None => j end)) ms1.
Definition rest (ms1 ms2 : list (str * json)) : list (str * json) := filter (fun '(k, _) => match member k ms1 with Some _ => false | None => true end) ms2.
Lemma overlay_objects : forall ms1 ms2, overlay (JObject ms1) (JObject ms2) = JObject (both ms1 ms2 ++ rest ms1 ms2).
Proof. reflexivity. Qed.
Lemma both_names : forall ms1 ms2, map fst (both ms1 ms2) = map fst ms1.
Proof. intros. unfold both. rewrite map_map. apply map_ext. intros [k j]. reflexivity. Qed.
Lemma both_in : forall ms1 ms2 k j, In (k, j) (both ms1 ms2) -> exists j1, In (k, j1) ms1 /\ j = match member k ms2 with Some j2 => overlay j1 j2 | None => j1 end.
Proof. intros ms1 ms2 k j H. unfold both in H. apply in_map_iff in H. destruct H as [[q j1] [E H]]. injection E as -> <-. eauto. Qed.
Lemma rest_in : forall ms1 ms2 k j, In (k, j) (rest ms1 ms2) <-> In (k, j) ms2 /\ member k ms1 = None.
Proof. intros ms1 ms2 k j. unfold rest. rewrite filter_In. destruct (member k ms1); intuition discriminate. Qed.
Lemma rest_nodup : forall ms1 ms2, NoDup (map fst ms2) -> NoDup (map fst (rest ms1 ms2)).
Proof.
  intros ms1 ms2. induction ms2 as [|[k j] ms2 IH]; intro H; [constructor|]. cbn [map fst] in H. inversion H as [|? ? N D]; subst. unfold rest. cbn [filter]. fold (rest ms1 ms2). destruct (member k ms1); [auto|].
  cbn [map fst]. constructor; [|auto]. intro I. apply N. apply in_map_iff in I. destruct I as [[q w] [E I]]. cbn in E. subst q. apply rest_in in I. exact (in_map fst _ _ (proj1 I)).
Qed.
Lemma overlay_other : forall a b, (match a with JObject _ => False | _ => True end) \/ (match b with JObject _ => False | _ => True end) -> overlay a b = a.
Proof. intros a b [H|H]; destruct a, b; try reflexivity; destruct H. Qed.

Lemma overlay_unique : forall a, unique a -> forall b, unique b -> unique (overlay a b).
Proof.
  intros a U. induction U as [js|ms1 N1 U1 IH|j B]; intros b Ub; [rewrite overlay_other by (left; exact I); constructor| |rewrite overlay_other by (left; destruct j; exact B || exact I); apply unique_leaf; exact B].
  assert (K : (exists ms2, b = JObject ms2) \/ match b with JObject _ => False | _ => True end) by (destruct b; eauto). destruct K as [[ms2 ->]|K]; [|rewrite overlay_other by (right; exact K); constructor; assumption].
  inversion Ub as [|? N2 U2|? B]; subst; [|destruct B]. rewrite overlay_objects. constructor.
  - rewrite map_app, both_names. apply NoDup_app_intro; [exact N1|apply rest_nodup, N2|]. intros k I1 I2. apply in_map_iff in I2. destruct I2 as [[q w] [E I2]]. cbn in E. subst q. apply rest_in in I2. destruct I2 as [_ I2]. exact (member_none _ _ I2 I1).
  - intros k j I. apply in_app_iff in I. destruct I as [I|I].
    + apply both_in in I. destruct I as [j1 [I ->]]. destruct (member k ms2) as [j2|] eqn:M; [|exact (U1 _ _ I)]. exact (IH _ _ I _ (U2 _ _ (member_in _ _ _ M))).
    + apply rest_in in I. exact (U2 _ _ (proj1 I)).
Qed.

Lemma denotes_kept : forall j v u, denotes j v -> kept v u -> denotes j u.
Proof. intros j v u D [->|[r [i [m [-> ->]]]]]; [exact D|]. inversion D; subst. constructor; assumption. Qed.
Lemma denotes_kind : forall j v, denotes j v -> is_object v = match j with JObject _ => true | _ => false end.
Proof. intros j v D. destruct D; try reflexivity. Qed.
Lemma once_member : forall ms k j, NoDup (map fst ms) -> In (k, j) ms -> member k ms = Some j.
Proof.
  induction ms as [|[q w] ms IH]; intros k j N I; [destruct I|]. cbn [map fst] in N. inversion N as [|? ? N1 N2]; subst. cbn [member]. destruct I as [I|I]; [injection I as -> ->; rewrite str_eqb_refl; reflexivity|].
  destruct (str_eqb k q) eqn:E; [apply str_eqb_eq in E; subst; destruct N1; exact (in_map fst _ _ I)|auto].
Qed.
Lemma fresh_find : forall k (m : fields) v, Forall (fun kv => fresh (snd kv)) m -> find_key k m = Some v -> fresh v.
Proof. intros k m v F. induction F as [|[q w] m H F IH]; intro E; [discriminate|]. cbn [find_key] in E. destruct (str_eqb k q); [injection E as <-; exact H|auto]. Qed.
Lemma absent_field : forall ms r i m k, denotes (JObject ms) (VObj r i m) -> member k ms = None -> find_key k m = None.
Proof. intros ms r i m k D M. inversion D as [| | | | |? ? ? ? Nd L F]; subst. destruct (find_key k m) as [v|] eqn:E; [|reflexivity]. destruct (member_none _ _ M). apply L. exact (find_in _ _ _ E). Qed.
Lemma present_field : forall ms r i m k j, denotes (JObject ms) (VObj r i m) -> In (k, j) ms -> exists v, find_key k m = Some v /\ denotes j v.
Proof. intros ms r i m k j D I. inversion D as [| | | | |? ? ? ? Nd L F]; subst. auto. Qed.
Lemma overlay_denotes : forall a, unique a -> forall v, denotes a v -> plain v -> fresh v -> forall b w u, unique b -> denotes b w -> plain w -> with_fallback v w = Ok u -> denotes (overlay a b) u.
Proof.
  intros a U. induction U as [js|ms1 N1 U1 IH|j B]; intros v D P Fr b w u Ub Db Pb H.
  - inversion D; subst. rewrite fallback_ignored in H by (destruct (plain_ignores _ P) as [Q|[m' Q]]; [exact Q|discriminate Q]). injection H as <-. rewrite overlay_other by (left; exact I). exact D.
  - inversion D as [| | | | |? r i m Nd L F]; subst. inversion Fr as [| |? ? Fm]; subst. inversion P as [| |? ? Hn Hm]; subst.
    assert (K : (exists ms2, b = JObject ms2) \/ match b with JObject _ => False | _ => True end) by (destruct b; eauto). destruct K as [[ms2 ->]|K].
    2: { rewrite overlay_other by (right; exact K). rewrite with_fallback_eq in H. cbn [ignores_fallbacks] in H. rewrite (plain_mergeable _ Pb) in H. destruct Db; try (destruct K); cbn in H; injection H as <-; constructor; assumption. }
    inversion Db as [| | | | |? r2 i2 m2 Nd2 L2 F2]; subst. inversion Pb as [| |? ? Hn2 Hm2]; subst. destruct (plain_merge _ _ P Pb) as [c [Ec Pc]]. rewrite H in Ec. injection Ec as <-.
    destruct (merge_keys m i2 m2 P Pb) as [c [Ec M]]. rewrite H in Ec. injection Ec as <-. inversion Ub as [|? N2 U2|? B]; subst; [|destruct B].
    assert (O : exists r3 i3 m3, u = VObj r3 i3 m3). { rewrite with_fallback_eq in H. cbn [ignores_fallbacks is_unmergeable] in H. apply bind_ok in H. destruct H as [ours [_ H]]. injection H as <-. eauto. }
    destruct O as [r3 [i3 [m3 ->]]]. inversion Pc as [| |? ? Hn3 Hm3]; subst.
    assert (G : forall k r i m, get [k] (VObj r i m) = find_key k m) by (intros k r0 i0 m0; cbn [get]; destruct (find_key k m0); reflexivity).
    assert (M' : forall k, match find_key k m, find_key k m2 with Some v, None => find_key k m3 = Some v | None, o => find_key k m3 = o
       | Some v, Some w => exists u, find_key k m3 = Some u /\ if is_object v && is_object w then with_fallback v w = Ok u else kept v u end).
    { intro k. specialize (M k). rewrite !G in M. exact M. } clear M.
    rewrite overlay_objects. constructor; [exact Hn3| |].
    + intros k I. rewrite map_app, both_names. apply in_app_iff. destruct (member k ms1) as [j1|] eqn:M1; [left; exact (in_map fst _ _ (member_in _ _ _ M1))|]. right.
      pose proof (absent_field _ _ _ _ k D M1) as A1. specialize (M' k). rewrite A1 in M'. destruct (find_some _ _ I) as [x Ex]. rewrite Ex in M'. symmetry in M'. apply find_in in M'. apply L2 in M'. apply in_map_iff in M'. destruct M' as [[q j2] [E I2]]. cbn in E. subst q.
      apply in_map_iff. exists (k, j2). split; [reflexivity|]. apply rest_in. auto.
    + intros k j I. apply in_app_iff in I. specialize (M' k). destruct I as [I|I].
      * apply both_in in I. destruct I as [j1 [I ->]]. destruct (F _ _ I) as [v1 [F1 D1]]. rewrite F1 in M'. destruct (member k ms2) as [j2|] eqn:M2.
        -- destruct (F2 _ _ (member_in _ _ _ M2)) as [w1 [G1 E1]]. rewrite G1 in M'. destruct M' as [u1 [H3 M']]. exists u1. split; [exact H3|]. rewrite (denotes_kind _ _ D1), (denotes_kind _ _ E1) in M'.
           destruct (match j1 with JObject _ => true | _ => false end && match j2 with JObject _ => true | _ => false end) eqn:Kd.
           ++ refine (IH k j1 I v1 D1 _ _ j2 w1 u1 (U2 _ _ (member_in _ _ _ M2)) E1 _ M'); [exact (plain_find _ _ _ _ _ P F1)|exact (fresh_find _ _ _ Fm F1)|exact (plain_find _ _ _ _ _ Pb G1)].
           ++ rewrite overlay_other by (destruct j1, j2; try discriminate Kd; auto). exact (denotes_kept _ _ _ D1 M').
        -- rewrite (absent_field _ _ _ _ k Db M2) in M'. eauto.
      * apply rest_in in I. destruct I as [I M1]. rewrite (absent_field _ _ _ _ k D M1) in M'. destruct (F2 _ _ I) as [w1 [G1 E1]]. rewrite G1 in M'. eauto.
  - rewrite overlay_other by (left; destruct j; exact B || exact I). destruct D; try destruct B; cbn in H; injection H as <-; constructor; assumption.
Qed.

(** ** Any number of layers *)
Lemma chain_right : forall ls v l, plain v -> plain l -> Forall plain ls -> exists x w, with_fallbacks l ls = Ok x /\ plain x /\ with_fallback v x = Ok w /\ plain w /\ with_fallbacks v (l :: ls) = Ok w.
Proof.
  intro ls. induction ls as [|l2 ls IH]; intros v l Pv Pl Pls.
  - destruct (plain_merge v l Pv Pl) as [w [E Pw]]. exists l, w. cbn [with_fallbacks]. rewrite E. auto.
  - inversion Pls as [|? ? Pl2 Pls2]; subst. destruct (plain_merge v l Pv Pl) as [vl [E1 P1]]. destruct (IH l l2 Pl Pl2 Pls2) as [y [x [A1 [A2 [A3 [A4 A5]]]]]]. destruct (IH vl l2 P1 Pl2 Pls2) as [y' [w [B1 [B2 [B3 [B4 B5]]]]]].
    rewrite A1 in B1. injection B1 as <-. destruct (merge_assoc v l y Pv Pl A2) as [ab [bc [lf [rt [C1 [C2 [C3 [C4 C5]]]]]]]]. rewrite E1 in C1. injection C1 as <-. rewrite A3 in C2. injection C2 as <-. rewrite B3 in C3. injection C3 as <-. specialize (C5 []). cbn [get] in C5. injection C5 as <-.
    exists x, w. split; [exact A5|]. split; [exact A4|]. split; [exact C4|]. split; [exact B4|]. cbn [with_fallbacks]. rewrite E1. exact B5.
Qed.
Definition layer (j : json) (v : value) : Prop := unique j /\ sound j v.
Lemma layers_denote : forall js vs, Forall2 layer js vs -> forall j v, layer j v -> exists w, with_fallbacks v vs = Ok w /\ plain w /\ unique (overlays j js) /\ denotes (overlays j js) w.
Proof.
  intros js vs H. induction H as [|j2 v2 js vs L2 H IH]; intros j v [U [D [P Fr]]]; [exists v; auto|].
  assert (Pvs : Forall plain vs) by (clear -H; induction H as [|? ? ? ? [_ [_ [Q _]]]]; constructor; assumption). destruct (IH _ _ L2) as [x [X1 [X2 [X3 X4]]]]. destruct L2 as [_ [_ [P2 _]]].
  destruct (chain_right vs v v2 P P2 Pvs) as [x' [w [Y1 [_ [Y3 [Y4 Y5]]]]]]. rewrite X1 in Y1. injection Y1 as <-. exists w. split; [exact Y5|]. split; [exact Y4|]. cbn [overlays]. split; [apply overlay_unique; assumption|].
  exact (overlay_denotes _ U _ D P Fr _ _ _ X3 X4 X2 Y3).
Qed.
Lemma overlays_object : forall mss ms, exists ms', overlays (JObject ms) (map JObject mss) = JObject ms'.
Proof. induction mss as [|ms2 mss IH]; intro ms; [exists ms; reflexivity|]. cbn [map overlays]. destruct (IH ms2) as [ms' ->]. rewrite overlay_objects. eauto. Qed.
Lemma object_merge : forall a b c, plain a -> plain b -> simple_object a -> with_fallback a b = Ok c -> simple_object c.
Proof.
  intros a b c Pa Pb [r [i [m ->]]] H. rewrite with_fallback_eq in H. cbn [ignores_fallbacks] in H. inversion Pa as [| |? ? Hn Hm]; subst. destruct i; [injection H as <-; repeat eexists|]. rewrite (plain_mergeable _ Pb) in H.
  inversion Pb; subst; [cbn in H; injection H as <-; repeat eexists|cbn in H; injection H as <-; repeat eexists|]. apply bind_ok in H. destruct H as [ours [_ H]]. injection H as <-. repeat eexists.
Qed.
Lemma config_chain : forall ls v, plain v -> simple_object v -> Forall plain ls -> config_with_fallbacks v ls = with_fallbacks v ls.
Proof.
  induction ls as [|l ls IH]; intros v P O Pl; [reflexivity|]. inversion Pl as [|? ? P1 P2]; subst. cbn [config_with_fallbacks with_fallbacks]. unfold config_with_fallback. destruct (plain_merge v l P P1) as [c [E Pc]]. rewrite E. cbn [bind].
  pose proof (object_merge _ _ _ P P1 O E) as Oc. destruct Oc as [r [i [m ->]]]. cbn [is_object bind]. apply IH; [exact Pc|repeat eexists|exact P2].
Qed.
Lemma loaded_layer : forall files env self ms, loaded files env self ms -> layer (JObject ms) self.
Proof.
  intros files env self ms [depth n text ms0 o next next' self0 H P|depth n name text ms0 o next next' self0 H F E P].
  - destruct (string_sound files env depth n text ms0 o next H) as [s [Q S]]. rewrite Q in P. injection P as <- _. split; [exact (document_object_unique _ _ H)|exact S].
  - destruct (file_sound files env depth n name text ms0 o next H F E) as [s [Q S]]. rewrite Q in P. injection P as <- _. split; [exact (document_object_unique _ _ H)|exact S].
Qed.
Lemma json_layers : forall files env first others ms mss, loaded files env first ms -> Forall2 (loaded files env) others mss ->
  exists merged, config_with_fallbacks first others = Ok merged /\ readable_as merged (overlays (JObject ms) (map JObject mss)) /\
    forall allow use env' k, resolve_config allow use env' (S k) merged = Ok (Some merged).
Proof.
  intros files env first others ms mss H Hs. apply loaded_layer in H.
  assert (B : Forall2 layer (map JObject mss) others). { clear -Hs. induction Hs as [|s m others mss H Hs IH]; constructor; [exact (loaded_layer _ _ _ _ H)|exact IH]. }
  assert (Pl : Forall plain others). { clear -B. remember (map JObject mss) as js. clear Heqjs. induction B as [|? ? ? ? [_ [_ [Q _]]]]; constructor; assumption. }
  destruct (layers_denote _ _ B (JObject ms) first H) as [w [W1 [W2 [W3 W4]]]]. destruct H as [U [D [P Fr]]]. exists w. rewrite (config_chain _ _ P (denoted_object _ _ D) Pl). split; [exact W1|]. split; [|exact (resolve_plain _ W2)].
  apply denoted_readable; try assumption. destruct (overlays_object mss ms) as [ms' E]. rewrite E in W4. exact (denoted_object _ _ W4).
Qed.
