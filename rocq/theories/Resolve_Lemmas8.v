(** Consequences of what resolving returns being what the value means: cycles, undefined substitutions, the environment. *)
From Verif Require Import Base BaseLemmas Util_Model Num_Model Path_Model Token_Model Value_Model Value_Spec Value_Lemmas Value_Lemmas2 Path_Lemmas
  Duration_Model Config_Model Concat_Model Concat_Lemmas Resolve_Model Resolve_Spec Resolve_Lemmas Resolve_Lemmas2 Resolve_Lemmas4 Resolve_Lemmas5 Resolve_Lemmas6 Resolve_Lemmas7.
From Coq Require Import Relations.

Lemma inside_trans : forall a b c, inside a b -> inside b c -> inside a c.
Proof.
  intros a b c H K. induction K as [|v vs I0 K IH|r i m k v I0 K IH|v vs I0 K IH|v vs I0 K IH|v vs I0 K IH]; [exact H|exact (inside_list _ _ _ I0 IH)|exact (inside_object _ _ _ _ _ _ I0 IH)|exact (inside_concat _ _ _ I0 IH)|exact (inside_merge _ _ _ I0 IH)|exact (inside_merge_object _ _ _ I0 IH)].
Qed.
Lemma inside_ref : forall x id p o l, inside x (VRef id p o l) -> x = VRef id p o l.
Proof. intros x id p o l H. inversion H. reflexivity. Qed.
Lemma inside_definitions : forall v vs x, definitions v = Some vs -> inside x v -> x = v \/ exists u, In u vs /\ inside x u.
Proof. intros v vs x D H. destruct v; try discriminate; injection D as ->; inversion H; subst; eauto. Qed.
Lemma definitions_inside : forall v vs x u, definitions v = Some vs -> In u vs -> inside x u -> inside x v.
Proof. intros v vs x u D H I0. destruct v; try discriminate; injection D as ->; [exact (inside_merge _ _ _ H I0)|exact (inside_merge_object _ _ _ H I0)]. Qed.

Section Meaning.
Variable environment : option (list (str * str)).
Variable R : value.
Notation means := (means environment R).
Notation means_each := (means_each environment R).
Notation means_fields := (means_fields environment R).

(** A required substitution inside a value that means something means something itself *)
Lemma means_inside : forall id p l,
  (forall above v r, means above v r -> inside (VRef id p false l) v -> exists above' r', means above' (VRef id p false l) r') /\
  (forall above vs rs, means_each above vs rs -> forall v, In v vs -> inside (VRef id p false l) v -> exists above' r', means above' (VRef id p false l) r') /\
  (forall above m rs, means_fields above m rs -> forall k v, In (k, v) m -> inside (VRef id p false l) v -> exists above' r', means above' (VRef id p false l) r').
Proof.
  intros id p l.
  assert (X := fun a b c => means_mutual environment R (fun above v r _ => inside (VRef id p false l) v -> exists above' r', means above' (VRef id p false l) r')
    (fun above vs rs _ => forall v, In v vs -> inside (VRef id p false l) v -> exists above' r', means above' (VRef id p false l) r')
    (fun above m rs _ => forall k v, In (k, v) m -> inside (VRef id p false l) v -> exists above' r', means above' (VRef id p false l) r') a b c).
  apply X; clear X.
  - intros above s H. inversion H.
  - intros above vs rs M IH H. inversion H as [|v vs' I0 H'| | | |]; subst. exact (IH _ I0 H').
  - intros above r i m rs M IH H. inversion H as [| |r' i' m' k v I0 H'| | |]; subst. exact (IH _ _ I0 H').
  - intros above vs rs w M IH E H. inversion H as [| | |v vs' I0 H'| |]; subst. exact (IH _ I0 H').
  - intros above vs rs M IH E H. inversion H as [| | |v vs' I0 H'| |]; subst. exact (IH _ I0 H').
  - intros above v vs rs w Dv M IH E H. destruct (inside_definitions _ _ _ Dv H) as [<-|[u [I0 H']]]; [discriminate|exact (IH _ I0 H')].
  - intros above id' p' o' l' v w G M IH H. apply inside_ref in H. injection H as -> -> <- ->. exists above, (Some w). exact (means_found _ _ _ _ _ _ _ _ _ G M).
  - intros above id' p' l' v G M IH H. apply inside_ref in H. discriminate.
  - intros above id' p' l' v id'' p'' o'' l'' G I0 A H. apply inside_ref in H. discriminate.
  - intros above id' p' o' l' t G E H. apply inside_ref in H. injection H as -> -> <- ->. exists above. eexists. exact (means_environment _ _ _ _ _ _ _ _ G E).
  - intros above id' p' l' G E H. apply inside_ref in H. discriminate.
  - intros above v [].
  - intros above v r vs rs M IHv Ms IH w [->|I0] H; [exact (IHv H)|exact (IH _ I0 H)].
  - intros above k v [].
  - intros above k v r m rs M IHv Ms IH k' w [E|I0] H; [injection E as -> ->; exact (IHv H)|exact (IH _ _ I0 H)].
Qed.
Lemma undefined_means_nothing : forall above id p l r, get p R = None -> from_environment environment p = None -> ~ means above (VRef id p false l) r.
Proof. intros above id p l r G E H. inversion H; subst; try discriminate; congruence. Qed.

(** Required substitutions that lead into each other for ever mean nothing *)
Lemma trapped_means_nothing : forall P : value -> Prop, (forall v, P v -> exists id p l w, inside (VRef id p false l) v /\ get p R = Some w /\ P w) ->
  (forall above v r, means above v r -> forall id p l w, inside (VRef id p false l) v -> get p R = Some w -> P w -> False) /\
  (forall above vs rs, means_each above vs rs -> forall v, In v vs -> forall id p l w, inside (VRef id p false l) v -> get p R = Some w -> P w -> False) /\
  (forall above m rs, means_fields above m rs -> forall k v, In (k, v) m -> forall id p l w, inside (VRef id p false l) v -> get p R = Some w -> P w -> False).
Proof.
  intros P T.
  assert (X := fun a b c => means_mutual environment R (fun above v r _ => forall id p l w, inside (VRef id p false l) v -> get p R = Some w -> P w -> False)
    (fun above vs rs _ => forall v, In v vs -> forall id p l w, inside (VRef id p false l) v -> get p R = Some w -> P w -> False)
    (fun above m rs _ => forall k v, In (k, v) m -> forall id p l w, inside (VRef id p false l) v -> get p R = Some w -> P w -> False) a b c).
  apply X; clear X.
  - intros above s id p l w H. inversion H.
  - intros above vs rs M IH id p l w H. inversion H as [|v vs' I0 H'| | | |]; subst. exact (IH _ I0 _ _ _ _ H').
  - intros above r i m rs M IH id p l w H. inversion H as [| |r' i' m' k v I0 H'| | |]; subst. exact (IH _ _ I0 _ _ _ _ H').
  - intros above vs rs w0 M IH E id p l w H. inversion H as [| | |v vs' I0 H'| |]; subst. exact (IH _ I0 _ _ _ _ H').
  - intros above vs rs M IH E id p l w H. inversion H as [| | |v vs' I0 H'| |]; subst. exact (IH _ I0 _ _ _ _ H').
  - intros above v vs rs w0 Dv M IH E id p l w H. destruct (inside_definitions _ _ _ Dv H) as [<-|[u [I0 H']]]; [discriminate|exact (IH _ I0 _ _ _ _ H')].
  - intros above id' p' o' l' v w0 G M IH id p l w H G' Pw. apply inside_ref in H. injection H as -> -> <- ->. rewrite G in G'. injection G' as ->. destruct (T _ Pw) as [i2 [p2 [l2 [w2 [A [B C]]]]]]. exact (IH _ _ _ _ A B C).
  - intros above id' p' l' v G M IH id p l w H. apply inside_ref in H. discriminate.
  - intros above id' p' l' v id'' p'' o'' l'' G I0 A id p l w H. apply inside_ref in H. discriminate.
  - intros above id' p' o' l' t G E id p l w H G'. apply inside_ref in H. injection H as -> -> <- ->. congruence.
  - intros above id' p' l' G E id p l w H. apply inside_ref in H. discriminate.
  - intros above v [].
  - intros above v r vs rs M IHv Ms IH w [->|I0]; [exact IHv|exact (IH _ I0)].
  - intros above k v [].
  - intros above k v r m rs M IHv Ms IH k' w [E|I0]; [injection E as -> ->; exact IHv|exact (IH _ _ I0)].
Qed.

(** Without optional substitutions there is one meaning only *)
Definition required (v : value) : Prop := forall id p o l, inside (VRef id p o l) v -> o = false.
Lemma means_unique : required R ->
  (forall above v r, means above v r -> required v -> forall above' r', means above' v r' -> r = r') /\
  (forall above vs rs, means_each above vs rs -> (forall v, In v vs -> required v) -> forall above' rs', means_each above' vs rs' -> rs = rs') /\
  (forall above m rs, means_fields above m rs -> (forall k v, In (k, v) m -> required v) -> forall above' rs', means_fields above' m rs' -> rs = rs').
Proof.
  intro Q.
  assert (X := fun a b c => means_mutual environment R (fun above v r _ => required v -> forall above' r', means above' v r' -> r = r')
    (fun above vs rs _ => (forall v, In v vs -> required v) -> forall above' rs', means_each above' vs rs' -> rs = rs')
    (fun above m rs _ => (forall k v, In (k, v) m -> required v) -> forall above' rs', means_fields above' m rs' -> rs = rs') a b c).
  assert (Ql : forall vs, required (VList vs) -> forall v, In v vs -> required v) by (intros vs H v I0 id p o l I1; exact (H id p o l (inside_list _ _ _ I0 I1))).
  assert (Qc : forall vs, required (VConcat vs) -> forall v, In v vs -> required v) by (intros vs H v I0 id p o l I1; exact (H id p o l (inside_concat _ _ _ I0 I1))).
  assert (Qo : forall r i m, required (VObj r i m) -> forall k v, In (k, v) m -> required v) by (intros r i m H k v I0 id p o l I1; exact (H id p o l (inside_object _ _ _ _ _ _ I0 I1))).
  assert (Qg : forall p v, get p R = Some v -> required v) by (intros p v G id q o l I0; exact (Q id q o l (inside_trans _ _ _ I0 (get_inside _ _ _ G)))).
  apply X; clear X.
  - intros above s _ above' r' H. inversion H; [reflexivity|discriminate].
  - intros above vs rs M IH Q0 above' r' H. inversion H; subst; try discriminate. f_equal. f_equal. f_equal. eapply IH; [exact (Ql _ Q0)|eassumption].
  - intros above r i m rs M IH Q0 above' r' H. inversion H; subst; try discriminate. f_equal. f_equal. f_equal. eapply IH; [exact (Qo _ _ _ Q0)|eassumption].
  - intros above vs rs w M IH E Q0 above' r' H. inversion H as [| | |? ? rs' w' M' E'|? ? rs' M' E'|? ? ? ? ? Dv| | | | |]; subst; try discriminate Dv; assert (rs = rs') by (eapply IH; [exact (Qc _ Q0)|eassumption]); subst rs'; [congruence|]. rewrite E' in E. discriminate.
  - intros above vs rs M IH E Q0 above' r' H. inversion H as [| | |? ? rs' w' M' E'|? ? rs' M' E'|? ? ? ? ? Dv| | | | |]; subst; try discriminate Dv; assert (rs = rs') by (eapply IH; [exact (Qc _ Q0)|eassumption]); subst rs'; [|reflexivity]. rewrite E in E'. discriminate.
  - intros above v vs rs w Dv M IH E Q0 above' r' H. assert (Qd : forall u, In u vs -> required u) by (intros u I0 id p o l I1; exact (Q0 id p o l (definitions_inside _ _ _ _ Dv I0 I1))).
    destruct v; try discriminate; injection Dv as ->; inversion H as [| | | | |? ? vs' rs' w' Dv M' E'| | | | |]; subst; injection Dv as <-; assert (rs = rs') by (eapply IH; [exact Qd|eassumption]); subst rs'; congruence.
  - intros above id p o l v w G M IH Q0 above' r' H. assert (O := Q0 _ _ _ _ (inside_self _)). subst o. inversion H; subst; try discriminate; [|congruence]. match goal with A : get p R = Some ?x |- _ => rewrite G in A; injection A as <- end. eapply IH; [exact (Qg _ _ G)|eassumption].
  - intros above id p l v G M IH Q0. discriminate (Q0 _ _ _ _ (inside_self _)).
  - intros above id p l v id' p' o' l' G I0 A Q0. discriminate (Q0 _ _ _ _ (inside_self _)).
  - intros above id p o l t G E Q0 above' r' H. inversion H; subst; try discriminate; congruence.
  - intros above id p l G E Q0. discriminate (Q0 _ _ _ _ (inside_self _)).
  - intros above _ above' rs' H. inversion H. reflexivity.
  - intros above v r vs rs M IHv Ms IH Q0 above' rs' H. inversion H; subst. f_equal; [eapply IHv; [apply Q0; left; reflexivity|eassumption]|eapply IH; [intros w Hw; apply Q0; right; exact Hw|eassumption]].
  - intros above _ above' rs' H. inversion H. reflexivity.
  - intros above k v r m rs M IHv Ms IH Q0 above' rs' H. inversion H; subst. f_equal; [f_equal; eapply IHv; [apply (Q0 k); left; reflexivity|eassumption]|eapply IH; [intros k' w Hw; apply (Q0 k'); right; exact Hw|eassumption]].
Qed.
End Meaning.

(** ** Cycles *)
Section Cycles.
Variable use : bool.
Variable env : list (str * str).
Variable R : value.
Hypothesis Rv : vobj R.
Hypothesis Rw : web R R.

Lemma leads_trapped : forall p, clos_trans _ (leads R) p p -> forall n r, resolve_config false use env n R <> Ok r.
Proof.
  intros p C n r E. unfold resolve_config in E. destruct (resolve_means use env R Rv Rw n R r Rw E) as [M _].
  set (P := fun v => exists q, get q R = Some v /\ clos_trans _ (leads R) q q).
  assert (T : forall v, P v -> exists id p l w, inside (VRef id p false l) v /\ get p R = Some w /\ P w).
  { intros v [q [G Cq]]. assert (N : exists q', leads R q q' /\ clos_trans _ (leads R) q' q').
    { apply clos_trans_t1n in Cq. inversion Cq as [y L|y z L Cy]; subst; [exists q; split; [exact L|apply t_step; exact L]|]. exists y. split; [exact L|]. apply t_trans with q; [apply clos_t1n_trans; exact Cy|apply t_step; exact L]. }
    destruct N as [q' [[v' [w [id [l [G' [I0 Gw]]]]]] C']]. rewrite G in G'. injection G' as <-. exists id, q', l, w. split; [exact I0|]. split; [exact Gw|]. exists q'. split; [exact Gw|exact C']. }
  assert (N : exists v, get p R = Some v). { apply clos_trans_t1n in C. inversion C as [y L|y z L Cy]; subst; destruct L as [v [w [id [l [G _]]]]]; exists v; exact G. }
  destruct N as [v G]. destruct (T v (ex_intro _ p (conj G C))) as [id [q [l [w [I0 [Gw Pw]]]]]].
  exact (proj1 (trapped_means_nothing _ _ P T) _ _ _ M id q l w (inside_trans _ _ _ I0 (get_inside _ _ _ G)) Gw Pw).
Qed.
Lemma web_lawful : forall n e, resolve_config false use env n R = Throw e -> is_config_exn e = true.
Proof. intros n e. apply resolve_with_lawful. Qed.
Lemma cycle_throws : sound (bounded false use env) R -> forall p, clos_trans _ (leads R) p p -> exists n e, is_config_exn e = true /\ forall m, (n <= m)%nat -> resolve_config false use env m R = Throw e.
Proof.
  intros B p C. destruct (resolve_ends false use env R R B B Rv) as [n [E M]]. exists n. unfold resolve_config in *. destruct (resolve_with false use env n R R) as [r|e|u] eqn:H.
  - exfalso. exact (leads_trapped p C n r H).
  - exists e. split; [exact (resolve_with_lawful _ _ _ _ _ _ _ H)|exact M].
  - exfalso. apply E. f_equal. exact (resolve_not_stuck use env R Rv Rw n R u Rw H).
Qed.
End Cycles.

(** ** The environment *)
Section Environment.
Variable allow : bool.
Variable env env' : list (str * str).
Variable R : value.
Hypothesis Rv : vobj R.
Hypothesis Rw : web R R.
Hypothesis Rk : known R R.
Notation On := (resolve_n allow true env).
Notation Off := (resolve_n allow false env').

Lemma known_inside : forall v w, known R w -> inside v w -> known R v.
Proof. intros v w K I0 id p o l I1. exact (K id p o l (inside_trans _ _ _ I1 I0)). Qed.

Definition agree (n : nat) : Prop := forall c v s, web R v -> known R v -> root s = R -> On n c v s = Off n c v s.
Section Step.
Variable n : nat.
Hypothesis IH : agree n.
Lemma pieces_agree : forall vs, Forall (fun v => web R v /\ known R v) vs -> forall c s, root s = R -> resolve_pieces (On n) vs c s = resolve_pieces (Off n) vs c s.
Proof.
  intros vs F. induction F as [|v vs [W K] F IHv]; intros c s Rt; [reflexivity|]. cbn [resolve_pieces]. rewrite (IH _ v s W K Rt). destruct (Off n (restrict c []) v s) as [[r c1]| |]; [|reflexivity|reflexivity]. cbn [bind]. rewrite (IHv _ s Rt). reflexivity.
Qed.
Lemma fields_agree : forall m, Forall (fun kv => web R (snd kv) /\ known R (snd kv)) m -> forall c s, root s = R -> resolve_fields (On n) m c s = resolve_fields (Off n) m c s.
Proof.
  intros m F. induction F as [|[k v] m [W K] F IHm]; intros c s Rt; [reflexivity|]. cbn [resolve_fields snd] in *.
  assert (E : resolve_field (On n) k v c s = resolve_field (Off n) k v c s). { unfold resolve_field. destruct (restriction c) as [|k1 [|k2 rest]]; [rewrite (IH _ v s W K Rt); reflexivity|reflexivity|]. rewrite (IH _ v s W K Rt). reflexivity. }
  rewrite E. destruct (resolve_field (Off n) k v c s) as [[r c1]| |]; [|reflexivity|reflexivity]. cbn [bind]. rewrite (IHm _ s Rt). reflexivity.
Qed.
Lemma elements_agree : forall rest, Forall (fun v => web R v /\ known R v) rest -> forall before init changed c s, root s = R ->
  resolve_elements (On n) before rest init changed c s = resolve_elements (Off n) before rest init changed c s.
Proof.
  intros rest F. induction F as [|v rest [W K] F IHv]; intros before init changed c s Rt; [reflexivity|]. cbn [resolve_elements]. rewrite (IH _ v s W K Rt). destruct (Off n c v s) as [[r c1]| |]; [|reflexivity|reflexivity]. cbn [bind]. cbn zeta. apply IHv. exact Rt.
Qed.
Lemma both : forall vs, Forall (web R) vs -> (forall v, In v vs -> known R v) -> Forall (fun v => web R v /\ known R v) vs.
Proof. intros vs F K. rewrite Forall_forall in *. intros v I0. split; auto. Qed.
Lemma reference_agree : forall id p o c s, web R (VRef id p o 0) -> known R (VRef id p o 0) -> root s = R ->
  resolve_reference allow true env (On n) id p o 0 c s = resolve_reference allow false env' (Off n) id p o 0 c s.
Proof.
  intros id p o c s W K Rt. unfold resolve_reference. destruct (is_marked c id); [reflexivity|]. cbn zeta. inversion W as [| | |? ? ? P D|]; subst. unfold lookup_subst. rewrite Rt.
  assert (E : find_in_object (On n) R (add_marker c id) p = find_in_object (Off n) R (add_marker c id) p). { unfold find_in_object. rewrite (IH _ R (Source R []) Rw Rk eq_refl). reflexivity. }
  rewrite E. assert (G := K id p o 0 (inside_self _)). destruct (get p R) as [v|] eqn:Gp; [|contradiction].
  assert (Wk := walk allow false env' n p (markers (add_marker c id)) R (Source R []) P D). unfold find_in_object. unfold add_marker in *. cbn [markers restriction] in *.
  assert (Rp : restrict (Context (restriction c) (markers c ++ [id]) []) p = Context p (markers c ++ [id]) []). { unfold restrict. cbn [restriction markers]. destruct (path_eq p (restriction c)) eqn:Ep; [apply path_eq_spec in Ep; subst p|]; reflexivity. }
  rewrite Rp. destruct Wk as [Wk|[me Wk]]; rewrite Wk; [reflexivity|]. cbn [bind]. assert (O : is_object R = true) by (destruct R; try contradiction; reflexivity). rewrite O.
  destruct (find_path_direct p R [] Rv P D) as [q F]. rewrite F, Gp. cbn [bind attempt]. rewrite IH; [reflexivity|exact (web_inside _ _ _ Rw (get_inside _ _ _ Gp))|exact (known_inside _ _ Rk (get_inside _ _ _ Gp))|]. cbn [root]. apply last_last.
Qed.
Lemma step_agree : agree (S n).
Proof.
  intros c v s W K Rt. cbn [resolve_n]. unfold resolve_step.
  assert (E : resolve_substitutions allow true env (On n) v c s = resolve_substitutions allow false env' (Off n) v c s).
  { destruct v as [sc|vs|r i m|id p o l|vs|vs|vs]; cbn [resolve_substitutions]; try (inversion W; fail).
    - reflexivity.
    - inversion W as [|? F| | |]; subst. unfold resolve_list. rewrite elements_agree; [reflexivity|apply both; [exact F|intros v Hv; exact (known_inside _ _ K (inside_list _ _ _ Hv (inside_self _)))]|unfold push_parent; destruct (parents s); exact Rt].
    - inversion W as [| |? ? ? _ F| |]; subst. unfold resolve_object. rewrite fields_agree; [reflexivity| |unfold push_parent; destruct (parents s); [destruct (is_object (VObj r i m) && same (VObj r i m) (root s)); exact Rt|exact Rt]].
      rewrite Forall_forall in *. intros [k v] Hv. split; [exact (F _ Hv)|exact (known_inside _ _ K (inside_object _ _ _ _ _ _ Hv (inside_self _)))].
    - inversion W; subst. apply reference_agree; assumption.
    - inversion W as [| | | |? F]; subst. unfold resolve_concatenation. rewrite pieces_agree; [reflexivity| |exact Rt]. apply both; [exact F|intros v Hv; exact (known_inside _ _ K (inside_concat _ _ _ Hv (inside_self _)))]. }
  rewrite E. reflexivity.
Qed.
End Step.
Lemma all_agree : forall n, agree n.
Proof. intro n. induction n as [|n IH]; [intros c v s _ _ _; reflexivity|exact (step_agree n IH)]. Qed.
Lemma environment_ignored : forall n, resolve_config allow true env n R = resolve_config allow false env' n R.
Proof. intro n. unfold resolve_config, resolve_with. rewrite (all_agree n moved_from R (Source R []) Rw Rk eq_refl). reflexivity. Qed.
End Environment.
