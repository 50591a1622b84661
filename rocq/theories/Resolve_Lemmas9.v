(** Exactly when resolving succeeds, without concatenations and optional substitutions; what optional ones leave. *)
From Coq Require Import Relations.
From Verif Require Import Base BaseLemmas Util_Model Num_Model Path_Model Token_Model Value_Model Value_Spec Value_Lemmas Value_Lemmas2 Path_Lemmas
  Duration_Model Config_Model Concat_Model Concat_Lemmas Resolve_Model Resolve_Spec Resolve_Lemmas Resolve_Lemmas2 Resolve_Lemmas4 Resolve_Lemmas5 Resolve_Lemmas6 Resolve_Lemmas7 Resolve_Lemmas8.

Lemma tidy_web : forall R v, tidy R v -> web R v.
Proof.
  intros R v. induction v as [s|vs IH|r i m IH|n p o l|vs IH|vs IH|vs IH] using value_induction; intro T; inversion T as [|? F|? ? F|? ? P D]; subst; constructor; auto.
  - rewrite Forall_forall in *. auto.
  - rewrite Forall_forall in *. auto.
Qed.
Lemma tidy_inside : forall R v w, tidy R v -> inside w v -> tidy R w.
Proof.
  intros R v w T I0. induction I0 as [|v vs H I0 IH|r i m k v H I0 IH|v vs H I0 IH|v vs H I0 IH|v vs H I0 IH]; [exact T| | | | |]; inversion T as [|? F|? ? F|]; subst; rewrite Forall_forall in F; exact (IH (F _ H)).
Qed.
Lemma tidy_bounded : forall use env R v, (forall id p o l, inside (VRef id p o l) v -> from_environment (envo use env) p = None) -> tidy R v -> sound (bounded false use env) v.
Proof.
  intros use env R v. induction v as [s|vs IH|r i m IH|n p o l|vs IH|vs IH|vs IH] using value_induction; intros E T; inversion T as [|? F|? ? F|? ? P D]; subst; constructor; auto.
  - rewrite Forall_forall in *. intros v Hv. apply IH; auto. intros id p o l I0. exact (E id p o l (inside_list _ _ _ Hv I0)).
  - rewrite Forall_forall in *. intros [k v] Hv. apply (IH (k, v)); [exact Hv| |exact (F _ Hv)]. intros id p o l I0. exact (E id p o l (inside_object _ _ _ _ _ _ Hv I0)).
  - split; [reflexivity|]. split; [discriminate|]. intros ->. split; [reflexivity|]. intros k -> I0. specialize (E n [k] false 0 (inside_self _)). unfold envo, environment_if in E. cbn [from_environment] in E.
    destruct (List.find (fun kv => str_eqb k (fst kv)) env) eqn:Ef; [discriminate|]. apply in_map_iff in I0. destruct I0 as [kv [<- I0]]. assert (X := find_none _ _ Ef _ I0). cbn in X. rewrite (proj2 (str_eqb_eq _ _) eq_refl) in X. discriminate.
Qed.

Section Tidy.
Variable use : bool.
Variable env : list (str * str).
Variable R : value.
Hypothesis Rv : vobj R.
Hypothesis Rt : tidy R R.
Hypothesis Rd : distinct R.
Hypothesis Re : not_in_environment (envo use env) R.
Variable rank : path -> nat.
Hypothesis Rr : forall p q, needs R p q -> (rank q < rank p)%nat.
Notation Rn := (resolve_n false use env).
Let Rw : web R R := tidy_web _ _ Rt.

Definition beyond (above : list nat) (v : value) : Prop :=
  forall id q o l, In id above -> inside (VRef id q o l) R -> forall id' p' o' l', inside (VRef id' p' o' l') v -> (rank p' < rank q)%nat.
Definition outcome {A} (r : result A) (f : A -> Prop) : Prop :=
  match r with Ok x => f x | Throw e => e = EUnresolved /\ exists id p o l, inside (VRef id p o l) R /\ get p R = None | Stuck _ => True end.
Lemma outcome_bind : forall A B (r : result A) (k : A -> result B) f g, outcome r f -> (forall x, f x -> r = Ok x -> outcome (k x) g) -> outcome (bind r k) g.
Proof. intros A B r k f g H K. destruct r as [x|e|u]; cbn [bind]; [apply K; [exact H|reflexivity]|exact H|exact I]. Qed.
Definition good (above : list nat) (x : option value * context) : Prop := (exists w, fst x = Some w /\ is_resolved w = true) /\ context_means use env R above (snd x).
Definition works_at (n : nat) : Prop := forall above c v s, context_means use env R above c -> inside v R -> beyond above v -> root s = R -> outcome (Rn n c v s) (good above).

Section Step.
Variable n : nat.
Hypothesis IH : works_at n.
Lemma elements_work : forall above rest, (forall v, In v rest -> inside v R /\ beyond above v) -> forall before (init : bool) changed c s,
  (if init then changed <> [] /\ forallb is_resolved changed = true else changed = [] /\ forallb is_resolved before = true) -> context_means use env R above c -> root s = R ->
  outcome (resolve_elements (Rn n) before rest init changed c s) (fun x => (if fst (fst x) then forallb is_resolved (snd (fst x)) = true else forallb is_resolved (before ++ rest) = true) /\ context_means use env R above (snd x)).
Proof.
  intros above rest. induction rest as [|v rest IHr]; intros Iv before init changed c s L C E; cbn [resolve_elements].
  - split; [|exact C]. cbn [fst snd]. rewrite app_nil_r. destruct init; apply L.
  - destruct (Iv v (or_introl eq_refl)) as [I1 I2]. eapply outcome_bind; [exact (IH above c v s C I1 I2 E)|]. intros [r c1] [[w [Ew Rw']] C1] _. cbn [fst snd] in *. subst r. cbn zeta.
    replace (before ++ v :: rest) with ((before ++ [v]) ++ rest) by (rewrite <- app_assoc; reflexivity).
    apply IHr; [intros x Hx; apply Iv; right; exact Hx| |exact C1|exact E]. destruct init.
    + destruct L as [L1 L2]. destruct changed as [|a changed]; [contradiction|]. cbn [orb]. split; [discriminate|]. rewrite forallb_app, L2. cbn. rewrite Rw'. reflexivity.
    + destruct L as [-> L2]. cbn [orb]. destruct (negb (unchanged v (Some w))) eqn:U.
      * split; [intro X; apply app_eq_nil in X; destruct X; discriminate|]. rewrite forallb_app, L2. cbn. rewrite Rw'. reflexivity.
      * split; [reflexivity|]. cbn [unchanged] in U. apply negb_false_iff, same_eq in U. subst w. rewrite forallb_app, L2. cbn. rewrite Rw'. reflexivity.
Qed.
Lemma fields_work : forall above m, (forall k v, In (k, v) m -> inside v R /\ beyond above v) -> forall c s, context_means use env R above c -> root s = R ->
  outcome (resolve_fields (Rn n) m c s) (fun x => fields_resolved (kept_fields (fst x)) = true /\ (all_unchanged m (fst x) = true -> fields_resolved m = true) /\ context_means use env R above (snd x)).
Proof.
  intros above m. induction m as [|[k v] m IHm]; intros Iv c s C E; cbn [resolve_fields]; [split; [reflexivity|split; [reflexivity|exact C]]|].
  destruct (Iv k v (or_introl eq_refl)) as [I1 I2]. unfold resolve_field. rewrite (proj1 C). eapply outcome_bind with (f := good above).
  - eapply outcome_bind; [exact (IH above c v s C I1 I2 E)|]. intros [r c1] [G C1] _. cbn [fst snd] in *. split; [exact G|]. cbn [snd]. rewrite (context_restrict _ _ _ _ _ C1). exact C1.
  - intros [r c1] [[w [Ew Rw']] C1] _. cbn [fst snd] in *. subst r. eapply outcome_bind; [apply IHm; [intros k' x Hx; apply (Iv k'); right; exact Hx|exact C1|exact E]|]. intros [rs c2] [A [B D]] _. cbn [fst snd] in *.
    split; [cbn [fst]; unfold kept_fields, fields_resolved in *; cbn; rewrite Rw'; exact A|]. split; [|exact D]. cbn [fst all_unchanged unchanged]. intro U. apply andb_prop in U. destruct U as [U1 U2]. apply same_eq in U1. subst w. unfold fields_resolved in *. cbn [forallb snd]. rewrite Rw'. exact (B U2).
Qed.
Lemma reference_works : forall above id p o l c s, context_means use env R above c -> inside (VRef id p o l) R -> beyond above (VRef id p o l) -> root s = R ->
  outcome (resolve_reference false use env (Rn n) id p o l c s) (fun x => exists w, fst x = Some w /\ is_resolved w = true).
Proof.
  intros above id p o l c s C Iv B E. assert (T := tidy_inside _ _ _ Rt Iv). inversion T as [| | |? ? P D]; subst. unfold resolve_reference.
  destruct (is_marked c id) eqn:Mk.
  { exfalso. unfold is_marked in Mk. apply existsb_exists in Mk. destruct Mk as [y [Hy Ey]]. apply Nat.eqb_eq in Ey. subst y. assert (X := B id p false 0 (proj2 (proj2 C) _ Hy) Iv id p false 0 (inside_self _)). lia. }
  cbn zeta. destruct C as [C1 [C2 C3]]. destruct c as [r0 ms me]. cbn [restriction markers] in *. subst r0. unfold add_marker. cbn [restriction markers]. unfold lookup_subst. cbn [Z.ltb Z.compare]. rewrite sub_path_zero, E.
  destruct (find_in_direct false use env n R (ms ++ [id]) [] p Rv P D) as [E1|[q E1]]; rewrite E1; [exact I|]. cbn [bind]. destruct (get p R) as [v|] eqn:G.
  - cbn [attempt bind].
    assert (In1 : inside v R) by exact (get_inside _ _ _ G).
    assert (Im : incl (ms ++ [id]) (id :: above)). { intros x Hx. apply in_app_or in Hx. destruct Hx as [Hx|[->|[]]]; [right; exact (C3 _ Hx)|left; reflexivity]. }
    assert (B1 : beyond (id :: above) v).
    { intros id0 q0 o0 l0 [<-|I0] Iq id' p' o' l' Ip.
      - assert (q0 = p) by (exact (Rd _ _ _ _ _ _ _ Iq Iv)). subst q0. apply Rr. exists v, id', o', l'. auto.
      - assert (X1 := B id0 q0 o0 l0 I0 Iq id p false 0 (inside_self _)). assert (X2 : (rank p' < rank p)%nat) by (apply Rr; exists v, id', o', l'; auto). lia. }
    assert (Rs : root (Source (List.last (q ++ [R]) v) (q ++ [R])) = R) by (cbn [root]; apply last_last).
    assert (H := IH (id :: above) (Context [] (ms ++ [id]) []) v _ (context_fresh use env R _ _ Im) In1 B1 Rs).
    destruct (Rn n (Context [] (ms ++ [id]) []) v (Source (List.last (q ++ [R]) v) (q ++ [R]))) as [[r c']|e|u]; cbn [outcome] in H.
    + destruct H as [[w [Ew X]] _]. cbn [fst] in Ew. subst r. cbn. exists w. split; [reflexivity|exact X].
    + destruct H as [-> H]. cbn. split; [reflexivity|exact H].
    + exact I.
  - cbn [bind]. assert (Fe := Re id p false 0 Iv). unfold envo, environment_if in Fe.
    assert (Und : exists id p o l, inside (VRef id p o l) R /\ get p R = None) by (exists id, p, false, 0; auto).
    assert (U : use = true \/ use = false) by (destruct use; auto). destruct U as [U|U]; rewrite U in *.
    + destruct (find_in_direct false true env n (environment_object env) [] [] p I P (environment_direct env p)) as [E2|[q2 E2]]; unfold moved_from; rewrite E2; [exact I|]. rewrite from_environment_get by exact P. rewrite Fe. cbn. split; [reflexivity|exact Und].
    + cbn. split; [reflexivity|exact Und].
Qed.
Lemma step_works : works_at (S n).
Proof.
  intros above c v s C Iv B E. assert (T := tidy_inside _ _ _ Rt Iv).
  assert (Sn := all_sound use env R Rv Rw (S n) above c v s C (tidy_web _ _ T) E).
  assert (Wk : outcome (Rn (S n) c v s) (fun x => exists w, fst x = Some w /\ is_resolved w = true)).
  { clear Sn. cbn [resolve_n]. unfold resolve_step.
    assert (Bd : outcome (if (match v with VRef id _ _ _ => is_marked c id | _ => false end) then Throw ENotPossible
      else '(r, c1) <- resolve_substitutions false use env (Rn n) v c s ;;
        match r with
        | None => Ok (r, memoize c1 v r)
        | Some w => if is_resolved w then Ok (r, memoize c1 v r) else if is_restricted c then Ok (r, c1) else if false then Ok (r, memoize c1 v r) else Throw EBug
        end) (fun x => exists w, fst x = Some w /\ is_resolved w = true)).
    { destruct (match v with VRef id _ _ _ => is_marked c id | _ => false end) eqn:Mk.
      - exfalso. destruct v as [| | |id p o l| | |]; try discriminate. unfold is_marked in Mk. apply existsb_exists in Mk. destruct Mk as [y [Hy Ey]]. apply Nat.eqb_eq in Ey. subst y. assert (X := B id p o l (proj2 (proj2 C) _ Hy) Iv id p o l (inside_self _)). lia.
      - apply outcome_bind with (f := fun x => exists w, fst x = Some w /\ is_resolved w = true); [|intros [r c1] [w [Ew X]] _; cbn [fst] in Ew; subst r; rewrite X; cbn; exists w; auto].
        destruct v as [sc|vs|r i m|id p o l|vs|vs|vs]; cbn [resolve_substitutions]; try (inversion T; fail).
        + exists (VScalar sc). split; reflexivity.
        + unfold resolve_list. destruct (forallb is_resolved vs) eqn:Er; [exists (VList vs); split; [reflexivity|exact Er]|]. unfold is_restricted. rewrite (proj1 C). cbn [is_empty_path negb].
          assert (Rp : root (push_parent s (VList vs)) = R) by (unfold push_parent; destruct (parents s); exact E).
          eapply outcome_bind; [apply (elements_work above vs) with (before := []) (init := false) (changed := []); [|split; reflexivity|exact C|exact Rp]|].
          * intros x Hx. split; [exact (inside_trans _ _ _ (inside_list _ _ _ Hx (inside_self _)) Iv)|]. intros i1 q1 o1 l1 H1 H2 i2 p2 o2 l2 H3. exact (B i1 q1 o1 l1 H1 H2 i2 p2 o2 l2 (inside_list _ _ _ Hx H3)).
          * intros [[init changed] c1] [L _] _. cbn [fst snd app] in *. destruct init; [cbn [orb]; rewrite L; eexists; split; [reflexivity|exact L]|congruence].
        + inversion T as [| |? ? F|]; subst. unfold resolve_object. destruct (fields_resolved m) eqn:Er; [eexists; split; reflexivity|].
          assert (Rp : root (push_parent s (VObj false i m)) = R) by (unfold push_parent; destruct (parents s); [destruct (is_object (VObj false i m) && same (VObj false i m) (root s)); exact E|exact E]).
          eapply outcome_bind; [apply (fields_work above m); [|exact C|exact Rp]|].
          * intros k x Hx. split; [exact (inside_trans _ _ _ (inside_object _ _ _ _ _ _ Hx (inside_self _)) Iv)|]. intros i1 q1 o1 l1 H1 H2 i2 p2 o2 l2 H3. exact (B i1 q1 o1 l1 H1 H2 i2 p2 o2 l2 (inside_object _ _ _ _ _ _ Hx H3)).
          * intros [rs c1] [A1 [A2 _]] _. cbn [fst snd] in *. destruct (all_unchanged m rs); [specialize (A2 eq_refl); congruence|]. eexists. split; [reflexivity|exact A1].
        + exact (reference_works above id p o l c s C Iv B E). }
    destruct (find_memo (memos c) v) as [[w|]|] eqn:Fm; [|exact Bd|exact Bd]. apply find_memo_in in Fm. destruct C as [C1 [C2 C3]]. unfold memo_means in C2. rewrite Forall_forall in C2. destruct (C2 _ Fm) as [M D]. exists w. split; [reflexivity|exact D]. }
  destruct (Rn (S n) c v s) as [[r c1]|e|u]; [|exact Wk|exact I]. split; [exact Wk|]. exact (proj1 (proj2 Sn)).
Qed.
End Step.
Lemma all_work : forall n, works_at n.
Proof. intro n. induction n as [|n IH]; [intros above c v s _ _ _ _; exact I|exact (step_works n IH)]. Qed.
End Tidy.

Section Outcome.
Variable use : bool.
Variable env : list (str * str).
Variable R : value.
Hypothesis Rv : vobj R.
Hypothesis Rt : tidy R R.
Hypothesis Rd : distinct R.
Hypothesis Re : not_in_environment (envo use env) R.
Hypothesis Ra : acyclic R.

Lemma tidy_outcome : exists n, (exists w, is_resolved w = true /\ forall m, (n <= m)%nat -> resolve_config false use env m R = Ok (Some w)) \/
  ((exists id p o l, inside (VRef id p o l) R /\ get p R = None) /\ forall m, (n <= m)%nat -> resolve_config false use env m R = Throw EUnresolved).
Proof.
  destruct Ra as [rank Rr]. destruct (resolve_ends false use env R R (tidy_bounded use env R R Re Rt) (tidy_bounded use env R R Re Rt) Rv) as [n [E M]]. exists n.
  assert (W := all_work use env R Rv Rt Rd Re rank Rr n [] moved_from R (Source R []) (context_fresh use env R [] [] ltac:(intros x [])) (inside_self _) ltac:(intros ? ? ? ? []) eq_refl).
  assert (Sn := resolve_not_stuck use env R Rv (tidy_web _ _ Rt) n R). unfold resolve_config in *. unfold resolve_with in E, Sn. 
  assert (Em : forall m, (n <= m)%nat -> resolve_with false use env m R R = ('(r, _) <- resolve_n false use env n moved_from R (Source R []) ;; Ok r)) by exact M.
  destruct (resolve_n false use env n moved_from R (Source R [])) as [[r c]|e|u]; cbn [bind] in *.
  - left. destruct W as [[w [Ew X]] _]. cbn [fst] in Ew. subst r. exists w. auto.
  - right. destruct W as [-> U]. auto.
  - exfalso. apply E. f_equal. apply (Sn u (tidy_web _ _ Rt) eq_refl).
Qed.
Lemma tidy_required : required R.
Proof. intros id p o l I0. assert (T := tidy_inside _ _ _ Rt I0). inversion T. reflexivity. Qed.
Lemma undefined_never : forall id p l, inside (VRef id p false l) R -> get p R = None -> from_environment (envo use env) p = None -> web R R -> forall n r, resolve_config false use env n R <> Ok r.
Proof.
  intros id p l I0 G Fe Rw n r E. destruct (resolve_means use env R Rv Rw n R r Rw E) as [M _]. destruct (proj1 (means_inside _ _ id p l) _ _ _ M I0) as [above [r' M']]. exact (undefined_means_nothing _ _ _ _ _ _ _ G Fe M').
Qed.
Lemma tidy_known : known R R -> exists n w, is_resolved w = true /\ forall m, (n <= m)%nat -> resolve_config false use env m R = Ok (Some w).
Proof.
  intro K. destruct tidy_outcome as [n [[w H]|[[id [p [o [l [I0 G]]]]] _]]]; [exists n, w; exact H|]. exfalso. exact (K _ _ _ _ I0 G).
Qed.
Lemma tidy_unknown : forall id p o l, inside (VRef id p o l) R -> get p R = None -> exists n, forall m, (n <= m)%nat -> resolve_config false use env m R = Throw EUnresolved.
Proof.
  intros id p o l I0 G. destruct tidy_outcome as [n [[w [_ H]]|[_ H]]]; [|exists n; exact H]. exfalso. assert (O := tidy_required _ _ _ _ I0). subst o.
  exact (undefined_never id p l I0 G (Re _ _ _ _ I0) (tidy_web _ _ Rt) n _ (H n (le_n n))).
Qed.
End Outcome.

(** ** Undefined substitutions *)
Lemma undefined_required : forall use env R id p l, vobj R -> web R R -> inside (VRef id p false l) R -> get p R = None -> from_environment (envo use env) p = None ->
  forall n r, resolve_config false use env n R <> Ok r.
Proof.
  intros use env R id p l Rv Rw I0 G Fe n r E. destruct (resolve_means use env R Rv Rw n R r Rw E) as [M _]. destruct (proj1 (means_inside _ _ id p l) _ _ _ M I0) as [above [r' M']]. exact (undefined_means_nothing _ _ _ _ _ _ _ G Fe M').
Qed.

Section Optional.
Variable environment : option (list (str * str)).
Variable R : value.
Notation means := (means environment R).
Notation means_each := (means_each environment R).
Notation means_fields := (means_fields environment R).

Lemma resolved_means_only : forall v above r, web R v -> is_resolved v = true -> means above v r -> r = Some v.
Proof.
  intro v. induction v as [s|vs IH|r0 i m IH|n p o l|vs IH|vs IH|vs IH] using value_induction; intros above r W E M; try discriminate.
  - inversion M; [reflexivity|discriminate].
  - inversion M as [|? ? rs Ms| | | |? ? ? ? ? Dv| | | | |]; subst; try discriminate Dv. inversion W as [|? F| | |]; subst. cbn [is_resolved] in E. f_equal. f_equal. clear M W.
    revert rs Ms. induction IH as [|v vs Hv IHs IHl]; intros rs Ms; inversion Ms as [|? ? r ? rs' Mv Ms']; subst; [reflexivity|]. inversion F as [|? ? Wv Fs]; subst. cbn [forallb] in E. apply andb_prop in E. destruct E as [E1 E2].
    rewrite (Hv _ _ Wv E1 Mv). unfold present in *. cbn. f_equal. apply IHl; assumption.
  - inversion M as [| |? ? ? ? rs Ms| | |? ? ? ? ? Dv| | | | |]; subst; try discriminate Dv. inversion W as [| |? ? ? Fr F| |]; subst. cbn [is_resolved] in E. subst r0. specialize (Fr eq_refl). f_equal. f_equal. clear M W.
    unfold fields_resolved in Fr. revert rs Ms. induction IH as [|[k v] m Hv IHs IHl]; intros rs Ms; inversion Ms as [|? ? ? r ? rs' Mv Ms']; subst; [reflexivity|]. inversion F as [|? ? Wv Fs]; subst. cbn [forallb snd] in *. apply andb_prop in Fr. destruct Fr as [E1 E2].
    rewrite (Hv _ _ Wv E1 Mv). unfold present_fields in *. cbn. f_equal. apply IHl; assumption.
Qed.
Lemma undefined_optional_means : forall above id p l r, get p R = None -> from_environment environment p = None -> means above (VRef id p true l) r -> r = None.
Proof. intros above id p l r G E M. inversion M; subst; try discriminate; congruence. Qed.
Notation here_or_gone := (here_or_gone environment R).
Lemma gone_each : forall above vs rs, means_each above vs rs -> Forall (web R) vs -> Forall here_or_gone vs -> present rs = filter is_resolved vs.
Proof.
  intros above vs. induction vs as [|v vs IH]; intros rs M W F; inversion M as [|? ? r ? rs' Mv Ms]; subst; [reflexivity|]. inversion W as [|? ? Wv Ws]; subst. inversion F as [|? ? Hv Fs]; subst. unfold present in *. cbn [flat_map filter].
  destruct Hv as [E|[id [p [l [-> [G Fe]]]]]].
  - rewrite (resolved_means_only _ _ _ Wv E Mv), E. cbn. f_equal. apply IH; assumption.
  - rewrite (undefined_optional_means _ _ _ _ _ G Fe Mv). cbn. apply IH; assumption.
Qed.
Lemma fields_get : forall above m rs, means_fields above m rs -> NoDup (map fst m) -> forall k, 
  match find_key k m with Some v => exists r, means above v r /\ find_key k (present_fields rs) = r | None => find_key k (present_fields rs) = None end.
Proof.
  intros above m. induction m as [|[k0 v] m IH]; intros rs M N k; inversion M as [|? ? ? r ? rs' Mv Ms]; subst; [reflexivity|]. inversion N as [|? ? N1 N2]; subst. cbn [find_key].
  assert (Np : forall ms rs0, means_fields above ms rs0 -> ~ In k (map fst ms) -> find_key k (present_fields rs0) = None).
  { intros ms. induction ms as [|[k1 v1] ms IHm]; intros rs0 M0 N0; inversion M0 as [|? ? ? r1 ? rs1 Mv1 Ms1]; subst; [reflexivity|]. unfold present_fields in *. cbn [flat_map map fst snd] in *. destruct r1 as [w1|]; cbn [app find_key]; [|apply IHm; [exact Ms1|intro X; apply N0; right; exact X]].
    destruct (str_eqb k k1) eqn:E; [exfalso; apply N0; left; apply str_eqb_eq in E; congruence|]. apply IHm; [exact Ms1|intro X; apply N0; right; exact X]. }
  destruct (str_eqb k k0) eqn:E.
  - apply str_eqb_eq in E. subst k0. exists r. split; [exact Mv|]. unfold present_fields. cbn [flat_map snd fst]. destruct r as [w|]; cbn [app find_key]; [rewrite (proj2 (str_eqb_eq _ _) eq_refl); reflexivity|]. exact (Np _ _ Ms N1).
  - specialize (IH _ Ms N2 k). unfold present_fields in *. cbn [flat_map snd fst]. destruct r as [w|]; cbn [app find_key]; [rewrite E|]; exact IH.
Qed.
End Optional.

(** The field at [k] of the resolved document is what the field at [k] means *)
Lemma resolved_field : forall use env i m n w, web (VObj false i m) (VObj false i m) -> NoDup (map fst m) ->
  resolve_config false use env n (VObj false i m) = Ok (Some w) ->
  exists rs, w = VObj true i rs /\ forall k, match find_key k m with Some v => means (envo use env) (VObj false i m) [] v (find_key k rs) | None => find_key k rs = None end.
Proof.
  intros use env i m n w W N E. destruct (resolve_means use env (VObj false i m) I W n _ _ W E) as [M _]. inversion M as [| |? ? ? ? rs Ms| | |? ? ? ? ? Dv| | | | |]; subst; try discriminate Dv. exists (present_fields rs). split; [reflexivity|]. intro k.
  assert (F := fields_get _ _ _ _ _ Ms N k). destruct (find_key k m) as [v|]; [|exact F]. destruct F as [r [Mv Er]]. rewrite Er. exact Mv.
Qed.
Lemma get_one : forall k r i m, get [k] (VObj r i m) = find_key k m.
Proof. intros. cbn. destruct (find_key k m); reflexivity. Qed.
Lemma find_key_web : forall R r i m k v, web R (VObj r i m) -> find_key k m = Some v -> web R v.
Proof. intros R r i m k v W F. apply (web_inside R _ _ W). apply (get_inside [k]). rewrite get_one. exact F. Qed.
Lemma optional_gone : forall use env i m n w, web (VObj false i m) (VObj false i m) -> NoDup (map fst m) -> resolve_config false use env n (VObj false i m) = Ok (Some w) ->
  forall k v, find_key k m = Some v ->
  (is_resolved v = true -> get [k] w = Some v) /\
  (forall id p l, v = VRef id p true l -> get p (VObj false i m) = None -> from_environment (envo use env) p = None -> get [k] w = None) /\
  (forall vs, v = VList vs -> Forall (here_or_gone (envo use env) (VObj false i m)) vs -> get [k] w = Some (VList (filter is_resolved vs))) /\
  (forall vs, v = VConcat vs -> Forall (here_or_gone (envo use env) (VObj false i m)) vs ->
     match get [k] w with Some x => consolidate (filter is_resolved vs) = Ok [x] | None => filter is_resolved vs = [] end).
Proof.
  intros use env i m n w W N E k v F. destruct (resolved_field use env i m n w W N E) as [rs [-> H]]. specialize (H k). rewrite F in H. rewrite get_one. assert (Wv := find_key_web _ _ _ _ _ _ W F). repeat split.
  - intro R0. exact (resolved_means_only _ _ _ _ _ Wv R0 H).
  - intros id p l -> G Fe. exact (undefined_optional_means _ _ _ _ _ _ _ G Fe H).
  - intros vs -> Fv. inversion H as [|? ? qs Ms| | | |? ? ? ? ? Dv| | | | |]; subst; try discriminate Dv. inversion Wv as [|? Fw| | |]; subst. f_equal. f_equal. exact (gone_each _ _ _ _ _ Ms Fw Fv).
  - intros vs -> Fv. inversion Wv as [| | | |? Fw]; subst. inversion H as [| | |? ? qs x Ms Ec|? ? qs Ms Ec|? ? ? ? ? Dv| | | | |]; subst; try discriminate Dv; rewrite <- (gone_each _ _ _ _ _ Ms Fw Fv); assumption.
Qed.

(** ** Statements in the words of the specification *)
Lemma simple_vobj : forall v, simple_object v -> vobj v.
Proof. intros v [r [i [m ->]]]. exact I. Qed.
Lemma environment_field : forall use env i m n w, web (VObj false i m) (VObj false i m) -> NoDup (map fst m) -> resolve_config false use env n (VObj false i m) = Ok (Some w) ->
  forall k id p o l, find_key k m = Some (VRef id p o l) ->
  match get p (VObj false i m), from_environment (envo use env) p with
  | Some v, _ => is_resolved v = true -> get [k] w = Some v
  | None, Some t => get [k] w = Some (VScalar (SStr t true))
  | None, None => o = true /\ get [k] w = None
  end.
Proof.
  intros use env i m n w W N E k id p o l F. destruct (resolved_field use env i m n w W N E) as [rs [-> H]]. specialize (H k). rewrite F in H. rewrite get_one.
  destruct (get p (VObj false i m)) as [v|] eqn:G.
  - intro Ev. assert (Wv := web_inside _ _ _ W (get_inside _ _ _ G)). inversion H as [| | | | |? ? ? ? ? Dv|? ? ? ? ? v' w' G' M Ea Eb Ec|? ? ? ? v' G' M Ea Eb Ec|? ? ? ? v' id' p' o' l' G' I0 A Ea Eb Ec| |]; subst; try discriminate Dv; try congruence; rewrite G in G'; injection G' as <-.
    + rewrite (resolved_means_only _ _ _ _ _ Wv Ev M) at 1. reflexivity.
    + discriminate (resolved_means_only _ _ _ _ _ Wv Ev M).
    + exfalso. clear - I0 Wv Ev. remember (VRef id' p' o' l') as x eqn:Ex. induction I0 as [|v vs H I0 IH|r i' m' k' v H I0 IH|v vs H I0 IH|v vs H I0 IH|v vs H I0 IH]; subst; try discriminate; apply IH; auto.
      * cbn [is_resolved] in Ev. rewrite forallb_forall in Ev. exact (Ev _ H).
      * inversion Wv as [|? Fw| | |]; subst. rewrite Forall_forall in Fw. exact (Fw _ H).
      * inversion Wv as [| |? ? ? Fr _| |]; subst. cbn [is_resolved] in Ev. subst r. specialize (Fr eq_refl). unfold fields_resolved in Fr. rewrite forallb_forall in Fr. exact (Fr _ H).
      * inversion Wv as [| |? ? ? _ Fw| |]; subst. rewrite Forall_forall in Fw. exact (Fw _ H).
  - destruct (from_environment (envo use env) p) as [t|] eqn:Fe; inversion H; subst; try discriminate; try congruence. split; reflexivity.
Qed.
Lemma config_ends : forall allow use env v, simple_object v -> sound (bounded allow use env) v ->
  exists n, resolve_config allow use env n v <> Stuck UFuel /\ forall m, (n <= m)%nat -> resolve_config allow use env m v = resolve_config allow use env n v.
Proof. intros allow use env v O B. exact (resolve_ends allow use env v v B B (simple_vobj _ O)). Qed.
Lemma config_cycle : forall use env v, simple_object v -> web v v -> sound (bounded false use env) v -> forall p, clos_trans _ (leads v) p p ->
  exists n e, is_config_exn e = true /\ forall m, (n <= m)%nat -> resolve_config false use env m v = Throw e.
Proof. intros use env v O W. exact (cycle_throws use env v (simple_vobj _ O) W). Qed.
Lemma config_trapped : forall use env v, simple_object v -> web v v -> forall p, clos_trans _ (leads v) p p -> forall n r, resolve_config false use env n v <> Ok r.
Proof. intros use env v O W. exact (leads_trapped use env v (simple_vobj _ O) W). Qed.
Lemma config_means : forall use env n v r, simple_object v -> web v v -> resolve_config false use env n v = Ok r -> means (environment_if use env) v [] v r.
Proof. intros use env n v r O W E. exact (proj1 (resolve_means use env v (simple_vobj _ O) W n v r W E)). Qed.
Lemma config_unique : forall environment v r r', (forall id p o l, inside (VRef id p o l) v -> o = false) -> means environment v [] v r -> means environment v [] v r' -> r = r'.
Proof. intros environment v r r' Q M M'. exact (proj1 (means_unique environment v Q) _ _ _ M Q _ _ M'). Qed.
Lemma config_unknown : forall use env v, simple_object v -> tidy v v -> distinct v -> acyclic v -> not_in_environment (environment_if use env) v ->
  forall id p o l, inside (VRef id p o l) v -> get p v = None -> exists n, forall m, (n <= m)%nat -> resolve_config false use env m v = Throw EUnresolved.
Proof. intros use env v O T D A N. exact (tidy_unknown use env v (simple_vobj _ O) T D N A). Qed.
Lemma config_known : forall use env v, simple_object v -> tidy v v -> distinct v -> acyclic v -> not_in_environment (environment_if use env) v ->
  known v v -> exists n w, is_resolved w = true /\ forall m, (n <= m)%nat -> resolve_config false use env m v = Ok (Some w).
Proof. intros use env v O T D A N. exact (tidy_known use env v (simple_vobj _ O) T D N A). Qed.
Lemma config_undefined : forall use env v id p l, simple_object v -> web v v -> inside (VRef id p false l) v -> get p v = None -> from_environment (environment_if use env) p = None ->
  forall n r, resolve_config false use env n v <> Ok r.
Proof. intros use env v id p l O W. exact (undefined_required use env v id p l (simple_vobj _ O) W). Qed.
Lemma config_environment : forall allow env env' v, simple_object v -> web v v -> known v v -> forall n, resolve_config allow true env n v = resolve_config allow false env' n v.
Proof. intros allow env env' v O W K. exact (environment_ignored allow env env' v (simple_vobj _ O) W K). Qed.
(** For the examples: the substitutions inside a value *)
Fixpoint substitutions (v : value) : list (nat * path * bool * Z) :=
  match v with
  | VScalar _ => []
  | VRef id p o l => [(id, p, o, l)]
  | VList vs | VConcat vs | VMerge vs | VMergeObj vs => (fix go vs := match vs with [] => [] | v :: vs => substitutions v ++ go vs end) vs
  | VObj _ _ m => (fix go m := match m with [] => [] | (_, v) :: m => substitutions v ++ go m end) m
  end.
Lemma inside_substitutions : forall v id p o l, inside (VRef id p o l) v -> In (id, p, o, l) (substitutions v).
Proof.
  intros v id p o l H. remember (VRef id p o l) as x eqn:E. induction H as [|v vs H I0 IH|r i m k v H I0 IH|v vs H I0 IH|v vs H I0 IH|v vs H I0 IH]; subst.
  - left. reflexivity.
  - cbn [substitutions]. induction vs as [|w vs IHl]; [destruct H|]. apply in_or_app. destruct H as [->|H]; [left; exact IH|right; exact (IHl H)].
  - cbn [substitutions]. induction m as [|[k' w] m IHl]; [destruct H|]. apply in_or_app. destruct H as [H|H]; [left; injection H as _ ->; exact IH|right; exact (IHl H)].
  - cbn [substitutions]. induction vs as [|w vs IHl]; [destruct H|]. apply in_or_app. destruct H as [->|H]; [left; exact IH|right; exact (IHl H)].
  - cbn [substitutions]. induction vs as [|w vs IHl]; [destruct H|]. apply in_or_app. destruct H as [->|H]; [left; exact IH|right; exact (IHl H)].
  - cbn [substitutions]. induction vs as [|w vs IHl]; [destruct H|]. apply in_or_app. destruct H as [->|H]; [left; exact IH|right; exact (IHl H)].
Qed.
