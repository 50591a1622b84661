(** What resolving returns is what the value means, delayed merges included. *)
From Verif Require Import Base BaseLemmas Util_Model Num_Model Path_Model Token_Model Value_Model Value_Spec Value_Lemmas Value_Lemmas2 Path_Lemmas
  Duration_Model Config_Model Concat_Model Concat_Lemmas Resolve_Model Resolve_Spec Resolve_Lemmas Resolve_Lemmas2 Resolve_Lemmas4 Resolve_Lemmas5 Resolve_Lemmas6 Resolve_Lemmas7 Resolve_Lemmas8 Resolve_Lemmas9 Resolve_Lemmas12.
From Coq Require Import Relations.

Definition mild {A} (r : result A) : Prop := r <> Throw ENotPossible.
Lemma neat_mild : forall A (r : result A), neat r -> mild r.
Proof. intros A r N E. subst r. discriminate. Qed.
Lemma mild_bind : forall A B (r : result A) (k : A -> result B), mild r -> (forall x, mild (k x)) -> mild (bind r k).
Proof. intros A B r k M K. destruct r as [x|e|u]; cbn [bind]; [apply K| |]; intro E; try discriminate. apply M. congruence. Qed.
Lemma make_replacement_mild : forall stack n, mild (make_replacement stack n).
Proof.
  intros stack n. unfold make_replacement. destruct (skipn n stack) as [|v vs]; [discriminate|]. apply mild_bind; [|discriminate]. revert v. induction vs as [|w vs IH]; intro v; [discriminate|]. cbn [merge_stack]. apply mild_bind; [apply neat_mild, fallback_neat|exact IH].
Qed.
Lemma replace_in_fields_mild : forall m child r, mild (replace_in_fields m child r).
Proof. intro m. induction m as [|[k v] m IH]; intros child r; cbn [replace_in_fields]; [discriminate|]. destruct (same v child); [discriminate|]. apply mild_bind; [apply IH|discriminate]. Qed.
Lemma replace_in_list_mild : forall vs child r, mild (replace_in_list vs child r).
Proof. intro vs. induction vs as [|v vs IH]; intros child r; cbn [replace_in_list]; [discriminate|]. destruct (same v child); [discriminate|]. apply mild_bind; [apply IH|discriminate]. Qed.
Lemma replace_child_mild : forall p child r, mild (replace_child p child r).
Proof.
  intros p child r. destruct p as [s|vs|b i m|id q o l|vs|vs|vs]; cbn [replace_child]; try discriminate; (apply mild_bind; [first [apply replace_in_list_mild|apply replace_in_fields_mild]|]); try discriminate.
  intros [|v vs']; [discriminate|]. apply mild_bind; [apply neat_mild, new_concat_neat|discriminate].
Qed.
Lemma replace_chain_mild : forall above old r, mild (replace_chain old above r).
Proof. intro above. induction above as [|p above IH]; intros old r; cbn [replace_chain]; [discriminate|]. apply mild_bind; [apply replace_child_mild|]. intro np. apply mild_bind; [apply IH|discriminate]. Qed.
Lemma replace_within_mild : forall s old r, mild (replace_within_current_parent s old r).
Proof.
  intros s old r. unfold replace_within_current_parent. destruct (match r with Some r0 => same old r0 | None => false end); [discriminate|]. destruct (parents s) as [|p ps].
  - destruct r as [r|]; [|discriminate]. destruct (same old (root s) && is_container r); discriminate.
  - apply mild_bind; [apply replace_child_mild|]. intro np. match goal with |- mild (if ?b then _ else _) => destruct b; [discriminate|] end. apply mild_bind; [apply replace_chain_mild|]. intros [|x xs]; [discriminate|]. destruct (is_object (List.last xs x)); discriminate.
Qed.
Lemma layers_snoc : forall vs v m, layers vs = Ok m -> layers (vs ++ [v]) = match m with Some a => w <- with_fallback a v ;; Ok (Some w) | None => Ok (Some v) end.
Proof.
  intros vs v m E. destruct vs as [|x vs]; [injection E as <-; reflexivity|]. cbn [layers app] in *. rewrite fold_left_app. cbn [fold_left].
  destruct (fold_left (fun above v0 => a <- above ;; with_fallback a v0) vs (Ok x)) as [a| |]; cbn [bind] in E; try discriminate. injection E as <-. reflexivity.
Qed.

Section Sound.
Variable use : bool.
Variable env : list (str * str).
Variable R : value.
Hypothesis Rw : mesh R R.
Hypothesis Rb : never_back R.
Notation Rn := (resolve_n false use env).
Notation envo := (envo use env).
Notation means := (means envo R).
Notation means_each := (means_each envo R).
Notation means_fields := (means_fields envo R).
Notation context_means := (context_means use env R).

Lemma mesh_resolved_means : forall v above, mesh R v -> is_resolved v = true -> means above v (Some v).
Proof.
  intro v. induction v as [s|vs IH|r i m IH|n p o l|vs IH|vs IH|vs IH] using value_induction; intros above W E; try discriminate.
  - constructor.
  - rewrite <- (present_some vs) at 2. constructor. inversion W as [|? F| | | |? ? Dv]; subst; try discriminate Dv. cbn [is_resolved] in E.
    clear W. induction IH as [|v vs Hv IHs IH']; [constructor|]. inversion F; subst. match goal with X : Forall (fun v => definitions v = None) _ |- _ => inversion X; subst end. cbn [forallb] in E. apply andb_prop in E. destruct E. cbn [map]. constructor; auto.
  - cbn [is_resolved] in E. subst r. inversion W as [| |? ? ? Fr F| | |? ? Dv]; subst; try discriminate Dv. specialize (Fr eq_refl).
    rewrite <- (present_fields_some m) at 2. constructor.
    clear W. unfold fields_resolved in Fr. induction IH as [|[k v] m Hv IHs IH']; [constructor|]. inversion F; subst. cbn [forallb snd] in *. apply andb_prop in Fr. destruct Fr. cbn [map fst snd]. constructor; auto.
Qed.

(** A set of paths where following substitutions does not lead out *)
Definition closed (B : path -> Prop) : Prop := forall p w id q o l, B p -> get p R = Some w -> inside (VRef id q o l) w -> B q.
Definition within (B : path -> Prop) (v : value) : Prop := forall id p o l, inside (VRef id p o l) v -> B p.
(** There [R'] is like [R] *)
Definition variant (B : path -> Prop) (R' : value) : Prop := forall p, B p -> direct p R -> direct p R' /\ get p R' = get p R.
Definition after {A} (above : list nat) (v : value) (r : result A) (f : A -> Prop) : Prop :=
  match r with
  | Ok x => f x
  | Throw ENotPossible => exists id p o l, inside (VRef id p o l) v /\ In id above
  | _ => True
  end.
Definition placed (v : value) (s : source) : Prop := definitions v = None \/ in_object s.
Definition sound_at (n : nat) : Prop := forall B above c v s, closed B -> within B v -> variant B (root s) -> nested s -> placed v s -> inside v R -> context_means above c ->
  after above v (Rn n c v s) (fun x => means above v (fst x) /\ context_means above (snd x) /\ done (fst x)).

Lemma after_bind : forall A B above v (r : result A) (k : A -> result B) (f : A -> Prop) g, after above v r f -> (forall x, f x -> r = Ok x -> after above v (k x) g) -> after above v (bind r k) g.
Proof. intros A B above v r k f g H K. destruct r as [x|e|u]; cbn [bind]; [apply K; [exact H|reflexivity]|exact H|exact H]. Qed.
Lemma after_inside : forall A above v w (r : result A) f, (forall x, inside x v -> inside x w) -> after above v r f -> after above w r f.
Proof. intros A above v w r f H P. destruct r as [x|e|u]; [exact P| |exact P]. destruct e; try exact P. destruct P as [id [p [o [l [P1 P2]]]]]. exists id, p, o, l. auto. Qed.
Lemma mild_after : forall A above v (r : result A), mild r -> after above v r (fun _ => True).
Proof. intros A above v [x|e|u] H; [exact I| |exact I]. destruct e; try exact I. exfalso. exact (H eq_refl). Qed.
Lemma within_inside : forall B v w, within B v -> inside w v -> within B w.
Proof. intros B v w H I0 id p o l I1. exact (H id p o l (inside_trans _ _ _ I1 I0)). Qed.

Section Step.
Variable n : nat.
Hypothesis IH : sound_at n.
Variable B : path -> Prop.
Hypothesis Bc : closed B.

Definition fine (v : value) : Prop := within B v /\ inside v R /\ definitions v = None.
Lemma fine_in : forall self, within B self -> inside self R -> forall vs, (forall v, In v vs -> inside v self) -> Forall (fun v => definitions v = None) vs -> Forall fine vs.
Proof. intros self W I0 vs H F. rewrite Forall_forall in *. intros v Hv. split; [exact (within_inside _ _ _ W (H _ Hv))|]. split; [exact (inside_trans _ _ _ (H _ Hv) I0)|exact (F _ Hv)]. Qed.

Lemma each_sound : forall above self vs, Forall fine vs -> (forall x v, In v vs -> inside x v -> inside x self) -> forall c s, context_means above c -> variant B (root s) -> nested s ->
  after above self (resolve_pieces (Rn n) vs c s) (fun x => exists rs, means_each above vs rs /\ fst x = present rs /\ Forall (fun w => is_resolved w = true) (fst x) /\ context_means above (snd x)).
Proof.
  intros above self vs F. induction F as [|v vs [Wv [Iv Dv]] F IHv]; intros In0 c s C Va N; cbn [resolve_pieces].
  - exists []. split; [constructor|]. split; [reflexivity|]. split; [constructor|exact C].
  - rewrite (context_restrict _ _ _ _ _ C). eapply after_bind; [eapply after_inside; [|exact (IH B above c v s Bc Wv Va N (or_introl Dv) Iv C)]; intros x; apply In0; left; reflexivity|]. intros [r c1] [M [C1 Dn]] _. cbn [fst snd] in *.
    replace (restriction c) with (@nil str) by (symmetry; exact (proj1 C)). rewrite (context_restrict _ _ _ _ _ C1).
    eapply after_bind; [apply IHv; [intros x w Hw; apply In0; right; exact Hw|exact C1|exact Va|exact N]|]. intros [rs0 c2] [rs [M2 [E [Fr C2]]]] _. cbn [fst snd] in *. cbn [after]. exists (r :: rs). split; [constructor; assumption|]. split; [|split; [destruct r; [constructor; assumption|exact Fr]|exact C2]].
    subst rs0. unfold present. cbn [flat_map fst]. destruct r; reflexivity.
Qed.
Lemma fields_sound : forall above self m, Forall (fun kv => within B (snd kv) /\ inside (snd kv) R) m -> (forall x k v, In (k, v) m -> inside x v -> inside x self) -> forall c s, context_means above c -> variant B (root s) -> nested s -> in_object s ->
  after above self (resolve_fields (Rn n) m c s) (fun x => means_fields above m (fst x) /\ context_means above (snd x)).
Proof.
  intros above self m F. induction F as [|[k v] m [Wv Iv] F IHv]; intros In0 c s C Va N O; cbn [resolve_fields].
  - split; [constructor|exact C].
  - cbn [snd] in Wv, Iv. unfold resolve_field. rewrite (proj1 C). eapply after_bind with (f := fun x => means above v (fst x) /\ context_means above (snd x)).
    + eapply after_bind; [eapply after_inside; [|exact (IH B above c v s Bc Wv Va N (or_intror O) Iv C)]; intros x; apply (In0 x k); left; reflexivity|]. intros [r c1] [M [C1 _]] _. cbn [fst snd] in *. cbn [after fst snd]. rewrite (context_restrict _ _ _ _ _ C1). auto.
    + intros [r c1] [M C1] _. cbn [fst snd] in *. eapply after_bind; [apply IHv; [intros x k' w Hw; apply (In0 x k'); right; exact Hw|exact C1|exact Va|exact N|exact O]|]. intros [rs c2] [M2 C2] _. cbn [fst snd] in *. cbn [after fst snd]. split; [constructor; assumption|exact C2].
Qed.
Lemma elements_sound : forall above self rest, Forall fine rest -> (forall x v, In v rest -> inside x v -> inside x self) -> forall before rs init changed c s,
  means_each above before rs -> loop_state before rs init changed -> context_means above c -> variant B (root s) -> nested s ->
  after above self (resolve_elements (Rn n) before rest init changed c s) (fun x => exists qs, means_each above (before ++ rest) qs /\ loop_state (before ++ rest) qs (fst (fst x)) (snd (fst x)) /\ context_means above (snd x)).
Proof.
  intros above self rest F. induction F as [|v rest [Wv [Iv Dv]] F IHv]; intros In0 before rs init changed c s Mb L C Va N; cbn [resolve_elements].
  - exists rs. rewrite app_nil_r. auto.
  - eapply after_bind; [eapply after_inside; [|exact (IH B above c v s Bc Wv Va N (or_introl Dv) Iv C)]; intros x; apply In0; left; reflexivity|]. intros [r c1] [M [C1 _]] _. cbn [fst snd] in *. cbn zeta.
    replace (before ++ v :: rest) with ((before ++ [v]) ++ rest) by (rewrite <- app_assoc; reflexivity).
    apply (IHv ltac:(intros x w Hw; apply In0; right; exact Hw) (before ++ [v]) (rs ++ [r])); [apply each_app; [exact Mb|constructor; [exact M|constructor]]| |exact C1|exact Va|exact N].
    unfold loop_state in *. destruct init.
    + cbn [orb]. destruct changed as [|a changed].
      * destruct L as [L|L]; [|discriminate]. destruct (dropped_unresolved _ _ _ _ _ _ Mb (eq_sym L)) as [->|U].
        -- left. rewrite present_app, <- L. destruct (negb (unchanged v r)), r; reflexivity.
        -- destruct (negb (unchanged v r)).
           ++ right. destruct r; [rewrite existsb_app, U; reflexivity|exact U].
           ++ left. rewrite present_app, <- L. destruct r; reflexivity.
      * destruct L as [L|L].
        -- left. rewrite present_app, <- L. destruct r; cbn; [reflexivity|rewrite app_nil_r; reflexivity].
        -- right. destruct r; [rewrite existsb_app, L; reflexivity|exact L].
    + destruct L as [-> ->]. cbn [orb]. assert (Pb := present_some before). destruct (negb (unchanged v r)) eqn:U.
      * left. rewrite present_app, Pb. destruct r; cbn; [reflexivity|rewrite app_nil_r; reflexivity].
      * split; [reflexivity|]. rewrite map_app. f_equal. cbn. destruct r as [w|]; [|discriminate]. cbn [unchanged] in U. apply negb_false_iff, same_eq in U. congruence.
Qed.
Lemma reference_sound : forall above id p o c s, mesh R (VRef id p o 0) -> B p -> context_means above c -> variant B (root s) -> vobj (root s) ->
  after above (VRef id p o 0) (resolve_reference false use env (Rn n) id p o 0 c s) (fun x => means above (VRef id p o 0) (fst x) /\ context_means above (snd x)).
Proof.
  intros above id p o c s W Bp [C1 [C2 C3]] Va Vo. unfold resolve_reference. destruct (is_marked c id); [exact I|]. cbn zeta. inversion W as [| | |? ? ? P D| |? ? Dv]; subst; try discriminate Dv.
  destruct (Va p Bp D) as [D' G']. set (R' := root s) in *.
  destruct c as [r0 ms me]. cbn [restriction markers] in *. subst r0. unfold add_marker. cbn [restriction markers].
  assert (Rm : forall ms', incl ms' (id :: above) -> context_means above (remove_marker (Context [] ms' []) id)).
  { intros ms' H. apply context_fresh. cbn [markers]. intros x Hx. apply filter_In in Hx. destruct Hx as [Hx Hn]. destruct (H x Hx) as [->|Hx']; [rewrite Nat.eqb_refl in Hn; discriminate|exact Hx']. }
  assert (Rm2 : forall c', restriction c' = [] -> incl (markers c') (id :: above) -> context_means above (remove_marker c' id)).
  { intros [r1 ms1 me1] E H. cbn [restriction markers] in *. subst r1. exact (Rm ms1 H). }
  assert (Im : incl (ms ++ [id]) (id :: above)). { intros x Hx. apply in_app_or in Hx. destruct Hx as [Hx|[->|[]]]; [right; exact (C3 _ Hx)|left; reflexivity]. }
  assert (Fin : forall w c', restriction c' = [] -> incl (markers c') (id :: above) -> (match w with Some _ => means above (VRef id p o 0) w | None => o = true -> means above (VRef id p o 0) None end) ->
    after above (VRef id p o 0) (finish_reference false (VRef id p o 0) id o w c') (fun x => means above (VRef id p o 0) (fst x) /\ context_means above (snd x))).
  { intros w c' E H M. unfold finish_reference. destruct w as [w|]; [split; [exact M|exact (Rm2 _ E H)]|]. destruct o; [split; [exact (M eq_refl)|exact (Rm2 _ E H)]|exact I]. }
  match goal with |- after _ _ _ ?f => set (post := f) in * end. clearbody post.
  unfold lookup_subst. cbn [Z.ltb Z.compare]. rewrite sub_path_zero. fold R'.
  destruct (find_in_objects false use env n R' (ms ++ [id]) [] p Vo P D') as [E|[q [Fq E]]]; rewrite E; [exact I|]. cbn [bind]. rewrite G'.
  destruct (get p R) as [v|] eqn:G.
  - cbn [attempt bind]. set (src := Source (List.last (q ++ [R']) v) (q ++ [R'])). assert (Rs : root src = R') by (unfold src; cbn [root]; apply last_last).
    assert (Ob : in_object src). { unfold in_object, src. cbn [parents]. destruct q as [|a q]; [destruct R'; try contradiction; exact I|]. inversion Fq as [|? ? Va0]; subst. cbn [app]. destruct a; try contradiction. exact I. }
    assert (Ns : nested src). { split; [rewrite Rs; exact Vo|]. unfold src at 1 2. cbn [parents]. split.
      - apply Forall_app. split; [|constructor; [destruct R'; try contradiction; exact I|constructor]]. rewrite Forall_forall in *. intros x Hx. specialize (Fq x Hx). destruct x; try contradiction. exact I.
      - destruct (q ++ [R']) as [|a l] eqn:Eq; [exact I|]. rewrite Rs. rewrite <- (last_cons _ l a a), <- Eq. apply last_last. }
    assert (Wv : within B v) by (intros id' p' o' l' I0; exact (Bc p v id' p' o' l' Bp G I0)).
    assert (H := IH B (id :: above) (Context [] (ms ++ [id]) []) v src Bc Wv ltac:(rewrite Rs; exact Va) Ns (or_intror Ob) (get_inside _ _ _ G) (context_fresh _ _ _ _ _ Im)).
    destruct (Rn n (Context [] (ms ++ [id]) []) v src) as [[w c']|e|u]; cbn [after] in H.
    + destruct H as [M [[X1 [X2 X3]] _]]. cbn [fst snd] in *. cbn [attempt bind]. apply Fin; [exact X1|exact X3|]. destruct w as [w|]; [exact (means_found _ _ _ _ _ _ _ _ _ G M)|]. intros ->. exact (means_found_nothing _ _ _ _ _ _ _ G M).
    + destruct e; cbn [attempt bind]; try exact I. destruct H as [id' [p' [o' [l' [H1 H2]]]]]. destruct o; [|exact I]. apply Fin; [reflexivity|exact Im|]. intros _. exact (means_cycle _ _ _ _ _ _ _ _ _ _ _ G H1 H2).
    + exact I.
  - cbn [bind]. assert (U : use = true \/ use = false) by (destruct use; auto). destruct U as [U|U].
    + assert (Eo : envo = Some env) by (unfold Resolve_Lemmas7.envo, environment_if; rewrite U; reflexivity). rewrite U.
      destruct (find_in_direct false true env n (environment_object env) [] [] p I P (environment_direct env p)) as [E2|[q2 E2]]; unfold moved_from; rewrite E2; [exact I|]. rewrite from_environment_get by exact P. rewrite Eo in *.
      destruct (from_environment (Some env) p) as [t|] eqn:Fe; cbn [attempt bind].
      * assert (Sc : forall s0, resolve_n false true env n (Context [] [] []) (VScalar (SStr t true)) s0 = Stuck UFuel \/ exists me', resolve_n false true env n (Context [] [] []) (VScalar (SStr t true)) s0 = Ok (Some (VScalar (SStr t true)), Context [] [] me')).
        { intro s0. clear. destruct n; [left; reflexivity|right; eexists; reflexivity]. }
        match goal with |- context [resolve_n _ _ _ n _ _ ?s0] => destruct (Sc s0) as [E3|[me' E3]]; rewrite E3; [exact I|] end. cbn [attempt bind]. apply Fin; [reflexivity|intros x []|]. exact (means_environment _ _ _ _ _ _ _ _ G Fe).
      * apply Fin; [reflexivity|intros x []|]. intros ->. exact (means_undefined _ _ _ _ _ _ G Fe).
    + assert (Eo : envo = None) by (unfold Resolve_Lemmas7.envo, environment_if; rewrite U; reflexivity). rewrite Eo in *. rewrite U. cbn [attempt bind]. apply Fin; [reflexivity|exact Im|]. intros ->. apply means_undefined; [exact G|reflexivity].
Qed.

(** what [resolve_substitutions] owes to [resolve] *)
Definition owes (above : list nat) (v : value) (x : option value * context) : Prop :=
  match fst x with Some w => is_resolved w = true -> means above v (Some w) | None => means above v None end /\ context_means above (snd x).
Lemma concat_sound : forall above vs c s, within B (VConcat vs) -> inside (VConcat vs) R -> context_means above c -> variant B (root s) -> nested s ->
  after above (VConcat vs) (resolve_concatenation false (Rn n) vs c s) (owes above (VConcat vs)).
Proof.
  intros above vs c s W I0 C Va N. unfold resolve_concatenation. assert (Wm := mesh_inside _ _ _ Rw I0). inversion Wm as [| | | |? _ Nd|? ? Dv]; subst; try discriminate Dv.
  assert (F := fine_in (VConcat vs) W I0 vs (fun v Hv => inside_concat _ _ _ Hv (inside_self _)) Nd).
  eapply after_bind; [apply (each_sound above (VConcat vs) vs F); [intros x v Hv Hx; exact (inside_concat _ _ _ Hv Hx)|exact C|exact Va|exact N]|]. intros [ps c1] [rs [M [E [Fr C1]]]] _. cbn [fst snd] in *.
  eapply after_bind; [apply mild_after, neat_mild, consolidate_neat|]. intros joined _ Ej. rewrite andb_false_r. destruct joined as [|w [|w2 joined]]; cbn [after]; [|split; [|exact C1]; intros _; subst ps; exact (means_concat _ _ _ _ _ _ M Ej)|exact I].
  split; [|exact C1]. cbn [fst]. apply (means_concat_nothing _ _ _ _ rs M). subst ps. destruct (present rs) as [|a [|b q]] eqn:Ep; [reflexivity|discriminate|]. exfalso. cbn [consolidate] in Ej.
  assert (J : forall ps b0, join_all b0 ps = Ok [] -> b0 = [] /\ ps = []).
  { clear. intro ps. induction ps as [|v ps IHp]; intros b0 H; cbn [join_all] in H; [injection H as H; split; [|reflexivity]; destruct b0 as [|x b0]; [reflexivity|]; cbn in H; destruct (rev b0); discriminate|].
    destruct b0 as [|x b0]; [destruct (IHp _ H); discriminate|]. destruct (join_values x v) as [[y|]| |]; cbn [bind] in H; try discriminate; destruct (IHp _ H); discriminate. }
  destruct (J _ _ Ej) as [_ Hf]. inversion Fr as [|? ? Ra]; subst. destruct a; discriminate.
Qed.
Lemma list_sound : forall above vs c s, within B (VList vs) -> inside (VList vs) R -> context_means above c -> variant B (root s) -> nested s ->
  after above (VList vs) (resolve_list false (Rn n) vs c s) (owes above (VList vs)).
Proof.
  intros above vs c s W I0 C Va N. assert (Wm := mesh_inside _ _ _ Rw I0). unfold resolve_list. destruct (forallb is_resolved vs) eqn:Er; [split; [intros _; exact (mesh_resolved_means _ _ Wm Er)|exact C]|].
  unfold is_restricted. rewrite (proj1 C). cbn [is_empty_path negb]. inversion Wm as [|? _ Nd| | | |? ? Dv]; subst; try discriminate Dv.
  assert (F := fine_in (VList vs) W I0 vs (fun v Hv => inside_list _ _ _ Hv (inside_self _)) Nd).
  eapply after_bind; [apply (elements_sound above (VList vs) vs F) with (rs := []); [intros x v Hv Hx; exact (inside_list _ _ _ Hv Hx)|constructor|split; reflexivity|exact C|rewrite root_push; exact Va|apply nested_push; [exact N|exact I]]|].
  intros [[init changed] c1] [qs [M [L C1]]] _. cbn [fst snd app] in *. destruct init.
  - cbn [orb]. destruct (forallb is_resolved changed) eqn:Ec; [|exact I]. split; [|exact C1]. intros _. destruct L as [->|L]; [exact (means_list _ _ _ _ _ M)|].
    exfalso. clear - Ec L. induction changed as [|v l IHl]; [discriminate|]. cbn in *. apply andb_prop in Ec. destruct Ec as [E1 E2]. rewrite E1 in L. exact (IHl L E2).
  - split; [|exact C1]. intro X. cbn [is_resolved] in X. congruence.
Qed.
Lemma object_sound : forall above r i m c s, within B (VObj r i m) -> inside (VObj r i m) R -> context_means above c -> variant B (root s) -> nested s ->
  after above (VObj r i m) (resolve_object (Rn n) r i m c s) (owes above (VObj r i m)).
Proof.
  intros above r i m c s W I0 C Va N. assert (Wm := mesh_inside _ _ _ Rw I0). unfold resolve_object. destruct r; [split; [intros _; exact (mesh_resolved_means _ _ Wm eq_refl)|exact C]|].
  assert (F : Forall (fun kv => within B (snd kv) /\ inside (snd kv) R) m).
  { rewrite Forall_forall. intros [k v] Hv. cbn [snd]. assert (X := inside_object v false i m k v Hv (inside_self _)). split; [exact (within_inside _ _ _ W X)|exact (inside_trans _ _ _ X I0)]. }
  assert (O : in_object (push_parent s (VObj false i m))). { unfold in_object, push_parent. destruct s as [rt [|p ps]]; cbn [parents root]; [|exact I]. destruct (is_object (VObj false i m) && same (VObj false i m) rt); exact I. }
  eapply after_bind; [apply (fields_sound above (VObj false i m) m F); [intros x k v Hv Hx; exact (inside_object _ _ _ _ _ _ Hv Hx)|exact C|rewrite root_push; exact Va|apply nested_push; [exact N|exact I]|exact O]|].
  intros [rs c1] [M C1] _. cbn [fst snd] in *. destruct (all_unchanged m rs); [split; [discriminate|exact C1]|]. split; [|exact C1]. cbn [fst]. intro E. cbn [is_resolved] in E. rewrite E. exact (means_object _ _ _ _ _ _ _ M).
Qed.

(** ** Delayed merges *)
Lemma comes_closed : forall e, closed (comes_to R e).
Proof. intros e p w id q o l H G I0. exact (comes_next R e p w id q o l H G I0). Qed.
Lemma stack_sound : forall above self stack, definitions self = Some stack -> within B self -> inside self R -> forall ends before count rs merged c s,
  stack = before ++ ends -> means_each above before rs -> layers (present rs) = Ok merged -> context_means above c -> variant B (root s) -> nested s -> in_object s ->
  after above self (resolve_stack (Rn n) self stack ends count merged c s) (fun x => means above self (fst x) /\ context_means above (snd x)).
Proof.
  intros above self stack Ds W I0 ends. induction ends as [|e ends IHe]; intros before count rs merged c s Es Mb L C Va N O; cbn [resolve_stack].
  - rewrite app_nil_r in Es. subst before. split; [exact (means_merge _ _ _ _ _ _ _ Ds Mb L)|exact C].
  - assert (He : In e stack) by (rewrite Es; apply in_elt). assert (Ie : forall x, inside x e -> inside x self) by (intros x; exact (definitions_inside _ _ _ _ Ds He)). assert (Ie2 := Ie e (inside_self _)).
    assert (Dl : is_delayed self = true) by (destruct self; try discriminate; reflexivity).
    destruct (is_delayed e) eqn:De; [exact I|]. assert (De' : definitions e = None) by (destruct e; try discriminate; reflexivity).
    assert (Next : forall r c1, means above e r -> context_means above c1 -> after above self (
      merged' <- (match r, merged with Some v, Some m => w <- with_fallback m v ;; Ok (Some w) | Some v, None => Ok (Some v) | None, _ => Ok merged end) ;;
      resolve_stack (Rn n) self stack ends (S count) merged' c1 s) (fun x => means above self (fst x) /\ context_means above (snd x))).
    { intros r c1 M C1. eapply after_bind; [apply mild_after; destruct r, merged; try discriminate; apply mild_bind; [apply neat_mild, fallback_neat|discriminate]|]. intros merged' _ Em.
      apply (IHe (before ++ [e]) _ (rs ++ [r])); [rewrite <- app_assoc; exact Es|apply each_app; [exact Mb|constructor; [exact M|constructor]]| |exact C1|exact Va|exact N|exact O].
      rewrite present_app. destruct r as [v|]; cbn [present flat_map app]; [|rewrite app_nil_r; destruct merged; congruence]. rewrite (layers_snoc _ v _ L). destruct merged; exact Em. }
    destruct (is_unmergeable e) eqn:Um.
    + assert (Go : after above self (s' <- (remainder <- make_replacement stack (S count) ;; s1 <- replace_within_current_parent s self remainder ;; Ok (reset_parents s1)) ;; Ok s') (fun s' => exists s1, s' = reset_parents s1 /\ vobj (root s1) /\ (root s1 = root s \/ steady self (root s) (root s1)))).
      { destruct (make_replacement stack (S count)) as [rem|x|u] eqn:Er; cbn [bind]; [| |exact I].
        - destruct (replace_within_current_parent s self rem) as [s1|x|u] eqn:Ew; cbn [bind]; [| |exact I].
          + cbn [after]. exists s1. split; [reflexivity|]. exact (replace_steady _ _ _ _ N O Dl Ew).
          + destruct x; try exact I. exfalso. exact (replace_within_mild s self rem Ew).
        - destruct x; try exact I. exfalso. exact (make_replacement_mild stack (S count) Er). }
      match type of Go with after _ _ (bind ?y _) _ => destruct y as [s'|ex|u]; cbn [bind after] in *; [|exact Go|exact I] end.
      destruct Go as [s1 [-> [Vs St]]]. 
      assert (Wc : within (comes_to R e) e) by (intros id p o l Ip; exact (comes_first R e id p o l Ip)).
      assert (Vc : variant (comes_to R e) (root s1)).
      { intros p Hp Dp. assert (Bp : B p). { clear Dp. induction Hp as [id p o l Ip|p w id q o l Hp IHp G Iq]; [exact (W id p o l (Ie _ Ip))|exact (Bc p w id q o l IHp G Iq)]. }
        destruct (Va p Bp Dp) as [D' G']. destruct St as [-> |[_ St]]; [exact (conj D' G')|]. destruct (St p D') as [D'' G'']. split; [exact D''|]. rewrite G''; [exact G'|]. intros x Gx. rewrite G' in Gx. exact (Rb self stack e p x I0 Ds He Um Hp Gx). }
      assert (H := IH (comes_to R e) above c e (reset_parents s1) (comes_closed e) Wc Vc (conj Vs (conj (Forall_nil _) I)) (or_introl De') (inside_trans _ _ _ Ie2 I0) C).
      eapply after_bind; [eapply after_inside; [exact Ie|exact H]|]. intros [r c1] [M [C1 _]] _. cbn [fst snd] in *. exact (Next r c1 M C1).
    + cbn [bind]. assert (Up : unconcat self) by (destruct self; try discriminate; exact I).
      assert (H := IH B above c e (push_parent s self) Bc (within_inside _ _ _ W Ie2) ltac:(rewrite root_push; exact Va) (nested_push _ _ N Up) (or_introl De') (inside_trans _ _ _ Ie2 I0) C).
      eapply after_bind; [eapply after_inside; [exact Ie|exact H]|]. intros [r c1] [M [C1 _]] _. cbn [fst snd] in *. exact (Next r c1 M C1).
Qed.
End Step.

Lemma step_sound : forall n, sound_at n -> sound_at (S n).
Proof.
  intros n IH B above c v s Bc W Va N Pl I0 C. cbn [resolve_n]. unfold resolve_step. assert (Wm := mesh_inside _ _ _ Rw I0).
  assert (Bd : after above v (if (match v with VRef id _ _ _ => is_marked c id | _ => false end) then Throw ENotPossible
      else '(r, c1) <- resolve_substitutions false use env (Rn n) v c s ;;
        match r with
        | None => Ok (r, memoize c1 v r)
        | Some w => if is_resolved w then Ok (r, memoize c1 v r) else if is_restricted c then Ok (r, c1) else if false then Ok (r, memoize c1 v r) else Throw EBug
        end) (fun x => means above v (fst x) /\ context_means above (snd x) /\ done (fst x))).
  { destruct (match v with VRef id _ _ _ => is_marked c id | _ => false end) eqn:Mk.
    - destruct v as [| | |id p o l| | |]; try discriminate. exists id, p, o, l. split; [constructor|]. apply (proj2 (proj2 C)). unfold is_marked in Mk. apply existsb_exists in Mk. destruct Mk as [y [Hy E]]. apply Nat.eqb_eq in E. congruence.
    - apply after_bind with (f := owes above v).
      + assert (Weak : forall (r : result (option value * context)), after above v r (fun x => means above v (fst x) /\ context_means above (snd x)) -> after above v r (owes above v)).
        { intros [[r c1]|e|u] H; [|exact H|exact H]. destruct H as [H1 H2]. split; [destruct r; [intros _|]; exact H1|exact H2]. }
        destruct v as [sc|vs|r i m|id p o l|vs|vs|vs]; cbn [resolve_substitutions].
        * split; [intros _; constructor|exact C].
        * apply (list_sound n IH B Bc); assumption.
        * apply (object_sound n IH B Bc); assumption.
        * apply Weak. inversion Wm as [| | |? ? ? P D| |? ? Dv]; subst; try discriminate Dv. apply (reference_sound n IH B Bc); [exact Wm|exact (W _ _ _ _ (inside_self _))|exact C|exact Va|exact (proj1 N)].
        * apply (concat_sound n IH B Bc); assumption.
        * apply Weak. destruct Pl as [Pl|Pl]; [discriminate|]. apply (stack_sound n IH B Bc above (VMerge vs) vs eq_refl W I0 vs [] 0%nat [] None c s eq_refl); [constructor|reflexivity|exact C|exact Va|exact N|exact Pl].
        * apply Weak. destruct Pl as [Pl|Pl]; [discriminate|]. apply (stack_sound n IH B Bc above (VMergeObj vs) vs eq_refl W I0 vs [] 0%nat [] None c s eq_refl); [constructor|reflexivity|exact C|exact Va|exact N|exact Pl].
      + intros [r c1] [O C1] _. cbn [fst snd] in *. destruct r as [w|]; [|split; [exact O|split; [apply memoize_means; [exact C1|exact I]|exact I]]].
        destruct (is_resolved w) eqn:Ew; [specialize (O eq_refl); split; [exact O|split; [apply memoize_means; [exact C1|split; assumption]|exact Ew]]|].
        unfold is_restricted. rewrite (proj1 C). exact I. }
  destruct (find_memo (memos c) v) as [[w|]|] eqn:Fm; [|exact Bd|exact Bd]. apply find_memo_in in Fm. destruct C as [C1 [C2 C3]]. unfold memo_means in C2. rewrite Forall_forall in C2. destruct (C2 _ Fm) as [M D]. cbn [fst snd] in *.
  split; [exact M|]. split; [|exact D]. split; [exact C1|]. split; [|exact C3]. unfold memo_means. rewrite Forall_forall. exact C2.
Qed.
Lemma all_sound : forall n, sound_at n.
Proof. intro n. induction n as [|n IH]; [intros B above c v s _ _ _ _ _ _ _; exact I|exact (step_sound n IH)]. Qed.
End Sound.

Lemma mesh_means : forall use env n v r, simple_object v -> mesh v v -> never_back v -> resolve_config false use env n v = Ok r -> means (environment_if use env) v [] v r.
Proof.
  intros use env n v r O W Nb E. assert (V := simple_vobj _ O). unfold resolve_config, resolve_with in E.
  assert (H := all_sound use env v W Nb n (fun _ => True) [] moved_from v (Source v []) (fun _ _ _ _ _ _ _ _ _ => I) (fun _ _ _ _ _ => I) (fun p _ D => conj D eq_refl) (conj V (conj (Forall_nil _) I)) (or_intror I) (inside_self _) (context_fresh use env v [] [] ltac:(intros x []))).
  destruct (resolve_n false use env n moved_from v (Source v [])) as [[r' c]|e|u]; cbn [bind] in E; try discriminate. injection E as <-. exact (proj1 H).
Qed.

(** ** Consequences *)
Lemma each_pairs : forall envo R above vs rs, means_each envo R above vs rs -> Forall2 (means envo R above) vs rs.
Proof. intros envo R above vs. induction vs as [|v vs IH]; intros rs M; inversion M; subst; constructor; [assumption|apply IH; assumption]. Qed.
Lemma mesh_field : forall use env i m n w, mesh (VObj false i m) (VObj false i m) -> never_back (VObj false i m) -> NoDup (map fst m) ->
  resolve_config false use env n (VObj false i m) = Ok (Some w) ->
  exists rs, w = VObj true i rs /\ forall k, match find_key k m with Some v => means (environment_if use env) (VObj false i m) [] v (find_key k rs) | None => find_key k rs = None end.
Proof.
  intros use env i m n w W Nb N E. assert (M := mesh_means use env n _ _ ltac:(do 3 eexists; reflexivity) W Nb E). inversion M as [| |? ? ? ? rs Ms| | |? ? ? ? ? Dv| | | | |]; subst; try discriminate Dv. exists (present_fields rs). split; [reflexivity|]. intro k.
  assert (F := fields_get _ _ _ _ _ Ms N k). destruct (find_key k m) as [v|]; [|exact F]. destruct F as [r [Mv Er]]. rewrite Er. exact Mv.
Qed.
Lemma definitions_layered : forall use env i m n w, mesh (VObj false i m) (VObj false i m) -> never_back (VObj false i m) -> NoDup (map fst m) ->
  resolve_config false use env n (VObj false i m) = Ok (Some w) ->
  forall k v vs, find_key k m = Some v -> definitions v = Some vs ->
  exists rs, Forall2 (means (environment_if use env) (VObj false i m) []) vs rs /\ layers (present rs) = Ok (get [k] w).
Proof.
  intros use env i m n w W Nb N E k v vs F D. destruct (mesh_field use env i m n w W Nb N E) as [rs [-> H]]. specialize (H k). rewrite F in H. rewrite get_one.
  inversion H as [| | | | |? ? vs' qs ? Dv Mq L| | | | |]; subst; try discriminate D. rewrite D in Dv. injection Dv as <-. exists qs. split; [exact (each_pairs _ _ _ _ _ Mq)|exact L].
Qed.
Lemma mesh_undefined : forall use env v id p l, simple_object v -> mesh v v -> never_back v -> inside (VRef id p false l) v -> get p v = None -> from_environment (environment_if use env) p = None ->
  forall n r, resolve_config false use env n v <> Ok r.
Proof.
  intros use env v id p l O W Nb I0 G Fe n r E. assert (M := mesh_means use env n v r O W Nb E). destruct (proj1 (means_inside _ _ id p l) _ _ _ M I0) as [above [r' M']]. exact (undefined_means_nothing _ _ _ _ _ _ _ G Fe M').
Qed.
Lemma mesh_trapped : forall use env v, simple_object v -> mesh v v -> never_back v -> forall p, clos_trans _ (leads v) p p -> forall n r, resolve_config false use env n v <> Ok r.
Proof.
  intros use env R O W Nb p C n r E. assert (M := mesh_means use env n R r O W Nb E).
  set (P := fun v => exists q, get q R = Some v /\ clos_trans _ (leads R) q q).
  assert (T : forall v, P v -> exists id p l w, inside (VRef id p false l) v /\ get p R = Some w /\ P w).
  { intros v [q [G Cq]]. assert (N : exists q', leads R q q' /\ clos_trans _ (leads R) q' q').
    { apply clos_trans_t1n in Cq. inversion Cq as [y L|y z L Cy]; subst; [exists q; split; [exact L|apply t_step; exact L]|]. exists y. split; [exact L|]. apply t_trans with q; [apply clos_t1n_trans; exact Cy|apply t_step; exact L]. }
    destruct N as [q' [[v' [w [id [l [G' [I0 Gw]]]]]] C']]. rewrite G in G'. injection G' as <-. exists id, q', l, w. split; [exact I0|]. split; [exact Gw|]. exists q'. split; [exact Gw|exact C']. }
  assert (N : exists v, get p R = Some v). { apply clos_trans_t1n in C. inversion C as [y L|y z L Cy]; subst; destruct L as [v [w [id [l [G _]]]]]; exists v; exact G. }
  destruct N as [v G]. destruct (T v (ex_intro _ p (conj G C))) as [id [q [l [w [I0 [Gw Pw]]]]]].
  exact (proj1 (trapped_means_nothing _ _ P T) _ _ _ M id q l w (inside_trans _ _ _ I0 (get_inside _ _ _ G)) Gw Pw).
Qed.
Lemma mesh_resolved_only : forall environment R v above r, mesh R v -> is_resolved v = true -> means environment R above v r -> r = Some v.
Proof.
  intros environment R v. induction v as [s|vs IH|r0 i m IH|n p o l|vs IH|vs IH|vs IH] using value_induction; intros above r W E M; try discriminate.
  - inversion M; [reflexivity|discriminate].
  - inversion M as [|? ? rs Ms| | | |? ? ? ? ? Dv| | | | |]; subst; try discriminate Dv. inversion W as [|? F Nd| | | |? ? Dv]; subst; try discriminate Dv. cbn [is_resolved] in E. f_equal. f_equal. clear M W Nd.
    revert rs Ms. induction IH as [|v vs Hv IHs IHl]; intros rs Ms; inversion Ms as [|? ? r ? rs' Mv Ms']; subst; [reflexivity|]. inversion F as [|? ? Wv Fs]; subst. cbn [forallb] in E. apply andb_prop in E. destruct E as [E1 E2].
    rewrite (Hv _ _ Wv E1 Mv). unfold present in *. cbn. f_equal. apply IHl; assumption.
  - inversion M as [| |? ? ? ? rs Ms| | |? ? ? ? ? Dv| | | | |]; subst; try discriminate Dv. inversion W as [| |? ? ? Fr F| | |? ? Dv]; subst; try discriminate Dv. cbn [is_resolved] in E. subst r0. specialize (Fr eq_refl). f_equal. f_equal. clear M W.
    unfold fields_resolved in Fr. revert rs Ms. induction IH as [|[k v] m Hv IHs IHl]; intros rs Ms; inversion Ms as [|? ? ? r ? rs' Mv Ms']; subst; [reflexivity|]. inversion F as [|? ? Wv Fs]; subst. cbn [forallb snd] in *. apply andb_prop in Fr. destruct Fr as [E1 E2].
    rewrite (Hv _ _ Wv E1 Mv). unfold present_fields in *. cbn. f_equal. apply IHl; assumption.
Qed.
Lemma resolved_no_reference : forall R v id p o l, mesh R v -> is_resolved v = true -> ~ inside (VRef id p o l) v.
Proof.
  intros R v id p o l W Ev I0. remember (VRef id p o l) as x eqn:Ex. induction I0 as [|v vs H I0 IH|r i' m' k' v H I0 IH|v vs H I0 IH|v vs H I0 IH|v vs H I0 IH]; subst; try discriminate; apply IH; auto; exact (mesh_inside R _ _ W ltac:(econstructor; [exact H|constructor])) || (inversion W as [| |? ? ? Fr _| | |? ? Dv]; subst; try discriminate Dv; cbn [is_resolved] in Ev; subst; unfold fields_resolved in Fr; first [rewrite forallb_forall in Ev; exact (Ev _ H)|specialize (Fr eq_refl); rewrite forallb_forall in Fr; exact (Fr _ H)]) || (cbn [is_resolved] in Ev; rewrite forallb_forall in Ev; exact (Ev _ H)).
Qed.
Lemma mesh_environment_field : forall use env i m n w, mesh (VObj false i m) (VObj false i m) -> never_back (VObj false i m) -> NoDup (map fst m) -> resolve_config false use env n (VObj false i m) = Ok (Some w) ->
  forall k id p o l, find_key k m = Some (VRef id p o l) ->
  match get p (VObj false i m), from_environment (environment_if use env) p with
  | Some v, _ => is_resolved v = true -> get [k] w = Some v
  | None, Some t => get [k] w = Some (VScalar (SStr t true))
  | None, None => o = true /\ get [k] w = None
  end.
Proof.
  intros use env i m n w W Nb N E k id p o l F. destruct (mesh_field use env i m n w W Nb N E) as [rs [-> H]]. specialize (H k). rewrite F in H. rewrite get_one.
  destruct (get p (VObj false i m)) as [v|] eqn:G.
  - intro Ev. assert (Wv := mesh_inside _ _ _ W (get_inside _ _ _ G)). inversion H as [| | | | |? ? ? ? ? Dv|? ? ? ? ? v' w' G' M Ea Eb Ec|? ? ? ? v' G' M Ea Eb Ec|? ? ? ? v' id' p' o' l' G' I0 A Ea Eb Ec| |]; subst; try discriminate Dv; try congruence; rewrite G in G'; injection G' as <-.
    + rewrite (mesh_resolved_only _ _ _ _ _ Wv Ev M) at 1. reflexivity.
    + discriminate (mesh_resolved_only _ _ _ _ _ Wv Ev M).
    + exfalso. exact (resolved_no_reference _ _ _ _ _ _ Wv Ev I0).
  - destruct (from_environment (environment_if use env) p) as [t|] eqn:Fe; inversion H; subst; try discriminate; try congruence. split; reflexivity.
Qed.

(** For the examples: all substitutions are followed within the paths [ps], and there are no delayed merges *)
Fixpoint merges (v : value) : list (list value) :=
  match v with
  | VScalar _ | VRef _ _ _ _ => []
  | VList vs | VConcat vs => (fix go vs := match vs with [] => [] | v :: vs => merges v ++ go vs end) vs
  | VMerge vs | VMergeObj vs => vs :: (fix go vs := match vs with [] => [] | v :: vs => merges v ++ go vs end) vs
  | VObj _ _ m => (fix go m := match m with [] => [] | (_, v) :: m => merges v ++ go m end) m
  end.
Lemma inside_merges : forall v w vs, inside w v -> definitions w = Some vs -> In vs (merges v).
Proof.
  intros v w vs H D. induction H as [|v us H I0 IH|r i m k v H I0 IH|v us H I0 IH|v us H I0 IH|v us H I0 IH].
  - destruct w; try discriminate; injection D as ->; left; reflexivity.
  - cbn [merges]. induction us as [|a us IHu]; [contradiction|]. destruct H as [->|H]; apply in_or_app; [left; exact IH|right; exact (IHu H)].
  - cbn [merges]. induction m as [|[k1 a] us IHu]; [contradiction|]. destruct H as [E|H]; apply in_or_app; [injection E as <- <-; left; exact IH|right; exact (IHu H)].
  - cbn [merges]. induction us as [|a us IHu]; [contradiction|]. destruct H as [->|H]; apply in_or_app; [left; exact IH|right; exact (IHu H)].
  - right. induction us as [|a us IHu]; [contradiction|]. destruct H as [->|H]; apply in_or_app; [left; exact IH|right; exact (IHu H)].
  - right. induction us as [|a us IHu]; [contradiction|]. destruct H as [->|H]; apply in_or_app; [left; exact IH|right; exact (IHu H)].
Qed.
Definition listed (ps : list path) (v : value) : bool := forallb (fun s => match s with (_, p, _, _) => if in_dec (list_eq_dec (list_eq_dec ascii_dec)) p ps then true else false end) (substitutions v).
Definition forward (ps : list path) (R : value) : bool :=
  forallb (fun vs => forallb (fun e => negb (is_unmergeable e) || listed ps e) vs) (merges R) &&
  forallb (fun p => match get p R with Some w => listed ps w && match merges w with [] => true | _ => false end | None => true end) ps.
Lemma listed_in : forall ps v id p o l, listed ps v = true -> inside (VRef id p o l) v -> In p ps.
Proof.
  intros ps v id p o l L I0. apply inside_substitutions in I0. unfold listed in L. rewrite forallb_forall in L. specialize (L _ I0). cbn in L. destruct (in_dec (list_eq_dec (list_eq_dec ascii_dec)) p ps) as [H|H]; [exact H|discriminate].
Qed.
Lemma forward_never_back : forall ps R, forward ps R = true -> never_back R.
Proof.
  intros ps R H v vs e p w Iv D He U C G Iw. apply andb_prop in H. destruct H as [H1 H2]. rewrite forallb_forall in H1, H2. 
  assert (Hp : In p ps).
  { clear G Iw. induction C as [id p o l I0|p x id q o l C IH G I0].
    - specialize (H1 _ (inside_merges _ _ _ Iv D)). rewrite forallb_forall in H1. specialize (H1 _ He). rewrite U in H1. exact (listed_in _ _ _ _ _ _ H1 I0).
    - specialize (H2 _ IH). rewrite G in H2. apply andb_prop in H2. exact (listed_in _ _ _ _ _ _ (proj1 H2) I0). }
  specialize (H2 _ Hp). rewrite G in H2. apply andb_prop in H2. destruct H2 as [_ H2]. assert (X := inside_merges _ _ _ Iw D). destruct (merges w); [contradiction|discriminate].
Qed.
