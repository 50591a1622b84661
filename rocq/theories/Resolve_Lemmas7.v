(** What resolving returns is what the value means. *)
From Verif Require Import Base BaseLemmas Util_Model Num_Model Path_Model Token_Model Value_Model Value_Spec Value_Lemmas Value_Lemmas2 Path_Lemmas
  Duration_Model Config_Model Concat_Model Concat_Lemmas Resolve_Model Resolve_Spec Resolve_Lemmas Resolve_Lemmas2 Resolve_Lemmas4 Resolve_Lemmas5.

Scheme means_ind2 := Induction for means Sort Prop
with means_each_ind2 := Induction for means_each Sort Prop
with means_fields_ind2 := Induction for means_fields Sort Prop.
Combined Scheme means_mutual from means_ind2, means_each_ind2, means_fields_ind2.

Lemma restrict_new : forall p q ms me, p <> q -> restrict (Context q ms me) p = Context p ms [].
Proof. intros p q ms me H. unfold restrict. cbn [restriction markers]. destruct (path_eq p q) eqn:E; [apply path_eq_spec in E; contradiction|reflexivity]. Qed.
Lemma restrict_old : forall p ms me, restrict (Context p ms me) p = Context p ms me.
Proof. intros p ms me. unfold restrict. cbn [restriction]. rewrite (proj2 (path_eq_spec p p) eq_refl). reflexivity. Qed.

(** ** Walking down a direct path changes nothing *)
Section Walk.
Variables allow use : bool.
Variable env : list (str * str).
Notation Rn := (resolve_n allow use env).

Lemma walk : forall n p ms v s, p <> [] -> direct p v -> Rn n (Context p ms []) v s = Stuck UFuel \/ exists me, Rn n (Context p ms []) v s = Ok (Some v, Context p ms me).
Proof.
  intro n. induction n as [|n IH]; intros p ms v s P D; [left; reflexivity|]. destruct p as [|k p]; [contradiction|]. cbn [resolve_n]. unfold resolve_step. cbn [memos find_memo].
  destruct v as [sc|vs|r i m|id q o l|vs|vs|vs]; cbn [direct] in D; try contradiction; cbn [resolve_substitutions].
  - right. eexists. reflexivity.
  - right. unfold resolve_list. destruct (forallb is_resolved vs) eqn:E; cbn [bind is_resolved is_restricted restriction is_empty_path negb]; rewrite E; eexists; reflexivity.
  - unfold resolve_object. destruct r; [right; eexists; reflexivity|].
    assert (F : forall m0 s0, (p = [] \/ forall w, In (k, w) m0 -> direct p w) -> resolve_fields (Rn n) m0 (Context (k :: p) ms []) s0 = Stuck UFuel \/
      resolve_fields (Rn n) m0 (Context (k :: p) ms []) s0 = Ok (map (fun kv => (fst kv, Some (snd kv))) m0, Context (k :: p) ms [])).
    { intro m0. induction m0 as [|[k' w] m0 IHm]; intros s0 D0; cbn [resolve_fields]; [right; reflexivity|].
      assert (D1 : p = [] \/ forall w, In (k, w) m0 -> direct p w) by (destruct D0 as [D0|D0]; [left; exact D0|right; intros; apply D0; right; assumption]).
      assert (Fd : resolve_field (Rn n) k' w (Context (k :: p) ms []) s0 = Stuck UFuel \/ resolve_field (Rn n) k' w (Context (k :: p) ms []) s0 = Ok (Some w, Context (k :: p) ms [])).
      { unfold resolve_field. cbn [restriction]. destruct (str_eqb k' k) eqn:E; [|right; reflexivity]. apply str_eqb_eq in E. subst k'. destruct p as [|k2 p]; [right; reflexivity|].
        destruct D0 as [D0|D0]; [discriminate|]. rewrite restrict_new by (intro X; apply (f_equal (@List.length str)) in X; cbn in X; lia).
        destruct (IH (k2 :: p) ms w s0 ltac:(discriminate) (D0 w (or_introl eq_refl))) as [E|[me E]]; rewrite E; [left; reflexivity|right]. cbn [bind]. rewrite (restrict_new []) by discriminate. rewrite restrict_new by discriminate. reflexivity. }
      destruct Fd as [E|E]; rewrite E; [left; reflexivity|]. cbn [bind]. destruct (IHm s0 D1) as [E2|E2]; rewrite E2; [left; reflexivity|right; reflexivity]. }
    destruct (F m (push_parent s (VObj false i m)) D) as [E|E]; rewrite E; [left; reflexivity|right]. cbn [bind].
    assert (U : all_unchanged m (map (fun kv => (fst kv, Some (snd kv))) m) = true). { clear. induction m as [|[k w] m IH]; [reflexivity|]. cbn. rewrite same_refl. exact IH. }
    rewrite U. cbn. eexists. reflexivity.
Qed.
Lemma find_path_direct : forall p v above, vobj v -> p <> [] -> direct p v -> exists q, find_path v p above = Ok (get p v, q ++ v :: above).
Proof.
  intro p. induction p as [|k p IH]; intros v above V P D; [contradiction|]. destruct v as [| |r i m| | | |]; try contradiction. cbn [find_path peek bind direct get] in *.
  destruct p as [|k2 p]; [exists []; cbn; destruct (find_key k m); reflexivity|]. destruct (find_key k m) as [w|] eqn:F; [|exists []; reflexivity].
  assert (I0 : In (k, w) m). { clear - F. induction m as [|[k' x] m IH]; cbn [find_key] in F; [discriminate|]. destruct (str_eqb k k') eqn:E; [apply str_eqb_eq in E; injection F as ->; left; congruence|right; exact (IH F)]. }
  destruct D as [D|D]; [discriminate|]. specialize (D w I0). destruct w as [| |r' i' m'| | | |]; cbn [is_object]; try (exists []; reflexivity); try contradiction.
  destruct (IH (VObj r' i' m') (VObj r i m :: above) I ltac:(discriminate) D) as [q E]. exists (q ++ [VObj r' i' m']). rewrite E, <- app_assoc. reflexivity.
Qed.
Lemma find_in_direct : forall n obj ms me p, vobj obj -> p <> [] -> direct p obj -> find_in_object (Rn n) obj (Context [] ms me) p = Stuck UFuel \/
  exists q, find_in_object (Rn n) obj (Context [] ms me) p = Ok (get p obj, Context [] ms [], q ++ [obj]).
Proof.
  intros n obj ms me p V P D. unfold find_in_object. rewrite restrict_new by exact P. destruct (walk n p ms obj (Source obj []) P D) as [E|[me' E]]; rewrite E; [left; reflexivity|right]. cbn [bind restriction].
  destruct obj; try contradiction. cbn [is_object]. destruct (find_path_direct p _ [] V P D) as [q F]. rewrite F. cbn [bind]. rewrite restrict_new by congruence. exists q. reflexivity.
Qed.
End Walk.

Lemma sub_path_zero : forall p, sub_path p 0 = p.
Proof. intros [|a [|b q]]; reflexivity. Qed.
Lemma from_environment_get : forall env p, p <> [] -> get p (environment_object env) = match from_environment (Some env) p with Some t => Some (VScalar (SStr t true)) | None => None end.
Proof.
  intros env p P. destruct p as [|k p]; [contradiction|]. cbn [get environment_object from_environment]. destruct p as [|k2 p].
  - induction env as [|[k' t] env IH]; [reflexivity|]. cbn [map find_key List.find fst snd]. destruct (str_eqb k k'); [reflexivity|exact IH].
  - induction env as [|[k' t] env IH]; [reflexivity|]. cbn [map find_key List.find fst snd]. destruct (str_eqb k k'); [reflexivity|exact IH].
Qed.
Lemma environment_direct : forall env p, direct p (environment_object env).
Proof.
  intros env [|k p]; [exact I|]. cbn [direct environment_object]. right. intros w I0. apply in_map_iff in I0. destruct I0 as [[a b] [E _]]. cbn [fst snd] in E. injection E as _ <-. destruct p; exact I.
Qed.

Lemma present_some : forall vs, present (map Some vs) = vs.
Proof. intro vs. induction vs as [|v vs IH]; [reflexivity|]. unfold present in *. cbn. congruence. Qed.
Lemma present_fields_some : forall m : fields, present_fields (map (fun kv => (fst kv, Some (snd kv))) m) = m.
Proof. intro m. induction m as [|[k v] m IH]; [reflexivity|]. unfold present_fields in *. cbn. congruence. Qed.
(** Nothing is never what a resolved value means *)
Lemma nothing_unresolved : forall env R above v, means env R above v None -> is_resolved v = false.
Proof. intros env R above v H. inversion H as [| | | | |? ? ? ? ? Dv| | | | |]; try reflexivity. destruct v; try discriminate; reflexivity. Qed.

Section Sound.
Variable use : bool.
Variable env : list (str * str).
Variable R : value.
Hypothesis Rv : vobj R.
Hypothesis Rw : web R R.
Definition envo : option (list (str * str)) := environment_if use env.
Notation Rn := (resolve_n false use env).
Notation means := (means envo R).
Notation means_each := (means_each envo R).
Notation means_fields := (means_fields envo R).

Lemma resolved_means : forall v above, web R v -> is_resolved v = true -> means above v (Some v).
Proof.
  intro v. induction v as [s|vs IH|r i m IH|n p o l|vs IH|vs IH|vs IH] using value_induction; intros above W E; try discriminate.
  - constructor.
  - rewrite <- (present_some vs) at 2. constructor. inversion W as [|? F| | |]; subst. cbn [is_resolved] in E.
    clear W. induction IH as [|v vs Hv IHs IH']; [constructor|]. inversion F; subst. cbn [forallb] in E. apply andb_prop in E. destruct E. cbn [map]. constructor; auto.
  - cbn [is_resolved] in E. subst r. inversion W as [| |? ? ? Fr F| |]; subst. specialize (Fr eq_refl).
    rewrite <- (present_fields_some m) at 2. constructor.
    clear W. unfold fields_resolved in Fr. induction IH as [|[k v] m Hv IHs IH']; [constructor|]. inversion F; subst. cbn [forallb snd] in *. apply andb_prop in Fr. destruct Fr. cbn [map fst snd]. constructor; auto.
Qed.
Lemma web_inside : forall v w, web R v -> inside w v -> web R w.
Proof.
  intros v w W I0. induction I0 as [|v vs H I0 IH|r i m k v H I0 IH|v vs H I0 IH|v vs H I0 IH|v vs H I0 IH]; [exact W| | | |inversion W|inversion W]; apply IH; inversion W as [|? F|? ? ? _ F| |? F]; subst; rewrite Forall_forall in F; [exact (F _ H)|exact (F _ H)|exact (F _ H)].
Qed.
Lemma get_inside : forall p v w, get p v = Some w -> inside w v.
Proof.
  intro p. induction p as [|k p IH]; intros v w E; cbn [get] in E; [injection E as <-; constructor|]. destruct v as [| |r i m| | | |]; try discriminate. destruct (find_key k m) as [x|] eqn:F; [|discriminate].
  apply (inside_object w r i m k x); [|exact (IH _ _ E)]. clear - F. induction m as [|[k' y] m IH]; cbn [find_key] in F; [discriminate|]. destruct (str_eqb k k') eqn:E; [apply str_eqb_eq in E; injection F as ->; left; congruence|right; exact (IH F)].
Qed.

Definition done (r : option value) : Prop := match r with Some w => is_resolved w = true | None => True end.
Definition memo_means (above : list nat) (c : context) : Prop := Forall (fun m => match snd m with Some r => means above (fst m) (Some r) /\ is_resolved r = true | None => True end) (memos c).
Definition context_means (above : list nat) (c : context) : Prop := restriction c = [] /\ memo_means above c /\ incl (markers c) above.
Definition post {A} (above : list nat) (v : value) (r : result A) (f : A -> Prop) : Prop :=
  match r with
  | Ok x => f x
  | Throw ENotPossible => exists id p o l, inside (VRef id p o l) v /\ In id above
  | Throw _ => True
  | Stuck u => u = UFuel
  end.
Definition sound_at (n : nat) : Prop := forall above c v s, context_means above c -> web R v -> root s = R ->
  post above v (Rn n c v s) (fun x => means above v (fst x) /\ context_means above (snd x) /\ done (fst x)).

Lemma context_fresh : forall above ms, incl ms above -> context_means above (Context [] ms []).
Proof. intros above ms H. split; [reflexivity|]. split; [constructor|exact H]. Qed.
Lemma context_restrict : forall above c, context_means above c -> restrict c [] = c.
Proof. intros above [r ms me] [H _]. cbn in H. subst r. apply restrict_old. Qed.

Lemma post_bind : forall A B above v (r : result A) (k : A -> result B) (f : A -> Prop) g, post above v r f -> (forall x, f x -> r = Ok x -> post above v (k x) g) -> post above v (bind r k) g.
Proof. intros A B above v r k f g H K. destruct r as [x|e|u]; cbn [bind]; [apply K; [exact H|reflexivity]|exact H|exact H]. Qed.
Lemma post_inside : forall A above v w (r : result A) f, (forall x, inside x v -> inside x w) -> post above v r f -> post above w r f.
Proof. intros A above v w r f H P. destruct r as [x|e|u]; [exact P| |exact P]. destruct e; try exact P. destruct P as [id [p [o [l [P1 P2]]]]]. exists id, p, o, l. auto. Qed.
Lemma neat_post : forall A above v (r : result A), neat r -> post above v r (fun _ => True).
Proof. intros A above v [x|e|u] H; [exact I| |contradiction]. destruct e; try exact I. discriminate. Qed.

Section Step.
Variable n : nat.
Hypothesis IH : sound_at n.

Lemma each_sound : forall above self vs, Forall (web R) vs -> (forall x v, In v vs -> inside x v -> inside x self) -> forall c s, context_means above c -> root s = R ->
  post above self (resolve_pieces (Rn n) vs c s) (fun x => exists rs, means_each above vs rs /\ fst x = present rs /\ Forall (fun w => is_resolved w = true) (fst x) /\ context_means above (snd x)).
Proof.
  intros above self vs F. induction F as [|v vs Hv F IHv]; intros In0 c s C Rt; cbn [resolve_pieces].
  - exists []. split; [constructor|]. split; [reflexivity|]. split; [constructor|exact C].
  - rewrite (context_restrict _ _ C). eapply post_bind; [eapply post_inside; [|exact (IH above c v s C Hv Rt)]; intros x; apply In0; left; reflexivity|]. intros [r c1] [M [C1 Dn]] _. cbn [fst snd] in *.
    replace (restriction c) with (@nil str) by (symmetry; exact (proj1 C)). rewrite (context_restrict _ _ C1).
    eapply post_bind; [apply IHv; [intros x w Hw; apply In0; right; exact Hw|exact C1|exact Rt]|]. intros [rs0 c2] [rs [M2 [E [Fr C2]]]] _. cbn [fst snd] in *. cbn [post]. exists (r :: rs). split; [constructor; assumption|]. split; [|split; [destruct r; [constructor; assumption|exact Fr]|exact C2]].
    subst rs0. unfold present. cbn [flat_map fst]. destruct r; reflexivity.
Qed.
Lemma fields_sound : forall above self m, Forall (fun kv => web R (snd kv)) m -> (forall x k v, In (k, v) m -> inside x v -> inside x self) -> forall c s, context_means above c -> root s = R ->
  post above self (resolve_fields (Rn n) m c s) (fun x => means_fields above m (fst x) /\ context_means above (snd x)).
Proof.
  intros above self m F. induction F as [|[k v] m Hv F IHv]; intros In0 c s C Rt; cbn [resolve_fields].
  - split; [constructor|exact C].
  - cbn [snd] in Hv. unfold resolve_field. rewrite (proj1 C). eapply post_bind with (f := fun x => means above v (fst x) /\ context_means above (snd x)).
    + eapply post_bind; [eapply post_inside; [|exact (IH above c v s C Hv Rt)]; intros x; apply (In0 x k); left; reflexivity|]. intros [r c1] [M [C1 _]] _. cbn [fst snd] in *. cbn [post fst snd]. rewrite (context_restrict _ _ C1). auto.
    + intros [r c1] [M C1] _. cbn [fst snd] in *. eapply post_bind; [apply IHv; [intros x k' w Hw; apply (In0 x k'); right; exact Hw|exact C1|exact Rt]|]. intros [rs c2] [M2 C2] _. cbn [fst snd] in *. cbn [post fst snd]. split; [constructor; assumption|exact C2].
Qed.
(** before the loop over the elements of a list the elements [before] have meant [rs] *)
Definition loop_state (before : list value) (rs : list (option value)) (init : bool) (changed : list value) : Prop :=
  if init then changed = present rs \/ existsb (fun v => negb (is_resolved v)) changed = true else changed = [] /\ rs = map Some before.
Lemma each_app : forall above a b rs qs, means_each above a rs -> means_each above b qs -> means_each above (a ++ b) (rs ++ qs).
Proof. intros above a b rs qs H. induction H; intro K; [exact K|]. cbn [app]. constructor; auto. Qed.
Lemma present_app : forall a b, present (a ++ b) = present a ++ present b.
Proof. intros. apply flat_map_app. Qed.
Lemma dropped_unresolved : forall above before rs, means_each above before rs -> present rs = [] -> before = [] \/ existsb (fun v => negb (is_resolved v)) before = true.
Proof.
  intros above before rs H. induction H as [|above v r vs rs M H IHe]; intro E; [left; reflexivity|right]. destruct r as [w|]; [discriminate|]. cbn [existsb]. rewrite (nothing_unresolved _ _ _ _ M). reflexivity.
Qed.
Lemma elements_sound : forall above self rest, Forall (web R) rest -> (forall x v, In v rest -> inside x v -> inside x self) -> forall before rs init changed c s,
  means_each above before rs -> loop_state before rs init changed -> context_means above c -> root s = R ->
  post above self (resolve_elements (Rn n) before rest init changed c s) (fun x => exists qs, means_each above (before ++ rest) qs /\ loop_state (before ++ rest) qs (fst (fst x)) (snd (fst x)) /\ context_means above (snd x)).
Proof.
  intros above self rest F. induction F as [|v rest Hv F IHv]; intros In0 before rs init changed c s Mb L C Rt; cbn [resolve_elements].
  - exists rs. rewrite app_nil_r. auto.
  - eapply post_bind; [eapply post_inside; [|exact (IH above c v s C Hv Rt)]; intros x; apply In0; left; reflexivity|]. intros [r c1] [M [C1 _]] _. cbn [fst snd] in *. cbn zeta.
    replace (before ++ v :: rest) with ((before ++ [v]) ++ rest) by (rewrite <- app_assoc; reflexivity).
    apply (IHv ltac:(intros x w Hw; apply In0; right; exact Hw) (before ++ [v]) (rs ++ [r])); [apply each_app; [exact Mb|constructor; [exact M|constructor]]| |exact C1|exact Rt].
    unfold loop_state in *. destruct init.
    + cbn [orb]. destruct changed as [|a changed].
      * destruct L as [L|L]; [|discriminate]. destruct (dropped_unresolved _ _ _ Mb (eq_sym L)) as [->|U].
        -- left. rewrite present_app, <- L. destruct (negb (unchanged v r)), r; reflexivity.
        -- destruct (negb (unchanged v r)).
           ++ right. destruct r; [rewrite existsb_app, U; reflexivity|exact U].
           ++ left. rewrite present_app, <- L. destruct r; reflexivity.
      * destruct L as [L|L].
        -- left. rewrite present_app, <- L. destruct r; cbn; [reflexivity|rewrite app_nil_r; reflexivity].
        -- right. destruct r; [rewrite existsb_app, L; reflexivity|exact L].
    + destruct L as [-> ->]. cbn [orb]. assert (Pb := present_some before). destruct (negb (unchanged v r)) eqn:U.
      * left. rewrite present_app, Pb. destruct r; cbn; [reflexivity|rewrite app_nil_r; reflexivity].
      * split; [reflexivity|]. rewrite map_app. f_equal. cbn. destruct r as [w|]; [|discriminate]. cbn [unchanged] in U. apply negb_false_iff, same_eq in U. congruence.
Qed.
Lemma reference_sound : forall above id p o c s, web R (VRef id p o 0) -> context_means above c -> root s = R ->
  post above (VRef id p o 0) (resolve_reference false use env (Rn n) id p o 0 c s) (fun x => means above (VRef id p o 0) (fst x) /\ context_means above (snd x)).
Proof.
  intros above id p o c s W [C1 [C2 C3]] Rt. unfold resolve_reference. destruct (is_marked c id); [exact I|]. cbn zeta. inversion W as [| | |? ? ? P D|]; subst.
  destruct c as [r0 ms me]. cbn [restriction markers] in *. subst r0. unfold add_marker. cbn [restriction markers].
  assert (Rm : forall ms', incl ms' (id :: above) -> context_means above (remove_marker (Context [] ms' []) id)).
  { intros ms' H. apply context_fresh. cbn [markers]. intros x Hx. apply filter_In in Hx. destruct Hx as [Hx Hn]. destruct (H x Hx) as [->|Hx']; [rewrite Nat.eqb_refl in Hn; discriminate|exact Hx']. }
  assert (Rm2 : forall c', markers c' = markers c' -> restriction c' = [] -> incl (markers c') (id :: above) -> context_means above (remove_marker c' id)).
  { intros [r1 ms1 me1] _ E H. cbn [restriction markers] in *. subst r1. exact (Rm ms1 H). }
  assert (Im : incl (ms ++ [id]) (id :: above)). { intros x Hx. apply in_app_or in Hx. destruct Hx as [Hx|[->|[]]]; [right; exact (C3 _ Hx)|left; reflexivity]. }
  assert (Fin : forall w c', restriction c' = [] -> incl (markers c') (id :: above) -> (match w with Some _ => means above (VRef id p o 0) w | None => o = true -> means above (VRef id p o 0) None end) ->
    post above (VRef id p o 0) (finish_reference false (VRef id p o 0) id o w c') (fun x => means above (VRef id p o 0) (fst x) /\ context_means above (snd x))).
  { intros w c' E H M. unfold finish_reference. destruct w as [w|]; [split; [exact M|exact (Rm2 _ eq_refl E H)]|]. destruct o; [split; [exact (M eq_refl)|exact (Rm2 _ eq_refl E H)]|exact I]. }
  unfold lookup_subst. cbn [Z.ltb Z.compare]. rewrite sub_path_zero, Rt.
  destruct (find_in_direct false use env n R (ms ++ [id]) [] p Rv P D) as [E|[q E]]; rewrite E; [reflexivity|]. cbn [bind].
  destruct (get p R) as [v|] eqn:G.
  - cbn [attempt bind]. set (src := Source (List.last (q ++ [R]) v) (q ++ [R])). assert (Rs : root src = R) by (unfold src; cbn [root]; apply last_last).
    assert (Wv : web R v) by (exact (web_inside _ _ Rw (get_inside _ _ _ G))).
    assert (H := IH (id :: above) (Context [] (ms ++ [id]) []) v src (context_fresh _ _ Im) Wv Rs).
    destruct (Rn n (Context [] (ms ++ [id]) []) v src) as [[w c']|e|u]; cbn [post] in H.
    + destruct H as [M [[X1 [X2 X3]] _]]. cbn [fst snd] in *. cbn [attempt bind]. apply Fin; [exact X1|exact X3|]. destruct w as [w|]; [exact (means_found _ _ _ _ _ _ _ _ _ G M)|]. intros ->. exact (means_found_nothing _ _ _ _ _ _ _ G M).
    + destruct e; cbn [attempt bind]; try exact I. destruct H as [id' [p' [o' [l' [H1 H2]]]]]. destruct o; [|exact I]. apply Fin; [reflexivity|exact Im|]. intros _. exact (means_cycle _ _ _ _ _ _ _ _ _ _ _ G H1 H2).
    + subst u. reflexivity.
  - cbn [bind]. assert (U : use = true \/ use = false) by (destruct use; auto). destruct U as [U|U].
    + assert (Eo : envo = Some env) by (unfold envo, environment_if; rewrite U; reflexivity). rewrite U.
      destruct (find_in_direct false true env n (environment_object env) [] [] p I P (environment_direct env p)) as [E2|[q2 E2]]; unfold moved_from; rewrite E2; [reflexivity|]. rewrite from_environment_get by exact P. rewrite Eo in *.
      destruct (from_environment (Some env) p) as [t|] eqn:Fe; cbn [attempt bind].
      * assert (Sc : forall s0, resolve_n false true env n (Context [] [] []) (VScalar (SStr t true)) s0 = Stuck UFuel \/ exists me', resolve_n false true env n (Context [] [] []) (VScalar (SStr t true)) s0 = Ok (Some (VScalar (SStr t true)), Context [] [] me')).
        { intro s0. clear. destruct n; [left; reflexivity|right; eexists; reflexivity]. }
        match goal with |- context [resolve_n _ _ _ n _ _ ?s0] => destruct (Sc s0) as [E3|[me' E3]]; rewrite E3; [reflexivity|] end. cbn [attempt bind]. apply Fin; [reflexivity|intros x []|]. exact (means_environment _ _ _ _ _ _ _ _ G Fe).
      * apply Fin; [reflexivity|intros x []|]. intros ->. exact (means_undefined _ _ _ _ _ _ G Fe).
    + assert (Eo : envo = None) by (unfold envo, environment_if; rewrite U; reflexivity). rewrite U. cbn [attempt bind]. apply Fin; [reflexivity|exact Im|]. intros ->. apply means_undefined; [exact G|rewrite Eo; reflexivity].
Qed.

(** what [resolve_substitutions] owes to [resolve] *)
Definition owes (above : list nat) (v : value) (x : option value * context) : Prop :=
  match fst x with Some w => is_resolved w = true -> means above v (Some w) | None => means above v None end /\ context_means above (snd x).
Lemma concat_sound : forall above vs c s, web R (VConcat vs) -> context_means above c -> root s = R ->
  post above (VConcat vs) (resolve_concatenation false (Rn n) vs c s) (owes above (VConcat vs)).
Proof.
  intros above vs c s W C Rt. unfold resolve_concatenation. inversion W as [| | | |? F]; subst.
  eapply post_bind; [apply (each_sound above (VConcat vs) vs F); [intros x v Hv Hx; exact (inside_concat _ _ _ Hv Hx)|exact C|exact Rt]|]. intros [ps c1] [rs [M [E [Fr C1]]]] _. cbn [fst snd] in *.
  eapply post_bind; [apply neat_post, consolidate_neat|]. intros joined _ Ej. rewrite andb_false_r. destruct joined as [|w [|w2 joined]]; cbn [post]; [|split; [|exact C1]; intros _; subst ps; exact (means_concat _ _ _ _ _ _ M Ej)|exact I].
  split; [|exact C1]. cbn [fst]. apply (means_concat_nothing _ _ _ _ rs M). subst ps. destruct (present rs) as [|a [|b q]] eqn:Ep; [reflexivity|discriminate|]. exfalso. cbn [consolidate] in Ej.
  assert (J : forall ps b0, join_all b0 ps = Ok [] -> b0 = [] /\ ps = []).
  { clear. intro ps. induction ps as [|v ps IHp]; intros b0 H; cbn [join_all] in H; [injection H as H; split; [|reflexivity]; destruct b0 as [|x b0]; [reflexivity|]; cbn in H; destruct (rev b0); discriminate|].
    destruct b0 as [|x b0]; [destruct (IHp _ H); discriminate|]. destruct (join_values x v) as [[y|]| |]; cbn [bind] in H; try discriminate; destruct (IHp _ H); discriminate. }
  destruct (J _ _ Ej) as [_ Hf]. inversion Fr as [|? ? Ra]; subst. destruct a; discriminate.
Qed.
Lemma list_sound : forall above vs c s, web R (VList vs) -> context_means above c -> root s = R ->
  post above (VList vs) (resolve_list false (Rn n) vs c s) (owes above (VList vs)).
Proof.
  intros above vs c s W C Rt. unfold resolve_list. destruct (forallb is_resolved vs) eqn:Er; [split; [intros _; exact (resolved_means _ _ W Er)|exact C]|].
  unfold is_restricted. rewrite (proj1 C). cbn [is_empty_path negb]. inversion W as [|? F| | |]; subst.
  assert (Rp : root (push_parent s (VList vs)) = root s) by (unfold push_parent; destruct (parents s); reflexivity).
  eapply post_bind; [apply (elements_sound above (VList vs) vs F) with (rs := []); [intros x v Hv Hx; exact (inside_list _ _ _ Hv Hx)|constructor|split; reflexivity|exact C|rewrite Rp; exact Rt]|].
  intros [[init changed] c1] [qs [M [L C1]]] _. cbn [fst snd app] in *. destruct init.
  - cbn [orb]. destruct (forallb is_resolved changed) eqn:Ec; [|exact I]. split; [|exact C1]. intros _. destruct L as [->|L]; [exact (means_list _ _ _ _ _ M)|].
    exfalso. clear - Ec L. induction changed as [|v l IHl]; [discriminate|]. cbn in *. apply andb_prop in Ec. destruct Ec as [E1 E2]. rewrite E1 in L. exact (IHl L E2).
  - split; [|exact C1]. intro X. cbn [is_resolved] in X. congruence.
Qed.
Lemma object_sound : forall above r i m c s, web R (VObj r i m) -> context_means above c -> root s = R ->
  post above (VObj r i m) (resolve_object (Rn n) r i m c s) (owes above (VObj r i m)).
Proof.
  intros above r i m c s W C Rt. unfold resolve_object. destruct r; [split; [intros _; exact (resolved_means _ _ W eq_refl)|exact C]|]. inversion W as [| |? ? ? _ F| |]; subst.
  assert (Rp : root (push_parent s (VObj false i m)) = root s) by (unfold push_parent; destruct (parents s); [destruct (is_object (VObj false i m) && same (VObj false i m) (root s)); reflexivity|reflexivity]).
  eapply post_bind; [apply (fields_sound above (VObj false i m) m F); [intros x k v Hv Hx; exact (inside_object _ _ _ _ _ _ Hv Hx)|exact C|rewrite Rp; exact Rt]|].
  intros [rs c1] [M C1] _. cbn [fst snd] in *. destruct (all_unchanged m rs); [split; [discriminate|exact C1]|]. split; [|exact C1]. cbn [fst]. intro E. cbn [is_resolved] in E. rewrite E. exact (means_object _ _ _ _ _ _ _ M).
Qed.
Lemma memoize_means : forall above c v r, context_means above c -> match r with Some w => means above v (Some w) /\ is_resolved w = true | None => True end -> context_means above (memoize c v r).
Proof. intros above c v r C M. unfold memoize. destruct (find_memo (memos c) v); [exact C|]. destruct C as [C1 [C2 C3]]. split; [exact C1|]. split; [|exact C3]. apply Forall_app. split; [exact C2|]. constructor; [exact M|constructor]. Qed.
Lemma step_sound : sound_at (S n).
Proof.
  intros above c v s C W Rt. cbn [resolve_n]. unfold resolve_step.
  assert (B : post above v (if (match v with VRef id _ _ _ => is_marked c id | _ => false end) then Throw ENotPossible
      else '(r, c1) <- resolve_substitutions false use env (Rn n) v c s ;;
        match r with
        | None => Ok (r, memoize c1 v r)
        | Some w => if is_resolved w then Ok (r, memoize c1 v r) else if is_restricted c then Ok (r, c1) else if false then Ok (r, memoize c1 v r) else Throw EBug
        end) (fun x => means above v (fst x) /\ context_means above (snd x) /\ done (fst x))).
  { destruct (match v with VRef id _ _ _ => is_marked c id | _ => false end) eqn:Mk.
    - destruct v as [| | |id p o l| | |]; try discriminate. exists id, p, o, l. split; [constructor|]. apply (proj2 (proj2 C)). unfold is_marked in Mk. apply existsb_exists in Mk. destruct Mk as [y [Hy E]]. apply Nat.eqb_eq in E. congruence.
    - apply post_bind with (f := owes above v).
      + destruct v as [sc|vs|r i m|id p o l|vs|vs|vs]; cbn [resolve_substitutions]; try (inversion W; fail).
        * split; [intros _; constructor|exact C].
        * apply list_sound; assumption.
        * apply object_sound; assumption.
        * inversion W as [| | |? ? ? P D|]; subst. assert (H := reference_sound above id p o c s W C Rt). destruct (resolve_reference false use env (Rn n) id p o 0 c s) as [[r c1]|e|u]; [|exact H|exact H]. destruct H as [H1 H2]. split; [destruct r; [intros _|]; exact H1|exact H2].
        * apply concat_sound; assumption.
      + intros [r c1] [O C1] _. cbn [fst snd] in *. destruct r as [w|]; [|split; [exact O|split; [apply memoize_means; [exact C1|exact I]|exact I]]].
        destruct (is_resolved w) eqn:Ew; [specialize (O eq_refl); split; [exact O|split; [apply memoize_means; [exact C1|split; assumption]|exact Ew]]|].
        unfold is_restricted. rewrite (proj1 C). exact I. }
  destruct (find_memo (memos c) v) as [[w|]|] eqn:Fm; [|exact B|exact B]. apply find_memo_in in Fm. destruct C as [C1 [C2 C3]]. unfold memo_means in C2. rewrite Forall_forall in C2. destruct (C2 _ Fm) as [M D]. cbn [fst snd] in *.
  split; [exact M|]. split; [|exact D]. split; [exact C1|]. split; [|exact C3]. unfold memo_means. rewrite Forall_forall. exact C2.
Qed.
End Step.

Lemma all_sound : forall n, sound_at n.
Proof. intro n. induction n as [|n IH]; [intros above c v s _ _ _; reflexivity|exact (step_sound n IH)]. Qed.

(** What resolving returns is what the value means *)
Lemma resolve_means : forall n v r, web R v -> resolve_with false use env n v R = Ok r -> means [] v r /\ done r.
Proof.
  intros n v r W E. unfold resolve_with in E. assert (H := all_sound n [] moved_from v (Source R []) (context_fresh [] [] ltac:(intros x [])) W eq_refl).
  destruct (Rn n moved_from v (Source R [])) as [[r' c]|e|u]; cbn [bind] in E; try discriminate. injection E as <-. destruct H as [M [_ D]]. exact (conj M D).
Qed.
Lemma resolve_not_stuck : forall n v u, web R v -> resolve_with false use env n v R = Stuck u -> u = UFuel.
Proof.
  intros n v u W E. unfold resolve_with in E. assert (H := all_sound n [] moved_from v (Source R []) (context_fresh [] [] ltac:(intros x [])) W eq_refl).
  destruct (Rn n moved_from v (Source R [])) as [[r' c]|e|u']; cbn [bind] in E; try discriminate. injection E as <-. exact H.
Qed.
End Sound.
