(** Threads. *)
From Verif Require Import Base Util_Model Num_Model Path_Model PathParser_Model Token_Model Value_Model Value_Lemmas Duration_Model Config_Model
  Render_Model Resolve_Model Include_Model Share_Model Share_Spec Share_Lemmas Share_Lemmas2 Share_Lemmas3.

Lemma run_app : forall A s1 s2 h (ts : list (prog A)), run (s1 ++ s2) h ts = let '(h1, ts1) := run s1 h ts in run s2 h1 ts1.
Proof.
  induction s1 as [|i s1 IH]; intros s2 h ts; [reflexivity|]. cbn [app run]. destruct (nth_error ts i) as [p|]; [|apply IH]. destruct (step h p) as [h' p']. apply IH.
Qed.

Lemma meets_all_extends : forall A h h' (ts : list (prog A)) posts, extends h h' -> meets_all h ts posts -> meets_all h' ts posts.
Proof. intros A h h' ts posts E F. induction F; constructor; auto. eapply meets_extends; eauto. Qed.

Lemma meets_replace : forall A (ts : list (prog A)) posts h i p p', meets_all h ts posts -> nth_error ts i = Some p ->
  (forall post, nth_error posts i = Some post -> meets p' post h) -> meets_all h (firstn i ts ++ p' :: skipn (S i) ts) posts.
Proof.
  intros A ts posts h i p p' F. revert i. induction F as [|q post ts posts M F IH]; intros [|i] N K; cbn in *; try discriminate.
  - constructor; [apply K; reflexivity|exact F].
  - constructor; [exact M|]. apply IH; auto.
Qed.
Lemma meets_nth : forall A (ts : list (prog A)) posts h i p, meets_all h ts posts -> nth_error ts i = Some p -> exists post, nth_error posts i = Some post /\ meets p post h.
Proof.
  intros A ts posts h i p F. revert i. induction F as [|q post ts posts M F IH]; intros [|i] N; cbn in *; try discriminate; [|eauto]. injection N as ->. eauto.
Qed.

Lemma run_meets : forall A schedule h (ts : list (prog A)) posts h' ts', meets_all h ts posts -> run schedule h ts = (h', ts') -> extends h h' /\ meets_all h' ts' posts.
Proof.
  induction schedule as [|i schedule IH]; intros h ts posts h' ts' F R; cbn [run] in R.
  - injection R as <- <-. split; [apply extends_refl|exact F].
  - destruct (nth_error ts i) as [p|] eqn:N; [|eapply IH; eauto]. destruct (step h p) as [h1 p1] eqn:S.
    destruct (meets_nth _ _ _ _ _ _ F N) as [post [P M]]. destruct (step_meets _ _ _ _ _ _ M S) as [E M1].
    destruct (IH h1 (firstn i ts ++ p1 :: skipn (Datatypes.S i) ts) posts h' ts') as [E' F']; [|exact R|split; [eapply extends_trans; eauto|exact F']].
    eapply meets_replace; [eapply meets_all_extends; eauto|exact N|]. intros post' P'. rewrite P in P'. injection P' as <-. exact M1.
Qed.

Section Clients.
Variable files : str -> option str.
Variable environment : list (str * str).
Variable include_depth resolve_depth : nat.
Notation client := (client files environment include_depth resolve_depth).
Notation alone := (alone files environment include_depth resolve_depth).

Definition post_of (vs : list value) (script : list request) (r : result (list (outcome addr))) (h : heap) : Prop :=
  agree outcomes r (alone (map Gives vs) script) h.

Lemma clients_meet : forall h shared vs scripts, Forall2 (holds h) shared vs ->
  meets_all h (map (client (map Gives shared)) scripts) (map (post_of vs) scripts).
Proof.
  intros h shared vs scripts F. induction scripts as [|s scripts IH]; cbn; constructor; [|exact IH].
  apply (client_right files environment include_depth resolve_depth s (map Gives shared) (map Gives vs) h). clear -F. induction F; cbn; constructor; [constructor|]; assumption.
Qed.

Lemma clients_alone : forall h shared vs scripts schedule h' ts, Forall2 (holds h) shared vs ->
  run schedule h (map (client (map Gives shared)) scripts) = (h', ts) ->
  forall i script r, nth_error scripts i = Some script -> nth_error ts i = Some (Return r) -> same_end h' r (alone (map Gives vs) script).
Proof.
  intros h shared vs scripts schedule h' ts F R i script r N T.
  destruct (run_meets _ _ _ _ _ _ _ (clients_meet h shared vs scripts F) R) as [E M]. destruct (meets_nth _ _ _ _ _ _ M T) as [post [P Mi]].
  rewrite nth_error_map, N in P. injection P as <-. apply agree_end. apply (Mi h'). apply extends_refl.
Qed.

Lemma contents_stay : forall h shared vs scripts s1 h1 ts1 s2 h2 ts2, Forall2 (holds h) shared vs ->
  run s1 h (map (client (map Gives shared)) scripts) = (h1, ts1) -> run s2 h1 ts1 = (h2, ts2) -> forall a v, holds h1 a v -> holds h2 a v.
Proof.
  intros h shared vs scripts s1 h1 ts1 s2 h2 ts2 F R1 R2 a v H.
  destruct (run_meets _ _ _ _ _ _ _ (clients_meet h shared vs scripts F) R1) as [E1 M1]. destruct (run_meets _ _ _ _ _ _ _ M1 R2) as [E2 M2]. eapply holds_extends; eauto.
Qed.
End Clients.

(** ** Ending *)
Lemma run_length : forall A s h (ts : list (prog A)) h' ts', run s h ts = (h', ts') -> List.length ts' = List.length ts.
Proof.
  induction s as [|i s IH]; intros h ts h' ts' R; cbn [run] in R; [injection R as <- <-; reflexivity|]. destruct (nth_error ts i) as [p|] eqn:N; [|eauto]. destruct (step h p) as [h1 p1].
  rewrite (IH _ _ _ _ R), app_length. cbn [List.length]. assert (L : (i < List.length ts)%nat) by (apply nth_error_Some; rewrite N; discriminate).
  rewrite firstn_length_le, skipn_length by lia. lia.
Qed.
Lemma middle : forall A (t1 t2 : list A) x, nth_error (t1 ++ x :: t2) (List.length t1) = Some x /\ firstn (List.length t1) (t1 ++ x :: t2) = t1 /\ skipn (S (List.length t1)) (t1 ++ x :: t2) = t2.
Proof.
  intros A t1 t2 x. induction t1 as [|y t1 IH]; [repeat split|]. destruct IH as (I1 & I2 & I3). cbn [app List.length]. split; [exact I1|]. split; [cbn; f_equal; exact I2|exact I3].
Qed.
Lemma thread_ends : forall A (p : prog A) h t1 t2, exists k h' r, run (repeat (List.length t1) k) h (t1 ++ p :: t2) = (h', t1 ++ Return r :: t2).
Proof.
  intros A p. induction p as [r|a f IH|c f IH|a c k0 IH]; intros h t1 t2.
  - exists 0%nat, h, r. reflexivity.
  - destruct (nth_error h a) as [c|] eqn:N.
    + destruct (IH c h t1 t2) as (k & h' & r & R). exists (S k), h', r. cbn [repeat run]. destruct (middle _ t1 t2 (Read a f)) as (-> & I2 & I3). cbn [step]. rewrite N, I2, I3. exact R.
    + exists 1%nat, h, (Stuck UOutOfBounds). cbn [repeat run]. destruct (middle _ t1 t2 (Read a f)) as (-> & I2 & I3). cbn [step]. rewrite N, I2, I3. reflexivity.
  - destruct (IH (List.length h) (h ++ [c]) t1 t2) as (k & h' & r & R). exists (S k), h', r. cbn [repeat run]. destruct (middle _ t1 t2 (New c f)) as (-> & I2 & I3). cbn [step]. rewrite I2, I3. exact R.
  - destruct (IH (fst (step h (Write a c k0))) t1 t2) as (k & h' & r & R). exists (S k), h', r. cbn [repeat run]. destruct (middle _ t1 t2 (Write a c k0)) as (-> & I2 & I3). cbn [step]. rewrite I2, I3. exact R.
Qed.
Lemma all_end_from : forall A (ts t1 : list (prog A)) h, ended t1 -> exists schedule h' ts', one_after_another (List.length t1) (List.length ts) schedule /\ run schedule h (t1 ++ ts) = (h', ts') /\ ended ts'.
Proof.
  intros A ts. induction ts as [|p ts IH]; intros t1 h E.
  - exists [], h, t1. split; [constructor|]. rewrite app_nil_r. split; [reflexivity|exact E].
  - destruct (thread_ends A p h t1 ts) as (k & h1 & r & R). destruct (IH (t1 ++ [Return r]) h1) as (s & h2 & ts' & O & R2 & E2).
    { apply Forall_app. split; [exact E|]. constructor; [eauto|constructor]. }
    exists (repeat (List.length t1) k ++ s), h2, ts'. split; [|split; [|exact E2]].
    + cbn [List.length]. constructor. rewrite app_length in O. cbn in O. rewrite Nat.add_1_r in O. exact O.
    + rewrite run_app, R. rewrite <- app_assoc in R2. exact R2.
Qed.
Lemma all_end : forall A (ts : list (prog A)) h, exists schedule h' ts', one_after_another 0 (List.length ts) schedule /\ run schedule h ts = (h', ts') /\ ended ts'.
Proof. intros A ts h. apply (all_end_from A ts [] h). constructor. Qed.
Lemma all_end_ : forall A h (ts : list (prog A)), exists schedule h' ts', one_after_another 0 (List.length ts) schedule /\ run schedule h ts = (h', ts') /\ ended ts'.
Proof. intros A h ts. apply all_end. Qed.

Lemma same_end_unique : forall h r x y, same_end h r x -> same_end h r y -> y = x.
Proof.
  intros h r x y Hx Hy. inversion Hx; subst; inversion Hy; subst; try reflexivity. f_equal. clear Hx Hy. revert ys0 H1. induction H; intros zs F; inversion F; subst; [reflexivity|].
  f_equal; [|auto]. inversion H; subst; inversion H3; subst; try reflexivity. f_equal. symmetry. eapply holds_unique; eauto.
Qed.
Lemma runs_agree : forall files environment include_depth resolve_depth h shared vs scripts s1 h1 threads1 s2 h2 threads2,
  Forall2 (holds h) shared vs ->
  run s1 h (map (client files environment include_depth resolve_depth (map Gives shared)) scripts) = (h1, threads1) ->
  run s2 h (map (client files environment include_depth resolve_depth (map Gives shared)) scripts) = (h2, threads2) ->
  forall i r1 r2, nth_error threads1 i = Some (Return r1) -> nth_error threads2 i = Some (Return r2) ->
  exists results, same_end h1 r1 results /\ same_end h2 r2 results /\
    (forall other, same_end h1 r1 other -> other = results) /\ (forall other, same_end h2 r2 other -> other = results).
Proof.
  intros files environment d1 d2 h shared vs scripts s1 h1 t1 s2 h2 t2 F R1 R2 i r1 r2 N1 N2.
  destruct (nth_error scripts i) as [script|] eqn:N.
  - exists (alone files environment d1 d2 (map Gives vs) script). pose proof (clients_alone _ _ _ _ _ _ _ _ _ _ _ F R1 _ _ _ N N1) as A1. pose proof (clients_alone _ _ _ _ _ _ _ _ _ _ _ F R2 _ _ _ N N2) as A2.
    split; [exact A1|]. split; [exact A2|]. split; intros o O; [exact (same_end_unique _ _ _ _ A1 O)|exact (same_end_unique _ _ _ _ A2 O)].
  - exfalso. apply nth_error_None in N. assert (L : (i < List.length t1)%nat) by (apply nth_error_Some; rewrite N1; discriminate). rewrite (run_length _ _ _ _ _ _ R1), map_length in L. lia.
Qed.
Lemma holds_unique_ : forall h a v w, holds h a v -> holds h a w -> v = w.
Proof. intros h a v w. apply holds_unique. Qed.
