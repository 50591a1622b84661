(** Merging values. *)
From Verif Require Import Base BaseLemmas Util_Model Num_Model Path_Model Path_Spec Value_Model Value_Spec.

Section Ind.
Variable P : value -> Prop.
Hypothesis H1 : forall s, P (VScalar s).
Hypothesis H2 : forall vs, Forall P vs -> P (VList vs).
Hypothesis H3 : forall r i m, Forall (fun kv => P (snd kv)) m -> P (VObj r i m).
Hypothesis H4 : forall n p o l, P (VRef n p o l).
Hypothesis H5 : forall vs, Forall P vs -> P (VConcat vs).
Hypothesis H6 : forall vs, Forall P vs -> P (VMerge vs).
Hypothesis H7 : forall vs, Forall P vs -> P (VMergeObj vs).
Fixpoint value_induction (v : value) : P v :=
  let all := fix all (vs : list value) : Forall P vs :=
    match vs with [] => Forall_nil _ | w :: ws => Forall_cons _ (value_induction w) (all ws) end in
  match v with
  | VScalar s => H1 s
  | VList vs => H2 vs (all vs)
  | VObj r i m =>
      H3 r i m ((fix allf (m : fields) : Forall (fun kv => P (snd kv)) m :=
        match m with [] => Forall_nil _ | kv :: m' => Forall_cons kv (value_induction (snd kv)) (allf m') end) m)
  | VRef n p o l => H4 n p o l
  | VConcat vs => H5 vs (all vs)
  | VMerge vs => H6 vs (all vs)
  | VMergeObj vs => H7 vs (all vs)
  end.
End Ind.

(** ** Association lists *)

Lemma find_key_app : forall A k (m1 m2 : list (str * A)),
  find_key k (m1 ++ m2) = match find_key k m1 with Some v => Some v | None => find_key k m2 end.
Proof.
  intros A k m1 m2. induction m1 as [|[k' v] m1 IH]; [reflexivity|]. cbn [app find_key].
  destruct (str_eqb k k'); [reflexivity|exact IH].
Qed.

Lemma find_key_in : forall A k (m : list (str * A)) v, find_key k m = Some v -> In (k, v) m.
Proof.
  intros A k m v. induction m as [|[k' w] m IH]; [discriminate|]. cbn [find_key].
  destruct (str_eqb k k') eqn:E; intro H.
  - apply str_eqb_eq in E. subst. injection H as ->. left. reflexivity.
  - right. auto.
Qed.

Lemma find_key_none : forall A k (m : list (str * A)), find_key k m = None <-> ~ In k (map fst m).
Proof.
  intros A k m. induction m as [|[k' w] m IH]; cbn [find_key map fst]; [split; [intros _ []|reflexivity]|].
  destruct (str_eqb k k') eqn:E.
  - apply str_eqb_eq in E. subst. split; [discriminate|]. intro H. exfalso. apply H. left. reflexivity.
  - rewrite IH. split; intros H; [intros [H'|H']|intro H']; try tauto.
    + subst. rewrite str_eqb_refl in E. discriminate.
    + apply H. right. exact H'.
Qed.

Lemma find_key_unique : forall A k (m : list (str * A)) v, NoDup (map fst m) -> In (k, v) m -> find_key k m = Some v.
Proof.
  intros A k m v. induction m as [|[k' w] m IH]; intros Hn Hi; [destruct Hi|]. cbn [map fst] in Hn. inversion Hn as [|? ? Hx Hm]; subst.
  cbn [find_key]. destruct Hi as [Hi|Hi].
  - injection Hi as -> ->. rewrite str_eqb_refl. reflexivity.
  - destruct (str_eqb k k') eqn:E; [|apply IH; assumption]. apply str_eqb_eq in E. subst. exfalso. apply Hx.
    apply (in_map fst) in Hi. exact Hi.
Qed.

Lemma find_key_Forall : forall A (P : A -> Prop) k (m : list (str * A)) v,
  Forall (fun kv => P (snd kv)) m -> find_key k m = Some v -> P v.
Proof. intros A P k m v H F. apply find_key_in in F. rewrite Forall_forall in H. apply (H (k, v)), F. Qed.

Lemma only_fallback_find : forall k m f,
  find_key k (only_fallback m f) = match find_key k m with Some _ => None | None => find_key k f end.
Proof.
  intros k m f. unfold only_fallback. induction f as [|[k' v] f IH]; cbn [filter find_key fst].
  - destruct (find_key k m); reflexivity.
  - destruct (find_key k' m) eqn:E; cbn [find_key].
    + rewrite IH. destruct (str_eqb k k') eqn:Ek; [|reflexivity]. apply str_eqb_eq in Ek. subst. rewrite E. reflexivity.
    + rewrite IH. destruct (str_eqb k k') eqn:Ek; [|reflexivity]. apply str_eqb_eq in Ek. subst. rewrite E. reflexivity.
Qed.

Lemma merge_ours_spec : forall rec m f m', merge_ours rec m f = Ok m' ->
  map fst m' = map fst m /\
  forall k, match find_key k m with
            | None => find_key k m' = None
            | Some v => match find_key k f with
                        | None => find_key k m' = Some v
                        | Some w => exists u, rec v w = Ok u /\ find_key k m' = Some u
                        end
            end.
Proof.
  intros rec m f. induction m as [|[k v] m IH]; intros m' H; cbn [merge_ours] in H.
  - injection H as <-. split; [reflexivity|]. reflexivity.
  - inv_bind H. inv_bind Hk. injection Hk0 as <-. destruct (IH _ Hb0) as [I1 I2]. split; [cbn; rewrite I1; reflexivity|].
    intro k0. cbn [find_key]. destruct (str_eqb k0 k) eqn:E; [|apply I2]. apply str_eqb_eq in E. subst.
    destruct (find_key k f) as [w|]; [exists a; auto|]. injection Hb as <-. reflexivity.
Qed.

(** ** Resolved values *)

Lemma plain_resolved : forall v, plain v -> is_resolved v = true.
Proof.
  intro v. induction v as [s|vs IH|r i m IH|n p o l|vs IH|vs IH|vs IH] using value_induction; intro H; inversion H as [|? Hv|? ? Hn Hm]; subst; try reflexivity.
  cbn. apply forallb_forall. intros x Hx. rewrite Forall_forall in IH, Hv. apply IH; auto.
Qed.

Lemma plain_fields_resolved : forall m, Forall (fun kv => plain (snd kv)) m -> fields_resolved m = true.
Proof.
  intros m H. unfold fields_resolved. apply forallb_forall. intros [k v] Hx. rewrite Forall_forall in H. apply plain_resolved, (H _ Hx).
Qed.

Lemma plain_mergeable : forall v, plain v -> is_unmergeable v = false.
Proof. intros v H. inversion H; reflexivity. Qed.

Lemma plain_ignores : forall v, plain v -> ignores_fallbacks v = true \/ exists m, v = VObj true false m.
Proof.
  intros v H. inversion H as [s|vs Hv|i m Hn Hm]; subst; [left; reflexivity| |].
  - left. change (is_resolved (VList vs) = true). apply plain_resolved, H.
  - destruct i; [left; reflexivity|right; eauto].
Qed.

Lemma with_fallback_eq : forall this other, with_fallback this other =
  if ignores_fallbacks this then Ok this
  else if is_unmergeable other then merged_with_the_unmergeable this other
  else match other with
       | VObj _ i2 m2 =>
           match this with
           | VObj r _ m =>
               ours <- merge_ours with_fallback m m2 ;;
               let merged := ours ++ only_fallback m m2 in
               Ok (VObj (fields_resolved merged) i2 merged)
           | VMergeObj _ => Throw EConfig
           | _ => merged_with_non_object this other
           end
       | _ => merged_with_non_object this other
       end.
Proof. intros [] other; reflexivity. Qed.

Lemma fallback_ignored : forall a b, ignores_fallbacks a = true -> with_fallback a b = Ok a.
Proof. intros a b H. rewrite with_fallback_eq, H. reflexivity. Qed.

Lemma only_fallback_plain : forall m f, Forall (fun kv => plain (snd kv)) f -> Forall (fun kv => plain (snd kv)) (only_fallback m f).
Proof. intros m f H. apply Forall_forall. intros x Hx. apply filter_In in Hx. rewrite Forall_forall in H. apply H, Hx. Qed.

Lemma only_fallback_nodup : forall m f, NoDup (map fst f) -> NoDup (map fst (only_fallback m f)).
Proof.
  intros m f. induction f as [|[k v] f IH]; intro H; [constructor|]. cbn [map fst] in H. inversion H as [|? ? Hx Hf]; subst.
  unfold only_fallback. cbn [filter fst]. destruct (find_key k m); [apply IH, Hf|]. cbn [map fst]. constructor; [|apply IH, Hf].
  intro Hi. apply Hx. apply in_map_iff in Hi. destruct Hi as [y [E Hy]]. apply filter_In in Hy. subst. apply in_map, Hy.
Qed.

Lemma NoDup_app_intro : forall A (a b : list A), NoDup a -> NoDup b -> (forall x, In x a -> ~ In x b) -> NoDup (a ++ b).
Proof.
  intros A a b Ha Hb H. induction Ha as [|x a Hx Ha IH]; [exact Hb|]. cbn. constructor.
  - rewrite in_app_iff. intros [|K]; [contradiction|]. apply (H x); [left; reflexivity|exact K].
  - apply IH. intros y Hy. apply H. right. exact Hy.
Qed.

Lemma merged_nodup : forall m ours f, map fst ours = map fst m -> NoDup (map fst m) -> NoDup (map fst f) ->
  NoDup (map fst (ours ++ only_fallback m f)).
Proof.
  intros m ours f E H1 H2. rewrite map_app, E. apply NoDup_app_intro; [exact H1|apply only_fallback_nodup, H2|].
  intros x Hx Hi. apply in_map_iff in Hi. destruct Hi as [[k v] [Ek Hv]]. cbn in Ek. subst k. apply filter_In in Hv. destruct Hv as [_ Hv]. cbn [fst] in Hv.
  destruct (find_key x m) eqn:F; [discriminate|]. apply find_key_none in F. contradiction.
Qed.

(** Merging resolved values succeeds and gives a resolved value. *)
Lemma merge_ours_ok : forall m f,
  Forall (fun kv => forall w, plain w -> exists u, with_fallback (snd kv) w = Ok u /\ plain u) m ->
  Forall (fun kv => plain (snd kv)) m -> Forall (fun kv => plain (snd kv)) f ->
  exists m', merge_ours with_fallback m f = Ok m' /\ Forall (fun kv => plain (snd kv)) m'.
Proof.
  intros m f IH Hm Hf. induction m as [|[k v] m IHm]; [exists []; split; [reflexivity|constructor]|].
  inversion IH as [|? ? I1 I2]; subst. inversion Hm as [|? ? P1 P2]; subst. destruct (IHm I2 P2) as [m' [E Hm']]. cbn [snd] in *.
  cbn [merge_ours]. destruct (find_key k f) as [w|] eqn:F.
  - destruct (I1 w (find_key_Forall _ _ _ _ _ Hf F)) as [u [Eu Hu]]. rewrite Eu. cbn [bind]. rewrite E. cbn [bind].
    eexists. split; [reflexivity|]. constructor; assumption.
  - cbn [bind]. rewrite E. cbn [bind]. eexists. split; [reflexivity|]. constructor; assumption.
Qed.

Lemma plain_merge : forall a b, plain a -> plain b -> exists c, with_fallback a b = Ok c /\ plain c.
Proof.
  intro a. induction a as [s|vs IH|r i m IH|n p o l|vs IH|vs IH|vs IH] using value_induction; intros b Ha Hb;
    try (inversion Ha; fail);
    try (destruct (plain_ignores _ Ha) as [H|[m' H]]; [rewrite fallback_ignored by exact H; eauto|discriminate]).
  inversion Ha as [| |? ? Hn Hm]; subst. destruct i; [rewrite fallback_ignored by reflexivity; eauto|].
  rewrite with_fallback_eq. cbn [ignores_fallbacks]. rewrite (plain_mergeable _ Hb).
  inversion Hb as [s|vs Hv|i m2 Hn2 Hm2]; subst.
  - exists (VObj true true m). split; [reflexivity|]. constructor; assumption.
  - exists (VObj true true m). split; [reflexivity|]. constructor; assumption.
  - destruct (merge_ours_ok m m2) as [m' [E Hm']]; try assumption.
    { rewrite Forall_forall in IH, Hm |- *. intros x Hx w Hw. apply IH; auto. }
    rewrite E. cbn [bind]. assert (F : Forall (fun kv => plain (snd kv)) (m' ++ only_fallback m m2)).
    { apply Forall_app. split; [exact Hm'|apply only_fallback_plain, Hm2]. }
    rewrite (plain_fields_resolved _ F). eexists. split; [reflexivity|]. constructor; [|exact F].
    apply merge_ours_spec in E. apply merged_nodup; [apply E|exact Hn|exact Hn2].
Qed.

(** ** Associativity *)

Lemma only_fallback_assoc : forall m1 m2 m3 ours, map fst ours = map fst m2 ->
  only_fallback m1 (ours ++ only_fallback m2 m3) = only_fallback m1 ours ++ only_fallback m1 (only_fallback m2 m3).
Proof. intros. unfold only_fallback. apply filter_app. Qed.

Lemma find_key_dom : forall A B k (m : list (str * A)) (m' : list (str * B)), map fst m = map fst m' ->
  find_key k m = None -> find_key k m' = None.
Proof. intros A B k m m' E H. rewrite find_key_none in *. rewrite <- E. exact H. Qed.

Lemma only_fallback_dom : forall m m' f, map fst m = map fst m' -> only_fallback m f = only_fallback m' f.
Proof.
  intros m m' f E. unfold only_fallback. apply filter_ext. intros [k v]. cbn [fst].
  destruct (find_key k m) eqn:F1, (find_key k m') eqn:F2; try reflexivity.
  - rewrite (find_key_dom _ _ k m' m (eq_sym E) F2) in F1. discriminate.
  - rewrite (find_key_dom _ _ k m m' E F1) in F2. discriminate.
Qed.

Lemma only_fallback_only : forall m1 m2 f, only_fallback (m1 ++ only_fallback m1 m2) f = only_fallback m1 (only_fallback m2 f).
Proof.
  intros m1 m2 f. unfold only_fallback at 1 3 4. induction f as [|[k v] f IH]; [reflexivity|]. cbn [filter fst].
  rewrite find_key_app, only_fallback_find. destruct (find_key k m1) eqn:F1, (find_key k m2) eqn:F2; cbn [filter fst]; rewrite ?F1; try exact IH.
  f_equal. exact IH.
Qed.

(** The part of the merge for keys only the second object has. *)
Lemma merge_ours_only : forall m1 m2 m3 m23, merge_ours with_fallback m2 m3 = Ok m23 ->
  merge_ours with_fallback (only_fallback m1 m2) m3 = Ok (only_fallback m1 m23).
Proof.
  intros m1 m2 m3. induction m2 as [|[k v] m2 IH]; intros m23 H; cbn [merge_ours] in H.
  - injection H as <-. reflexivity.
  - inv_bind H. inv_bind Hk. injection Hk0 as <-. unfold only_fallback. cbn [filter fst]. destruct (find_key k m1).
    + apply IH, Hb0.
    + cbn [merge_ours]. rewrite Hb. cbn [bind]. specialize (IH _ Hb0). unfold only_fallback in IH. rewrite IH. reflexivity.
Qed.

Lemma merge_ours_app : forall rec a b f a' b', merge_ours rec a f = Ok a' -> merge_ours rec b f = Ok b' ->
  merge_ours rec (a ++ b) f = Ok (a' ++ b').
Proof.
  intros rec a b f. induction a as [|[k v] a IH]; intros a' b' H1 H2; cbn [merge_ours app] in *.
  - injection H1 as <-. exact H2.
  - inv_bind H1. inv_bind Hk. injection Hk0 as <-. rewrite Hb. cbn [bind]. rewrite (IH _ _ Hb0 H2). reflexivity.
Qed.

(** The part for the keys of the first object. *)
Lemma merge_ours_assoc : forall m1 m2 m3 m12 m23,
  Forall (fun kv => forall b c ab bc, plain b -> plain c -> with_fallback (snd kv) b = Ok ab -> with_fallback b c = Ok bc ->
                    with_fallback ab c = with_fallback (snd kv) bc) m1 ->
  Forall (fun kv => plain (snd kv)) m1 -> Forall (fun kv => plain (snd kv)) m2 -> Forall (fun kv => plain (snd kv)) m3 ->
  merge_ours with_fallback m1 m2 = Ok m12 -> merge_ours with_fallback m2 m3 = Ok m23 ->
  merge_ours with_fallback m12 m3 = merge_ours with_fallback m1 (m23 ++ only_fallback m2 m3).
Proof.
  intros m1 m2 m3 m12 m23 IH P1 P2 P3 H12 H23. revert m12 H12. induction m1 as [|[k v] m1 IHm]; intros m12 H12.
  - injection H12 as <-. reflexivity.
  - inversion IH as [|? ? I1 I2]; subst. inversion P1 as [|? ? Pv Pm]; subst. cbn [snd] in *. cbn [merge_ours] in H12. inv_bind H12. inv_bind Hk. injection Hk0 as <-.
    specialize (IHm I2 Pm _ Hb0). cbn [merge_ours]. rewrite IHm. f_equal.
    destruct (merge_ours_spec _ _ _ _ H23) as [_ S]. specialize (S k). rewrite find_key_app, only_fallback_find.
    destruct (find_key k m2) as [w|] eqn:F2.
    + destruct (find_key k m3) as [u|] eqn:F3.
      * destruct S as [x [E1 E2]]. rewrite E2. apply (I1 w u); try assumption;
          [exact (find_key_Forall _ _ _ _ _ P2 F2)|exact (find_key_Forall _ _ _ _ _ P3 F3)].
      * rewrite S. symmetry. exact Hb.
    + injection Hb as <-. rewrite S. destruct (find_key k m3); reflexivity.
Qed.

Lemma fallback_assoc : forall a b c ab bc, plain a -> plain b -> plain c ->
  with_fallback a b = Ok ab -> with_fallback b c = Ok bc -> with_fallback ab c = with_fallback a bc.
Proof.
  intro a. induction a as [s|vs IH|r i m IH|n p o l|vs IH|vs IH|vs IH] using value_induction; intros b c ab bc Ha Hb Hc H1 H2;
    try (inversion Ha; fail);
    try (destruct (plain_ignores _ Ha) as [H|[m' H]]; [|discriminate];
         rewrite fallback_ignored in H1 by exact H; injection H1 as <-; rewrite !fallback_ignored by exact H; reflexivity).
  inversion Ha as [| |? ? Hn Hm]; subst.
  destruct i; [rewrite fallback_ignored in H1 by reflexivity; injection H1 as <-; rewrite !fallback_ignored by reflexivity; reflexivity|].
  destruct (plain_ignores _ Hb) as [Hi|[m2 ->]].
  - rewrite fallback_ignored in H2 by exact Hi. injection H2 as <-. rewrite H1.
    rewrite with_fallback_eq in H1. cbn [ignores_fallbacks] in H1. rewrite (plain_mergeable _ Hb) in H1.
    inversion Hb as [s|vs Hv|i m2 Hn2 Hm2]; subst.
    + injection H1 as <-. apply fallback_ignored. reflexivity.
    + injection H1 as <-. apply fallback_ignored. reflexivity.
    + cbn in Hi. subst i. inv_bind H1. injection Hk as <-. apply fallback_ignored. reflexivity.
  - inversion Hb as [| |? ? Hn2 Hm2]; subst. rewrite with_fallback_eq in H1. cbn [ignores_fallbacks is_unmergeable] in H1.
    inv_bind H1. cbn zeta in Hk. injection Hk as <-. rename a into m12.
    assert (R12 : fields_resolved (m12 ++ only_fallback m m2) = true).
    { destruct (plain_merge _ _ Ha Hb) as [x [E Hx]]. rewrite with_fallback_eq in E. cbn [ignores_fallbacks is_unmergeable] in E. rewrite Hb0 in E.
      cbn [bind] in E. injection E as <-. inversion Hx. reflexivity. }
    rewrite R12. rewrite with_fallback_eq in H2. cbn [ignores_fallbacks is_unmergeable] in H2. rewrite (plain_mergeable _ Hc) in H2.
    inversion Hc as [s|vs Hv|i m3 Hn3 Hm3]; subst.
    + injection H2 as <-. rewrite !with_fallback_eq. cbn. rewrite Hb0. cbn [bind]. cbn. rewrite R12. reflexivity.
    + injection H2 as <-. rewrite !with_fallback_eq. cbn. rewrite Hb0. cbn [bind]. cbn. rewrite R12. reflexivity.
    + inv_bind H2. cbn zeta in Hk. injection Hk as <-. rename a into m23. rewrite !with_fallback_eq. cbn [ignores_fallbacks is_unmergeable].
      destruct (merge_ours_spec _ _ _ _ Hb0) as [D12 _]. destruct (merge_ours_spec _ _ _ _ Hb1) as [D23 _].
      assert (IH' : Forall (fun kv => forall b c ab bc, plain b -> plain c -> with_fallback (snd kv) b = Ok ab -> with_fallback b c = Ok bc ->
                    with_fallback ab c = with_fallback (snd kv) bc) m).
      { rewrite Forall_forall in IH, Hm |- *. intros x Hx b0 c0 ab0 bc0 Q1 Q2 Q3 Q4. apply (IH x Hx b0 c0 ab0 bc0); auto. }
      pose proof (merge_ours_assoc m m2 m3 m12 m23 IH' Hm Hm2 Hm3 Hb0 Hb1) as EA.
      destruct (merge_ours_ok m (m23 ++ only_fallback m2 m3)) as [x [Ex Px]].
      { rewrite Forall_forall in IH, Hm |- *. intros y Hy w Hw. apply plain_merge; auto. }
      { exact Hm. }
      { apply Forall_app. split; [|apply only_fallback_plain, Hm3].
        destruct (merge_ours_ok m2 m3) as [z [Ez Pz]]; try assumption.
        { rewrite Forall_forall in Hm2 |- *. intros y Hy w Hw. apply plain_merge; auto. }
        congruence. }
      rewrite Ex in EA |- *. rewrite (merge_ours_app _ _ _ _ _ _ EA (merge_ours_only m m2 m3 m23 Hb1)). cbn [bind]. cbn zeta.
      assert (EM : (x ++ only_fallback m m23) ++ only_fallback (m12 ++ only_fallback m m2) m3 = x ++ only_fallback m (m23 ++ only_fallback m2 m3)).
      { rewrite <- app_assoc. f_equal. rewrite (only_fallback_assoc m m2 m3 m23 D23). f_equal.
        rewrite (only_fallback_dom (m12 ++ only_fallback m m2) (m ++ only_fallback m m2)); [apply only_fallback_only|].
        rewrite !map_app, D12. reflexivity. }
      rewrite EM. reflexivity.
Qed.
