(** Merging definitions of resolved values, path by path. *)
From Verif Require Import Base BaseLemmas Util_Model Num_Model Path_Model Path_Spec PathParser_Model Token_Model Doc_Model Edit_Model Value_Model Value_Spec Value_Lemmas Value_Lemmas2 Concat_Model ConfigParser_Model ConfigParser_Spec ConfigParser_Lemmas.

(** The fields of what may be an object *)
Definition sub (k : str) (o : option value) : option value := match o with Some (VObj _ _ m) => find_key k m | _ => None end.
(** Does it hide what was defined before? *)
Definition blocked (o : option value) : bool := match o with Some v => ignores_fallbacks v | None => false end.
Definition plain_opt (o : option value) : Prop := match o with Some v => plain v | None => True end.
(** The later definition over the earlier one *)
Definition over (n o : option value) : option value :=
  match n, o with
  | None, _ => o
  | Some _, None => n
  | Some a, Some b => match with_fallback a b with Ok c => Some c | _ => None end
  end.
Fixpoint look (p : path) (o : option value) : option value := match p with [] => o | k :: p' => look p' (sub k o) end.

Lemma look_get : forall p v, look p (Some v) = get p v.
Proof.
  induction p as [|k p IH]; intro v; [reflexivity|]. cbn [look get]. assert (N : forall p, look p None = None) by (induction p0; [reflexivity|exact IHp0]).
  destruct v; cbn [sub]; try apply N. destruct (find_key k m); [apply IH|apply N].
Qed.
Lemma look_none : forall p, look p None = None.
Proof. induction p as [|k p IH]; [reflexivity|exact IH]. Qed.

Lemma sub_plain : forall k o, plain_opt o -> plain_opt (sub k o).
Proof.
  intros k [v|] H; [|exact I]. destruct v; try exact I. cbn [sub]. destruct (find_key k m) eqn:F; [|exact I]. exact (plain_find _ _ _ _ _ H F).
Qed.
Lemma over_plain : forall n o, plain_opt n -> plain_opt o -> plain_opt (over n o).
Proof.
  intros [a|] [b|] Ha Hb; cbn; try assumption. destruct (plain_merge a b Ha Hb) as [c [-> Hc]]. exact Hc.
Qed.
Lemma over_none : forall n, over n None = n.
Proof. intros [a|]; reflexivity. Qed.
Lemma over_some : forall a o, plain a -> plain_opt o -> exists c, over (Some a) o = Some c /\ plain c /\ match o with None => c = a | Some b => with_fallback a b = Ok c end.
Proof.
  intros a [b|] Ha Hb; [|exists a; repeat split; assumption]. destruct (plain_merge a b Ha Hb) as [c [E Hc]]. exists c. cbn. rewrite E. repeat split; assumption.
Qed.

Lemma over_blocked : forall n o, plain_opt n -> plain_opt o -> blocked (over n o) = blocked n || blocked o.
Proof.
  intros [a|] [b|] Ha Hb; cbn [over blocked]; try reflexivity; [|symmetry; apply orb_false_r].
  destruct (plain_ignores a Ha) as [Hi|[m ->]].
  - rewrite fallback_ignored by exact Hi. cbn [blocked]. rewrite Hi. reflexivity.
  - cbn [ignores_fallbacks orb]. destruct (is_object b) eqn:Ob.
    + destruct b as [s|vs|r i m'|? ? ? ?|vs|vs|vs]; try discriminate; try (inversion Hb; fail).
      destruct (plain_merge _ _ Ha Hb) as [c [E _]]. rewrite E. destruct (merge_find _ _ _ _ _ _ E) as [f [-> _]]. reflexivity.
    + assert (E : with_fallback (VObj true false m) b = Ok (VObj true true m)).
      { rewrite with_fallback_eq. cbn [ignores_fallbacks]. rewrite (plain_mergeable b Hb). destruct b; try discriminate; try (inversion Hb; fail); reflexivity. }
      rewrite E. cbn. destruct (plain_ignores b Hb) as [->|[m' ->]]; [reflexivity|discriminate].
Qed.

Lemma over_sub : forall n o k, plain_opt n -> plain_opt o -> sub k (over n o) = if blocked n then sub k n else over (sub k n) (sub k o).
Proof.
  intros [a|] [b|] k Ha Hb; cbn [over blocked]; [|symmetry; rewrite over_none; destruct (ignores_fallbacks a); reflexivity|reflexivity|reflexivity].
  destruct (plain_ignores a Ha) as [Hi|[m ->]].
  - rewrite fallback_ignored by exact Hi. rewrite Hi. reflexivity.
  - cbn [ignores_fallbacks]. destruct (is_object b) eqn:Ob.
    + destruct b as [s|vs|r i m'|? ? ? ?|vs|vs|vs]; try discriminate; try (inversion Hb; fail).
      destruct (plain_merge _ _ Ha Hb) as [c [E _]]. rewrite E. destruct (merge_find _ _ _ _ _ _ E) as [f [-> S]]. specialize (S k).
      cbn [sub]. destruct (find_key k m) as [v|]; cbn [over]; [|exact S]. destruct (find_key k m') as [w|]; [|exact S].
      destruct S as [u [-> ->]]. reflexivity.
    + assert (E : with_fallback (VObj true false m) b = Ok (VObj true true m)).
      { rewrite with_fallback_eq. cbn [ignores_fallbacks]. rewrite (plain_mergeable b Hb). destruct b; try discriminate; try (inversion Hb; fail); reflexivity. }
      rewrite E. cbn [sub]. replace (match b with VObj _ _ m0 => find_key k m0 | _ => None end) with (@None value) by (destruct b; try discriminate; reflexivity).
      symmetry. apply over_none.
Qed.

(** ** The same apart from a path *)
Fixpoint agree (p : path) (a b : option value) : Prop :=
  match p with
  | [] => True
  | k :: p' => blocked a = blocked b /\ (forall k', k' <> k -> sub k' a = sub k' b) /\ agree p' (sub k a) (sub k b)
  end.

Lemma agree_refl : forall p a, agree p a a.
Proof. induction p as [|k p IH]; intro a; cbn; auto. Qed.
Lemma agree_sym : forall p a b, agree p a b -> agree p b a.
Proof.
  induction p as [|k p IH]; intros a b H; cbn in *; [exact I|]. destruct H as [H1 [H2 H3]]. split; [auto|]. split; [|apply IH, H3]. intros. symmetry. apply H2. assumption.
Qed.
Lemma agree_trans : forall p a b c, agree p a b -> agree p b c -> agree p a c.
Proof.
  induction p as [|k p IH]; intros a b c H G; cbn in *; [exact I|]. destruct H as [H1 [H2 H3]], G as [G1 [G2 G3]]. split; [congruence|].
  split; [|eapply IH; eassumption]. intros k' N. rewrite H2, G2 by exact N. reflexivity.
Qed.

Lemma agree_over : forall p n1 n2 o1 o2, plain_opt n1 -> plain_opt n2 -> plain_opt o1 -> plain_opt o2 ->
  agree p n1 n2 -> agree p o1 o2 -> agree p (over n1 o1) (over n2 o2).
Proof.
  induction p as [|k p IH]; intros n1 n2 o1 o2 A B C D H G; [exact I|]. cbn in H, G |- *. destruct H as [H1 [H2 H3]], G as [G1 [G2 G3]].
  rewrite !over_blocked, H1, G1 by assumption. split; [reflexivity|]. split.
  - intros k' N. rewrite !over_sub, H1, H2, G2 by assumption. reflexivity.
  - rewrite !over_sub, H1 by assumption. destruct (blocked n2); [exact H3|]. apply IH; try apply sub_plain; assumption.
Qed.

Lemma agree_look : forall p a b, agree p a b -> forall q, apart p q -> look q a = look q b.
Proof.
  induction p as [|k p IH]; intros a b H q [A B].
  - exfalso. apply A. exists q. reflexivity.
  - destruct q as [|k' q]; [exfalso; apply B; exists (k :: p); reflexivity|]. cbn in H |- *. destruct H as [_ [H2 H3]].
    destruct (str_eqb k' k) eqn:E.
    + apply str_eqb_eq in E. subst k'. apply (IH _ _ H3). split; intros [r Hr]; [apply A|apply B]; exists r; cbn; rewrite Hr; reflexivity.
    + rewrite H2; [reflexivity|]. intros ->. rewrite str_eqb_refl in E. discriminate.
Qed.

(** Only what can be seen key by key matters. *)
Definition twins (a b : option value) : Prop := blocked a = blocked b /\ forall k, sub k a = sub k b.
Lemma agree_twins : forall p a b, twins a b -> agree p a b.
Proof. intros [|k p] a b [H1 H2]; cbn; [exact I|]. split; [exact H1|]. split; [intros; apply H2|]. rewrite H2. apply agree_refl. Qed.

(** ** Nothing in the way *)
Fixpoint free (p : path) (o : option value) : Prop :=
  match p with [] => True | k :: p' => blocked o = false /\ free p' (sub k o) end.
Lemma free_over : forall p n o, plain_opt n -> plain_opt o -> free p n -> free p o -> free p (over n o).
Proof.
  induction p as [|k p IH]; intros n o A B H G; cbn in *; [exact I|]. destruct H as [H1 H2], G as [G1 G2].
  rewrite over_blocked, H1, G1, over_sub, H1 by assumption. split; [reflexivity|]. apply IH; try apply sub_plain; assumption.
Qed.
Lemma free_none : forall p, free p None.
Proof. induction p; cbn; auto. Qed.

Lemma look_over_none : forall p n o, plain_opt n -> plain_opt o -> look p n = None -> look p o = None -> look p (over n o) = None.
Proof.
  induction p as [|k p IH]; intros n o A B H G; cbn in *; [subst; reflexivity|]. rewrite over_sub by assumption.
  destruct (blocked n); [exact H|]. apply IH; try apply sub_plain; assumption.
Qed.

(** Either nothing or [w] *)
Definition at_most (w : value) (o : option value) : Prop := o = None \/ o = Some w.
Lemma look_over : forall p w n o, plain w -> plain_opt n -> plain_opt o -> free p n -> at_most w (look p n) -> at_most w (look p o) ->
  look p (over n o) = match look p n with Some _ => Some w | None => look p o end.
Proof.
  induction p as [|k p IH]; intros w n o W A B F H G; cbn in *.
  - destruct H as [-> | ->]; [reflexivity|]. destruct G as [-> | ->]; [reflexivity|]. cbn. rewrite fallback_self by exact W. reflexivity.
  - destruct F as [F1 F2]. rewrite over_sub, F1 by assumption. apply IH; try apply sub_plain; assumption.
Qed.

(** ** A value under a path *)
Lemma under_plain : forall p v, plain v -> plain (under p v).
Proof.
  induction p as [|k p IH]; intros v H; cbn; [exact H|]. rewrite (plain_resolved v H). constructor; [repeat constructor; intros []|].
  constructor; [exact (IH v H)|constructor].
Qed.
Lemma under_sub : forall k p v k', sub k' (Some (under (k :: p) v)) = if str_eqb k' k then Some (under p v) else None.
Proof. reflexivity. Qed.

Lemma agree_below : forall p x v, agree p (Some (under (p ++ x) v)) None.
Proof.
  induction p as [|k p IH]; intros x v; [exact I|]. cbn [app agree]. rewrite !under_sub, str_eqb_refl. split; [reflexivity|].
  split; [|apply IH]. intros k' N. rewrite under_sub. destruct (str_eqb k' k) eqn:E; [apply str_eqb_eq in E; congruence|reflexivity].
Qed.
Lemma agree_at : forall p v, agree p (Some (under p v)) None.
Proof. intros p v. pose proof (agree_below p [] v) as H. rewrite app_nil_r in H. exact H. Qed.
Lemma agree_under : forall key r v w, agree r (Some v) (Some w) -> agree (key ++ r) (Some (under key v)) (Some (under key w)).
Proof.
  induction key as [|k key IH]; intros r v w H; [exact H|]. cbn [app agree]. rewrite !under_sub, str_eqb_refl. split; [reflexivity|].
  split; [|apply IH, H]. intros k' N. rewrite !under_sub. destruct (str_eqb k' k) eqn:E; [apply str_eqb_eq in E; congruence|reflexivity].
Qed.
Lemma look_under : forall key r v, look (key ++ r) (Some (under key v)) = look r (Some v).
Proof. induction key as [|k key IH]; intros r v; [reflexivity|]. cbn [app look]. rewrite under_sub, str_eqb_refl. apply IH. Qed.
Lemma free_under : forall key r v, free r (Some v) -> free (key ++ r) (Some (under key v)).
Proof. induction key as [|k key IH]; intros r v H; [exact H|]. cbn [app free]. rewrite under_sub, str_eqb_refl. split; [reflexivity|apply IH, H]. Qed.
Lemma apart_under : forall key p v, ~ is_prefix key p -> ~ is_prefix p key -> look p (Some (under key v)) = None /\ free p (Some (under key v)).
Proof.
  induction key as [|k key IH]; intros p v A B; [exfalso; apply A; exists p; reflexivity|].
  destruct p as [|k' p]; [exfalso; apply B; exists (k :: key); reflexivity|]. cbn [look free]. rewrite under_sub.
  destruct (str_eqb k' k) eqn:E.
  - apply str_eqb_eq in E. subst k'. assert (A' : ~ is_prefix key p) by (intros [r Hr]; apply A; exists r; cbn; rewrite Hr; reflexivity).
    assert (B' : ~ is_prefix p key) by (intros [r Hr]; apply B; exists r; cbn; rewrite Hr; reflexivity).
    destruct (IH p v A' B') as [H1 H2]. repeat split; assumption.
  - rewrite look_none. split; [reflexivity|]. split; [reflexivity|]. destruct p; cbn; auto. split; [reflexivity|apply free_none].
Qed.

(** ** Adding a field to an object *)
Definition plain_fields (F : fields) : Prop := NoDup (map fst F) /\ Forall (fun kv => plain (snd kv)) F.
Definition obj (F : fields) : option value := Some (new_object F).
Lemma obj_plain : forall F, plain_fields F -> plain_opt (obj F).
Proof. intros F [H1 H2]. cbn. unfold new_object. rewrite plain_fields_resolved by exact H2. constructor; assumption. Qed.
Lemma obj_sub : forall F k, sub k (obj F) = find_key k F.
Proof. reflexivity. Qed.

Lemma set_key_in : forall F k (v : value) x, In x (map fst (set_key F k v)) -> x = k \/ In x (map fst F).
Proof.
  induction F as [|[q u] F IH]; intros k v x H; cbn in *; [destruct H as [H|[]]; auto|]. destruct (str_eqb k q); cbn in H.
  - destruct H as [H|H]; auto.
  - destruct H as [H|H]; [auto|]. apply IH in H. destruct H; auto.
Qed.
Lemma set_key_plain : forall F k v, plain_fields F -> plain v -> plain_fields (set_key F k v).
Proof.
  intros F k v [H1 H2] Hv. split.
  - clear H2. induction F as [|[q u] F IH]; cbn in *; [repeat constructor; intros []|]. inversion H1 as [|? ? N D]; subst. destruct (str_eqb k q) eqn:E; cbn; constructor; auto.
    intro Hi. apply set_key_in in Hi. destruct Hi as [->|Hi]; [rewrite str_eqb_refl in E; discriminate|contradiction].
  - clear H1. induction F as [|[q u] F IH]; cbn in *; [repeat constructor; exact Hv|]. inversion H2 as [|? ? N D]; subst. destruct (str_eqb k q); constructor; auto.
Qed.

Lemma over_object : forall a o c, plain a -> plain_opt o -> is_object a = true -> over (Some a) o = Some c -> is_object c = true.
Proof.
  intros a [b|] c Ha Hb Oa H; cbn [over] in H; [|injection H as <-; exact Oa]. destruct (with_fallback a b) as [u| |] eqn:E; try discriminate. injection H as <-.
  destruct (is_object b) eqn:Ob.
  - destruct a as [s|vs|r i m|? ? ? ?|vs|vs|vs]; try discriminate; try (inversion Ha; fail). destruct i; [rewrite fallback_ignored in E by reflexivity; injection E as <-; reflexivity|].
    destruct b as [s|vs|r' i' m'|? ? ? ?|vs|vs|vs]; try discriminate; try (inversion Hb; fail). destruct (merge_find _ _ _ _ _ _ E) as [f [-> _]]. reflexivity.
  - destruct (fallback_non_object a b Ha Hb) as [u' [Eu K]]; [rewrite Ob; apply andb_false_r|]. rewrite E in Eu. injection Eu as <-.
    destruct K as [->|[r [i [m [_ ->]]]]]; [exact Oa|reflexivity].
Qed.

Lemma add_field_over : forall F p v, plain_fields F -> plain v -> p <> [] ->
  exists F', add_field CONF F p v = Ok F' /\ plain_fields F' /\ twins (obj F') (over (Some (under p v)) (obj F)).
Proof.
  intros F [|k p] v HF Hv Hp; [congruence|].
  assert (G : exists u, over (Some (under p v)) (find_key k F) = Some u /\ plain u /\
    add_field CONF F (k :: p) v = (if match p with [] => true | _ => is_object u end then Ok (set_key F k u) else Stuck UNullDeref)).
  { assert (Po : plain_opt (find_key k F)) by (apply (sub_plain k (obj F)), obj_plain, HF).
    destruct (over_some (under p v) (find_key k F) (under_plain p v Hv) Po) as [u [E1 [E2 E3]]]. exists u. split; [exact E1|]. split; [exact E2|].
    unfold add_field. destruct p as [|k2 p].
    - destruct (find_key k F); [cbn [under] in E3; rewrite E3; reflexivity|cbn in E3; subst u; reflexivity].
    - cbn zeta. rewrite under_eq. destruct (find_key k F); [rewrite E3; reflexivity|rewrite E3; reflexivity]. }
  destruct G as [u [E1 [E2 E3]]].
  assert (O : (match p with [] => true | _ => is_object u end) = true).
  { destruct p as [|k2 p]; [reflexivity|]. exact (over_object _ _ _ (under_plain (k2 :: p) v Hv) (sub_plain k (obj F) (obj_plain F HF)) eq_refl E1). }
  rewrite O in E3. exists (set_key F k u). split; [exact E3|]. split; [apply set_key_plain; assumption|].
  pose proof (under_plain (k :: p) v Hv) as Pu. pose proof (obj_plain F HF) as Pf. split.
  - rewrite over_blocked by assumption. reflexivity.
  - intro k'. rewrite over_sub, under_sub, !obj_sub, find_set_key by assumption. cbn [blocked under ignores_fallbacks].
    destruct (str_eqb k' k) eqn:E; [|reflexivity]. apply str_eqb_eq in E. subst k'. symmetry. exact E1.
Qed.
