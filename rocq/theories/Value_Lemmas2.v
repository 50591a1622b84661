(** Merging, equality and editing of values. *)
From Verif Require Import Base BaseLemmas Util_Model Num_Model Path_Model Path_Spec PathParser_Model Value_Model Value_Spec Value_Lemmas.

(** ** Merging *)

Lemma merge_assoc : forall a b c, plain a -> plain b -> plain c ->
  exists ab bc l r, with_fallback a b = Ok ab /\ with_fallback b c = Ok bc /\
    with_fallback ab c = Ok l /\ with_fallback a bc = Ok r /\ forall p, get p l = get p r.
Proof.
  intros a b c Ha Hb Hc. destruct (plain_merge a b Ha Hb) as [ab [E1 P1]]. destruct (plain_merge b c Hb Hc) as [bc [E2 P2]].
  destruct (plain_merge ab c P1 Hc) as [l [E3 P3]]. exists ab, bc, l, l. repeat (split; [assumption|]).
  split; [|reflexivity]. rewrite <- (fallback_assoc a b c ab bc Ha Hb Hc E1 E2). exact E3.
Qed.

Lemma plain_find : forall r i m k v, plain (VObj r i m) -> find_key k m = Some v -> plain v.
Proof. intros r i m k v H F. inversion H as [| |? ? Hn Hm]; subst. exact (find_key_Forall _ _ _ _ _ Hm F). Qed.

(** The merged fields, key by key. *)
Lemma merge_find : forall r m r2 i2 m2 c, with_fallback (VObj r false m) (VObj r2 i2 m2) = Ok c ->
  exists f, c = VObj (fields_resolved f) i2 f /\
  forall k, match find_key k m, find_key k m2 with
            | None, o => find_key k f = o
            | Some v, None => find_key k f = Some v
            | Some v, Some w => exists u, with_fallback v w = Ok u /\ find_key k f = Some u
            end.
Proof.
  intros r m r2 i2 m2 c H. rewrite with_fallback_eq in H. cbn [ignores_fallbacks is_unmergeable] in H. inv_bind H. cbn zeta in Hk. injection Hk as <-.
  exists (a ++ only_fallback m m2). split; [reflexivity|]. intro k. destruct (merge_ours_spec _ _ _ _ Hb) as [_ S]. specialize (S k).
  rewrite find_key_app, only_fallback_find. destruct (find_key k m) as [v|].
  - destruct (find_key k m2) as [w|]; [destruct S as [u [E1 E2]]; exists u; rewrite E2; auto|rewrite S; reflexivity].
  - rewrite S. destruct (find_key k m2); reflexivity.
Qed.

Lemma fallback_non_object : forall v w, plain v -> plain w -> is_object v && is_object w = false ->
  exists u, with_fallback v w = Ok u /\ kept v u.
Proof.
  intros v w Hv Hw H. destruct (plain_ignores v Hv) as [Hi|[m ->]].
  - exists v. split; [apply fallback_ignored, Hi|left; reflexivity].
  - cbn in H. exists (VObj true true m). split; [|right; exists true, false, m; auto].
    rewrite with_fallback_eq. cbn [ignores_fallbacks]. rewrite (plain_mergeable w Hw). destruct w; try (inversion Hw; fail); try reflexivity. discriminate.
Qed.

Lemma merge_keys : forall m i2 m2, plain (VObj true false m) -> plain (VObj true i2 m2) ->
  exists c, with_fallback (VObj true false m) (VObj true i2 m2) = Ok c /\
  forall k, match get [k] (VObj true false m), get [k] (VObj true i2 m2) with
            | Some v, None => get [k] c = Some v
            | None, o => get [k] c = o
            | Some v, Some w =>
                exists u, get [k] c = Some u /\
                  if is_object v && is_object w then with_fallback v w = Ok u else kept v u
            end.
Proof.
  intros m i2 m2 Ha Hb. destruct (plain_merge _ _ Ha Hb) as [c [E Pc]]. exists c. split; [exact E|]. intro k.
  destruct (merge_find _ _ _ _ _ _ E) as [f [-> S]]. specialize (S k). cbn [get].
  destruct (find_key k m) as [v|] eqn:F1; cbn [get].
  - destruct (find_key k m2) as [w|] eqn:F2; cbn [get].
    + destruct S as [u [E1 E2]]. exists u. rewrite E2. split; [reflexivity|]. destruct (is_object v && is_object w) eqn:O; [exact E1|].
      destruct (fallback_non_object v w (plain_find _ _ _ _ _ Ha F1) (plain_find _ _ _ _ _ Hb F2) O) as [u' [E3 K]]. congruence.
    + rewrite S. reflexivity.
  - rewrite S. destruct (find_key k m2); reflexivity.
Qed.

Lemma fallback_self : forall a, plain a -> with_fallback a a = Ok a.
Proof.
  intro a. induction a as [s|vs IH|r i m IH|n p o l|vs IH|vs IH|vs IH] using value_induction; intro Ha; try (inversion Ha; fail);
    try (destruct (plain_ignores _ Ha) as [H|[m' H]]; [apply fallback_ignored, H|discriminate]).
  inversion Ha as [| |? ? Hn Hm]; subst. destruct i; [apply fallback_ignored; reflexivity|].
  rewrite with_fallback_eq. cbn [ignores_fallbacks is_unmergeable].
  assert (E : forall f g, m = g ++ f -> merge_ours with_fallback f m = Ok f).
  { intro f. induction f as [|[k v] f IHf]; intros g Eg; [reflexivity|]. cbn [merge_ours].
    assert (Hi : In (k, v) m) by (rewrite Eg; apply in_elt). rewrite (find_key_unique _ _ _ _ Hn Hi).
    rewrite Forall_forall in IH, Hm. pose proof (IH _ Hi (Hm _ Hi)) as Es. cbn [snd] in Es. rewrite Es. cbn [bind]. rewrite (IHf (g ++ [(k, v)])); [reflexivity|]. rewrite <- app_assoc. exact Eg. }
  rewrite (E m []) by reflexivity. cbn [bind].
  assert (O : forall f, incl f m -> filter (fun kv => match find_key (fst kv) m with None => true | Some _ => false end) f = []).
  { intro f. induction f as [|[k v] f IHf]; intro Hi; [reflexivity|]. cbn [filter fst].
    rewrite (find_key_unique _ k m v Hn) by (apply Hi; left; reflexivity). apply IHf. intros x Hx. apply Hi. right. exact Hx. }
  unfold only_fallback. rewrite (O m) by (intros x Hx; exact Hx). cbn zeta. rewrite app_nil_r, (plain_fields_resolved m Hm). reflexivity.
Qed.

Lemma fallback_empty_right : forall i m, plain (VObj true i m) -> with_fallback (VObj true i m) empty_object = Ok (VObj true i m).
Proof.
  intros i m H. destruct i; [apply fallback_ignored; reflexivity|]. inversion H as [| |? ? Hn Hm]; subst.
  rewrite with_fallback_eq. cbn [ignores_fallbacks is_unmergeable empty_object new_object].
  assert (E : forall f, merge_ours with_fallback f [] = Ok f).
  { intro f. induction f as [|[k v] f IH]; [reflexivity|]. cbn [merge_ours find_key bind]. rewrite IH. reflexivity. }
  rewrite E. cbn [bind]. cbn. rewrite app_nil_r. fold (fields_resolved m). rewrite (plain_fields_resolved m Hm). reflexivity.
Qed.

Lemma fallback_empty_left : forall i m, plain (VObj true i m) -> with_fallback empty_object (VObj true i m) = Ok (VObj true i m).
Proof.
  intros i m H. inversion H as [| |? ? Hn Hm]; subst.
  rewrite with_fallback_eq. cbn [ignores_fallbacks is_unmergeable empty_object new_object merge_ours bind]. cbn zeta. cbn [app].
  assert (E : only_fallback [] m = m).
  { unfold only_fallback. clear. induction m as [|[k v] m IH]; [reflexivity|]. cbn [filter find_key fst]. f_equal. exact IH. }
  rewrite E, (plain_fields_resolved m Hm). reflexivity.
Qed.

Lemma merge_neutral : forall a, plain a -> simple_object a ->
  with_fallback a a = Ok a /\ with_fallback a empty_object = Ok a /\ with_fallback empty_object a = Ok a.
Proof.
  intros a Ha [r [i [m ->]]]. inversion Ha; subst.
  split; [apply fallback_self, Ha|split; [apply fallback_empty_right, Ha|apply fallback_empty_left, Ha]].
Qed.

(** ** Hiding *)

Fixpoint closed (p : path) (v : value) : Prop :=
  ignores_fallbacks v = true \/
  match p with
  | [] => False
  | k :: p' => exists m w, v = VObj true false m /\ find_key k m = Some w /\ closed p' w
  end.

Lemma closed_ignores : forall p v, ignores_fallbacks v = true -> closed p v.
Proof. intros [|k p] v H; left; exact H. Qed.

Lemma closed_at : forall p v x, plain v -> get p v = Some x -> is_object x = false -> closed p v.
Proof.
  intro p. induction p as [|k p IH]; intros v x Hv Hg Hx.
  - injection Hg as ->. left. destruct (plain_ignores x Hv) as [H|[m ->]]; [exact H|discriminate].
  - destruct v as [| |r i m| | | |]; try discriminate. cbn [get] in Hg. destruct (find_key k m) as [w|] eqn:F; [|discriminate].
    destruct i; [left; reflexivity|]. right. inversion Hv; subst. exists m, w. split; [reflexivity|]. split; [exact F|].
    apply (IH w x); try assumption. exact (plain_find _ _ _ _ _ Hv F).
Qed.

Lemma closed_front : forall p v c w, closed p v -> plain v -> plain c -> with_fallback v c = Ok w ->
  closed p w /\ forall q, get (p ++ q) w = get (p ++ q) v.
Proof.
  intro p. induction p as [|k p IH]; intros v c w Hc Hv Pc E.
  - destruct Hc as [H|[]]. rewrite fallback_ignored in E by exact H. injection E as <-. split; [left; exact H|reflexivity].
  - destruct Hc as [H|[m [x [-> [F Hx]]]]].
    + rewrite fallback_ignored in E by exact H. injection E as <-. split; [left; exact H|reflexivity].
    + destruct (is_object c) eqn:O.
      * destruct c as [| |r2 i2 m2| | | |]; try discriminate; [|inversion Pc].
        destruct (merge_find _ _ _ _ _ _ E) as [f [-> S]]. specialize (S k). rewrite F in S. cbn [app get]. rewrite F.
        assert (Px : plain x) by exact (plain_find _ _ _ _ _ Hv F).
        destruct (plain_merge _ _ Hv Pc) as [w' [E' Pw]]. rewrite E in E'. injection E' as <-. assert (Q3 : fields_resolved f = true) by (inversion Pw; congruence).
        rewrite Q3 in *.
        destruct (find_key k m2) as [y|] eqn:F2.
        -- destruct S as [u [E1 E2]]. rewrite E2. destruct (IH x y u Hx Px (plain_find _ _ _ _ _ Pc F2) E1) as [C1 C2]. split; [|exact C2].
           destruct i2; [left; reflexivity|]. right. eexists. exists u. split; [reflexivity|]. auto.
        -- rewrite S. split; [|reflexivity]. destruct i2; [left; reflexivity|]. right. eexists. exists x. split; [reflexivity|]. auto.
      * destruct (fallback_non_object _ c Hv Pc) as [u [E1 K]]; [rewrite O, andb_false_r; reflexivity|]. rewrite E in E1. injection E1 as <-.
        rewrite with_fallback_eq in E. cbn [ignores_fallbacks] in E. rewrite (plain_mergeable c Pc) in E.
        destruct c; try discriminate; try (inversion Pc; fail); injection E as <-; (split; [left; reflexivity|reflexivity]).
Qed.

Lemma closed_back : forall p a b w, closed p b -> plain a -> plain b -> with_fallback a b = Ok w -> closed p w.
Proof.
  intro p. induction p as [|k p IH]; intros a b w Hc Ha Hb E.
  - destruct Hc as [H|[]]. left. destruct (plain_ignores a Ha) as [Hi|[m ->]].
    + rewrite fallback_ignored in E by exact Hi. injection E as <-. exact Hi.
    + rewrite with_fallback_eq in E. cbn [ignores_fallbacks] in E. rewrite (plain_mergeable b Hb) in E.
      destruct b; try (inversion Hb; fail); try (injection E as <-; reflexivity).
      cbn in H. subst ignores. inv_bind E. injection Hk as <-. reflexivity.
  - destruct (plain_ignores a Ha) as [Hi|[m ->]].
    { rewrite fallback_ignored in E by exact Hi. injection E as <-. left. exact Hi. }
    destruct Hc as [H|[m2 [x [-> [F Hx]]]]].
    + left. rewrite with_fallback_eq in E. cbn [ignores_fallbacks] in E. rewrite (plain_mergeable b Hb) in E.
      destruct b; try (inversion Hb; fail); try (injection E as <-; reflexivity).
      cbn in H. subst ignores. inv_bind E. injection Hk as <-. reflexivity.
    + right. destruct (merge_find _ _ _ _ _ _ E) as [f [-> S]]. specialize (S k). rewrite F in S.
      destruct (plain_merge _ _ Ha Hb) as [w' [E' Pw]]. rewrite E in E'. injection E' as <-. assert (Q3 : fields_resolved f = true) by (inversion Pw; congruence). rewrite Q3.
      destruct (find_key k m) as [v|] eqn:F1.
      * destruct S as [u [E1 E2]]. exists f, u. split; [reflexivity|]. split; [exact E2|].
        exact (IH v x u Hx (plain_find _ _ _ _ _ Ha F1) (plain_find _ _ _ _ _ Hb F) E1).
      * exists f, x. auto.
Qed.

Lemma chain_plain : forall layers v, plain v -> Forall plain layers -> exists w, with_fallbacks v layers = Ok w /\ plain w.
Proof.
  intro layers. induction layers as [|l layers IH]; intros v Hv Hl; [exists v; auto|]. inversion Hl; subst. cbn [with_fallbacks].
  destruct (plain_merge v l) as [u [E Pu]]; try assumption. rewrite E. cbn [bind]. apply IH; assumption.
Qed.

Lemma with_fallbacks_app : forall a b v, with_fallbacks v (a ++ b) = (u <- with_fallbacks v a ;; with_fallbacks u b).
Proof.
  intros a b. induction a as [|l a IH]; intro v; [reflexivity|]. cbn [app with_fallbacks]. destruct (with_fallback v l); [|reflexivity|reflexivity].
  cbn [bind]. apply IH.
Qed.

Lemma closed_chain : forall p back v, closed p v -> plain v -> Forall plain back ->
  exists w, with_fallbacks v back = Ok w /\ forall q, get (p ++ q) w = get (p ++ q) v.
Proof.
  intros p back. induction back as [|l back IH]; intros v Hc Hv Hb; [exists v; auto|]. inversion Hb; subst. cbn [with_fallbacks].
  destruct (plain_merge v l) as [u [E Pu]]; try assumption. rewrite E. cbn [bind].
  destruct (closed_front p v l u) as [C1 C2]; try assumption. destruct (IH u) as [w [E1 G]]; try assumption. exists w. split; [exact E1|].
  intro q. rewrite G. apply C2.
Qed.

Lemma non_object_hides : forall front b back p x, Forall plain front -> plain b -> Forall plain back ->
  get p b = Some x -> is_object x = false ->
  exists v w, stack_of (front ++ [b]) = Ok v /\ stack_of (front ++ b :: back) = Ok w /\
    forall q, get (p ++ q) w = get (p ++ q) v.
Proof.
  intros front b back p x Hf Hb Hk Hg Hx. pose proof (closed_at p b x Hb Hg Hx) as Hc.
  destruct front as [|a front]; cbn [app stack_of].
  - destruct (closed_chain p back b Hc Hb Hk) as [w [E G]]. exists b, w. auto.
  - inversion Hf; subst. destruct (chain_plain front a) as [u [E Pu]]; try assumption. destruct (plain_merge u b) as [v [E1 Pv]]; try assumption.
    exists v. change (b :: back) with ([b] ++ back). rewrite !with_fallbacks_app, E. cbn [bind app with_fallbacks]. rewrite E1. cbn [bind].
    destruct (closed_chain p back v) as [w [E2 G]]; try assumption; [exact (closed_back p u b v Hc Pu Hb E1)|]. exists w. auto.
Qed.
