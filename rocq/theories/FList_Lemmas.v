(** The persistent list. *)
From Verif Require Import Base BaseLemmas FList_Model FList_Spec.

Section Lemmas.
Context {A : Type}.
Variable eqb : A -> A -> bool.
Notation heap := (@heap A).

Lemma extends_holds : forall (h e : heap), preserved h (h ++ e).
Proof.
  intros h e p l H. induction H as [|a v p l N _ IH]; [constructor|]. econstructor; [|exact IH].
  rewrite nth_error_app1; [exact N|]. apply nth_error_Some. congruence.
Qed.

Lemma cons_spec : forall (h : heap) v p l, ordered h -> holds h p l ->
  exists e a, cons_ h v p = (h ++ e, Some a) /\ holds (h ++ e) (Some a) (v :: l) /\ ordered (h ++ e).
Proof.
  intros h v p l O H. exists [(v, p)], (List.length h). split; [reflexivity|]. split.
  - econstructor; [rewrite nth_error_app2 by lia; rewrite Nat.sub_diag; reflexivity|]. apply extends_holds, H.
  - intros a w b N. destruct (Nat.lt_ge_cases a (List.length h)) as [L|L].
    + rewrite nth_error_app1 in N by exact L. exact (O _ _ _ N).
    + rewrite nth_error_app2 in N by exact L. destruct (a - List.length h)%nat eqn:D; [|destruct n; discriminate]. injection N as <- ->.
      inversion H as [|? ? ? ? N' _]; subst. assert (b < List.length h)%nat by (apply nth_error_Some; congruence). lia.
Qed.

Lemma holds_length : forall (h : heap) p l, ordered h -> holds h p l -> (List.length l <= List.length h)%nat /\ (forall a, p = Some a -> (List.length l <= S a)%nat).
Proof.
  intros h p l O H. induction H as [|a v p l N H [IH1 IH2]]; [split; [cbn; lia|discriminate]|].
  assert (L : (a < List.length h)%nat) by (apply nth_error_Some; congruence).
  assert (Q : (List.length l <= a)%nat).
  { destruct p as [b|]; [|inversion H; cbn; lia]. pose proof (O _ _ _ N). specialize (IH2 b eq_refl). lia. }
  split; [cbn; lia|]. intros a' E. injection E as <-. cbn. lia.
Qed.

Definition grows (h : heap) (r : result (heap * ptr)) (l : list A) : Prop :=
  exists e p', r = Ok (h ++ e, p') /\ holds (h ++ e) p' l /\ ordered (h ++ e).

Lemma grows_gives : forall h r l, grows h r l -> gives h r l.
Proof. intros h r l [e [p' [-> [H O]]]]. exists (h ++ e), p'. repeat split; [exact H|exact O|apply extends_holds]. Qed.

Lemma grows_same : forall h p l, ordered h -> holds h p l -> grows h (Ok (h, p)) l.
Proof. intros h p l O H. exists [], p. rewrite app_nil_r. auto. Qed.

Lemma grows_cons : forall h r l x, grows h r l -> grows h ('(h1, q) <- r ;; Ok (cons_ h1 x q)) (x :: l).
Proof.
  intros h r l x [e [p' [-> [H O]]]]. cbn [bind]. destruct (cons_spec (h ++ e) x p' l O H) as [e2 [a [E [H2 O2]]]]. rewrite E.
  exists (e ++ e2), (Some a). rewrite app_assoc. auto.
Qed.

Lemma nonempty : forall (h : heap) p x l, holds h p (x :: l) -> exists q, is_empty p = false /\ front h p = Ok x /\ popped_front h p = Ok q /\ holds h q l.
Proof.
  intros h p x l H. inversion H as [|a v q l' N H']; subst. exists q. unfold front, popped_front, item. rewrite N. auto.
Qed.

Lemma concat_spec : forall l f h p q m, ordered h -> holds h p l -> holds h q m -> (List.length l < f)%nat ->
  grows h (concat_n f h p q) (l ++ m).
Proof.
  intro l. induction l as [|x l IH]; intros f h p q m O H Hq Hf; (destruct f as [|f]; [lia|]); cbn [concat_n].
  - inversion H; subst. cbn [is_empty]. apply grows_same; assumption.
  - destruct (nonempty _ _ _ _ H) as [r [-> [-> [-> Hr]]]]. cbn [bind app]. apply grows_cons. apply IH; try assumption. cbn in Hf. lia.
Qed.

Lemma removed_spec : forall l f h p v, ordered h -> holds h p l -> (List.length l < f)%nat ->
  grows h (removed_n eqb f h p v) (List.filter (fun x => negb (eqb v x)) l).
Proof.
  intro l. induction l as [|x l IH]; intros f h p v O H Hf; (destruct f as [|f]; [lia|]); cbn [removed_n].
  - inversion H; subst. cbn [is_empty]. apply grows_same; [assumption|constructor].
  - destruct (nonempty _ _ _ _ H) as [r [-> [-> [-> Hr]]]]. cbn [bind List.filter]. specialize (IH f h r v O Hr). cbn in Hf. destruct (eqb v x); cbn [negb].
    + destruct (IH) as [e [p' [E [H1 O1]]]]; [lia|]. rewrite E. exists e, p'. auto.
    + apply grows_cons. apply IH. lia.
Qed.

Lemma filter_spec : forall keep l f h p, ordered h -> holds h p l -> (List.length l < f)%nat ->
  grows h (filter_n f keep h p) (List.filter keep l).
Proof.
  intros keep l. induction l as [|x l IH]; intros f h p O H Hf; (destruct f as [|f]; [lia|]); cbn [filter_n].
  - inversion H; subst. cbn [is_empty]. apply grows_same; [assumption|constructor].
  - destruct (nonempty _ _ _ _ H) as [r [-> [-> [-> Hr]]]]. cbn [bind List.filter]. specialize (IH f h r O Hr). cbn in Hf. destruct (keep x).
    + apply grows_cons. apply IH. lia.
    + destruct (IH) as [e [p' [E [H1 O1]]]]; [lia|]. rewrite E. exists e, p'. auto.
Qed.

Lemma take_spec : forall l f h p n, ordered h -> holds h p l -> (List.length l < f)%nat -> grows h (take_n f h p n) (firstn (Z.to_nat n) l).
Proof.
  intro l. induction l as [|x l IH]; intros f h p n O H Hf; (destruct f as [|f]; [lia|]); cbn [take_n].
  - inversion H; subst. cbn [is_empty]. rewrite orb_true_r. rewrite firstn_nil. apply grows_same; [assumption|constructor].
  - destruct (nonempty _ _ _ _ H) as [r [E1 [E2 [E3 Hr]]]]. rewrite E1. destruct (n <=? 0) eqn:N; cbn [orb].
    + replace (Z.to_nat n) with 0%nat by lia. apply grows_same; [assumption|constructor].
    + rewrite E3. cbn [bind]. replace (Z.to_nat n) with (S (Z.to_nat (n - 1))) by lia. cbn [firstn]. cbn in Hf.
      destruct (IH f h r (n - 1) O Hr) as [e [p' [E [H1 O1]]]]; [lia|]. rewrite E. cbn [bind].
      assert (F : front (h ++ e) p = Ok x) by (destruct (nonempty _ _ _ _ (extends_holds h e _ _ H)) as [? [_ [F _]]]; exact F). rewrite F. cbn [bind].
      apply (grows_cons h (Ok (h ++ e, p'))). exists e, p'. auto.
Qed.

Lemma inserted_spec : forall i l f h p v, ordered h -> holds h p l -> (List.length l < f)%nat -> (i <= List.length l)%nat ->
  grows h (inserted_at_n f h p (Z.of_nat i) v) (firstn i l ++ v :: skipn i l).
Proof.
  intro i. induction i as [|i IH]; intros l f h p v O H Hf Hi; (destruct f as [|f]; [lia|]).
  - change (inserted_at_n (S f) h p (Z.of_nat 0) v) with (Ok (@cons_ A h v p)). cbn [firstn skipn app]. apply (grows_cons h (Ok (h, p))). apply grows_same; assumption.
  - destruct l as [|x l]; [cbn in Hi; lia|]. cbn [inserted_at_n]. destruct (Z.of_nat (S i) =? 0) eqn:Z0; [lia|].
    destruct (nonempty _ _ _ _ H) as [r [_ [-> [-> Hr]]]]. cbn [bind firstn skipn app]. replace (Z.of_nat (S i) - 1) with (Z.of_nat i) by lia.
    apply grows_cons. apply IH; try assumption; cbn in *; lia.
Qed.

Lemma inserted_beyond : forall (l : list A) f h p v i, ordered h -> holds h p l -> (List.length l < f)%nat -> Z.of_nat (List.length l) < i ->
  inserted_at_n f h p i v = Stuck UNullDeref.
Proof.
  intro l. induction l as [|x l IH]; intros f h p v i O H Hf Hi; (destruct f as [|f]; [lia|]); cbn [inserted_at_n]; (destruct (i =? 0) eqn:Z0; [cbn in Hi; lia|]).
  - inversion H; subst. reflexivity.
  - destruct (nonempty _ _ _ _ H) as [r [_ [-> [-> Hr]]]]. cbn [bind]. rewrite (IH f h r v (i - 1) O Hr); [reflexivity|cbn in Hf; lia|cbn in Hi; lia].
Qed.

Lemma member_spec : forall l f h p v, ordered h -> holds h p l -> (List.length l < f)%nat -> member_n eqb f h p v = Ok (existsb (eqb v) l).
Proof.
  intro l. induction l as [|x l IH]; intros f h p v O H Hf; (destruct f as [|f]; [lia|]); cbn [member_n].
  - inversion H; subst. reflexivity.
  - destruct (nonempty _ _ _ _ H) as [r [-> [-> [-> Hr]]]]. cbn [bind existsb]. destruct (eqb v x); [reflexivity|]. apply IH; try assumption. cbn in Hf. lia.
Qed.

Lemma all_spec : forall g (l : list A) f h p, ordered h -> holds h p l -> (List.length l < f)%nat -> all_n f h p g = Ok (forallb g l).
Proof.
  intros g l. induction l as [|x l IH]; intros f h p O H Hf; (destruct f as [|f]; [lia|]); cbn [all_n].
  - inversion H; subst. reflexivity.
  - destruct (nonempty _ _ _ _ H) as [r [-> [-> [-> Hr]]]]. cbn [bind forallb]. destruct (g x); [|reflexivity]. apply IH; try assumption. cbn in Hf. lia.
Qed.

Lemma iterate_spec : forall f n h x, ordered h -> grows h (Ok (iterate_n h f x n)) (iterates f x n).
Proof.
  intros f n h x O. revert x. induction n as [|n IH]; intro x; cbn [iterate_n iterates]; [apply grows_same; [exact O|constructor]|].
  specialize (IH (f x)). apply (grows_cons h (Ok (iterate_n h f (f x) n)) _ x) in IH. cbn [bind] in IH. destruct (iterate_n h f (f x) n). exact IH.
Qed.

Lemma foldr_spec : forall U (g : A -> U -> U) acc l f (h : heap) p, ordered h -> holds h p l -> (List.length l < f)%nat -> foldr_n f g acc h p = Ok (fold_right g acc l).
Proof.
  intros U g acc l. induction l as [|x l IH]; intros f h p O H Hf; (destruct f as [|f]; [lia|]); cbn [foldr_n].
  - inversion H; subst. reflexivity.
  - destruct (nonempty _ _ _ _ H) as [r [-> [-> [-> Hr]]]]. cbn [bind fold_right]. rewrite (IH f h r O Hr) by (cbn in Hf; lia). reflexivity.
Qed.

(** foldl with a step that builds lists *)
Lemma foldl_spec : forall (step : heap -> ptr -> A -> result (heap * ptr)) (pure : list A -> A -> list A) l f,
  (forall h q m x, ordered h -> holds h q m -> (List.length m < f)%nat -> grows h (step h q x) (pure m x) /\ (List.length (pure m x) < f)%nat) ->
  forall g h p q m, ordered h -> holds h p l -> holds h q m -> (List.length l < g)%nat -> (List.length m < f)%nat ->
  grows h (foldl_n g step h q p) (fold_left pure l m).
Proof.
  intros step pure l. induction l as [|x l IH]; intros f Hs g h p q m O H Hq Hg Hf; (destruct g as [|g]; [lia|]); cbn [foldl_n].
  - inversion H; subst. cbn [is_empty fold_left]. apply grows_same; assumption.
  - destruct (nonempty _ _ _ _ H) as [r [-> [-> [_ _]]]]. cbn [bind fold_left]. destruct (Hs h q m x O Hq Hf) as [[e [p' [E [H1 O1]]]] L1]. rewrite E. cbn [bind].
    destruct (nonempty _ _ _ _ (extends_holds h e _ _ H)) as [r' [_ [_ [-> Hr]]]]. cbn [bind].
    destruct (IH f Hs g (h ++ e) r' p' (pure m x)) as [e2 [p2 [E2 [H2 O2]]]]; try assumption; [cbn in Hg; lia|].
    rewrite E2. exists (e ++ e2), p2. rewrite app_assoc. auto.
Qed.

Lemma reversed_spec : forall l f h p, ordered h -> holds h p l -> (List.length l < f)%nat -> grows h (reversed_n f h p) (rev l).
Proof.
  intros l f h p O H Hf. unfold reversed_n. rewrite rev_alt, rev_append_rev, app_nil_r.
  assert (Q : forall m, fold_left (fun acc x => x :: acc) l m = rev l ++ m).
  { clear. induction l as [|x l IH]; intro m; [reflexivity|]. cbn [fold_left rev]. rewrite IH, <- app_assoc. reflexivity. }
  (* the accumulator may become as long as the list: bound it by l and what is left *)
  assert (G : forall l g h p q m, ordered h -> holds h p l -> holds h q m -> (List.length l < g)%nat ->
              grows h (foldl_n g (fun h acc v => Ok (cons_ h v acc)) h q p) (fold_left (fun acc x => x :: acc) l m)).
  { clear. intro l. induction l as [|x l IH]; intros g h p q m O H Hq Hg; (destruct g as [|g]; [lia|]); cbn [foldl_n].
    - inversion H; subst. cbn [is_empty fold_left]. apply grows_same; assumption.
    - destruct (nonempty _ _ _ _ H) as [r [-> [-> [_ _]]]]. cbn [bind fold_left]. destruct (cons_spec h x q m O Hq) as [e [a [E [H1 O1]]]]. rewrite E.
      destruct (nonempty _ _ _ _ (extends_holds h e _ _ H)) as [r' [_ [_ [-> Hr]]]]. cbn [bind].
      destruct (IH g (h ++ e) r' (Some a) (x :: m)) as [e2 [p2 [E2 [H2 O2]]]]; try assumption; [cbn in Hg; lia|].
      rewrite E2. exists (e ++ e2), p2. rewrite app_assoc. auto. }
  rewrite <- (app_nil_r (rev l)). rewrite <- Q. apply G; try assumption. constructor.
Qed.

Definition diff (a b : list A) : list A := List.filter (fun x => negb (existsb (fun y => eqb y x) b)) a.

Lemma filter_shorter : forall (k : A -> bool) l, (List.length (List.filter k l) <= List.length l)%nat.
Proof. intros k l. induction l as [|x l IH]; [cbn; lia|]. cbn [List.filter]. destruct (k x); cbn; lia. Qed.

Lemma set_diff_spec : forall a b f h p q, ordered h -> holds h p a -> holds h q b -> (List.length a < f)%nat -> (List.length b < f)%nat ->
  grows h (set_diff_n eqb f h p q) (diff a b).
Proof.
  intros a b f h p q O Ha Hb La Lb. unfold set_diff_n, diff.
  assert (Q : forall l m, fold_left (fun m x => List.filter (fun y => negb (eqb x y)) m) l m = List.filter (fun x => negb (existsb (fun y => eqb y x) l)) m).
  { clear. induction l as [|x l IH]; intro m; cbn [fold_left existsb].
    - induction m as [|y m IHm]; [reflexivity|]. cbn [List.filter negb]. f_equal. exact IHm.
    - rewrite IH. clear IH. induction m as [|y m IHm]; [reflexivity|]. cbn [List.filter]. rewrite negb_orb. destruct (eqb x y); cbn [negb andb]; [exact IHm|]. cbn [List.filter]. rewrite IHm. reflexivity. }
  rewrite <- Q. apply foldl_spec with (f := f); try assumption. intros h' q' m x O' H' L'. split; [apply removed_spec; assumption|].
  pose proof (filter_shorter (fun y => negb (eqb x y)) m). lia.
Qed.

Lemma set_union_spec : forall a b f h p q, ordered h -> holds h p a -> holds h q b -> (List.length a < f)%nat -> (List.length b < f)%nat ->
  grows h (set_union_n eqb f h p q) (diff b a ++ a).
Proof.
  intros a b f h p q O Ha Hb La Lb. unfold set_union_n. destruct (set_diff_spec b a f h q p O Hb Ha Lb La) as [e [p' [E [H1 O1]]]]. rewrite E. cbn [bind].
  destruct (concat_spec (diff b a) f (h ++ e) p' p a O1 H1 (extends_holds h e _ _ Ha)) as [e2 [p2 [E2 [H2 O2]]]].
  { pose proof (filter_shorter (fun x => negb (existsb (fun y => eqb y x) a)) b). unfold diff. lia. }
  rewrite E2. exists (e ++ e2), p2. rewrite app_assoc. auto.
Qed.

Lemma from_it_spec : forall l h, ordered h -> grows h (Ok (from_it h l)) l.
Proof.
  intros l h O. induction l as [|x l IH]; cbn [from_it]; [apply grows_same; [exact O|constructor]|].
  apply (grows_cons h (Ok (from_it h l)) l x) in IH. cbn [bind] in IH. destruct (from_it h l). exact IH.
Qed.

Lemma removed1_spec : forall l f h p v, ordered h -> holds h p l -> (List.length l < f)%nat ->
  grows h (removed1_n eqb f h p v) (match l with [] => [] | x :: l' => if eqb v x then l' else x :: List.filter (fun y => negb (eqb v y)) l' end).
Proof.
  intros l f h p v O H Hf. unfold removed1_n. destruct l as [|x l].
  - inversion H; subst. cbn [is_empty]. apply grows_same; [assumption|constructor].
  - destruct (nonempty _ _ _ _ H) as [r [-> [-> [-> Hr]]]]. cbn [bind]. destruct (eqb v x); [apply grows_same; assumption|].
    apply grows_cons. apply removed_spec; try assumption. cbn in Hf. lia.
Qed.
End Lemmas.

Lemma fmap_spec : forall A B (g : A -> B) l f h hb p, ordered h -> holds h p l -> ordered hb -> (List.length l < f)%nat ->
  grows hb (fmap_n f g h hb p) (map g l).
Proof.
  intros A B g l. induction l as [|x l IH]; intros f h hb p O H Ob Hf; (destruct f as [|f]; [lia|]); cbn [fmap_n].
  - inversion H; subst. cbn [is_empty map]. apply grows_same; [assumption|constructor].
  - destruct (nonempty _ _ _ _ H) as [r [-> [-> [-> Hr]]]]. cbn [bind map]. apply grows_cons. apply IH; try assumption. cbn in Hf. lia.
Qed.

Lemma list_laws : forall A (eqb : A -> A -> bool) (h : @heap A) p q l m v, ordered h -> holds h p l -> holds h q m ->
  gives h (Ok (cons_ h v p)) (v :: l) /\
  (forall x l', l = x :: l' -> front h p = Ok x /\ exists t, popped_front h p = Ok t /\ holds h t l') /\
  (is_empty p = true <-> l = []) /\
  gives h (concat h p q) (l ++ m) /\
  gives h (reversed h p) (rev l) /\
  (forall n, gives h (take h p n) (firstn (Z.to_nat n) l)) /\
  (forall i, (i <= List.length l)%nat -> gives h (inserted_at h p (Z.of_nat i) v) (firstn i l ++ v :: skipn i l)) /\
  gives h (removed eqb h p v) (List.filter (fun x => negb (eqb v x)) l) /\
  member eqb h p v = Ok (existsb (eqb v) l) /\
  (forall g, all h p g = Ok (forallb g l)) /\
  (forall keep, gives h (filter keep h p) (List.filter keep l)) /\
  (forall U (g : A -> U -> U) acc, foldr g acc h p = Ok (fold_right g acc l)) /\
  gives h (set_diff eqb h p q) (List.filter (fun x => negb (existsb (fun y => eqb y x) m)) l) /\
  gives h (set_union eqb h p q) (List.filter (fun x => negb (existsb (fun y => eqb y x) l)) m ++ l) /\
  (forall k, gives h (Ok (from_it h k)) k) /\
  (forall g x n, gives h (Ok (iterate h g x n)) (iterates g x (Z.to_nat n))).
Proof.
  intros A eqb h p q l m v O Hp Hq. assert (Ll : (List.length l < fuel_for h)%nat) by (unfold fuel_for; pose proof (proj1 (holds_length h p l O Hp)); lia).
  assert (Lm : (List.length m < fuel_for h)%nat) by (unfold fuel_for; pose proof (proj1 (holds_length h q m O Hq)); lia).
  repeat split.
  - apply grows_gives. apply (grows_cons h (Ok (h, p))). apply grows_same; assumption.
  - subst l. destruct (nonempty _ _ _ _ Hp) as [r [_ [E _]]]. exact E.
  - subst l. destruct (nonempty _ _ _ _ Hp) as [r [_ [_ [E H]]]]. eauto.
  - intro E. destruct p; [discriminate|]. inversion Hp. reflexivity.
  - intros ->. inversion Hp. reflexivity.
  - apply grows_gives, concat_spec; assumption.
  - apply grows_gives, reversed_spec; assumption.
  - intro n. apply grows_gives, take_spec; assumption.
  - intros i Hi. apply grows_gives, inserted_spec; assumption.
  - apply grows_gives, removed_spec; assumption.
  - apply member_spec; assumption.
  - intro g. apply all_spec; assumption.
  - intro keep. apply grows_gives, filter_spec; assumption.
  - intros U g acc. apply foldr_spec; assumption.
  - apply grows_gives, set_diff_spec; assumption.
  - apply grows_gives, set_union_spec; assumption.
  - intro k. apply grows_gives, from_it_spec; assumption.
  - intros g x n. apply grows_gives, iterate_spec; assumption.
Qed.

Lemma fmap_law : forall A B (g : A -> B) (h : @heap A) (hb : @heap B) p l, ordered h -> holds h p l -> ordered hb ->
  gives hb (fmap g h hb p) (map g l).
Proof.
  intros A B g h hb p l O H Ob. apply grows_gives, fmap_spec; try assumption. unfold fuel_for. pose proof (proj1 (holds_length h p l O H)). lia.
Qed.

Lemma insert_outside : forall A (h : @heap A) p l v i, ordered h -> holds h p l -> Z.of_nat (List.length l) < i -> inserted_at h p i v = Stuck UNullDeref.
Proof.
  intros A h p l v i O H Hi. apply (inserted_beyond l); try assumption. unfold fuel_for. pose proof (proj1 (holds_length h p l O H)). lia.
Qed.
