(** Merging origins. *)
From Verif Require Import Base BaseLemmas Util_Model Origin_Model Origin_Spec.

Lemma comments_eqb_iff : forall a b, comments_eqb a b = true <-> a = b.
Proof. intros a b. unfold comments_eqb. destruct (list_eq_dec (list_eq_dec ascii_dec) a b); split; congruence. Qed.

Lemma starts_with_iff : forall p s, starts_with_str s p = true <-> exists t, s = p ++ t.
Proof.
  intro p. induction p as [|c p IH]; intro s.
  - split; [intros _; exists s; reflexivity|]. intros _. destruct s; reflexivity.
  - destruct s as [|d s]; cbn [starts_with_str].
    + split; [discriminate|]. intros [t E]. discriminate.
    + rewrite andb_true_iff, IH. split.
      * intros [E [t ->]]. apply Ascii.eqb_eq in E. subst d. exists t. reflexivity.
      * intros [t E]. cbn in E. injection E as -> ->. split; [apply Ascii.eqb_refl|exists t; reflexivity].
Qed.

Lemma strip_single : forall o, single_source o -> strip_prefix (description o) = description o.
Proof.
  intros o H. unfold strip_prefix. destruct (starts_with_str (description o) merge_of_prefix) eqn:E; [|reflexivity].
  apply starts_with_iff in E. destruct E as [t E]. destruct (H t E).
Qed.

Lemma skipn_prefix : forall (p t : str), skipn (List.length p) (p ++ t) = t.
Proof. intros p t. induction p; [reflexivity|assumption]. Qed.

Lemma strip_merge : forall t, strip_prefix (merge_of_prefix ++ t) = t.
Proof.
  intro t. unfold strip_prefix. replace (starts_with_str (merge_of_prefix ++ t) merge_of_prefix) with true by (symmetry; apply starts_with_iff; eexists; reflexivity).
  apply skipn_prefix.
Qed.

(** A source text that does not itself look like a merge. *)
Definition unmerged (d : str) : Prop := starts_with_str d merge_of_prefix = false.

Lemma prefix_comma : forall p d r, ~ In ","%char p -> starts_with_str (d ++ lit "," ++ r) p = true -> starts_with_str d p = true.
Proof.
  intro p. induction p as [|c p IH]; intros d r N H; [destruct d; reflexivity|]. destruct d as [|x d]; cbn [app lit list_ascii_of_string starts_with_str] in H.
  - apply andb_true_iff in H. destruct H as [H _]. apply Ascii.eqb_eq in H. subst c. destruct N. now left.
  - cbn [starts_with_str]. apply andb_true_iff in H. destruct H as [H1 H2]. rewrite H1. apply (IH d r); [|exact H2]. intro Q. apply N. now right.
Qed.

Lemma unmerged_join : forall a b, unmerged a -> unmerged (a ++ lit "," ++ b).
Proof.
  unfold unmerged. intros a b Ha. destruct (starts_with_str (a ++ lit "," ++ b) merge_of_prefix) eqn:E; [|reflexivity]. apply prefix_comma in E; [congruence|].
  cbn. intuition discriminate.
Qed.

Definition source (o : origin) : str := strip_prefix (description o).

Lemma unmerged_strip : forall d, unmerged d -> strip_prefix d = d.
Proof. intros d H. unfold strip_prefix. rewrite H. reflexivity. Qed.

Lemma source_merge : forall a b, unmerged (source a) -> unmerged (source b) ->
  unmerged (source (merge_two a b)) /\ occurs (source a) (source (merge_two a b)) /\ occurs (source b) (source (merge_two a b)).
Proof.
  intros a b Ha Hb. unfold source in *. unfold merge_two. destruct (str_eqb (strip_prefix (description a)) (strip_prefix (description b))) eqn:E; cbn [description].
  - apply str_eqb_eq in E. rewrite <- E in *. rewrite unmerged_strip by assumption.
    split; [exact Ha|]. split; exists [], []; rewrite app_nil_r; reflexivity.
  - rewrite strip_merge. split; [apply unmerged_join; exact Ha|]. split.
    + exists [], (lit "," ++ strip_prefix (description b)). reflexivity.
    + exists (strip_prefix (description a) ++ lit ","), []. rewrite app_nil_r, <- !app_assoc. reflexivity.
Qed.

Lemma occurs_trans : forall a b c, occurs a b -> occurs b c -> occurs a c.
Proof. intros a b c [x [y ->]] [u [v ->]]. exists (u ++ x), (y ++ v). rewrite <- !app_assoc. reflexivity. Qed.
Lemma occurs_refl : forall a, occurs a a.
Proof. intro a. exists [], []. rewrite app_nil_r. reflexivity. Qed.

Lemma source_three : forall a b c, unmerged (source a) -> unmerged (source b) -> unmerged (source c) ->
  unmerged (source (merge_three a b c)) /\ (forall o, o = a \/ o = b \/ o = c -> occurs (source o) (source (merge_three a b c))).
Proof.
  intros a b c Ha Hb Hc. unfold merge_three. destruct (similarity b c <=? similarity a b).
  - destruct (source_merge a b Ha Hb) as [U [O1 O2]]. destruct (source_merge _ c U Hc) as [U' [O3 O4]]. split; [exact U'|].
    intros o [->|[->| ->]]; eauto using occurs_trans.
  - destruct (source_merge b c Hb Hc) as [U [O1 O2]]. destruct (source_merge a _ Ha U) as [U' [O3 O4]]. split; [exact U'|].
    intros o [->|[->| ->]]; eauto using occurs_trans.
Qed.

(** Pairwise induction on the remaining origins *)
Lemma pair_induction : forall (P : list origin -> Prop), P [] -> (forall b, P [b]) -> (forall b a l, P l -> P (b :: a :: l)) -> forall l, P l.
Proof.
  intros P H0 H1 H2. assert (Q : forall l, P l /\ forall x, P (x :: l)).
  { intro l. induction l as [|y l [IH1 IH2]]; split; auto. }
  intro l. apply Q.
Qed.

Lemma source_remaining : forall below top, unmerged (source top) -> Forall (fun o => unmerged (source o)) below ->
  unmerged (source (merge_remaining top below)) /\ (forall o, In o (top :: below) -> occurs (source o) (source (merge_remaining top below))).
Proof.
  intro below. induction below as [|b|b a l IH] using pair_induction; intros top Ht Hb; cbn [merge_remaining].
  - split; [exact Ht|]. intros o [->|[]]. apply occurs_refl.
  - inversion Hb as [|? ? Q1 _]; subst. destruct (source_merge b top Q1 Ht) as [U [O1 O2]]. split; [exact U|]. intros o [->|[->|[]]]; assumption.
  - inversion Hb as [|? ? Q1 Q2]; subst. inversion Q2 as [|? ? Q3 Q4]; subst. destruct (source_three a b top Q3 Q1 Ht) as [U O].
    destruct (IH _ U Q4) as [U' O']. split; [exact U'|]. intros o [->|[->|[->|Ho]]].
    1-3: eapply occurs_trans; [apply O; auto|apply O'; now left]. apply O'. now right.
Qed.

Lemma comments_two : forall a b, NoDup (comments a ++ comments b) -> comments (merge_two a b) = comments a ++ comments b.
Proof.
  intros a b N. unfold merge_two. destruct (str_eqb _ _); cbn [comments]; (destruct (comments_eqb (comments a) (comments b)) eqn:E; [|reflexivity]).
  all: apply comments_eqb_iff in E; rewrite <- E in *; destruct (comments a) as [|c l] eqn:C; [reflexivity|];
    cbn in N; inversion N as [|? ? Q _]; subst; destruct Q; apply in_or_app; right; now left.
Qed.

Lemma NoDup_app_l : forall (A : Type) (a b : list A), NoDup (a ++ b) -> NoDup a.
Proof. intros A a b. induction a as [|x a IH]; intro H; [constructor|]. inversion H as [|? ? Q1 Q2]; subst. constructor; [|auto]. intro I. apply Q1, in_or_app. now left. Qed.
Lemma NoDup_app_r : forall (A : Type) (a b : list A), NoDup (a ++ b) -> NoDup b.
Proof. intros A a b. induction a as [|x a IH]; intro H; [exact H|]. inversion H as [|? ? Q1 Q2]; subst. auto. Qed.

Lemma comments_three : forall a b c, NoDup (comments a ++ comments b ++ comments c) -> comments (merge_three a b c) = comments a ++ comments b ++ comments c.
Proof.
  intros a b c N. unfold merge_three. destruct (similarity b c <=? similarity a b).
  - rewrite app_assoc in N. rewrite comments_two; rewrite comments_two by eauto using NoDup_app_l; rewrite ?app_assoc; auto.
  - rewrite comments_two; rewrite comments_two by eauto using NoDup_app_r; auto.
Qed.

Lemma comments_remaining : forall below top, NoDup (concat (map comments (rev below)) ++ comments top) ->
  comments (merge_remaining top below) = concat (map comments (rev below)) ++ comments top.
Proof.
  intro below. induction below as [|b|b a l IH] using pair_induction; intros top N; cbn [merge_remaining]; [reflexivity| |].
  - cbn in *. rewrite app_nil_r in *. apply comments_two, N.
  - cbn [rev] in *. rewrite !map_app, !concat_app in *. cbn in *. rewrite !app_nil_r, <- !app_assoc in *.
    assert (E : comments (merge_three a b top) = comments a ++ comments b ++ comments top) by (apply comments_three; eauto using NoDup_app_r).
    rewrite IH; rewrite E; auto.
Qed.

Lemma stack_merged : forall stack o, Forall single_source stack -> merge_origins stack = Ok o ->
  (forall s, In s stack -> occurs (description s) (description o)) /\
  (NoDup (concat (map comments stack)) -> comments o = concat (map comments stack)).
Proof.
  intros stack o F H. unfold merge_origins in H. destruct (rev stack) as [|top below] eqn:E; [discriminate|]. injection H as <-.
  assert (S : stack = rev below ++ [top]) by (rewrite <- (rev_involutive stack), E; reflexivity).
  assert (U : forall s, In s stack -> source s = description s) by (intros s I; rewrite Forall_forall in F; apply strip_single, F, I).
  assert (U2 : forall s, In s stack -> unmerged (source s)).
  { intros s I. rewrite (U s I). rewrite Forall_forall in F. specialize (F s I). unfold unmerged. destruct (starts_with_str (description s) merge_of_prefix) eqn:Q; [|reflexivity].
    apply starts_with_iff in Q. destruct Q as [t Q]. destruct (F t Q). }
  assert (IN : forall s, In s (top :: below) -> In s stack) by (intros s I; rewrite in_rev, E; exact I).
  destruct (source_remaining below top) as [_ O]; [apply U2, IN; now left|apply Forall_forall; intros s I; apply U2, IN; now right|]. split.
  - intros s I. rewrite <- (U s I). eapply occurs_trans; [apply O; rewrite <- E; apply in_rev; rewrite rev_involutive; exact I|].
    unfold source, strip_prefix. destruct (starts_with_str (description (merge_remaining top below)) merge_of_prefix) eqn:Q; [|apply occurs_refl].
    apply starts_with_iff in Q. destruct Q as [t Q]. rewrite Q, skipn_prefix. exists merge_of_prefix, []. rewrite app_nil_r. reflexivity.
  - intro N. rewrite S in *. rewrite map_app, concat_app in *. cbn in *. rewrite app_nil_r in *. apply comments_remaining, N.
Qed.

Lemma stack_ok : forall stack, stack <> [] <-> exists o, merge_origins stack = Ok o.
Proof.
  intro stack. unfold merge_origins. destruct (rev stack) as [|t b] eqn:E.
  - split; [|intros [o H]; discriminate]. intro N. destruct N. rewrite <- (rev_involutive stack), E. reflexivity.
  - split; [eauto|]. intros _ ->. discriminate.
Qed.

Lemma merge_same_lines : forall a b m n, description a = description b -> single_source a -> one_line a m -> one_line b n ->
  covers (merge_two a b) (Z.min m n) (Z.max m n) /\ description (merge_two a b) = description a.
Proof.
  intros a b m n D S [M [L1 E1]] [N [L2 E2]]. assert (S' : single_source b) by (intros t Q; apply (S t); congruence).
  unfold merge_two. rewrite (strip_single a S), (strip_single b S'), D. replace (str_eqb (description b) (description b)) with true by (symmetry; apply str_eqb_eq; reflexivity).
  unfold covers. cbn [line_number end_line_number description]. rewrite L1, L2, E1, E2.
  destruct (m <? 0) eqn:Q1; [lia|]. destruct (n <? 0) eqn:Q2; [lia|]. repeat split.
Qed.

Lemma merge_end_line : forall a b, description a = description b -> end_line_number (merge_two a b) = Z.max (end_line_number a) (end_line_number b).
Proof. intros a b D. unfold merge_two. rewrite D. replace (str_eqb _ _) with true by (symmetry; apply str_eqb_eq; reflexivity). reflexivity. Qed.

Lemma merge_comments : forall a b, comments a <> comments b -> comments (merge_two a b) = comments a ++ comments b.
Proof.
  intros a b N. unfold merge_two. destruct (str_eqb _ _); cbn [comments]; (destruct (comments_eqb (comments a) (comments b)) eqn:E; [|reflexivity]); apply comments_eqb_iff in E; contradiction.
Qed.
Lemma merge_comments_same : forall a b, comments a = comments b -> comments (merge_two a b) = comments a.
Proof.
  intros a b N. unfold merge_two. replace (comments_eqb (comments a) (comments b)) with true by (symmetry; apply comments_eqb_iff; exact N). destruct (str_eqb _ _); reflexivity.
Qed.

Lemma two_kept : forall a b, single_source a -> single_source b -> description a <> description b ->
  description (merge_two a b) = lit "merge of " ++ description a ++ lit "," ++ description b /\ covers (merge_two a b) (-1) (-1).
Proof.
  intros a b Ha Hb D. unfold merge_two. rewrite (strip_single a Ha), (strip_single b Hb). destruct (str_eqb (description a) (description b)) eqn:E; [apply str_eqb_eq in E; contradiction|].
  repeat split.
Qed.

Lemma comments_added : forall o cs, cs <> comments o ->
  comments (append_comments o cs) = comments o ++ cs /\ comments (prepend_comments o cs) = cs ++ comments o /\
  description (append_comments o cs) = description o /\ description (prepend_comments o cs) = description o /\
  line_number (append_comments o cs) = line_number o /\ line_number (prepend_comments o cs) = line_number o.
Proof.
  intros o cs N. unfold append_comments, prepend_comments. destruct (comments_eqb cs (comments o)) eqn:E; [apply comments_eqb_iff in E; contradiction|].
  cbn [orb]. destruct cs as [|c cs]; cbn [List.length Nat.eqb comments description line_number app]; [rewrite app_nil_r|]; auto 8.
Qed.
Lemma stack_outcome : forall stack, (stack <> [] <-> exists o, merge_origins stack = Ok o) /\ (stack = [] <-> merge_origins stack = Throw EConfig).
Proof.
  intro stack. split; [exact (stack_ok stack)|]. split; [intros ->; reflexivity|]. intro E. destruct stack as [|s stack]; [reflexivity|]. exfalso.
  destruct (proj1 (stack_ok (s :: stack)) ltac:(discriminate)) as [o H]. rewrite H in E. discriminate.
Qed.

Lemma line_comments : forall o n cs,
  line_number (with_line_number o n) = n /\ end_line_number (with_line_number o n) = n /\
  description (with_line_number o n) = description o /\ otype (with_line_number o n) = otype o /\
  resource (with_line_number o n) = resource o /\ comments (with_line_number o n) = comments o /\
  (cs <> [] -> comments (with_comments o cs) = cs) /\
  line_number (with_comments o cs) = line_number o /\ end_line_number (with_comments o cs) = end_line_number o /\
  description (with_comments o cs) = description o /\ otype (with_comments o cs) = otype o /\
  resource (with_comments o cs) = resource o.
Proof.
  intros o n cs. unfold with_line_number, with_comments.
  assert (A : cs <> [] -> (List.length cs =? 0)%nat = false) by (destruct cs; [contradiction|reflexivity]).
  destruct (Z.eqb_spec n (line_number o)) as [E|E]; destruct (Z.eqb_spec n (end_line_number o)) as [F|F]; cbn [andb];
    (destruct (comments_eqb cs (comments o)) eqn:C; [apply comments_eqb_iff in C|]); cbn [orb];
    (destruct (List.length cs =? 0)%nat eqn:Z); cbn; repeat split; try congruence; intro N; specialize (A N); congruence.
Qed.

Lemma type_beq_iff : forall a b, origin_type_beq a b = true <-> a = b.
Proof. intros a b. split; [apply internal_origin_type_dec_bl|apply internal_origin_type_dec_lb]. Qed.
Lemma str_eqb_same : forall a, str_eqb a a = true.
Proof. intro a. apply str_eqb_eq. reflexivity. Qed.

Lemma eqb_same : forall a b, origin_eqb a b = true <-> a = b.
Proof.
  intros a b. unfold origin_eqb. rewrite !andb_true_iff, !Z.eqb_eq, type_beq_iff, comments_eqb_iff, !str_eqb_eq. destruct a, b; cbn. split; [intros [[[[[-> ->] ->] ->] ->] ->]; reflexivity|].
  intro E. injection E as -> -> -> -> -> ->. repeat split.
Qed.

Lemma two_same : forall a b, single_source a -> description a = description b -> description (merge_two a b) = description a.
Proof. intros a b S E. unfold merge_two. rewrite <- E, str_eqb_same. cbn. apply strip_single, S. Qed.

Lemma similarity_same : forall a b, same_kind a b -> description a = description b -> 3 <= similarity a b.
Proof.
  intros a b [T R] E. unfold similarity. rewrite T, R, E, !str_eqb_same, (proj2 (type_beq_iff _ _) eq_refl).
  destruct (line_number a =? line_number b); destruct (end_line_number a =? end_line_number b); lia.
Qed.
Lemma similarity_other : forall a b, description a <> description b -> apart a b -> similarity a b <= 2.
Proof.
  intros a b N A. unfold similarity. destruct (str_eqb (description a) (description b)) eqn:Q; [apply str_eqb_eq in Q; contradiction|].
  destruct A as [[L M]|[T R]].
  - rewrite (proj2 (Z.eqb_neq _ _) L), (proj2 (Z.eqb_neq _ _) M). destruct (origin_type_beq (otype a) (otype b)), (str_eqb (resource a) (resource b)); lia.
  - destruct (origin_type_beq (otype a) (otype b)) eqn:X; [apply type_beq_iff in X; contradiction|]. destruct (str_eqb (resource a) (resource b)) eqn:Y; [apply str_eqb_eq in Y; contradiction|].
    destruct (line_number a =? line_number b), (end_line_number a =? end_line_number b); lia.
Qed.

Lemma three_kept : forall a b c, single_source a -> single_source b -> single_source c ->
  (description a = description b /\ same_kind a b /\ description b <> description c /\ apart b c \/ description b = description c /\ same_kind b c /\ description a <> description b /\ apart a b) ->
  exists o, merge_origins [a; b; c] = Ok o /\ description o = lit "merge of " ++ description a ++ lit "," ++ description c.
Proof.
  intros a b c Sa Sb Sc H. exists (merge_three a b c). split; [reflexivity|]. unfold merge_three.
  assert (Q : forall x y, single_source x -> single_source y -> description x <> description y -> description (merge_two x y) = lit "merge of " ++ description x ++ lit "," ++ description y) by (intros x y Hx Hy N; apply two_kept; assumption).
  destruct H as [[E [K [N L]]]|[E [K [N L]]]].
  - rewrite (proj2 (Z.leb_le _ _)) by (pose proof (similarity_other b c N L); pose proof (similarity_same a b K E); lia).
    assert (D : description (merge_two a b) = description a) by (apply two_same; assumption).
    rewrite Q; [rewrite D; reflexivity|intros t; rewrite D; apply Sa|exact Sc|rewrite D; congruence].
  - rewrite (proj2 (Z.leb_gt _ _)) by (pose proof (similarity_other a b N L); pose proof (similarity_same b c K E); lia).
    assert (D : description (merge_two b c) = description c) by (rewrite two_same; assumption).
    rewrite Q; [rewrite D; reflexivity|exact Sa|intros t; rewrite D; apply Sc|rewrite D; congruence].
Qed.
