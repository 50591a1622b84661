From Verif Require Import Base BaseLemmas Path_Model Path_Spec.
From Coq Require Import ZifyBool.

Lemma builder_result_from_spec : forall b rem, builder_result_from rem b = rev b ++ rem.
Proof.
  induction b as [|k b IH]; intro rem; cbn; [reflexivity|].
  rewrite IH, <- app_assoc. reflexivity.
Qed.

Lemma builder_result_spec : forall b, builder_result b = rev b.
Proof. intro b. unfold builder_result. rewrite builder_result_from_spec, app_nil_r. reflexivity. Qed.

Lemma append_path_spec : forall p b, append_path b p = rev p ++ b.
Proof.
  induction p as [|k r IH]; intro b; cbn; [reflexivity|].
  unfold has_remainder; cbn. destruct r as [|k' r']; cbn [empty negb].
  - reflexivity.
  - rewrite IH. unfold append_key. rewrite <- app_assoc. reflexivity.
Qed.

Lemma fold_append_key : forall l b, fold_left append_key l b = rev l ++ b.
Proof.
  induction l as [|k l IH]; intro b; cbn; [reflexivity|].
  rewrite IH. unfold append_key. rewrite <- app_assoc. reflexivity.
Qed.

Lemma fold_append_path : forall ps b, fold_left append_path ps b = rev (concat ps) ++ b.
Proof.
  induction ps as [|p ps IH]; intro b; cbn; [reflexivity|].
  rewrite IH, append_path_spec, rev_app_distr, app_assoc. reflexivity.
Qed.

Lemma path_of_keys_spec : forall l, l <> [] -> path_of_keys l = Ok l.
Proof.
  intros [|k l] H; [congruence|]. cbn. destruct l as [|k' l]; [reflexivity|].
  rewrite builder_result_spec, fold_append_key, app_nil_r, rev_involutive. reflexivity.
Qed.

Lemma path_of_paths_spec : forall p ps, p <> [] -> path_of_paths (p :: ps) = Ok (p ++ concat ps).
Proof.
  intros [|k r] ps H; [congruence|]. unfold path_of_paths, has_remainder. cbn [remainder first].
  f_equal. rewrite builder_result_spec, fold_append_path. cbn.
  f_equal. destruct r as [|k' r]; cbn [empty negb].
  - rewrite app_nil_r, rev_involutive. reflexivity.
  - rewrite append_path_spec, app_nil_r, rev_app_distr, !rev_involutive. reflexivity.
Qed.

Lemma prepend_spec : forall p q, prepend p q = q ++ p.
Proof.
  intros. unfold prepend. rewrite builder_result_spec, !append_path_spec, app_nil_r.
  rewrite rev_app_distr, !rev_involutive. reflexivity.
Qed.

Lemma last_spec : forall p k, last (p ++ [k]) = Some k.
Proof.
  induction p as [|a p IH]; intro k; cbn; [reflexivity|].
  unfold has_remainder; cbn. destruct (p ++ [k]) eqn:E; [destruct p; discriminate|].
  cbn [empty negb]. rewrite <- E. apply IH.
Qed.

Lemma parent_loop_spec : forall p b k, parent_loop b (p ++ [k]) = rev p ++ b.
Proof.
  induction p as [|a p IH]; intros b k; cbn; [reflexivity|].
  unfold has_remainder; cbn. destruct (p ++ [k]) eqn:E; [destruct p; discriminate|].
  cbn [empty negb]. rewrite <- E, IH. unfold append_key. rewrite <- app_assoc. reflexivity.
Qed.

Lemma parent_spec : forall p k, parent (p ++ [k]) = p.
Proof.
  intros p k. unfold parent, has_remainder. destruct p as [|a p]; [reflexivity|].
  cbn [app remainder]. destruct (p ++ [k]) eqn:E; [destruct p; discriminate|].
  cbn [empty negb]. rewrite <- E. change (a :: p ++ [k]) with ((a :: p) ++ [k]).
  rewrite parent_loop_spec, builder_result_spec, app_nil_r, rev_involutive. reflexivity.
Qed.

Lemma length_from_spec : forall p n, p <> [] -> length_from n p = n + Z.of_nat (List.length p) - 1.
Proof.
  induction p as [|k r IH]; intros n H; [congruence|].
  cbn [length_from]. unfold has_remainder; cbn [remainder]. destruct r as [|k' r]; cbn [empty negb].
  - cbn. lia.
  - rewrite IH by discriminate. cbn [List.length]. lia.
Qed.

Lemma length_spec : forall p, p <> [] -> length p = Z.of_nat (List.length p).
Proof. intros p H. unfold length. rewrite length_from_spec by exact H. lia. Qed.

Lemma sub_path_spec : forall p n, (n < List.length p)%nat -> sub_path p (Z.of_nat n) = skipn n p.
Proof.
  induction p as [|k r IH]; intros n H; [cbn in H; lia|].
  cbn [sub_path]. unfold has_remainder; cbn [remainder]. destruct n as [|n].
  - rewrite andb_comm. reflexivity.
  - destruct r as [|k' r]; [cbn in H; lia|]. cbn [empty negb andb].
    replace (Z.of_nat (S n) >? 0) with true by lia.
    replace (Z.of_nat (S n) - 1) with (Z.of_nat n) by lia.
    rewrite IH by (cbn in *; lia). reflexivity.
Qed.

Lemma sub_path_negative : forall p n, n <= 0 -> sub_path p n = p.
Proof.
  intros [|k r] n H; cbn; [reflexivity|].
  replace (n >? 0) with false by lia. rewrite andb_comm. reflexivity.
Qed.

Lemma sub_path_beyond : forall p k n, (List.length p <= n)%nat -> sub_path (p ++ [k]) (Z.of_nat n) = [k].
Proof.
  induction p as [|a p IH]; intros k n H; cbn [app sub_path]; unfold has_remainder; cbn [remainder].
  - reflexivity.
  - destruct (p ++ [k]) as [|b t] eqn:E; [destruct p; discriminate|]. cbn [empty negb andb].
    cbn in H. destruct n as [|n]; [lia|].
    replace (Z.of_nat (S n) >? 0) with true by lia.
    replace (Z.of_nat (S n) - 1) with (Z.of_nat n) by lia.
    rewrite <- E. apply IH. lia.
Qed.

Lemma sub_path_loop_spec : forall n from b,
  sub_path_loop n b from =
    if (n =? 0)%nat then Ok b
    else if (n <? List.length from)%nat then Ok (rev (firstn n from) ++ b)
    else match from with [] => Stuck UNullDeref | _ => Throw EConfig end.
Proof.
  induction n as [|n IH]; intros from b; [reflexivity|].
  cbn [sub_path_loop Nat.eqb]. destruct from as [|k r]; cbn [first].
  - reflexivity.
  - cbn [remainder]. destruct r as [|k' r]; cbn [empty].
    + cbn [List.length]. replace (S n <? 1)%nat with false by lia. reflexivity.
    + rewrite IH. cbn [List.length]. destruct n as [|n].
      * cbn. reflexivity.
      * cbn [Nat.eqb]. replace (S (S n) <? S (S (List.length r)))%nat with (S n <? S (List.length r))%nat
          by (destruct (S n <? S (List.length r))%nat eqn:E1, (S (S n) <? S (S (List.length r)))%nat eqn:E2; lia).
        destruct (S n <? S (List.length r))%nat eqn:E.
        -- f_equal. unfold append_key. cbn [firstn rev]. rewrite <- !app_assoc. reflexivity.
        -- reflexivity.
Qed.

Lemma sub_path2_spec : forall p a b, (a <= b)%nat -> (b < List.length p)%nat ->
  sub_path2 p (Z.of_nat a) (Z.of_nat b) = Ok (slice a b p).
Proof.
  intros p a b H1 H2. unfold sub_path2, slice.
  replace (Z.of_nat b <? Z.of_nat a) with false by lia.
  rewrite sub_path_spec by lia.
  replace (Z.to_nat (Z.of_nat b - Z.of_nat a)) with (b - a)%nat by lia.
  rewrite sub_path_loop_spec. destruct (b - a =? 0)%nat eqn:E.
  - cbn. replace (b - a)%nat with 0%nat by lia. reflexivity.
  - rewrite skipn_length. replace (b - a <? List.length p - a)%nat with true by lia.
    cbn. rewrite builder_result_spec, app_nil_r, rev_involutive. reflexivity.
Qed.

Lemma sub_path2_throws_reversed : forall p a b, b < a -> sub_path2 p a b = Throw EConfig.
Proof. intros p a b H. unfold sub_path2. replace (b <? a) with true by lia. reflexivity. Qed.

Lemma sub_path2_full_throws : forall p, p <> [] ->
  sub_path2 p 0 (Z.of_nat (List.length p)) = Throw EConfig.
Proof.
  intros p H. unfold sub_path2. replace (Z.of_nat (List.length p) <? 0) with false by lia.
  rewrite sub_path_negative by lia.
  replace (Z.to_nat (Z.of_nat (List.length p) - 0)) with (List.length p) by lia.
  rewrite sub_path_loop_spec. destruct p as [|k r]; [congruence|].
  replace (List.length (k :: r) =? 0)%nat with false by (cbn; lia).
  replace (List.length (k :: r) <? List.length (k :: r))%nat with false by lia.
  reflexivity.
Qed.

Lemma path_eq_spec : forall a b, path_eq a b = true <-> a = b.
Proof.
  induction a as [|k a IH]; intros [|l b]; cbn; split; intro H; try reflexivity; try discriminate.
  - apply andb_true_iff in H. destruct H as [H1 H2]. apply str_eqb_eq in H1. apply IH in H2. congruence.
  - injection H as -> ->. rewrite str_eqb_refl. cbn. apply IH. reflexivity.
Qed.

Lemma starts_with_loop_spec : forall other mine, (List.length other <= List.length mine)%nat ->
  exists r, starts_with_loop mine other = Ok r /\ (r = true <-> is_prefix other mine).
Proof.
  induction other as [|o other IH]; intros mine H.
  - exists true. split; [reflexivity|]. split; [|reflexivity]. intros _. exists mine. reflexivity.
  - destruct mine as [|m mine]; [cbn in H; lia|]. cbn [starts_with_loop first].
    destruct (str_eqb_spec o m) as [e|ne]; cbn [negb].
    + subst. cbn [remainder]. destruct (IH mine) as [r [Hr1 Hr2]]; [cbn in H; lia|].
      exists r. split; [exact Hr1|]. rewrite Hr2. split; intros [t Ht]; exists t; cbn in *; congruence.
    + exists false. split; [reflexivity|]. split; [discriminate|].
      intros [t Ht]. cbn in Ht. congruence.
Qed.

Lemma starts_with_spec : forall mine other, mine <> [] ->
  exists r, starts_with mine other = Ok r /\ (r = true <-> is_prefix other mine).
Proof.
  intros mine other H. unfold starts_with. rewrite (length_spec mine) by exact H.
  destruct other as [|o other].
  - cbn -[length Z.of_nat]. unfold length; cbn -[Z.of_nat].
    destruct mine as [|m mine]; [congruence|].
    replace (1 <=? Z.of_nat (List.length (m :: mine))) with true by (cbn [List.length]; lia).
    exists true. split; [reflexivity|]. split; [|reflexivity]. intros _. exists (m :: mine). reflexivity.
  - rewrite length_spec by discriminate.
    destruct (Z.of_nat (List.length (o :: other)) <=? Z.of_nat (List.length mine)) eqn:E.
    + apply starts_with_loop_spec. lia.
    + exists false. split; [reflexivity|]. split; [discriminate|].
      intros [t Ht]. subst mine. rewrite app_length in E. lia.
Qed.
