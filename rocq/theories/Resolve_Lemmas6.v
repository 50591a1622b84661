(** Ending and not ending. *)
From Verif Require Import Base BaseLemmas Util_Model Num_Model Path_Model Token_Model Value_Model Value_Spec Value_Lemmas Value_Lemmas2
  Duration_Model Config_Model Concat_Model Concat_Lemmas Resolve_Model Resolve_Spec Resolve_Lemmas Resolve_Lemmas2 Resolve_Lemmas4 Resolve_Lemmas5.

Lemma sound_weaken : forall (P Q : nat -> path -> bool -> Z -> Prop), (forall id p o l, P id p o l -> Q id p o l) -> forall v, sound P v -> sound Q v.
Proof.
  intros P Q H v. induction v as [s|vs IH|r i m IH|n p o l|vs IH|vs IH|vs IH] using value_induction; intro S; inversion S; subst; constructor; auto;
    rewrite Forall_forall in *; auto.
Qed.
(** The identities in a value *)
Fixpoint ids_of (v : value) : list nat :=
  match v with
  | VScalar _ => []
  | VRef id _ _ _ => [id]
  | VList vs | VConcat vs | VMerge vs | VMergeObj vs => flat_map ids_of vs
  | VObj _ _ m => flat_map (fun kv => ids_of (snd kv)) m
  end.
Lemma sound_ids : forall Q v, sound Q v -> forall ids, incl (ids_of v) ids -> sound (fun id p o l => Q id p o l /\ In id ids) v.
Proof.
  intros Q v. induction v as [s|vs IH|r i m IH|n p o l|vs IH|vs IH|vs IH] using value_induction; intros S ids I0; inversion S; subst; constructor; auto;
    try (rewrite Forall_forall in *; intros x Hx; apply IH; auto; intros y Hy; apply I0; cbn [ids_of]; apply in_flat_map; exists x; auto).
  split; [assumption|]. apply I0. left. reflexivity.
Qed.

Lemma resolve_ends : forall allow use env v r, sound (bounded allow use env) v -> sound (bounded allow use env) r -> vobj r ->
  exists n, resolve_with allow use env n v r <> Stuck UFuel /\ forall m, (n <= m)%nat -> resolve_with allow use env m v r = resolve_with allow use env n v r.
Proof.
  intros allow use env v r Hv Hr Vr. set (ids := ids_of v ++ ids_of r). set (Q := fun id p o l => bounded allow use env id p o l /\ In id ids).
  assert (Sv : sound Q v) by (apply sound_ids; [exact Hv|apply incl_appl, incl_refl]). assert (Sr : sound Q r) by (apply sound_ids; [exact Hr|apply incl_appr, incl_refl]).
  assert (E : ends (fun n => resolve_n allow use env n moved_from v (Source r []))).
  { apply (all_halt allow use env Q ids) with (f := fresh ids moved_from).
    - intros id p o l [[H _] _]. exact H.
    - intros id p l [[_ [H _]] _]. apply H. reflexivity.
    - intros id p o l U [[_ [_ H]] _]. destruct (H U) as [H1 H2]. split; [exact H1|]. intros x ->. specialize (H2 x eq_refl). clear - H2. induction env as [|[k w] e IH]; [reflexivity|]. cbn [map find_key fst snd] in *.
      destruct (str_eqb x k) eqn:E; [apply str_eqb_eq in E; subst; exfalso; apply H2; left; reflexivity|]. apply IH. intro X. apply H2. right. exact X.
    - intros id p o l [_ H]. exact H.
    - apply le_n.
    - split; [constructor|]. split; [split; [exact Sr|constructor]|]. split; [constructor|]. split; [exact Vr|exact I].
    - exact Sv. }
  destruct E as [n E]. exists n. unfold resolve_with. split.
  - destruct (resolve_n allow use env n moved_from v (Source r [])) as [[x c]|e|u]; cbn [bind]; congruence.
  - intros m L. destruct (resolve_below allow use env n m moved_from v (Source r []) L) as [X|X]; [contradiction|]. rewrite X. reflexivity.
Qed.

(** ** a = ${?u} ${a}, with the environment *)
Definition space : value := VScalar (SStr [" "%char] false).
Definition ka : str := ["a"%char].
Definition ku : str := ["u"%char].
Definition kb : str := ["b"%char].
Section Loop1.
Definition looped1 : value := VConcat [VRef 0 [ku] true 0; space; VRef 1 [ka] false 0].
Definition loop1 : value := VObj false false [(ka, looped1)].
Notation R := (resolve_n false true []).

Lemma loop1_u : forall n c s, memos c = [] -> restriction c = [] -> is_marked c 0 = false -> root s = loop1 -> below (R n c (VRef 0 [ku] true 0) s) (Ok (None, Context [] [] [(VRef 0 [ku] true 0, None)])).
Proof.
  intros n [r ms me] [root0 ps] M Rs Mk Rt. cbn in M, Rs, Rt. subst. destruct n as [|[|n]]; [left; reflexivity|left|right].
  - cbn [resolve_n]. unfold resolve_step. cbn [memos find_memo]. rewrite Mk. cbn [resolve_substitutions]. unfold resolve_reference. rewrite Mk. reflexivity.
  - cbn [resolve_n]. unfold resolve_step at 1. cbn [memos find_memo]. rewrite Mk. cbn [resolve_substitutions]. unfold resolve_reference. rewrite Mk. reflexivity.
Qed.
Lemma loop1_looped : forall n ms ps s0, existsb (Nat.eqb 0) ms = false -> s0 = Source loop1 ps -> R n (Context [] ms []) looped1 s0 = Stuck UFuel.
Proof.
  intro n. induction n as [n IH] using lt_wf_ind. intros ms ps s0 Mk ->. destruct n as [|n]; [reflexivity|]. cbn [resolve_n]. unfold resolve_step, looped1 at 1. cbn [memos find_memo].
  cbn [resolve_substitutions looped1]. unfold resolve_concatenation. cbn [resolve_pieces].
  change (restrict (Context [] ms []) []) with (Context [] ms []).
  destruct (loop1_u n (Context [] ms []) (Source loop1 ps) eq_refl eq_refl Mk eq_refl) as [E|E]; rewrite E; [reflexivity|]. cbn [bind].
  assert (Sp : below (R n (restrict (restrict (Context [] [] [(VRef 0 [ku] true 0, None)]) (restriction (Context [] ms []))) []) space (Source loop1 ps)) (Ok (Some space, Context [] [] [(VRef 0 [ku] true 0, None); (space, Some space)]))).
  { destruct n; [left; reflexivity|right; reflexivity]. }
  destruct Sp as [E1|E1]; rewrite E1; [reflexivity|]. cbn [bind].
  assert (La : R n (restrict (restrict (Context [] [] [(VRef 0 [ku] true 0, None); (space, Some space)]) (restriction (restrict (Context [] [] [(VRef 0 [ku] true 0, None)]) (restriction (Context [] ms []))))) []) (VRef 1 [ka] false 0) (Source loop1 ps) = Stuck UFuel).
  { change (restrict (restrict (Context [] [] [(VRef 0 [ku] true 0, None); (space, Some space)]) (restriction (restrict (Context [] [] [(VRef 0 [ku] true 0, None)]) (restriction (Context [] ms []))))) []) with (Context [] [] [(VRef 0 [ku] true 0, None); (space, Some space)]).
    destruct n as [|n]; [reflexivity|]. cbn [resolve_n]. unfold resolve_step at 1. cbn -[resolve_reference]. unfold resolve_reference. cbn [is_marked existsb markers add_marker app].
    assert (Lk : below (lookup_subst true [] (R n) (Context [] [1%nat] []) [ka] 0 (Source loop1 ps)) (Ok (Some looped1, Context [] [1%nat] [], [loop1]))).
    { destruct n; [left; reflexivity|right; reflexivity]. }
    cbn zeta. change (add_marker (Context [] [] [(VRef 0 [ku] true 0, None); (space, Some space)]) 1) with (Context [] [1%nat] []).
    destruct Lk as [E2|E2]; rewrite E2; [reflexivity|]. cbn [attempt bind List.last]. rewrite (IH n ltac:(lia) [1%nat] [loop1] _ eq_refl eq_refl). reflexivity. }
  rewrite La. reflexivity.
Qed.
Lemma loop1_never : forall n, resolve_config false true [] n loop1 = Stuck UFuel.
Proof.
  intro n. unfold resolve_config, resolve_with. destruct n as [|n]; [reflexivity|]. cbn [resolve_n]. unfold resolve_step at 1. cbn [moved_from memos find_memo loop1 resolve_substitutions]. unfold resolve_object.
  change (push_parent _ _) with (Source loop1 [loop1]). cbn [resolve_fields]. unfold resolve_field. change (restriction moved_from) with (@nil str). cbn iota. change moved_from with (Context [] [] []).
  rewrite (loop1_looped n [] [loop1] _ eq_refl eq_refl). reflexivity.
Qed.
End Loop1.

(** ** a = ${?a.b} ${a}, without the environment *)
Section Loop2.
Definition looped2 : value := VConcat [VRef 0 [ka; kb] true 0; space; VRef 1 [ka] false 0].
Definition loop2 : value := VObj false false [(ka, looped2)].
Notation R := (resolve_n false false []).
Lemma loop2_ab : forall n c s, memos c = [] -> restriction c = [] -> is_marked c 0 = false -> root s = loop2 -> below (R n c (VRef 0 [ka; kb] true 0) s) (Ok (None, Context [] [] [(VRef 0 [ka; kb] true 0, None)])).
Proof.
  intros n [r ms me] [root0 ps] M Rs Mk Rt. cbn in M, Rs, Rt. subst.
  assert (Mk2 : is_marked (Context [] (ms ++ [0%nat]) []) 0 = true) by (unfold is_marked; cbn [markers]; rewrite existsb_app, orb_true_r; reflexivity).
  destruct n as [|n]; [left; reflexivity|]. cbn [resolve_n]. unfold resolve_step at 1. cbn [memos find_memo]. rewrite Mk. cbn [resolve_substitutions]. unfold resolve_reference. rewrite Mk.
  cbn zeta. unfold add_marker. cbn [restriction markers]. unfold lookup_subst, find_in_object. cbn [root].
  change (restrict (Context [] (ms ++ [0%nat]) []) [ka; kb]) with (Context [ka; kb] (ms ++ [0%nat]) []).
  assert (F : below (R n (Context [ka; kb] (ms ++ [0%nat]) []) loop2 (Source loop2 [])) (Throw ENotPossible)).
  { destruct n as [|n]; [left; reflexivity|]. cbn [resolve_n]. unfold resolve_step at 1. cbn [memos find_memo loop2 resolve_substitutions]. unfold resolve_object. cbn [resolve_fields]. unfold resolve_field. cbn [restriction].
    change (str_eqb ka ka) with true. cbn iota. change (restrict (Context [ka; kb] (ms ++ [0%nat]) []) [kb]) with (Context [kb] (ms ++ [0%nat]) []).
    change (push_parent _ _) with (Source loop2 [loop2]).
    assert (X : below (R n (Context [kb] (ms ++ [0%nat]) []) looped2 (Source loop2 [loop2])) (Throw ENotPossible)); [|destruct X as [X|X]; rewrite X; [left; reflexivity|right; reflexivity]].
    destruct n as [|n]; [left; reflexivity|]. cbn [resolve_n]. unfold resolve_step at 1. cbn [memos find_memo looped2 resolve_substitutions]. unfold resolve_concatenation. cbn [resolve_pieces].
    change (restrict (Context [kb] (ms ++ [0%nat]) []) []) with (Context [] (ms ++ [0%nat]) []).
    destruct n as [|n]; [left; reflexivity|]. right. cbn [resolve_n]. unfold resolve_step at 1. cbn [memos find_memo]. rewrite Mk2. reflexivity. }
  destruct F as [F|F]; rewrite F; [left; reflexivity|right; reflexivity].
Qed.
Lemma loop2_looped : forall n ms ps s0, existsb (Nat.eqb 0) ms = false -> s0 = Source loop2 ps -> R n (Context [] ms []) looped2 s0 = Stuck UFuel.
Proof.
  intro n. induction n as [n IH] using lt_wf_ind. intros ms ps s0 Mk ->. destruct n as [|n]; [reflexivity|]. cbn [resolve_n]. unfold resolve_step, looped2 at 1. cbn [memos find_memo].
  cbn [resolve_substitutions looped2]. unfold resolve_concatenation. cbn [resolve_pieces].
  change (restrict (Context [] ms []) []) with (Context [] ms []).
  destruct (loop2_ab n (Context [] ms []) (Source loop2 ps) eq_refl eq_refl Mk eq_refl) as [E|E]; rewrite E; [reflexivity|]. cbn [bind].
  assert (Sp : below (R n (restrict (restrict (Context [] [] [(VRef 0 [ka; kb] true 0, None)]) (restriction (Context [] ms []))) []) space (Source loop2 ps)) (Ok (Some space, Context [] [] [(VRef 0 [ka; kb] true 0, None); (space, Some space)]))).
  { destruct n; [left; reflexivity|right; reflexivity]. }
  destruct Sp as [E1|E1]; rewrite E1; [reflexivity|]. cbn [bind].
  change (restrict (restrict (Context [] [] [(VRef 0 [ka; kb] true 0, None); (space, Some space)]) (restriction (restrict (Context [] [] [(VRef 0 [ka; kb] true 0, None)]) (restriction (Context [] ms []))))) []) with (Context [] [] [(VRef 0 [ka; kb] true 0, None); (space, Some space)]).
  assert (La : R n (Context [] [] [(VRef 0 [ka; kb] true 0, None); (space, Some space)]) (VRef 1 [ka] false 0) (Source loop2 ps) = Stuck UFuel).
  { destruct n as [|n]; [reflexivity|]. cbn [resolve_n]. unfold resolve_step at 1. cbn -[resolve_reference]. unfold resolve_reference. cbn [is_marked existsb markers add_marker app].
    assert (Lk : below (lookup_subst false [] (R n) (Context [] [1%nat] []) [ka] 0 (Source loop2 ps)) (Ok (Some looped2, Context [] [1%nat] [], [loop2]))).
    { destruct n; [left; reflexivity|right; reflexivity]. }
    cbn zeta. change (add_marker (Context [] [] [(VRef 0 [ka; kb] true 0, None); (space, Some space)]) 1) with (Context [] [1%nat] []).
    destruct Lk as [E2|E2]; rewrite E2; [reflexivity|]. cbn [attempt bind List.last]. rewrite (IH n ltac:(lia) [1%nat] [loop2] _ eq_refl eq_refl). reflexivity. }
  rewrite La. reflexivity.
Qed.
Lemma loop2_never : forall n, resolve_config false false [] n loop2 = Stuck UFuel.
Proof.
  intro n. unfold resolve_config, resolve_with. destruct n as [|n]; [reflexivity|]. cbn [resolve_n]. unfold resolve_step at 1. cbn [moved_from memos find_memo loop2 resolve_substitutions]. unfold resolve_object.
  change (push_parent _ _) with (Source loop2 [loop2]). cbn [resolve_fields]. unfold resolve_field. change (restriction moved_from) with (@nil str). cbn iota. change moved_from with (Context [] [] []).
  rewrite (loop2_looped n [] [loop2] _ eq_refl eq_refl). reflexivity.
Qed.
End Loop2.
