(** What the parser builds is well formed. *)
From Coq Require Import Permutation.
From Verif Require Import Base BaseLemmas Util_Model Num_Model Path_Model Token_Model Token_Spec PathParser_Model PathParser_Spec Doc_Model Edit_Model Value_Model Value_Spec
  Value_Lemmas Value_Lemmas2 Duration_Model Config_Model Concat_Model Concat_Lemmas ConfigParser_Model ConfigParser_Spec ConfigParser_Lemmas Resolve_Lemmas3 Render_Model Render_Spec RenderRef_Spec RenderRef_Lemmas3 RenderRef_Lemmas6 ConfEdit_Lemmas.

Definition single (v : value) : Prop := is_merge v = false.
Definition ff (m : fields) : Prop := NoDup (map fst m) /\ Forall (fun kv => formed (snd kv)) m.

Lemma formed_honest : forall v, formed v -> is_resolved v = negb (is_open v).
Proof.
  intro v. induction v as [s|vs IH|r i m IH|n p o l|vs IH|vs IH|vs IH] using value_induction; intro H; try reflexivity.
  - inversion H as [|? _ F| | | |? ? ? Q]; subst; [|destruct vs0 as [|[] ?]; discriminate Q]. cbn [is_resolved is_open]. clear H. induction IH as [|v vs V IH IH2]; [reflexivity|]. inversion F; subst. cbn [forallb existsb]. rewrite V, IH2, negb_orb by assumption. reflexivity.
  - inversion H as [| |? ? ? _ Q _| | |? ? ? Q]; subst; [|destruct vs as [|[] ?]; discriminate Q]. cbn [is_resolved]. exact Q.
Qed.
Lemma merge_of_inv : forall vs v, merge_of vs = v -> v = VMerge vs \/ v = VMergeObj vs.
Proof. intros vs v <-. destruct vs as [|[] vs]; cbn; auto. Qed.
Lemma formed_list : forall vs, formed (VList vs) -> Forall single vs /\ Forall formed vs.
Proof. intros vs H. inversion H as [|? A B| | | |? ? ? Q]; subst; [auto|destruct (merge_of_inv _ _ Q); discriminate]. Qed.
Lemma formed_obj : forall r i m, formed (VObj r i m) -> ff m /\ r = negb (is_open (VObj r i m)).
Proof. intros r i m H. inversion H as [| |? ? ? A B C| | |? ? ? Q]; subst; [repeat split; assumption|destruct (merge_of_inv _ _ Q); discriminate]. Qed.
Lemma formed_concat : forall vs, formed (VConcat vs) -> (2 <= List.length vs)%nat /\ apart vs /\ Forall (fun v => is_concatenation v = false) vs /\ Forall single vs /\ Forall formed vs.
Proof. intros vs H. inversion H as [| | | |? A B C D E|? ? ? Q]; subst; [auto|destruct (merge_of_inv _ _ Q); discriminate]. Qed.
Lemma formed_merge : forall vs v, v = VMerge vs \/ v = VMergeObj vs -> formed v -> v = merge_of vs /\ (Forall single vs -> layered vs) /\ Forall formed vs.
Proof.
  intros vs v E H. inversion H as [| | | | |ws L F]; subst; try (destruct E; discriminate). destruct (merge_of_inv ws _ eq_refl) as [X|X]; destruct E as [E|E]; try congruence; rewrite E in X; injection X as ->; auto.
Qed.

Lemma new_object_formed : forall m, ff m -> formed (new_object m).
Proof.
  intros m [D F]. unfold new_object. constructor; [exact D| |exact F]. rewrite open_object. unfold fields_resolved. clear D. induction F as [|[k v] m V F IH]; [reflexivity|].
  cbn [forallb existsb snd] in *. rewrite IH, (formed_honest _ V), negb_orb. reflexivity.
Qed.
Lemma under_formed : forall p v, formed v -> formed (create_value_under_path p v).
Proof. intro p. induction p as [|k p IH]; intros v H; cbn [create_value_under_path]; [exact H|]. apply new_object_formed. split; [repeat constructor; intros []|]. constructor; [exact (IH _ H)|constructor]. Qed.
Lemma find_formed : forall m k (w : value), Forall (fun kv => formed (snd kv)) m -> find_key k m = Some w -> formed w.
Proof. intros m k w F H. exact (find_key_Forall _ _ _ _ _ F H). Qed.

(** ** Merging *)
Lemma stack_formed : forall v, formed v -> Forall formed (unmerged_values v).
Proof. intros v H. destruct v; cbn [unmerged_values]; try (constructor; [exact H|constructor]); refine (proj2 (proj2 (formed_merge _ _ _ H))); auto. Qed.
Lemma construct_formed : forall this rest c, formed this -> Forall formed rest -> (single this -> Forall single rest -> layered (this :: rest)) ->
  construct_delayed_merge this (this :: rest) = Ok c -> formed c.
Proof.
  intros this rest c T R L H. assert (G : formed (merge_of (this :: rest))). { constructor; [|constructor; assumption]. intro S. inversion S; subst. apply L; assumption. }
  unfold construct_delayed_merge, new_delayed_merge_object, new_delayed_merge in H. destruct (is_object this) eqn:O.
  - cbn [negb] in H. destruct (existsb is_delayed (this :: rest)) eqn:D; [discriminate|]. injection H as <-. destruct this; try discriminate O; [exact G|]. discriminate D.
  - injection H as <-. destruct this; try discriminate O; exact G.
Qed.
Lemma waits_formed : forall v, formed v -> single v -> ignores_fallbacks v = false -> waits v = true.
Proof.
  intros v F S I. destruct v as [s|l|r i m|n p o k|l|l|l]; cbn [waits is_open ignores_fallbacks] in *; try reflexivity; try discriminate; [|rewrite I; reflexivity].
  assert (H := formed_honest _ F). cbn [is_resolved is_open] in H. rewrite I in H. destruct (existsb is_open l); [reflexivity|discriminate].
Qed.
Lemma layered_cons : forall a vs, waits a = true -> layered vs -> layered (a :: vs).
Proof. intros a vs W L. destruct vs as [|b [|c vs]]; [destruct L|destruct L|]. cbn [layered] in *. auto. Qed.
Lemma unmergeable_formed : forall this other c, formed this -> formed other -> ignores_fallbacks this = false -> is_unmergeable other = true ->
  merged_with_the_unmergeable this other = Ok c -> formed c.
Proof.
  intros this other c T O I U H. unfold merged_with_the_unmergeable in H. rewrite I in H. refine (construct_formed _ _ _ T (stack_formed _ O) _ H). intros S R.
  assert (W := waits_formed _ T S I). destruct other as [s|l|r i m|n p o k|l|l|l]; try discriminate U; cbn [unmerged_values] in *.
  - cbn [layered]. split; [exact W|reflexivity].
  - cbn [layered]. split; [exact W|reflexivity].
  - apply layered_cons; [exact W|]. refine (proj1 (proj2 (formed_merge l _ _ O)) R). auto.
  - apply layered_cons; [exact W|]. refine (proj1 (proj2 (formed_merge l _ _ O)) R). auto.
Qed.
Lemma non_object_formed : forall this other c, formed this -> formed other -> ignores_fallbacks this = false -> is_object this && is_object other = false ->
  merged_with_non_object this other = Ok c -> formed c.
Proof.
  intros this other c T O I N H. unfold merged_with_non_object in H. rewrite I in H. destruct (is_resolved this) eqn:R.
  - unfold with_fallbacks_ignored in H. destruct this; try (rewrite I in H; discriminate). injection H as <-. destruct (formed_obj _ _ _ T) as [[D F] Q]. constructor; [exact D|exact Q|exact F].
  - refine (construct_formed _ _ _ T (Forall_cons _ O (Forall_nil _)) _ H). intros S _. cbn [layered]. split; [exact (waits_formed _ T S I)|].
    unfold unmergeable. rewrite N. assert (E := formed_honest _ T). rewrite R in E. destruct (is_open this); [|discriminate]. cbn. apply orb_true_r.
Qed.
Lemma fallback_formed : forall a b c, formed a -> formed b -> with_fallback a b = Ok c -> formed c.
Proof.
  intro a. induction a as [s|vs IH|r i m IH|n p o l|vs IH|vs IH|vs IH] using value_induction; intros b c Ha Hb H; rewrite with_fallback_eq in H;
    match type of H with (if ignores_fallbacks ?a then _ else _) = _ => destruct (ignores_fallbacks a) eqn:I; [injection H as <-; exact Ha|] end;
    (destruct (is_unmergeable b) eqn:U; [exact (unmergeable_formed _ _ _ Ha Hb I U H)|]).
  - discriminate.
  - destruct b; try discriminate U; exact (non_object_formed _ _ _ Ha Hb I eq_refl H).
  - destruct b; try discriminate U; try exact (non_object_formed _ _ _ Ha Hb I eq_refl H). inv_bind H. injection Hk as <-.
    destruct (formed_obj _ _ _ Ha) as [[D Fm] _]. destruct (formed_obj _ _ _ Hb) as [[D0 Fm0] _].
    assert (G : map fst a = map fst m /\ Forall (fun kv => formed (snd kv)) a).
    { clear I U Ha Hb D D0. revert a Hb0. induction IH as [|[k v] m Hv IHm IH']; intros ours E; cbn [merge_ours] in E; [injection E as <-; split; constructor|]. inversion Fm as [|? ? F1 F2]; subst.
      inv_bind E. inv_bind Hk. injection Hk0 as <-. destruct (IH' F2 _ Hb0) as [G1 G2]. cbn [map fst]. rewrite G1. split; [reflexivity|]. constructor; [|exact G2]. cbn [snd] in *. destruct (find_key k m0) as [w|] eqn:Fk; [|injection Hb as <-; exact F1].
      exact (Hv w a F1 (find_formed _ _ _ Fm0 Fk) Hb). }
    destruct G as [G1 G2].
    assert (X : ff (a ++ only_fallback m m0)).
    { split; [exact (merged_nodup _ _ _ G1 D D0)|]. apply Forall_app. split; [exact G2|]. apply Forall_forall. intros x Hx. apply filter_In in Hx. rewrite Forall_forall in Fm0. apply Fm0, Hx. }
    destruct (formed_obj _ _ _ (new_object_formed _ X)) as [_ Q]. destruct X as [X1 X2]. constructor; [exact X1|exact Q|exact X2].
  - destruct b; try discriminate U; exact (non_object_formed _ _ _ Ha Hb I eq_refl H).
  - destruct b; try discriminate U; exact (non_object_formed _ _ _ Ha Hb I eq_refl H).
  - destruct b; try discriminate U; exact (non_object_formed _ _ _ Ha Hb I eq_refl H).
  - destruct b; try discriminate U; try exact (non_object_formed _ _ _ Ha Hb I eq_refl H). discriminate.
Qed.

(** ** Fields *)
Lemma set_key_formed : forall m k v, ff m -> formed v -> ff (set_key m k v).
Proof.
  intros m k v [D F] V. split.
  - clear F. induction m as [|[q w] m IH]; cbn [set_key]; [repeat constructor; intros []|]. inversion D as [|? ? D1 D2]; subst. destruct (str_eqb k q) eqn:E.
    + apply str_eqb_eq in E. subst q. constructor; assumption.
    + cbn [map fst]. constructor; [|exact (IH D2)]. intro X. destruct (ConfEdit_Lemmas.set_key_in _ _ _ _ X) as [->|Y]; [rewrite str_eqb_refl in E; discriminate|contradiction].
  - clear D. induction F as [|[q w] m W F IH]; cbn [set_key]; [repeat constructor; exact V|]. destruct (str_eqb k q); constructor; assumption.
Qed.
Lemma add_field_formed : forall flavor values p v values', ff values -> formed v -> add_field flavor values p v = Ok values' -> ff values'.
Proof.
  intros flavor values p v values' H V E. destruct p as [|k p]; [discriminate|]. unfold add_field in E. destruct p as [|k' p].
  - destruct (find_key k values) as [w|] eqn:F.
    + destruct flavor; [|discriminate]. destruct (with_fallback v w) as [x|e|u] eqn:W; cbn [bind] in E; try discriminate. injection E as <-. apply set_key_formed; [exact H|].
      exact (fallback_formed _ _ _ V (find_formed _ _ _ (proj2 H) F) W).
    + injection E as <-. apply set_key_formed; assumption.
  - destruct flavor; [|discriminate]. assert (U := under_formed (k' :: p) v V). destruct (find_key k values) as [w|] eqn:F.
    + destruct (with_fallback (create_value_under_path (k' :: p) v) w) as [x|e|u] eqn:W; cbn [bind] in E; try discriminate. destruct (is_object x); [|discriminate].
      injection E as <-. apply set_key_formed; [exact H|]. exact (fallback_formed _ _ _ U (find_formed _ _ _ (proj2 H) F) W).
    + injection E as <-. apply set_key_formed; assumption.
Qed.
Lemma append_formed : forall values k v, ff values -> formed v -> find_key k values = None -> ff (values ++ [(k, v)]).
Proof.
  intros values k v [D F] V N. split; [|apply Forall_app; split; [exact F|constructor; [exact V|constructor]]].
  rewrite map_app. apply NoDup_app_intro; [exact D|repeat constructor; intros []|]. intros x X [Y|[]]. cbn in Y. subst x. apply find_key_none in N. contradiction.
Qed.
Lemma add_included_formed : forall m values values', ff values -> ff m -> add_included values m = Ok values' -> ff values'.
Proof.
  intro m. induction m as [|[k v] m IH]; intros values values' H [D M] E; cbn [add_included] in E; [congruence|]. inversion M as [|? ? V M2]; subst. inversion D as [|? ? _ D2]; subst. destruct (find_key k values) as [w|] eqn:F.
  - destruct (with_fallback v w) as [x|e|u] eqn:W; cbn [bind] in E; try discriminate. refine (IH _ _ _ (conj D2 M2) E). apply set_key_formed; [exact H|]. exact (fallback_formed _ _ _ V (find_formed _ _ _ (proj2 H) F) W).
  - refine (IH _ _ _ (conj D2 M2) E). apply append_formed; assumption.
Qed.

(** ** Concatenations *)
Definition piece (v : value) : Prop := formed v /\ single v /\ is_concatenation v = false.
Lemma objects_merged : forall r i m b c, with_fallback (VObj r i m) b = Ok c -> is_object b = true -> single b -> single c /\ is_concatenation c = false.
Proof.
  intros r i m b c H O S. rewrite with_fallback_eq in H. cbn [ignores_fallbacks] in H. destruct i; [injection H as <-; split; reflexivity|]. destruct b; try discriminate O; try discriminate S. cbn [is_unmergeable] in H.
  inv_bind H. injection Hk as <-. split; reflexivity.
Qed.
Lemma join_piece : forall a b j, piece a -> piece b -> join_values a b = Ok j ->
  match j with Some c => piece c /\ is_reference a = false | None => is_reference a = true \/ is_reference b = true end.
Proof.
  intros a b j [Fa [Sa Ca]] [Fb [Sb Cb]] H. unfold join_values in H. inv_bind H. rename a0 into x. inv_bind Hk. rename a0 into y.
  assert (Ex : x = a). { destruct (is_object a && is_list b) eqn:E; [|congruence]. apply andb_true_iff in E. destruct E as [E _]. destruct a; try discriminate E; cbn in Hb; discriminate. }
  assert (Ey : y = b). { destruct (is_list a && is_object b) eqn:E; [|congruence]. apply andb_true_iff in E. destruct E as [_ E]. destruct b; try discriminate E; cbn in Hb0; discriminate. }
  subst x y. destruct (is_object a && is_object b) eqn:O.
  { apply andb_prop in O. destruct O as [Oa Ob]. inv_bind Hk0. injection Hk as <-. assert (F := fallback_formed _ _ _ Fb Fa Hb1). destruct a; try discriminate Oa; try discriminate Sa. destruct b; try discriminate Ob; try discriminate Sb.
    destruct (objects_merged _ _ _ _ _ Hb1 eq_refl eq_refl). repeat split; assumption. }
  assert (P : (if (is_list a || is_object a) && is_ignored_whitespace b then Ok (Some a)
      else if is_concat a || is_concat b then Throw EConfig
      else if is_unmergeable a || is_unmergeable b then Ok None
      else
        let s1 := transform_to_string a in
        let s2 := transform_to_string b in
        match s1, s2 with
        | [], _ | _, [] => Throw EConfig
        | _, _ => Ok (Some (VScalar (SStr (s1 ++ s2) true)))
        end) = Ok j -> match j with Some c => piece c /\ is_reference a = false | None => is_reference a = true \/ is_reference b = true end).
  { intro E. destruct ((is_list a || is_object a) && is_ignored_whitespace b) eqn:Z.
    { injection E as <-. split; [repeat split; assumption|]. destruct a; try reflexivity. discriminate Z. }
    destruct (is_concat a || is_concat b); [discriminate|]. destruct (is_unmergeable a || is_unmergeable b) eqn:M.
    - injection E as <-. destruct a; try discriminate Sa; try discriminate Ca; cbn in M |- *; auto; destruct b; try discriminate Sb; try discriminate Cb; try discriminate M; auto.
    - apply orb_false_iff in M. destruct M as [M _]. cbv zeta in E. destruct (transform_to_string a); [discriminate|]. destruct (transform_to_string b); [discriminate|]. injection E as <-. split; [split; [constructor|split; reflexivity]|]. destruct a; try reflexivity. discriminate M. }
  destruct a; try exact (P Hk0). destruct b; try exact (P Hk0). injection Hk0 as <-. split; [|reflexivity]. split; [|split; reflexivity].
  destruct (formed_list _ Fa), (formed_list _ Fb). constructor; apply Forall_app; split; assumption.
Qed.
Lemma apart_snoc : forall l a b, apart (l ++ [a]) -> (is_reference a = true \/ is_reference b = true) -> apart (l ++ [a; b]).
Proof.
  intro l. induction l as [|x l IH]; intros a b A R; [cbn; auto|]. destruct l as [|y l]; [cbn in *; intuition|]. cbn [app] in *. cbn [apart] in A |- *. destruct A as [A1 A2]. split; [exact A1|]. exact (IH a b A2 R).
Qed.
Lemma apart_rev : forall l, apart l -> apart (rev l).
Proof.
  intro l. induction l as [|a l IH]; intro A; [exact I|]. destruct l as [|b l]; [exact I|]. destruct A as [R A]. cbn [rev] in *. rewrite <- app_assoc. cbn [app]. apply apart_snoc; [exact (IH A)|]. destruct R; auto.
Qed.
Lemma join_all_pieces : forall pieces builder c, Forall piece pieces -> Forall piece builder -> apart builder -> join_all builder pieces = Ok c -> Forall piece c /\ apart c.
Proof.
  intro pieces. induction pieces as [|v rest IH]; intros builder c P B A H; cbn [join_all] in H.
  - injection H as <-. split; [apply Forall_rev, B|apply apart_rev, A].
  - inversion P as [|? ? Pv Pr]; subst. destruct builder as [|back before]; [exact (IH _ _ Pr (Forall_cons _ Pv (Forall_nil _)) I H)|].
    inversion B as [|? ? Bb Br]; subst. inv_bind H. assert (J := join_piece _ _ _ Bb Pv Hb). destruct a as [joined|].
    + destruct J as [J1 J2]. refine (IH _ _ Pr (Forall_cons _ J1 Br) _ Hk). destruct before as [|x before]; [exact I|]. destruct A as [[R|R] A]; [congruence|]. split; [auto|exact A].
    + refine (IH _ _ Pr (Forall_cons _ Pv B) _ Hk). split; [destruct J; auto|exact A].
Qed.
Definition value_made (v : value) : Prop := formed v /\ single v.
Lemma flattened_pieces : forall vs, Forall value_made vs -> Forall piece (flattened vs).
Proof.
  intros vs H. unfold flattened. induction H as [|v vs [F S] H IH]; cbn [flat_map]; [constructor|]. apply Forall_app. split; [|exact IH].
  destruct v; try (constructor; [repeat split; assumption|constructor]); try discriminate S. destruct (formed_concat _ F) as [_ [_ [C [S2 F2]]]].
  apply Forall_forall. intros x X. rewrite Forall_forall in C, S2, F2. split; [exact (F2 x X)|split; [exact (S2 x X)|exact (C x X)]].
Qed.
Lemma concatenate_formed : forall vs v, Forall value_made vs -> concatenate vs = Ok (Some v) -> value_made v.
Proof.
  intros vs v H E. unfold concatenate in E. inv_bind E. unfold consolidate in Hb. destruct vs as [|x [|y vs]].
  - injection Hb as <-. discriminate.
  - injection Hb as <-. injection Hk as <-. inversion H; assumption.
  - destruct (join_all_pieces _ _ _ (flattened_pieces _ H) (Forall_nil _) I Hb) as [P A]. destruct a as [|u [|w c]]; [discriminate| |].
    + injection Hk as <-. inversion P as [|? ? [P1 [P2 _]] _]; subst. split; assumption.
    + inv_bind Hk. injection Hk0 as <-. unfold new_concatenation in Hb0. destruct (List.length (u :: w :: c) <? 2)%nat; [discriminate|]. destruct (existsb is_concat (u :: w :: c)); [discriminate|]. destruct (negb _); [discriminate|]. injection Hb0 as <-.
      split; [|reflexivity]. constructor; [cbn; lia|exact A| | |]; (refine (Forall_impl _ _ P); intros z [Z1 [Z2 Z3]]; assumption).
Qed.

(** ** The parser *)
Lemma token_formed : forall t n v n', token_value t n = Ok (v, n') -> value_made v.
Proof.
  intros t n v n' E. destruct t; cbn [token_value] in E; try discriminate; try (injection E as <- _; split; [constructor|reflexivity]).
  match type of E with bind ?x _ = _ => destruct x as [[p ts]|e|u]; cbn [bind] in E; try discriminate end. injection E as <- _. split; [constructor|reflexivity].
Qed.
Lemma appended_formed : forall s v n w n', value_made v -> appended s v n = Ok (w, n') -> value_made w.
Proof.
  intros s v n w n' [H S] E. unfold appended in E. destruct (full_current_path s) as [p|e|u]; cbn [bind] in E; try discriminate.
  destruct (concatenate [VRef n p true 0; VList [v]]) as [[x|]|e|u] eqn:C; cbn [bind] in E; try discriminate. injection E as <- _. refine (concatenate_formed _ _ _ C).
  repeat constructor; assumption.
Qed.

Section Parse.
Variable flavor : syntax.
Variable includer : include_kind -> str -> nat -> result (value * nat).
Hypothesis Includer : forall kind name n v n', includer kind name n = Ok (v, n') -> formed v.
Definition gives (n : node) : Prop := forall s ac i v i', parse_value flavor includer n s ac i = Ok (v, i') -> value_made v.
Definition field_gives (n : node) : Prop := match n with NField fcs => Forall gives fcs | _ => True end.

Lemma field_value_gives : forall fcs, Forall gives fcs -> forall s ac i v i', parse_field_value (parse_value flavor includer) fcs s ac i = Ok (v, i') -> value_made v.
Proof. intros fcs H. induction H as [|c fcs C F IH]; intros s ac i v i' E; cbn [parse_field_value] in E; [discriminate|]. destruct (is_value_node c); [exact (C _ _ _ _ _ E)|exact (IH _ _ _ _ _ E)]. Qed.
Lemma values_give : forall cs, Forall gives cs -> forall s ac i vs i', parse_values (parse_value flavor includer) cs s ac i = Ok (vs, i') -> Forall value_made vs.
Proof.
  intros cs H. induction H as [|c cs C F IH]; intros s ac i vs i' E; cbn [parse_values] in E; [injection E as <- _; constructor|]. destruct (is_value_node c); [|exact (IH _ _ _ _ _ E)].
  destruct (parse_value flavor includer c s ac i) as [[v i1]|e|u] eqn:V; cbn [bind] in E; try discriminate.
  destruct (parse_values (parse_value flavor includer) cs s ac i1) as [[ws i2]|e|u] eqn:W; cbn [bind] in E; try discriminate. injection E as <- _. constructor; [exact (C _ _ _ _ _ V)|exact (IH _ _ _ _ _ W)].
Qed.
Lemma object_gives : forall cs, Forall field_gives cs -> forall values s ac i v i', ff values -> parse_object_nodes flavor includer (parse_value flavor includer) cs values s ac i = Ok (v, i') -> value_made v.
Proof.
  intros cs H. induction H as [|c cs C F IH]; intros values s ac i v i' V E; cbn [parse_object_nodes] in E; [injection E as <- _; split; [apply new_object_formed, V|reflexivity]|].
  destruct c as [t|t|p|t|fs|ics kind|fs|fs|fs]; try exact (IH _ _ _ _ _ _ V E).
  - destruct (parse_field (parse_value flavor includer) fs s ac i) as [[[p w] i1]|e|u] eqn:P; cbn [bind] in E; try discriminate.
    destruct (add_field flavor values p w) as [values'|e|u] eqn:A; cbn [bind] in E; try discriminate. refine (IH _ _ _ _ _ _ _ E). refine (add_field_formed _ _ _ _ _ V _ A).
    unfold parse_field in P. destruct (field_path fs) as [[p0 ts]|e|u]; cbn [bind] in P; try discriminate. destruct (is_plus_equals fs && (0 <? ac)); [discriminate|].
    match type of P with bind ?x _ = _ => destruct x as [[v1 i2]|e|u] eqn:V1; cbn [bind] in P; try discriminate end. assert (T := field_value_gives _ C _ _ _ _ _ V1).
    destruct (is_plus_equals fs).
    + match type of P with bind ?x _ = _ => destruct x as [[v2 i3]|e|u] eqn:V2; cbn [bind] in P; try discriminate end. injection P as _ <- _. exact (proj1 (appended_formed _ _ _ _ _ T V2)).
    + cbn [bind] in P. injection P as _ <- _. exact (proj1 T).
  - destruct (is_json flavor); [exact (IH _ _ _ _ _ _ V E)|]. destruct (parse_include includer values ics kind s ac i) as [[values' i1]|e|u] eqn:P; cbn [bind] in E; try discriminate.
    refine (IH _ _ _ _ _ _ _ E). unfold parse_include in P. match type of P with bind ?x _ = _ => destruct x as [[obj i2]|e|u] eqn:X; cbn [bind] in P; try discriminate end.
    assert (T : formed obj). { destruct kind; try discriminate; destruct (include_name ics) as [name|e|u]; cbn [bind] in X; try discriminate; exact (Includer _ _ _ _ _ X). }
    destruct ((0 <? ac) && negb (is_resolved obj)); [discriminate|]. rewrite below_match in P.
    destruct obj as [| |r ig m| | | |]; try discriminate.
    destruct (add_included values m) as [x|e|u] eqn:A; cbn [bind] in P; try discriminate. injection P as <- _. refine (add_included_formed _ _ _ V _ A). exact (proj1 (formed_obj _ _ _ T)).
Qed.
Lemma parse_gives : forall n, gives n /\ field_gives n.
Proof.
  intro n. induction n as [t|t|p|t|cs F|cs k F|cs F|cs F|cs F] using node_induction; (split; [intros s ac i v i' E; cbn [parse_value] in E; try discriminate|cbn [field_gives]; try exact I]).
  - exact (token_formed _ _ _ _ E).
  - refine (Forall_impl _ _ F). intros a [A _]. exact A.
  - destruct flavor eqn:Fl; [|discriminate]. match type of E with bind ?x _ = _ => destruct x as [[vs i1]|e|u] eqn:V; cbn [bind] in E; try discriminate end.
    destruct (concatenate vs) as [[w|]|e|u] eqn:C; cbn [bind] in E; try discriminate. injection E as <- _. refine (concatenate_formed _ _ _ C).
    refine (values_give _ _ _ _ _ _ _ _); [refine (Forall_impl _ _ F); intros a [A _]; exact A|]. rewrite Fl. exact V.
  - match type of E with bind ?x _ = _ => destruct x as [[vs i1]|e|u] eqn:V; cbn [bind] in E; try discriminate end. injection E as <- _. 
    assert (G : Forall value_made vs). { refine (values_give _ _ _ _ _ _ _ V). refine (Forall_impl _ _ F). intros a [A _]. exact A. }
    split; [|reflexivity]. constructor; (refine (Forall_impl _ _ G); intros a [A1 A2]; assumption).
  - refine (object_gives cs _ [] _ _ _ _ _ _ E); [|split; constructor]. refine (Forall_impl _ _ F). intros a [_ A]. exact A.
Qed.
Lemma parse_root_formed : forall ns found i v i', (forall w, found = Some w -> formed w) -> parse_root_nodes flavor includer found ns i = Ok (Some v, i') -> formed v.
Proof.
  intro ns. induction ns as [|n ns IH]; intros found i v i' H E; cbn [parse_root_nodes] in E.
  { injection E as -> _. exact (H v eq_refl). }
  assert (G : (if is_complex n then '(v, next') <- parse_value flavor includer n [] 0 i;; parse_root_nodes flavor includer (Some v) ns next' else parse_root_nodes flavor includer found ns i) = Ok (Some v, i') -> formed v).
  { intro G. destruct (is_complex n) eqn:K; [|exact (IH _ _ _ _ H G)]. destruct (parse_value flavor includer n [] 0 i) as [[w i1]|e|u] eqn:W; cbn [bind] in G; try discriminate.
    refine (IH _ _ _ _ _ G). intros x X. injection X as <-. exact (proj1 (proj1 (parse_gives n) _ _ _ _ _ W)). }
  destruct n as [t| | | | | | | |]; try exact (G E). destruct t; try exact (G E). destruct found as [w|]; [|exact (IH _ _ _ _ H E)]. injection E as -> _. exact (H v eq_refl).
Qed.
Lemma parse_formed : forall text i v i', parse_config flavor includer text i = Ok (Some v, i') -> formed v.
Proof.
  intros text i v i' E. unfold parse_config in E. destruct (parse_document flavor text) as [ns|e|u]; cbn [bind] in E; try discriminate. refine (parse_root_formed _ _ _ _ _ _ E). discriminate.
Qed.
End Parse.

(** ** Formed values with clean text are pending *)
Lemma formed_pending : forall merges v, formed v -> clean merges v -> pending merges v.
Proof.
  intros merges v. induction v as [s|vs IH|r i m IH|n p o l|vs IH|vs IH|vs IH] using value_induction; intros F C.
  - inversion C; subst. apply p_scalar. assumption.
  - destruct (formed_list _ F) as [S G]. inversion C as [|? K| | | | |]; subst. apply p_list; [exact S|]. rewrite Forall_forall in *. intros x X. exact (IH x X (G x X) (K x X)).
  - destruct (formed_obj _ _ _ F) as [[D G] _]. inversion C as [| |? ? ? K| | | |]; subst. apply p_obj; [exact D|]. rewrite Forall_forall in *. intros x X. destruct (K x X) as [K1 [K2 K3]]. split; [exact K1|]. split; [exact K2|]. exact (IH x X (G x X) K3).
  - inversion C; subst. apply p_ref; assumption.
  - destruct (formed_concat _ F) as [L [A [N [S G]]]]. inversion C as [| | | |? K| |]; subst. apply p_concat; try assumption. rewrite Forall_forall in *. intros x X. exact (IH x X (G x X) (K x X)).
  - destruct (formed_merge vs _ (or_introl eq_refl) F) as [E [L G]]. inversion C as [| | | | |? M S K|]; subst. rewrite E. apply p_merge; [reflexivity|exact (L S)|exact S|]. rewrite Forall_forall in *. intros x X. exact (IH x X (G x X) (K x X)).
  - destruct (formed_merge vs _ (or_intror eq_refl) F) as [E [L G]]. inversion C as [| | | | | |? M S K]; subst. rewrite E. apply p_merge; [reflexivity|exact (L S)|exact S|]. rewrite Forall_forall in *. intros x X. exact (IH x X (G x X) (K x X)).
Qed.

Lemma parsed_rendered : forall o ns merges flavor includer text next v next' includer2 next2,
  (forall kind name n w n', includer kind name n = Ok (w, n') -> formed w) ->
  parse_config flavor includer text next = Ok (Some v, next') -> clean merges v -> a_pending_root v ->
  (origin_comments o || comments o = true -> one_line_comments ns) -> (merges = true -> merges_fit o ns) ->
  exists text' w next2', render_value o ns v = Ok text' /\ alike v w /\ parse_config CONF includer2 text' next2 = Ok (Some w, next2').
Proof. intros o ns merges flavor includer text next v next' includer2 next2 I P C R N M. exact (pending_rendered o ns merges v includer2 next2 N M (formed_pending _ _ (parse_formed _ _ I _ _ _ _ P) C) R). Qed.
