(** What resolving preserves. *)
From Verif Require Import Base BaseLemmas Util_Model Num_Model Path_Model Token_Model Value_Model Value_Spec Value_Lemmas Value_Lemmas2
  Duration_Model Config_Model Concat_Model Concat_Lemmas Resolve_Model Resolve_Spec.

Section Sound.
Variable Q : nat -> path -> bool -> Z -> Prop.
Notation ok := (sound Q).
Definition fok (m : fields) : Prop := Forall (fun kv => ok (snd kv)) m.
Definition ook (r : option value) : Prop := match r with Some v => ok v | None => True end.

Lemma find_ok : forall m k v, fok m -> find_key k m = Some v -> ok v.
Proof. intros m k v F. induction F as [|[q w] m Hw F IH]; intro H; [discriminate|]. cbn [find_key] in H. destruct (str_eqb k q); [injection H as <-; exact Hw|auto]. Qed.

Lemma stack_ok : forall v, ok v -> Forall ok (unmerged_values v).
Proof. intros v H. destruct v; cbn [unmerged_values]; try (constructor; [exact H|constructor]); inversion H; assumption. Qed.

Lemma construct_ok : forall this stack c, Forall ok stack -> construct_delayed_merge this stack = Ok c -> ok c.
Proof.
  intros this stack c F H. unfold construct_delayed_merge, new_delayed_merge_object, new_delayed_merge in H. destruct (is_object this).
  - destruct stack as [|v stack]; [discriminate|]. destruct (is_object v); [|discriminate]. cbn [negb] in H. destruct (existsb is_delayed (v :: stack)); [discriminate|]. injection H as <-. constructor. exact F.
  - destruct stack; [discriminate|]. injection H as <-. constructor. exact F.
Qed.

Lemma non_object_ok : forall this other c, ok this -> ok other -> merged_with_non_object this other = Ok c -> ok c.
Proof.
  intros this other c H1 H2 H. unfold merged_with_non_object in H. destruct (ignores_fallbacks this); [discriminate|]. destruct (is_resolved this).
  - unfold with_fallbacks_ignored in H. destruct this; try (destruct (ignores_fallbacks _) in H; [injection H as <-; exact H1|discriminate]).
    injection H as <-. inversion H1; subst. constructor; assumption.
  - eapply construct_ok; [|exact H]. constructor; [exact H1|constructor; [exact H2|constructor]].
Qed.

Lemma fallback_ok : forall a b c, ok a -> ok b -> with_fallback a b = Ok c -> ok c.
Proof.
  intro a. induction a as [s|vs IH|r i m IH|n p o l|vs IH|vs IH|vs IH] using value_induction; intros b c Ha Hb H; rewrite with_fallback_eq in H;
    match type of H with (if ignores_fallbacks ?a then _ else _) = _ => destruct (ignores_fallbacks a) eqn:I; [injection H as <-; exact Ha|] end;
    (destruct (is_unmergeable b) eqn:U;
     [match type of H with merged_with_the_unmergeable ?a _ = _ => unfold merged_with_the_unmergeable in H; rewrite I in H; apply (construct_ok _ _ _ (Forall_cons _ Ha (stack_ok b Hb)) H) end|]).
  - discriminate.
  - destruct b; try discriminate U; exact (non_object_ok _ _ _ Ha Hb H).
  - destruct b; try discriminate U; try exact (non_object_ok _ _ _ Ha Hb H). inv_bind H. injection Hk as <-. inversion Ha as [| |? ? ? _ Fm| | | |]; subst. inversion Hb as [| |? ? ? _ Fm0| | | |]; subst.
    constructor; [auto|]. apply Forall_app. split.
    + clear I U Ha Hb. revert a Hb0. induction IH as [|[k v] m Hv IHm IH']; intros ours E; cbn [merge_ours] in E; [injection E as <-; constructor|]. inversion Fm as [|? ? F1 F2]; subst.
      inv_bind E. inv_bind Hk. injection Hk0 as <-. constructor; [|apply IH'; assumption]. cbn [snd] in *. destruct (find_key k m0) as [w|] eqn:Fk; [|injection Hb as <-; exact F1].
      apply (Hv w a F1 (find_ok _ _ _ Fm0 Fk) Hb).
    + apply Forall_forall. intros x Hx. apply filter_In in Hx. rewrite Forall_forall in Fm0. apply Fm0, Hx.
  - destruct b; try discriminate U; exact (non_object_ok _ _ _ Ha Hb H).
  - destruct b; try discriminate U; exact (non_object_ok _ _ _ Ha Hb H).
  - destruct b; try discriminate U; exact (non_object_ok _ _ _ Ha Hb H).
  - destruct b; try discriminate U; try exact (non_object_ok _ _ _ Ha Hb H). discriminate.
Qed.

Lemma join_ok : forall a b j, ok a -> ok b -> join_values a b = Ok (Some j) -> ok j.
Proof.
  intros a b j Ha Hb H. unfold join_values in H. inv_bind H. rename a0 into x. inv_bind Hk. rename a0 into y.
  assert (Ex : ok x). { destruct (is_object a && is_list b) eqn:E; [|injection Hb0 as <-; exact Ha]. apply andb_true_iff in E. destruct E as [E _]. destruct a; try discriminate E; cbn in Hb0; discriminate. }
  assert (Ey : ok y). { destruct (is_list a && is_object b) eqn:E; [|injection Hb1 as <-; exact Hb]. apply andb_true_iff in E. destruct E as [_ E]. destruct b; try discriminate E; cbn in Hb1; discriminate. }
  destruct (is_object x && is_object y); [inv_bind Hk0; injection Hk as <-; exact (fallback_ok _ _ _ Ey Ex Hb2)|].
  assert (P : (if (is_list x || is_object x) && is_ignored_whitespace y then Ok (Some x)
      else if is_concat x || is_concat y then Throw EConfig
      else if is_unmergeable x || is_unmergeable y then Ok None
      else
        let s1 := transform_to_string x in
        let s2 := transform_to_string y in
        match s1, s2 with
        | [], _ | _, [] => Throw EConfig
        | _, _ => Ok (Some (VScalar (SStr (s1 ++ s2) true)))
        end) = Ok (Some j) -> ok j).
  { intro P. destruct ((is_list x || is_object x) && is_ignored_whitespace y); [injection P as <-; exact Ex|]. destruct (is_concat x || is_concat y); [discriminate|].
    destruct (is_unmergeable x || is_unmergeable y); [discriminate|]. cbn zeta in P. destruct (transform_to_string x), (transform_to_string y); try discriminate. injection P as <-. constructor. }
  destruct x; try exact (P Hk0). destruct y; try exact (P Hk0). injection Hk0 as <-. inversion Ex; inversion Ey; subst. constructor. apply Forall_app. auto.
Qed.

Lemma join_all_ok : forall ps b c, Forall ok ps -> Forall ok b -> join_all b ps = Ok c -> Forall ok c.
Proof.
  intro ps. induction ps as [|v ps IH]; intros b c Fp Fb H; cbn [join_all] in H; [injection H as <-; apply Forall_rev, Fb|]. inversion Fp as [|? ? F1 F2]; subst.
  destruct b as [|x b]; [apply (IH [v] c F2); [constructor; [exact F1|constructor]|exact H]|]. inversion Fb as [|? ? B1 B2]; subst. inv_bind H. destruct a as [j|].
  - apply (IH (j :: b) c F2); [constructor; [eapply (join_ok x v); eassumption|exact B2]|exact Hk].
  - apply (IH (v :: x :: b) c F2); [constructor; [exact F1|exact Fb]|exact Hk].
Qed.

Lemma flattened_ok : forall ps, Forall ok ps -> Forall ok (flattened ps).
Proof. intros ps F. unfold flattened. induction F as [|p ps Hp F IH]; [constructor|]. cbn [flat_map]. apply Forall_app. split; [|exact IH]. destruct p; try (constructor; [exact Hp|constructor]). inversion Hp; assumption. Qed.

Lemma consolidate_ok : forall ps c, Forall ok ps -> consolidate ps = Ok c -> Forall ok c.
Proof.
  intros ps c F H. unfold consolidate in H. destruct ps as [|a [|b ps]]; [injection H as <-; constructor|injection H as <-; exact F|].
  apply (join_all_ok _ _ _ (flattened_ok _ F) (Forall_nil _) H).
Qed.

Lemma new_concat_ok : forall ps v, Forall ok ps -> new_concatenation ps = Ok v -> ok v.
Proof.
  intros ps v F H. unfold new_concatenation in H. destruct (List.length ps <? 2)%nat; [discriminate|]. destruct (existsb is_concat ps); [discriminate|].
  destruct (negb (existsb is_unmergeable ps)); [discriminate|]. injection H as <-. constructor. exact F.
Qed.

Lemma replace_list_ok : forall vs child r vs', Forall ok vs -> ook r -> replace_in_list vs child r = Ok vs' -> Forall ok vs'.
Proof.
  intros vs child r vs' F. revert vs'. induction F as [|v vs Hv F IH]; intros vs' Hr H; cbn [replace_in_list] in H; [discriminate|]. destruct (same v child).
  - injection H as <-. destruct r; [constructor; [exact Hr|exact F]|exact F].
  - inv_bind H. injection Hk as <-. constructor; [exact Hv|apply IH; assumption].
Qed.
Lemma replace_fields_ok : forall m child r m', fok m -> ook r -> replace_in_fields m child r = Ok m' -> fok m'.
Proof.
  intros m child r m' F. revert m'. induction F as [|[k v] m Hv F IH]; intros m' Hr H; cbn [replace_in_fields] in H; [discriminate|]. destruct (same v child).
  - injection H as <-. destruct r; [constructor; [exact Hr|exact F]|exact F].
  - inv_bind H. injection Hk as <-. constructor; [exact Hv|apply IH; assumption].
Qed.
Lemma replace_child_ok : forall parent child r r', ok parent -> ook r -> replace_child parent child r = Ok r' -> ook r'.
Proof.
  intros parent child r r' Hp Hr H. destruct parent; cbn [replace_child] in H; try discriminate; inv_bind H; inversion Hp; subst.
  - injection Hk as <-. pose proof (replace_list_ok _ _ _ _ H0 Hr Hb) as F. destruct a; [exact I|constructor; exact F].
  - injection Hk as <-. cbn. constructor; [auto|]. eapply replace_fields_ok; eassumption.
  - pose proof (replace_list_ok _ _ _ _ H0 Hr Hb) as F. destruct a; [injection Hk as <-; exact I|]. inv_bind Hk. injection Hk0 as <-. eapply new_concat_ok; eassumption.
  - injection Hk as <-. pose proof (replace_list_ok _ _ _ _ H0 Hr Hb) as F. destruct a; [exact I|constructor; exact F].
  - injection Hk as <-. pose proof (replace_list_ok _ _ _ _ H0 Hr Hb) as F. destruct a; [exact I|constructor; exact F].
Qed.

Definition source_ok (s : source) : Prop := ok (root s) /\ Forall ok (parents s).
Definition context_ok (c : context) : Prop := Forall (fun m => ook (snd m)) (memos c).

Lemma push_parent_ok : forall s v, source_ok s -> ok v -> source_ok (push_parent s v).
Proof.
  intros [r ps] v [H1 H2] Hv. unfold push_parent. cbn [root parents] in *. destruct ps as [|p ps].
  - destruct (is_object v && same v r); [split; [exact H1|constructor; [exact Hv|constructor]]|split; assumption].
  - split; [exact H1|constructor; assumption].
Qed.

Lemma replace_chain_ok : forall above old r chain, Forall ok above -> ook r -> replace_chain old above r = Ok chain -> Forall ok chain.
Proof.
  intros above old r chain F. revert old r chain. induction F as [|p above Hp F IH]; intros old r chain Hr H; cbn [replace_chain] in H.
  - injection H as <-. destruct r as [r|]; [|constructor]. destruct (is_container r); [constructor; [exact Hr|constructor]|constructor].
  - inv_bind H. inv_bind Hk. injection Hk0 as <-.
    assert (Hc : ook (match r with Some r => if is_container r then Some r else None | None => None end)) by (destruct r as [r|]; [destruct (is_container r); [exact Hr|exact I]|exact I]).
    pose proof (replace_child_ok _ _ _ _ Hp Hc Hb) as Hn. pose proof (IH _ _ _ Hn Hb0) as Ft. destruct r as [r|]; [destruct (is_container r); [constructor; [exact Hr|exact Ft]|exact Ft]|exact Ft].
Qed.

Lemma last_ok : forall (l : list value) d, Forall ok l -> ok d -> ok (List.last l d).
Proof. intros l d F Hd. induction F as [|x l Hx F IH]; [exact Hd|]. destruct l; [exact Hx|exact IH]. Qed.

Lemma replace_within_ok : forall s old r s', source_ok s -> ook r -> replace_within_current_parent s old r = Ok s' -> source_ok s'.
Proof.
  intros [rt ps] old r s' [H1 H2] Hr H. unfold replace_within_current_parent in H. cbn [root parents] in *.
  destruct (match r with Some r0 => same old r0 | None => false end); [injection H as <-; split; assumption|]. destruct ps as [|p above].
  - destruct r as [r|]; [|discriminate]. destruct (same old rt && is_container r); [|discriminate]. injection H as <-. split; [|constructor]. cbn [root]. destruct (is_object r); [exact Hr|repeat constructor].
  - inversion H2 as [|? ? P1 P2]; subst. inv_bind H. pose proof (replace_child_ok _ _ _ _ P1 Hr Hb) as Hn.
    set (replaced := match a with Some r => if is_container r then Some r else None | None => None end) in *.
    assert (Hc : ook replaced) by (unfold replaced; destruct a as [a|]; [destruct (is_container a); [exact Hn|exact I]|exact I]).
    destruct (match replaced with Some r0 => same p r0 | None => false end); [injection Hk as <-; split; assumption|].
    inv_bind Hk. rename a0 into chain. pose proof (replace_chain_ok _ _ _ _ P2 Hc Hb0) as Fc. destruct chain as [|x rest]; [injection Hk0 as <-; repeat constructor|].
    destruct (is_object (List.last rest x)); [|discriminate]. injection Hk0 as <-. inversion Fc; subst. split; [apply last_ok; assumption|exact Fc].
Qed.

Lemma merge_stack_ok : forall vs m v, ok m -> Forall ok vs -> merge_stack m vs = Ok v -> ok v.
Proof. intros vs m v Hm F. revert m Hm. induction F as [|x vs Hx F IH]; intros m Hm H; cbn [merge_stack] in H; [injection H as <-; exact Hm|]. inv_bind H. apply (IH a); [exact (fallback_ok _ _ _ Hm Hx Hb)|exact Hk]. Qed.
Lemma make_replacement_ok : forall stack n r, Forall ok stack -> make_replacement stack n = Ok r -> ook r.
Proof.
  intros stack n r F H. unfold make_replacement in H. assert (G : Forall ok (skipn n stack)) by (apply Forall_forall; intros x Hx; rewrite Forall_forall in F; apply F; rewrite <- (firstn_skipn n stack); apply in_or_app; auto).
  destruct (skipn n stack) as [|v vs]; [injection H as <-; exact I|]. inversion G; subst. inv_bind H. injection Hk as <-. eapply merge_stack_ok; eassumption.
Qed.

Lemma peek_ok : forall key this v, ok this -> peek key this = Ok (Some v) -> ok v.
Proof.
  intros key this. induction this as [s|vs IH|r i m IH|n p o l|vs IH|vs IH|vs IH] using value_induction; intros v Ht H; cbn [peek] in H; try discriminate.
  - injection H as H. inversion Ht; subst. eapply find_ok; eassumption.
  - inversion Ht as [| | | | | |? F]; subst. clear Ht. induction IH as [|x vs Hx IH' IHl]; [discriminate|]. inversion F as [|? ? F1 F2]; subst. cbn [peek_layers] in H.
    destruct (is_object x) eqn:O.
    + inv_bind H. destruct a as [w|]; [|destruct (is_unmergeable x); [discriminate|apply IHl; assumption]]. destruct (ignores_fallbacks w); [injection Hk as <-; apply Hx; assumption|apply IHl; assumption].
    + destruct (is_unmergeable x); [discriminate|]. destruct (negb (is_resolved x)); [destruct x; try discriminate; apply IHl; assumption|]. destruct (negb (ignores_fallbacks x)); discriminate.
Qed.

Lemma find_path_ok : forall p obj above v ps, ok obj -> Forall ok above -> find_path obj p above = Ok (v, ps) -> ook v /\ Forall ok ps /\ ps <> [].
Proof.
  intro p. induction p as [|k p IH]; intros obj above v ps Ho Ha H; cbn [find_path] in H; [discriminate|]. inv_bind H.
  assert (Hv : ook a) by (destruct a; [eapply peek_ok; eassumption|exact I]). assert (Hps : Forall ok (obj :: above)) by (constructor; assumption).
  destruct p as [|k2 p].
  - injection Hk as <- <-. split; [exact Hv|]. split; [exact Hps|discriminate].
  - destruct a as [w|]; [destruct (is_object w); [apply (IH w (obj :: above)); assumption|]|]; injection Hk as <- <-; (split; [exact I|]; split; [exact Hps|discriminate]).
Qed.

Lemma restrict_ok : forall c p, context_ok c -> context_ok (restrict c p).
Proof. intros c p H. unfold restrict. destruct (path_eq p (restriction c)); [exact H|constructor]. Qed.
Lemma memoize_ok : forall c v r, context_ok c -> ook r -> context_ok (memoize c v r).
Proof. intros c v r H Hr. unfold memoize. destruct (find_memo (memos c) v); [exact H|]. apply Forall_app. split; [exact H|constructor; [exact Hr|constructor]]. Qed.
Lemma find_memo_ok : forall c v r, context_ok c -> find_memo (memos c) v = Some r -> ook r.
Proof. intros [p l m] v r H. unfold context_ok in H. cbn [memos] in *. induction H as [|[w x] m Hx F IH]; intro E; [discriminate|]. cbn [find_memo] in E. destruct (same w v); [injection E as <-; exact Hx|auto]. Qed.

Section Steps.
Variables allow_unresolved use_environment : bool.
Variable environment : list (str * str).
Variable rec : context -> value -> source -> result (option value * context).
Definition preserves (f : context -> value -> source -> result (option value * context)) : Prop :=
  forall c v s r c', context_ok c -> ok v -> source_ok s -> f c v s = Ok (r, c') -> ook r /\ context_ok c'.
Hypothesis Rec : preserves rec.

Lemma environment_ok : ok (environment_object environment).
Proof.
  constructor.
  - intros _. unfold fields_resolved. apply forallb_forall. intros x Hx. apply in_map_iff in Hx. destruct Hx as [y [<- _]]. reflexivity.
  - apply Forall_forall. intros x Hx. apply in_map_iff in Hx. destruct Hx as [y [<- _]]. constructor.
Qed.

Lemma find_in_ok : forall obj c p v c' ps, context_ok c -> ok obj -> find_in_object rec obj c p = Ok (v, c', ps) -> ook v /\ context_ok c' /\ Forall ok ps /\ ps <> [].
Proof.
  intros obj c p v c' ps Hc Ho H. unfold find_in_object in H. inv_bind H. destruct a as [o c1].
  assert (So : source_ok (Source obj [])) by (split; [exact Ho|constructor]). destruct (Rec _ _ _ _ _ (restrict_ok _ p Hc) Ho So Hb) as [O1 O2]. destruct o as [o|]; [|discriminate]. destruct (is_object o); [|discriminate].
  inv_bind Hk. destruct a as [w qs]. injection Hk0 as <- <- <-. destruct (find_path_ok _ _ _ _ _ O1 (Forall_nil _) Hb0) as [F1 F2]. split; [exact F1|]. split; [apply restrict_ok, O2|exact F2].
Qed.

Lemma lookup_ok : forall c p prefix s v c' ps, context_ok c -> source_ok s -> lookup_subst use_environment environment rec c p prefix s = Ok (v, c', ps) -> ook v /\ context_ok c' /\ Forall ok ps /\ ps <> [].
Proof.
  intros c p prefix s v c' ps Hc Hs H. unfold lookup_subst in H. inv_bind H. destruct a as [[w c1] qs]. destruct (find_in_ok _ _ _ _ _ _ Hc (proj1 Hs) Hb) as [A1 [A2 A3]].
  destruct w as [w|]; [injection Hk as <- <- <-; auto|]. cbn zeta in Hk. inv_bind Hk. destruct a as [[w2 c2] qs2].
  assert (B : ook w2 /\ context_ok c2 /\ Forall ok qs2 /\ qs2 <> []) by (destruct (0 <? prefix); [apply (find_in_ok _ _ _ _ _ _ A2 (proj1 Hs) Hb0)|injection Hb0 as <- <- <-; auto]).
  destruct w2 as [w2|]; [injection Hk0 as <- <- <-; exact B|]. destruct use_environment; [|injection Hk0 as <- <- <-; exact B].
  apply (find_in_ok _ moved_from _ _ _ _ (Forall_nil _) environment_ok Hk0).
Qed.

Lemma finish_ok : forall self id o v c r c', ok self -> ook v -> finish_reference allow_unresolved self id o v c = Ok (r, c') -> ook r /\ context_ok c'.
Proof.
  intros self id o v c r c' Hs Hv H. unfold finish_reference in H. destruct v as [v|]; [injection H as <- <-; split; [exact Hv|constructor]|].
  destruct o; [injection H as <- <-; split; [exact I|constructor]|]. destruct allow_unresolved; [injection H as <- <-; split; [exact Hs|constructor]|discriminate].
Qed.

Lemma attempt_inv : forall A (r : result A) x, attempt r = Ok (Some x) -> r = Ok x.
Proof. intros A [a|e|u] x H; cbn in H; [congruence|destruct e; discriminate|discriminate]. Qed.

Lemma reference_ok : forall id p o l c s r c', Q id p o l -> context_ok c -> source_ok s -> resolve_reference allow_unresolved use_environment environment rec id p o l c s = Ok (r, c') -> ook r /\ context_ok c'.
Proof.
  intros id p o l c s r c' HQ Hc Hs H. unfold resolve_reference in H. destruct (is_marked c id); [discriminate|]. assert (Self : ok (VRef id p o l)) by (constructor; exact HQ). inv_bind H.
  destruct a as [[[[v|] c1] ps]|].
  - apply attempt_inv in Hb. destruct (lookup_ok (add_marker c id) _ _ _ _ _ _ (Forall_nil _) Hs Hb) as [A1 [A2 [A3 A4]]]. inv_bind Hk. destruct a as [[v' c2]|].
    + apply attempt_inv in Hb0. assert (So : source_ok (Source (List.last ps v) ps)) by (split; [exact (last_ok ps v A3 A1)|exact A3]). destruct (Rec _ _ _ _ _ A2 A1 So Hb0) as [B1 B2]. exact (finish_ok _ _ _ _ _ _ _ Self B1 Hk0).
    + destruct o; [|discriminate]. exact (finish_ok _ _ _ None _ _ _ Self I Hk0).
  - exact (finish_ok _ _ _ None _ _ _ Self I Hk).
  - destruct o; [|discriminate]. exact (finish_ok _ _ _ None _ _ _ Self I Hk).
Qed.

Lemma pieces_ok : forall pieces c s rs c', Forall ok pieces -> context_ok c -> source_ok s -> resolve_pieces rec pieces c s = Ok (rs, c') -> Forall ok rs /\ context_ok c'.
Proof.
  intro pieces. induction pieces as [|p pieces IH]; intros c s rs c' F Hc Hs H; cbn [resolve_pieces] in H; [injection H as <- <-; split; [constructor|exact Hc]|]. inversion F as [|? ? F1 F2]; subst.
  inv_bind H. destruct a as [r c1]. inv_bind Hk. destruct a as [rs' c2]. injection Hk0 as <- <-. destruct (Rec _ _ _ _ _ (restrict_ok _ [] Hc) F1 Hs Hb) as [A1 A2].
  destruct (IH _ _ _ _ F2 (restrict_ok _ (restriction c) A2) Hs Hb0) as [B1 B2]. split; [destruct r; [constructor; assumption|exact B1]|exact B2].
Qed.

Lemma concatenation_ok : forall pieces c s r c', Forall ok pieces -> context_ok c -> source_ok s -> resolve_concatenation allow_unresolved rec pieces c s = Ok (r, c') -> ook r /\ context_ok c'.
Proof.
  intros pieces c s r c' F Hc Hs H. unfold resolve_concatenation in H. inv_bind H. destruct a as [rs c1]. destruct (pieces_ok _ _ _ _ _ F Hc Hs Hb) as [A1 A2]. inv_bind Hk. rename a into joined.
  pose proof (consolidate_ok _ _ A1 Hb0) as J. destruct ((1 <? List.length joined)%nat && allow_unresolved); [inv_bind Hk0; injection Hk as <- <-; split; [exact (new_concat_ok _ _ J Hb1)|exact A2]|].
  destruct joined as [|v [|w js]]; [injection Hk0 as <- <-; split; [exact I|exact A2]|injection Hk0 as <- <-; inversion J; subst; split; assumption|discriminate].
Qed.

Lemma stack_step_ok : forall self stack ends count merged c s r c', ok self -> Forall ok stack -> Forall ok ends -> ook merged -> context_ok c -> source_ok s ->
  resolve_stack rec self stack ends count merged c s = Ok (r, c') -> ook r /\ context_ok c'.
Proof.
  intros self stack ends. induction ends as [|e ends IH]; intros count merged c s r c' Hself Fs Fe Hm Hc Hs H; cbn [resolve_stack] in H; [injection H as <- <-; split; assumption|].
  inversion Fe as [|? ? F1 F2]; subst. destruct (is_delayed e); [discriminate|]. inv_bind H. rename a into s'.
  assert (S' : source_ok s').
  { destruct (is_unmergeable e); [|injection Hb as <-; apply push_parent_ok; assumption]. inv_bind Hb. inv_bind Hk0. injection Hk1 as <-.
    pose proof (replace_within_ok _ _ _ _ Hs (make_replacement_ok _ _ _ Fs Hb0) Hb) as R. split; [exact (proj1 R)|constructor]. }
  inv_bind Hk. destruct a as [x c1]. destruct (Rec _ _ _ _ _ Hc F1 S' Hb0) as [A1 A2]. inv_bind Hk0. rename a into merged'.
  apply (IH (S count) merged' c1 s r c' Hself Fs F2); [|exact A2|exact Hs|exact Hk]. destruct x as [x|]; [destruct merged as [m|]|].
  - inv_bind Hb1. injection Hk0 as <-. cbn. match goal with W : with_fallback _ _ = Ok _ |- _ => exact (fallback_ok _ _ _ Hm A1 W) end.
  - injection Hb1 as <-. exact A1.
  - injection Hb1 as <-. exact Hm.
Qed.

Lemma field_ok : forall k v c s r c', ok v -> context_ok c -> source_ok s -> resolve_field rec k v c s = Ok (r, c') -> ook r /\ context_ok c'.
Proof.
  intros k v c s r c' Hv Hc Hs H. unfold resolve_field in H. destruct (restriction c) as [|f rem] eqn:R.
  - inv_bind H. destruct a as [x c1]. injection Hk as <- <-. destruct (Rec _ _ _ _ _ Hc Hv Hs Hb) as [A1 A2]. split; [exact A1|apply restrict_ok, A2].
  - destruct (str_eqb k f); [|injection H as <- <-; split; assumption]. destruct rem as [|f2 rem]; [injection H as <- <-; split; assumption|].
    inv_bind H. destruct a as [x c1]. injection Hk as <- <-. destruct (Rec _ _ _ _ _ (restrict_ok _ _ Hc) Hv Hs Hb) as [A1 A2]. split; [exact A1|apply restrict_ok, restrict_ok, A2].
Qed.

Lemma fields_ok : forall m c s rs c', fok m -> context_ok c -> source_ok s -> resolve_fields rec m c s = Ok (rs, c') -> Forall (fun kr => ook (snd kr)) rs /\ context_ok c'.
Proof.
  intros m c s rs c' F. revert c rs c'. induction F as [|[k v] m Hv F IH]; intros c rs c' Hc Hs H; cbn [resolve_fields] in H; [injection H as <- <-; split; [constructor|exact Hc]|].
  inv_bind H. destruct a as [r c1]. inv_bind Hk. destruct a as [rs' c2]. injection Hk0 as <- <-. destruct (field_ok _ _ _ _ _ _ Hv Hc Hs Hb) as [A1 A2]. destruct (IH _ _ _ A2 Hs Hb0) as [B1 B2]. split; [constructor; assumption|exact B2].
Qed.

Lemma kept_ok : forall rs, Forall (fun kr => ook (snd kr)) rs -> fok (kept_fields rs).
Proof. intros rs F. unfold kept_fields. induction F as [|[k r] rs Hr F IH]; [constructor|]. cbn [flat_map snd]. destruct r; [constructor; assumption|exact IH]. Qed.

Lemma object_ok : forall r i m c s x c', ok (VObj r i m) -> context_ok c -> source_ok s -> resolve_object rec r i m c s = Ok (x, c') -> ook x /\ context_ok c'.
Proof.
  intros r i m c s x c' Ho Hc Hs H. unfold resolve_object in H. destruct r; [injection H as <- <-; split; assumption|]. inv_bind H. destruct a as [rs c1].
  assert (Fm : fok m) by (inversion Ho; assumption). destruct (fields_ok _ _ _ _ _ Fm Hc (push_parent_ok _ _ Hs Ho) Hb) as [A1 A2]. destruct (all_unchanged m rs); injection Hk as <- <-; (split; [|exact A2]); [exact Ho|].
  constructor; [auto|apply kept_ok, A1].
Qed.

Lemma elements_ok : forall rest before init changed c s x c', Forall ok before -> Forall ok rest -> Forall ok changed -> context_ok c -> source_ok s ->
  resolve_elements rec before rest init changed c s = Ok (x, c') -> Forall ok (snd x) /\ context_ok c'.
Proof.
  intro rest. induction rest as [|v rest IH]; intros before init changed c s x c' Fb Fr Fc Hc Hs H; cbn [resolve_elements] in H; [injection H as <- <-; split; assumption|].
  inversion Fr as [|? ? F1 F2]; subst. inv_bind H. destruct a as [r c1]. destruct (Rec _ _ _ _ _ Hc F1 Hs Hb) as [A1 A2].
  eapply (IH (before ++ [v])); [| | |exact A2|exact Hs|exact Hk]; [apply Forall_app; auto|exact F2|].
  set (changed1 := if match changed with [] => negb (unchanged v r) | _ :: _ => false end then before else changed).
  assert (C1 : Forall ok changed1) by (unfold changed1; destruct (match changed with [] => negb (unchanged v r) | _ :: _ => false end); assumption).
  destruct (init || _); [|exact C1]. destruct r as [r|]; [apply Forall_app; auto|exact C1].
Qed.

Lemma list_ok : forall vs c s x c', Forall ok vs -> context_ok c -> source_ok s -> resolve_list allow_unresolved rec vs c s = Ok (x, c') -> ook x /\ context_ok c'.
Proof.
  intros vs c s x c' F Hc Hs H. assert (Self : ok (VList vs)) by (constructor; exact F). unfold resolve_list in H. destruct (forallb is_resolved vs); [injection H as <- <-; split; assumption|].
  destruct (is_restricted c); [injection H as <- <-; split; assumption|]. inv_bind H. destruct a as [[init changed] c1].
  destruct (elements_ok _ _ _ _ _ _ _ _ (Forall_nil _) F (Forall_nil _) Hc (push_parent_ok _ _ Hs Self) Hb) as [A1 A2]. destruct init; [|injection Hk as <- <-; split; assumption].
  destruct (allow_unresolved || forallb is_resolved changed); [|discriminate]. injection Hk as <- <-. split; [constructor; exact A1|exact A2].
Qed.

Lemma step_preserves : preserves (resolve_step allow_unresolved use_environment environment rec).
Proof.
  intros c v s r c' Hc Hv Hs H. unfold resolve_step in H.
  assert (G : (if match v with VRef id _ _ _ => is_marked c id | _ => false end then Throw ENotPossible
      else '(r, c1) <- resolve_substitutions allow_unresolved use_environment environment rec v c s ;;
        match r with
        | None => Ok (r, memoize c1 v r)
        | Some w => if is_resolved w then Ok (r, memoize c1 v r) else if is_restricted c then Ok (r, c1) else if allow_unresolved then Ok (r, memoize c1 v r) else Throw EBug
        end) = Ok (r, c') -> ook r /\ context_ok c').
  { intro G. destruct (match v with VRef id _ _ _ => is_marked c id | _ => false end); [discriminate|]. inv_bind G. destruct a as [x c1].
    assert (A : ook x /\ context_ok c1).
    { destruct v; cbn [resolve_substitutions] in Hb.
      - injection Hb as <- <-. split; assumption.
      - inversion Hv; subst. eapply list_ok; eassumption.
      - eapply object_ok; eassumption.
      - inversion Hv; subst. eapply reference_ok; eassumption.
      - inversion Hv; subst. eapply concatenation_ok; eassumption.
      - inversion Hv; subst. eapply stack_step_ok with (merged := None); try eassumption. exact I.
      - inversion Hv; subst. eapply stack_step_ok with (merged := None); try eassumption. exact I. }
    destruct A as [A1 A2]. destruct x as [x|]; [|injection Hk as <- <-; split; [exact I|apply memoize_ok; assumption]].
    destruct (is_resolved x); [injection Hk as <- <-; split; [exact A1|apply memoize_ok; assumption]|]. destruct (is_restricted c); [injection Hk as <- <-; split; assumption|].
    destruct allow_unresolved; [|discriminate]. injection Hk as <- <-. split; [exact A1|apply memoize_ok; assumption]. }
  destruct (find_memo (memos c) v) as [[w|]|] eqn:M; [|exact (G H)|exact (G H)]. injection H as <- <-. split; [|exact Hc]. exact (find_memo_ok _ _ _ Hc M).
Qed.
End Steps.

Lemma resolve_preserves : forall allow use env n, preserves (resolve_n allow use env n).
Proof.
  intros allow use env n. induction n as [|n IH]; [intros c v s r c' _ _ _ H; discriminate|]. apply step_preserves, IH.
Qed.
End Sound.

(** ** Resolved values *)

Lemma sound_settled : forall Q v, sound Q v -> is_resolved v = true -> settled v.
Proof.
  intros Q v. induction v as [s|vs IH|r i m IH|n p o l|vs IH|vs IH|vs IH] using value_induction; intros H R; try discriminate.
  - constructor.
  - constructor. inversion H; subst. cbn [is_resolved] in R. rewrite forallb_forall in R. rewrite Forall_forall in *. auto.
  - constructor. inversion H as [| |? ? ? Hr Fm| | | |]; subst. cbn [is_resolved] in R. specialize (Hr R). unfold fields_resolved in Hr. rewrite forallb_forall in Hr. rewrite Forall_forall in *. intros x Hx. apply IH; auto.
Qed.

Lemma resolved_result : forall use env n c v s w c', restriction c = [] -> Forall (fun m => match snd m with Some x => is_resolved x = true | None => True end) (memos c) ->
  resolve_n false use env n c v s = Ok (Some w, c') -> is_resolved w = true.
Proof.
  intros use env n c v s w c' Hr Hm H. destruct n as [|n]; [discriminate|]. cbn [resolve_n] in H. unfold resolve_step in H.
  assert (G : (if match v with VRef id _ _ _ => is_marked c id | _ => false end then Throw ENotPossible
      else '(r, c1) <- resolve_substitutions false use env (resolve_n false use env n) v c s ;;
        match r with
        | None => Ok (r, memoize c1 v r)
        | Some w => if is_resolved w then Ok (r, memoize c1 v r) else if is_restricted c then Ok (r, c1) else Throw EBug
        end) = Ok (Some w, c') -> is_resolved w = true).
  { intro G. destruct (match v with VRef id _ _ _ => is_marked c id | _ => false end); [discriminate|]. inv_bind G. destruct a as [[x|] c1]; [|discriminate].
    destruct (is_resolved x) eqn:E; [injection Hk as <- _; exact E|]. unfold is_restricted in Hk. rewrite Hr in Hk. discriminate. }
  destruct (find_memo (memos c) v) as [[x|]|] eqn:M; [|exact (G H)|exact (G H)]. injection H as <- _. clear G. destruct c as [p l m]. cbn [memos] in *.
  induction Hm as [|[k y] m Hy F IH]; [discriminate|]. cbn [find_memo] in M. destruct (same k v); [injection M as ->; exact Hy|auto].
Qed.

Lemma resolve_config_settled : forall use env n v r w, truthful v -> truthful r -> resolve_with false use env n v r = Ok (Some w) -> settled w.
Proof.
  intros use env n v r w Hv Hr H. unfold resolve_with in H. inv_bind H. destruct a as [x c]. injection Hk as ->.
  destruct (resolve_preserves (fun _ _ _ _ => True) false use env n moved_from v (Source r []) (Some w) c) as [A _]; [constructor|exact Hv|split; [exact Hr|constructor]|exact Hb|].
  eapply sound_settled; [exact A|]. eapply resolved_result; [| |exact Hb]; [reflexivity|constructor].
Qed.

Lemma resolve_settled_again : forall allow use env n v s, is_resolved v = true -> resolve_with allow use env (S n) v s = Ok (Some v).
Proof.
  intros allow use env n v s H. unfold resolve_with. cbn [resolve_n]. unfold resolve_step. cbn [memos moved_from find_memo].
  destruct v; try discriminate H; cbn [resolve_substitutions].
  - reflexivity.
  - unfold resolve_list. cbn [is_resolved] in H. rewrite H. cbn [bind]. cbn [is_resolved]. rewrite H. reflexivity.
  - cbn [is_resolved] in H. subst. reflexivity.
Qed.

Lemma resolve_idempotent : forall use env n v r w, resolve_with false use env n v r = Ok (Some w) ->
  forall allow' use' env' n' r', resolve_with allow' use' env' (S n') w r' = Ok (Some w).
Proof.
  intros use env n v r w H allow' use' env' n' r'. apply resolve_settled_again. unfold resolve_with in H. inv_bind H. destruct a as [x c]. injection Hk as ->.
  eapply resolved_result; [| |exact Hb]; [reflexivity|constructor].
Qed.
