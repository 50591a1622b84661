(** Resolving ends. *)
From Verif Require Import Base BaseLemmas Util_Model Num_Model Path_Model Token_Model Value_Model Value_Spec Value_Lemmas Value_Lemmas2
  Duration_Model Config_Model Concat_Model Concat_Lemmas Resolve_Model Resolve_Spec Resolve_Lemmas Resolve_Lemmas2 Resolve_Lemmas4.

(** Neither unfinished nor raising anything but a config exception *)
Definition clean {A} (r : result A) : Prop := match r with Ok _ => True | Throw e => is_config_exn e = true | Stuck u => u <> UFuel end.
Lemma clean_bind : forall A B (r : result A) (k : A -> result B), clean r -> (forall x, r = Ok x -> clean (k x)) -> clean (bind r k).
Proof. intros A B r k H K. destruct r; cbn [bind]; [apply K; reflexivity|exact H|exact H]. Qed.
Lemma clean_ends : forall A (r : result A), clean r -> r <> Stuck UFuel.
Proof. intros A r H ->. exact (H eq_refl). Qed.

(** Nor anything else that has no meaning *)
Definition not_impossible (e : exn) : bool := match e with ENotPossible => false | _ => is_config_exn e end.
Definition neat {A} (r : result A) : Prop := match r with Ok _ => True | Throw e => not_impossible e = true | Stuck _ => False end.
Lemma neat_bind : forall A B (r : result A) (k : A -> result B), neat r -> (forall x, r = Ok x -> neat (k x)) -> neat (bind r k).
Proof. intros A B r k H K. destruct r; cbn [bind]; [apply K; reflexivity|exact H|exact H]. Qed.
Lemma neat_clean : forall A (r : result A), neat r -> clean r.
Proof. intros A [x|e|u] H; [exact I|destruct e; try reflexivity; discriminate|contradiction]. Qed.
Lemma construct_neat : forall this stack, neat (construct_delayed_merge this stack).
Proof.
  intros this stack. unfold construct_delayed_merge, new_delayed_merge, new_delayed_merge_object. destruct (is_object this); destruct stack; try reflexivity; try exact I.
  destruct (negb (is_object v)); [reflexivity|]. destruct (existsb is_delayed (v :: stack)); [reflexivity|exact I].
Qed.
Lemma non_object_neat : forall this other, neat (merged_with_non_object this other).
Proof. intros. unfold merged_with_non_object. destruct (ignores_fallbacks this) eqn:E; [reflexivity|]. destruct (is_resolved this); [|apply construct_neat]. unfold with_fallbacks_ignored. destruct this; try exact I; rewrite E; reflexivity. Qed.
Lemma fallback_neat : forall a b, neat (with_fallback a b).
Proof.
  intro a. induction a as [s|vs IH|r i m IH|n p o l|vs IH|vs IH|vs IH] using value_induction; intros b; rewrite with_fallback_eq;
    match goal with |- neat (if ignores_fallbacks ?a then _ else _) => destruct (ignores_fallbacks a) eqn:I0; [exact I|] end;
    (destruct (is_unmergeable b) eqn:U; [unfold merged_with_the_unmergeable; rewrite I0; apply construct_neat|]);
    destruct b; try apply non_object_neat; try reflexivity.
  apply neat_bind; [|intros; exact I]. clear I0 U r i. induction IH as [|[k v] m Hv F IH]; cbn [merge_ours]; [exact I|].
  apply neat_bind; [destruct (find_key k m0); [apply Hv|exact I]|]. intros. apply neat_bind; [exact IH|]. intros. exact I.
Qed.
Lemma join_neat : forall a b, neat (join_values a b).
Proof.
  intros a b. unfold join_values. apply neat_bind; [destruct (is_object a && is_list b) eqn:E; [|exact I]; destruct a; try discriminate E; reflexivity|]. intros x _.
  apply neat_bind; [destruct (is_list a && is_object b) eqn:E; [|exact I]; apply andb_prop in E; destruct E as [_ E]; destruct b; try discriminate E; reflexivity|]. intros y _.
  destruct (is_object x && is_object y); [apply neat_bind; [apply fallback_neat|intros; exact I]|].
  assert (P : neat (if (is_list x || is_object x) && is_ignored_whitespace y then Ok (Some x)
      else if is_concat x || is_concat y then Throw EConfig
      else if is_unmergeable x || is_unmergeable y then Ok None
      else
        let s1 := transform_to_string x in
        let s2 := transform_to_string y in
        match s1, s2 with
        | [], _ | _, [] => Throw EConfig
        | _, _ => Ok (Some (VScalar (SStr (s1 ++ s2) true)))
        end)).
  { destruct ((is_list x || is_object x) && is_ignored_whitespace y); [exact I|]. destruct (is_concat x || is_concat y); [reflexivity|].
    destruct (is_unmergeable x || is_unmergeable y); [exact I|]. cbn zeta. destruct (transform_to_string x), (transform_to_string y); try reflexivity. }
  destruct x; try exact P. destruct y; try exact P. exact I.
Qed.
Lemma consolidate_neat : forall ps, neat (consolidate ps).
Proof.
  assert (J : forall ps b, neat (join_all b ps)).
  { intro ps. induction ps as [|v ps IH]; intro b; cbn [join_all]; [exact I|]. destruct b as [|x b]; [apply IH|]. apply neat_bind; [apply join_neat|]. intros [j|] _; apply IH. }
  intros [|a [|b ps]]; cbn [consolidate]; try exact I. apply J.
Qed.
Lemma new_concat_neat : forall ps, neat (new_concatenation ps).
Proof. intro ps. unfold new_concatenation. destruct (List.length ps <? 2)%nat; [reflexivity|]. destruct (existsb is_concat ps); [reflexivity|]. destruct (negb (existsb is_unmergeable ps)); [reflexivity|exact I]. Qed.
Lemma fallback_clean : forall a b, clean (with_fallback a b).
Proof. intros. apply neat_clean, fallback_neat. Qed.
Lemma consolidate_clean : forall ps, clean (consolidate ps).
Proof. intros. apply neat_clean, consolidate_neat. Qed.
Lemma new_concat_clean : forall ps, clean (new_concatenation ps).
Proof. intros. apply neat_clean, new_concat_neat. Qed.
Lemma replace_list_clean : forall vs child r, clean (replace_in_list vs child r).
Proof. intros vs child r. induction vs as [|v vs IH]; cbn [replace_in_list]; [discriminate|]. destruct (same v child); [exact I|]. apply clean_bind; [exact IH|intros; exact I]. Qed.
Lemma replace_fields_clean : forall m child r, clean (replace_in_fields m child r).
Proof. intros m child r. induction m as [|[k v] m IH]; cbn [replace_in_fields]; [reflexivity|]. destruct (same v child); [exact I|]. apply clean_bind; [exact IH|intros; exact I]. Qed.
Lemma replace_child_clean : forall p child r, clean (replace_child p child r).
Proof.
  intros p child r. destruct p; cbn [replace_child]; try discriminate; (apply clean_bind; [apply replace_fields_clean || apply replace_list_clean|]); intros x _; try exact I.
  destruct x; [exact I|]. apply clean_bind; [apply new_concat_clean|intros; exact I].
Qed.
Lemma replace_chain_clean : forall above old r, clean (replace_chain old above r).
Proof. intro above. induction above as [|p above IH]; intros old r; cbn [replace_chain]; [exact I|]. apply clean_bind; [apply replace_child_clean|]. intros. apply clean_bind; [apply IH|]. intros. exact I. Qed.
Lemma replace_within_clean : forall s old r, clean (replace_within_current_parent s old r).
Proof.
  intros s old r. unfold replace_within_current_parent. destruct (match r with Some r0 => same old r0 | None => false end); [exact I|]. destruct (parents s) as [|p ps].
  - destruct r as [r|]; [|reflexivity]. destruct (same old (root s) && is_container r); [exact I|reflexivity].
  - apply clean_bind; [apply replace_child_clean|]. intros np _. cbn zeta. match goal with |- clean (if ?b then _ else _) => destruct b; [exact I|] end. apply clean_bind; [apply replace_chain_clean|].
    intros [|x xs] _; [exact I|]. destruct (is_object (List.last xs x)); [exact I|discriminate].
Qed.
Lemma make_replacement_clean : forall stack n, clean (make_replacement stack n).
Proof.
  intros stack n. unfold make_replacement. destruct (skipn n stack) as [|v vs]; [exact I|]. apply clean_bind; [|intros; exact I]. clear n. revert v. induction vs as [|w vs IH]; intro v; cbn [merge_stack]; [exact I|].
  apply clean_bind; [apply fallback_clean|]. intros. apply IH.
Qed.
Lemma peek_clean : forall k v, clean (peek k v).
Proof.
  intros k v. induction v as [s|vs IH|r i m IH|n p o l|vs IH|vs IH|vs IH] using value_induction; cbn [peek]; try exact I.
  induction IH as [|x vs Hx F IH']; cbn [peek_layers]; [reflexivity|]. destruct (is_object x).
  - apply clean_bind; [exact Hx|]. intros [w|] _; [destruct (ignores_fallbacks w); [exact I|exact IH']|destruct (is_unmergeable x); [reflexivity|exact IH']].
  - destruct (is_unmergeable x); [reflexivity|]. destruct (negb (is_resolved x)); [destruct x; try reflexivity; exact IH'|]. destruct (negb (ignores_fallbacks x)); [reflexivity|exact I].
Qed.
Lemma find_path_clean : forall p obj above, clean (find_path obj p above).
Proof.
  intro p. induction p as [|k p IH]; intros obj above; cbn [find_path]; [discriminate|]. apply clean_bind; [apply peek_clean|]. intros w _. destruct p; [exact I|]. destruct w as [w|]; [|exact I]. destruct (is_object w); [apply IH|exact I].
Qed.
Lemma stack_source_clean : forall self stack e count s,
  clean (if is_unmergeable e then remainder <- make_replacement stack (S count) ;; s1 <- replace_within_current_parent s self remainder ;; Ok (reset_parents s1) else Ok (push_parent s self)).
Proof. intros. destruct (is_unmergeable e); [|exact I]. apply clean_bind; [apply make_replacement_clean|]. intros. apply clean_bind; [apply replace_within_clean|]. intros. exact I. Qed.
Lemma merged_clean : forall r merged, clean (match r, merged with Some v, Some m => w <- with_fallback m v ;; Ok (Some w) | Some v, None => Ok (Some v) | None, _ => Ok merged end).
Proof. intros [v|] [m|]; try exact I. apply clean_bind; [apply fallback_clean|intros; exact I]. Qed.

(** ** All that is raised is a config exception. *)
Definition lawful {A} (r : result A) : Prop := match r with Throw e => is_config_exn e = true | _ => True end.
Lemma clean_lawful : forall A (r : result A), clean r -> lawful r.
Proof. intros A [x|e|u] H; [exact I|exact H|exact I]. Qed.
Lemma lawful_bind : forall A B (r : result A) (k : A -> result B), lawful r -> (forall x, lawful (k x)) -> lawful (bind r k).
Proof. intros A B r k H K. destruct r; cbn [bind]; [apply K|exact H|exact H]. Qed.
Section Lawful.
Variables allow use : bool.
Variable env : list (str * str).
Variable rec : context -> value -> source -> result (option value * context).
Hypothesis Rec : forall c v s, lawful (rec c v s).
Lemma find_lawful : forall obj c p, lawful (find_in_object rec obj c p).
Proof. intros. unfold find_in_object. apply lawful_bind; [apply Rec|]. intros [[o|] c1]; [|reflexivity]. cbn zeta. destruct (is_object o); [|reflexivity]. apply lawful_bind; [apply clean_lawful, find_path_clean|]. intros [w ps]. exact I. Qed.
Lemma lookup_lawful : forall c p l s, lawful (lookup_subst use env rec c p l s).
Proof.
  intros. unfold lookup_subst. apply lawful_bind; [apply find_lawful|]. intros [[[w|] c1] ps]; [exact I|]. cbn zeta. apply lawful_bind; [destruct (0 <? l); [apply find_lawful|exact I]|].
  intros [[[w|] c2] ps2]; [exact I|]. destruct use; [apply find_lawful|exact I].
Qed.
Lemma attempt_lawful : forall A (r : result A), lawful r -> lawful (attempt r).
Proof. intros A [x|e|u] H; [exact I|destruct e; exact H || exact I|exact I]. Qed.
Lemma finish_lawful : forall self id o v c, lawful (finish_reference allow self id o v c).
Proof. intros. unfold finish_reference. destruct v; [exact I|]. destruct o; [exact I|]. destruct allow; [exact I|reflexivity]. Qed.
Lemma reference_lawful : forall id p o l c s, lawful (resolve_reference allow use env rec id p o l c s).
Proof.
  intros. unfold resolve_reference. destruct (is_marked c id); [reflexivity|]. cbn zeta. apply lawful_bind; [apply attempt_lawful, lookup_lawful|]. intros [[[[v|] c1] ps]|].
  - apply lawful_bind; [apply attempt_lawful, Rec|]. intros [[v' c2]|]; [apply finish_lawful|]. destruct o; [apply finish_lawful|reflexivity].
  - apply finish_lawful.
  - destruct o; [apply finish_lawful|reflexivity].
Qed.
Lemma stack_lawful : forall self stack es count merged c s, lawful (resolve_stack rec self stack es count merged c s).
Proof.
  intros self stack es. induction es as [|e es IH]; intros count merged c s; cbn [resolve_stack]; [exact I|]. destruct (is_delayed e); [reflexivity|].
  apply lawful_bind; [apply clean_lawful, stack_source_clean|]. intro s'. apply lawful_bind; [apply Rec|]. intros [r c1]. apply lawful_bind; [apply clean_lawful, merged_clean|]. intro. apply IH.
Qed.
Lemma step_lawful : forall c v s, lawful (resolve_step allow use env rec c v s).
Proof.
  intros c v s. unfold resolve_step.
  assert (B : lawful (if (match v with VRef id _ _ _ => is_marked c id | _ => false end) then Throw ENotPossible
      else
        '(r, c1) <- resolve_substitutions allow use env rec v c s ;;
        match r with
        | None => Ok (r, memoize c1 v r)
        | Some w =>
            if is_resolved w then Ok (r, memoize c1 v r)
            else if is_restricted c then Ok (r, c1)
            else if allow then Ok (r, memoize c1 v r)
            else Throw EBug
        end)).
  { destruct (match v with VRef id _ _ _ => is_marked c id | _ => false end); [reflexivity|]. apply lawful_bind.
    - destruct v as [sc|vs|f i m|id p o l|vs|vs|vs]; cbn [resolve_substitutions].
      + exact I.
      + unfold resolve_list. cbn zeta. destruct (forallb is_resolved vs); [exact I|]. destruct (is_restricted c); [exact I|]. apply lawful_bind.
        * generalize (@nil value) at 1. generalize (@nil value), false, c, (push_parent s (VList vs)). induction vs as [|v vs IH]; intros ch init c0 s0 before; cbn [resolve_elements]; [exact I|]. apply lawful_bind; [apply Rec|]. intros [r c1]. cbn zeta. apply IH.
        * intros [[init ch] c1]. destruct init; [|exact I]. destruct (allow || forallb is_resolved ch); [exact I|reflexivity].
      + unfold resolve_object. cbn zeta. destruct f; [exact I|]. apply lawful_bind.
        * generalize c, (push_parent s (VObj false i m)). induction m as [|[k v] m IH]; intros c0 s0; cbn [resolve_fields]; [exact I|]. apply lawful_bind.
          { unfold resolve_field. destruct (restriction c0) as [|f rest]; [apply lawful_bind; [apply Rec|]; intros [r c1]; exact I|]. destruct (str_eqb k f); [|exact I]. destruct rest; [exact I|]. apply lawful_bind; [apply Rec|]; intros [r c1]; exact I. }
          intros [r c1]. apply lawful_bind; [apply IH|]. intros [rs c2]. exact I.
        * intros [rs c1]. destruct (all_unchanged m rs); exact I.
      + apply reference_lawful.
      + unfold resolve_concatenation. apply lawful_bind.
        * generalize c, s. induction vs as [|v vs IH]; intros c0 s0; cbn [resolve_pieces]; [exact I|]. apply lawful_bind; [apply Rec|]. intros [r c1]. apply lawful_bind; [apply IH|]. intros [rs c2]. exact I.
        * intros [rs c1]. apply lawful_bind; [apply clean_lawful, consolidate_clean|]. intro j. destruct ((1 <? List.length j)%nat && allow); [apply lawful_bind; [apply clean_lawful, new_concat_clean|intros; exact I]|]. destruct j as [|a [|b j]]; try exact I. reflexivity.
      + apply stack_lawful.
      + apply stack_lawful.
    - intros [[w|] c1]; [|exact I]. destruct (is_resolved w); [exact I|]. destruct (is_restricted c); [exact I|]. destruct allow; [exact I|reflexivity]. }
  destruct (find_memo (memos c) v) as [[w|]|]; [exact I|exact B|exact B].
Qed.
End Lawful.
Lemma resolve_lawful : forall allow use env n c v s, lawful (resolve_n allow use env n c v s).
Proof. intros allow use env n. induction n as [|n IH]; intros c v s; [exact I|]. cbn [resolve_n]. apply step_lawful, IH. Qed.
Lemma resolve_with_lawful : forall allow use env n v r e, resolve_with allow use env n v r = Throw e -> is_config_exn e = true.
Proof.
  intros allow use env n v r e E. unfold resolve_with in E. assert (L := resolve_lawful allow use env n moved_from v (Source r [])). destruct (resolve_n allow use env n moved_from v (Source r [])) as [[x c]|e'|u]; cbn [bind] in E; try discriminate.
  injection E as <-. exact L.
Qed.

(** ** Resolving ends in the fragment of Resolve_Lemmas4 *)
Section Ends.
Variables allow use : bool.
Variable env : list (str * str).
Variable Q : nat -> path -> bool -> Z -> Prop.
Variable ids : list nat.
Hypothesis Q_prefix : forall id p o l, Q id p o l -> l = 0.
Hypothesis Q_optional : forall id p l, Q id p true l -> use = false /\ exists k, p = [k].
Hypothesis Q_environment : forall id p o l, use = true -> Q id p o l -> allow = false /\ forall x, p = [x] -> find_key x (map (fun kv => (fst kv, VScalar (SStr (snd kv) true))) env) = None.
Hypothesis Q_ids : forall id p o l, Q id p o l -> In id ids.
Notation R := (resolve_n allow use env).

Definition fresh (c : context) : nat := List.length (filter (fun id => negb (is_marked c id)) ids).
Lemma fresh_markers : forall c c', markers c' = markers c -> fresh c' = fresh c.
Proof. intros c c' E. unfold fresh, is_marked. rewrite E. reflexivity. Qed.
Lemma filter_shrinks : forall (f g : nat -> bool) l x, (forall y, g y = true -> f y = true) -> In x l -> f x = true -> g x = false -> (List.length (filter g l) < List.length (filter f l))%nat.
Proof.
  intros f g l x H. assert (L : forall l, (List.length (filter g l) <= List.length (filter f l))%nat).
  { intro l0. induction l0 as [|y l0 IH]; [apply le_n|]. cbn [filter]. destruct (g y) eqn:G; [rewrite (H _ G); cbn; lia|]. destruct (f y); cbn; lia. }
  induction l as [|y l IH]; intros I0 F G; [destruct I0|]. cbn [filter]. destruct I0 as [->|I0].
  - rewrite F, G. cbn. specialize (L l). lia.
  - specialize (IH I0 F G). destruct (g y) eqn:Gy; [rewrite (H _ Gy); cbn; lia|]. destruct (f y); cbn; lia.
Qed.
Lemma fresh_add : forall c id, In id ids -> is_marked c id = false -> (fresh (add_marker c id) < fresh c)%nat.
Proof.
  intros c id I0 M. unfold fresh. apply (filter_shrinks _ _ ids id); [|exact I0|rewrite M; reflexivity|].
  - intros y H. unfold is_marked in *. cbn [add_marker markers] in H. rewrite existsb_app in H. destruct (existsb (Nat.eqb y) (markers c)); [discriminate|reflexivity].
  - unfold is_marked. cbn [add_marker markers]. rewrite existsb_app. cbn. rewrite Nat.eqb_refl, orb_true_r. reflexivity.
Qed.

Definition fits (c : context) (s : source) : Prop := context_ok Q c /\ source_ok Q s /\ memo_good c /\ source_good s.
Lemma fits_after : forall n c v s r c', fits c s -> sound Q v -> R n c v s = Ok (r, c') -> fits c' s /\ fresh c' = fresh c /\ ook Q r.
Proof.
  intros n c v s r c' [C [S [M G]]] V E. destruct (resolve_keep allow use env Q Q_prefix Q_optional Q_environment n _ _ _ _ _ C V S M G E) as [K1 [K2 _]].
  destruct (resolve_preserves Q allow use env n _ _ _ _ _ C V S E) as [P1 P2]. split; [split; [exact P2|split; [exact S|split; [exact K2|exact G]]]|]. split; [exact (fresh_markers _ _ K1)|exact P1].
Qed.
Lemma fits_restrict : forall c s p, fits c s -> fits (restrict c p) s.
Proof. intros c s p [C [S [M G]]]. split; [apply restrict_ok, C|]. split; [exact S|]. split; [apply restrict_good, M|exact G]. Qed.
Lemma fresh_restrict : forall c p, fresh (restrict c p) = fresh c.
Proof. intros. apply fresh_markers, restrict_markers. Qed.
Lemma fits_push : forall c s v, fits c s -> sound Q v -> fits c (push_parent s v).
Proof. intros c s v [C [S [M G]]] V. split; [exact C|]. split; [apply push_parent_ok; assumption|]. split; [exact M|apply push_parent_good, G]. Qed.

Lemma R_growing : forall c v s, growing (fun n => R n c v s).
Proof. intros c v s n m H. apply resolve_below, H. Qed.
Ltac grows L := let Hle := fresh "Hle" in intros ? ? Hle; apply L; intros; apply resolve_below; exact Hle.

(** Resolving this value ends when at most [f] references are unmarked *)
Definition halts (f : nat) (v : value) : Prop := forall c s, (fresh c <= f)%nat -> fits c s -> sound Q v -> ends (fun n => R n c v s).

Lemma pieces_halt : forall f ps, Forall (halts f) ps -> Forall (sound Q) ps -> forall c s, (fresh c <= f)%nat -> fits c s -> ends (fun n => resolve_pieces (R n) ps c s).
Proof.
  intros f ps H. induction H as [|p ps Hp F IH]; intros So c s Fr Fi; cbn [resolve_pieces]; [apply ends_const; discriminate|]. inversion So as [|? ? S1 S2]; subst.
  apply (ends_bind _ _ (fun n => R n (restrict c []) p s) (fun x n => let '(r, c1) := x in '(rs, c2) <- resolve_pieces (R n) ps (restrict c1 (restriction c)) s ;; Ok (match r with Some v => v :: rs | None => rs end, c2))).
  - apply R_growing.
  - intros [r c1]. apply (growing_bind _ _ (fun n => resolve_pieces (R n) ps (restrict c1 (restriction c)) s)); [grows pieces_below|]. intros x n m _. apply below_refl.
  - apply Hp; [rewrite fresh_restrict; exact Fr|apply fits_restrict, Fi|exact S1].
  - intros n [r c1] E. destruct (fits_after _ _ _ _ _ _ (fits_restrict _ _ [] Fi) S1 E) as [F1 [F2 _]]. rewrite fresh_restrict in F2.
    apply (ends_bind _ _ (fun n => resolve_pieces (R n) ps (restrict c1 (restriction c)) s) (fun x _ => let '(rs, c2) := x in Ok (match r with Some v => v :: rs | None => rs end, c2))).
    + grows pieces_below.
    + intros x ? ? _. apply below_refl.
    + apply IH; [exact S2|rewrite fresh_restrict; lia|apply fits_restrict, F1].
    + intros ? [rs c2] _. apply ends_const. discriminate.
Qed.
Lemma elements_halt : forall f vs, Forall (halts f) vs -> Forall (sound Q) vs -> forall before init ch c s, (fresh c <= f)%nat -> fits c s -> ends (fun n => resolve_elements (R n) before vs init ch c s).
Proof.
  intros f vs H. induction H as [|v vs Hv F IH]; intros So before init ch c s Fr Fi; cbn [resolve_elements]; [apply ends_const; discriminate|]. inversion So as [|? ? S1 S2]; subst.
  apply (ends_bind _ _ (fun n => R n c v s) (fun x n => let '(r, c1) := x in
      let fresh := match ch with [] => negb (unchanged v r) | _ => false end in
      let changed1 := if fresh then before else ch in
      let init1 := init || fresh in
      let changed2 := if init1 then match r with Some w => changed1 ++ [w] | None => changed1 end else changed1 in
      resolve_elements (R n) (before ++ [v]) vs init1 changed2 c1 s)).
  - apply R_growing.
  - intros [r c1]. cbn zeta. grows elements_below.
  - apply Hv; assumption.
  - intros n [r c1] E. destruct (fits_after _ _ _ _ _ _ Fi S1 E) as [F1 [F2 _]]. cbn zeta. apply IH; [exact S2|lia|exact F1].
Qed.
Lemma field_after : forall n k v c s r c', fits c s -> sound Q v -> resolve_field (R n) k v c s = Ok (r, c') -> fits c' s /\ fresh c' = fresh c.
Proof.
  intros n k v c s r c' [C [S [M G]]] V E. destruct (field_keep Q (R n) (resolve_keep allow use env Q Q_prefix Q_optional Q_environment n) _ _ _ _ _ _ V C S M G E) as [K1 K2].
  destruct (field_ok Q (R n) (resolve_preserves Q allow use env n) _ _ _ _ _ _ V C S E) as [_ C1]. split; [split; [exact C1|split; [exact S|split; [exact K2|exact G]]]|exact (fresh_markers _ _ K1)].
Qed.
Lemma fields_halt : forall f m, Forall (fun kv => halts f (snd kv)) m -> Forall (fun kv => sound Q (snd kv)) m -> forall c s, (fresh c <= f)%nat -> fits c s -> ends (fun n => resolve_fields (R n) m c s).
Proof.
  intros f m H. induction H as [|[k v] m Hv F IH]; intros So c s Fr Fi; cbn [resolve_fields]; [apply ends_const; discriminate|]. inversion So as [|? ? S1 S2]; subst. cbn [snd] in *.
  apply (ends_bind _ _ (fun n => resolve_field (R n) k v c s) (fun x n => let '(r, c1) := x in '(rs, c2) <- resolve_fields (R n) m c1 s ;; Ok ((k, r) :: rs, c2))).
  - grows field_below.
  - intros [r c1]. apply (growing_bind _ _ (fun n => resolve_fields (R n) m c1 s)); [grows fields_below|]. intros x n m0 _. apply below_refl.
  - unfold resolve_field. destruct (restriction c) as [|x rest].
    + apply (ends_bind _ _ (fun n => R n c v s) (fun y _ => let '(r, c1) := y in Ok (r, restrict c1 []))); [apply R_growing|intros y ? ? _; apply below_refl|apply Hv; assumption|intros ? [r c1] _; apply ends_const; discriminate].
    + destruct (str_eqb k x); [|apply ends_const; discriminate]. destruct rest as [|y rest]; [apply ends_const; discriminate|].
      apply (ends_bind _ _ (fun n => R n (restrict c (y :: rest)) v s) (fun z _ => let '(r, c1) := z in Ok (r, restrict (restrict c1 []) (x :: y :: rest))));
        [apply R_growing|intros z ? ? _; apply below_refl|apply Hv; [rewrite fresh_restrict; exact Fr|apply fits_restrict, Fi|assumption]|intros ? [r c1] _; apply ends_const; discriminate].
  - intros n [r c1] E. destruct (field_after _ _ _ _ _ _ _ Fi S1 E) as [F1 F2].
    apply (ends_bind _ _ (fun n => resolve_fields (R n) m c1 s) (fun x _ => let '(rs, c2) := x in Ok ((k, r) :: rs, c2))).
    + grows fields_below.
    + intros x ? ? _. apply below_refl.
    + apply IH; [exact S2|lia|exact F1].
    + intros ? [rs c2] _. apply ends_const. discriminate.
Qed.
Lemma stack_halt : forall f self stack, sound Q self -> is_delayed self = true -> Forall (sound Q) stack -> forall es, Forall (halts f) es -> Forall (sound Q) es ->
  forall count merged c s, (fresh c <= f)%nat -> fits c s -> ends (fun n => resolve_stack (R n) self stack es count merged c s).
Proof.
  intros f self stack Hs D Fs es H. induction H as [|e es He F IH]; intros So count merged c s Fr Fi; cbn [resolve_stack]; [apply ends_const; discriminate|]. inversion So as [|? ? S1 S2]; subst.
  destruct (is_delayed e); [apply ends_const; discriminate|].
  match goal with |- ends (fun n => bind ?x _) => assert (Cl : clean x) by apply stack_source_clean; destruct x as [s'|y|u] eqn:Src; cbn [bind]; [|apply ends_const; discriminate|apply ends_const; intros E; injection E as ->; exact (Cl eq_refl)] end.
  destruct Fi as [C [So' [M G]]]. assert (Fi' : fits c s').
  { split; [exact C|]. split; [exact (stack_source_ok Q _ _ _ _ _ _ So' Hs Fs Src)|]. split; [exact M|exact (stack_source_good _ _ _ _ _ _ G D Src)]. }
  apply (ends_bind _ _ (fun n => R n c e s') (fun x n => let '(r, c1) := x in
        merged' <- (match r, merged with
                    | Some v, Some m => w <- with_fallback m v ;; Ok (Some w)
                    | Some v, None => Ok (Some v)
                    | None, _ => Ok merged
                    end) ;;
        resolve_stack (R n) self stack es (S count) merged' c1 s)).
  - apply R_growing.
  - intros [r c1]. apply (growing_bind _ _ (fun _ => match r, merged with
                    | Some v, Some m => w <- with_fallback m v ;; Ok (Some w)
                    | Some v, None => Ok (Some v)
                    | None, _ => Ok merged
                    end)); [intros ? ? _; apply below_refl|]. intro x. grows stack_below.
  - apply He; assumption.
  - intros n [r c1] E. destruct (fits_after _ _ _ _ _ _ Fi' S1 E) as [[C1 [_ [M1 _]]] [F2 _]]. assert (Cl1 := merged_clean r merged).
    match goal with |- ends (fun n => bind ?x _) => destruct x as [m'|y|u]; cbn [bind]; [|apply ends_const; discriminate|apply ends_const; intros X; injection X as ->; exact (Cl1 eq_refl)] end.
    apply IH; [exact S2|lia|]. split; [exact C1|]. split; [exact So'|]. split; [exact M1|exact G].
Qed.
Lemma flat_ends : forall c i m s, memos c = [] -> ends (fun n => R n c (VObj true i m) s).
Proof. intros c i m s M. exists 1%nat. cbn [resolve_n]. unfold resolve_step. rewrite M. cbn. discriminate. Qed.
Lemma find_ends : forall obj c p, ends (fun n => R n (restrict c p) obj (Source obj [])) -> ends (fun n => find_in_object (R n) obj c p).
Proof.
  intros obj c p H. unfold find_in_object.
  apply (ends_bind _ _ (fun n => R n (restrict c p) obj (Source obj [])) (fun x _ => let '(v, c1) := x in
    let c2 := restrict c1 (restriction c) in
    match v with
    | Some o => if is_object o then '(w, ps) <- find_path o p [] ;; Ok (w, c2, ps) else Throw EBug
    | None => Throw EBug
    end)); [apply R_growing|intros x ? ? _; apply below_refl|exact H|].
  intros n [[o|] c1] _; apply ends_const; [|discriminate]. cbn zeta. destruct (is_object o); [|discriminate]. apply clean_ends. apply clean_bind; [apply find_path_clean|]. intros [w ps] _. exact I.
Qed.
Lemma reference_halt : forall f id p o l, (forall g v, (g < f)%nat -> halts g v) -> Q id p o l -> forall c s, (fresh c <= f)%nat -> fits c s -> ends (fun n => resolve_reference allow use env (R n) id p o l c s).
Proof.
  intros f id p o l H HQ c s Fr Fi. unfold resolve_reference. destruct (is_marked c id) eqn:Mk; [apply ends_const; discriminate|]. cbn zeta.
  assert (Lt := fresh_add c id (Q_ids _ _ _ _ HQ) Mk). destruct Fi as [C [So [M G]]].
  assert (F0 : fits (add_marker c id) s) by (split; [constructor|split; [exact So|split; [constructor|exact G]]]).
  assert (Ht : forall v c0 s0, fresh c0 = fresh (add_marker c id) -> fits c0 s0 -> sound Q v -> ends (fun n => R n c0 v s0)).
  { intros v c0 s0 E0 F V. apply (H (fresh (add_marker c id)) v); [lia|lia|exact F|exact V]. }
  apply (ends_bind _ _ (fun n => attempt (lookup_subst use env (R n) (add_marker c id) p l s)) (fun looked n => match looked with
    | None => if o then finish_reference allow (VRef id p o l) id o None moved_from else Throw EConfig
    | Some (None, c1, _) => finish_reference allow (VRef id p o l) id o None c1
    | Some (Some v, c1, ps) =>
        resolved <- attempt (R n c1 v (Source (List.last ps v) ps)) ;;
        match resolved with
        | None => if o then finish_reference allow (VRef id p o l) id o None c1 else Throw EConfig
        | Some (v', c2) => finish_reference allow (VRef id p o l) id o v' c2
        end
    end)).
  - apply (growing_attempt _ (fun n => lookup_subst use env (R n) (add_marker c id) p l s)). grows lookup_below.
  - intros [[[[v|] c1] ps]|]; try (intros ? ? _; apply below_refl). apply (growing_bind _ _ (fun n => attempt (R n c1 v (Source (List.last ps v) ps)))); [apply (growing_attempt _ (fun n => R n c1 v (Source (List.last ps v) ps))), R_growing|]. intros x ? ? _. apply below_refl.
  - apply (ends_attempt _ (fun n => lookup_subst use env (R n) (add_marker c id) p l s)). unfold lookup_subst. rewrite (Q_prefix _ _ _ _ HQ). cbn [Z.ltb Z.compare].
    apply (ends_bind _ _ (fun n => find_in_object (R n) (root s) (add_marker c id) p) (fun x n => let '(w, c1, ps) := x in match w with
      | Some _ => Ok (w, c1, ps)
      | None => '(w, c1, ps) <- Ok (None, c1, ps) ;;
        match w with Some _ => Ok (w, c1, ps) | None => if use then find_in_object (R n) (environment_object env) moved_from (sub_path p 0) else Ok (None, c1, ps) end
      end)).
    + grows find_below.
    + intros [[[w|] c1] ps]; [intros ? ? _; apply below_refl|]. cbn [bind]. assert (Gb : forall b : bool, growing (fun n => if b then find_in_object (R n) (environment_object env) moved_from (sub_path p 0) else Ok (None, c1, ps))); [|apply Gb]. intros []; [grows find_below|intros ? ? _; apply below_refl].
    + apply find_ends. apply Ht; [apply fresh_restrict|apply fits_restrict|exact (proj1 So)]. destruct F0 as [A [_ [B _]]]. split; [exact A|]. split; [split; [exact (proj1 So)|constructor]|]. split; [exact B|split; [exact (proj1 G)|exact I]].
    + intros n [[[w|] c1] ps] _; [apply ends_const; discriminate|]. cbn [bind]. assert (Eb : forall b : bool, ends (fun n => if b then find_in_object (R n) (environment_object env) moved_from (sub_path p 0) else Ok (None, c1, ps))); [|apply Eb]. intros []; [|apply ends_const; discriminate]. apply find_ends. apply flat_ends. unfold restrict. destruct (path_eq (sub_path p 0) (restriction moved_from)); reflexivity.
  - intros n looked E. assert (Fn : forall v c1, ends (fun _ : nat => finish_reference allow (VRef id p o l) id o v c1)).
    { intros v c1. apply ends_const. unfold finish_reference. destruct v; [discriminate|]. destruct o; [discriminate|]. generalize allow. intros []; discriminate. }
    destruct looked as [[[[v|] c1] ps]|]; [|apply Fn|destruct o; [apply Fn|apply ends_const; discriminate]]. apply attempt_inv in E. destruct F0 as [A [_ [B _]]].
    destruct (lookup_keep allow use env Q Q_prefix Q_optional Q_environment (R n) (resolve_keep allow use env Q Q_prefix Q_optional Q_environment n) (resolve_flat allow use env n) _ _ _ _ _ _ _ _ _ HQ A So B G E) as [K1 K2].
    assert (Nn : use = false \/ Some v <> None) by (right; discriminate). destruct (K2 Nn) as [K3 K4].
    destruct (lookup_ok Q use env (R n) (resolve_preserves Q allow use env n) _ _ _ _ _ _ _ A So E) as [L1 [L2 [L3 L4]]].
    apply (ends_bind _ _ (fun n => attempt (R n c1 v (Source (List.last ps v) ps))) (fun resolved _ => match resolved with
        | None => if o then finish_reference allow (VRef id p o l) id o None c1 else Throw EConfig
        | Some (v', c2) => finish_reference allow (VRef id p o l) id o v' c2
        end)).
    + apply (growing_attempt _ (fun n => R n c1 v (Source (List.last ps v) ps))), R_growing.
    + intros x ? ? _. apply below_refl.
    + apply (ends_attempt _ (fun n => R n c1 v (Source (List.last ps v) ps))). apply Ht; [exact (fresh_markers _ _ K3)| |exact L1]. split; [exact L2|]. split; [split; [exact (last_ok Q _ _ L3 L1)|exact L3]|]. split; [exact K4|].
      destruct ps as [|x xs]; [contradiction|]. split; cbn [root parents]; [rewrite last_cons|]; exact K1.
    + intros ? [[v' c2]|] _; [apply Fn|]. destruct o; [apply Fn|apply ends_const; discriminate].
Qed.
Lemma all_halt : forall f v, halts f v.
Proof.
  intro f. induction f as [f IHf] using lt_wf_ind.
  assert (W : forall v, (forall c s, (fresh c <= f)%nat -> fits c s -> sound Q v -> ends (fun n => resolve_substitutions allow use env (R n) v c s)) -> halts f v).
  { intros v H c s Fr Fi V. enough (E : ends (fun n => R (S n) c v s)) by (destruct E as [n E]; exists (S n); exact E). cbn [resolve_n]. unfold resolve_step.
    assert (B : ends (fun n => '(r, c1) <- resolve_substitutions allow use env (R n) v c s ;;
        match r with
        | None => Ok (r, memoize c1 v r)
        | Some w =>
            if is_resolved w then Ok (r, memoize c1 v r)
            else if is_restricted c then Ok (r, c1)
            else if allow then Ok (r, memoize c1 v r)
            else Throw EBug
        end)).
    { apply (ends_bind _ _ (fun n => resolve_substitutions allow use env (R n) v c s) (fun x _ => let '(r, c1) := x in
        match r with
        | None => Ok (r, memoize c1 v r)
        | Some w =>
            if is_resolved w then Ok (r, memoize c1 v r)
            else if is_restricted c then Ok (r, c1)
            else if allow then Ok (r, memoize c1 v r)
            else Throw EBug
        end)); [grows substitutions_below|intros x ? ? _; apply below_refl|apply H; assumption|].
      intros n [[w|] c1] _; apply ends_const; [|discriminate]. destruct (is_resolved w); [discriminate|]. destruct (is_restricted c); [discriminate|]. generalize allow at 1. intros []; discriminate. }
    destruct (find_memo (memos c) v) as [[w|]|]; [apply ends_const; discriminate| |]; (destruct (match v with VRef id _ _ _ => is_marked c id | _ => false end); [apply ends_const; discriminate|exact B]). }
  intro v. induction v as [s|vs IH|r i m IH|id p o l|vs IH|vs IH|vs IH] using value_induction; apply W; intros c s0 Fr Fi V; cbn [resolve_substitutions].
  - apply ends_const. discriminate.
  - unfold resolve_list. cbn zeta. destruct (forallb is_resolved vs); [apply ends_const; discriminate|]. destruct (is_restricted c); [apply ends_const; discriminate|].
    apply (ends_bind _ _ (fun n => resolve_elements (R n) [] vs false [] c (push_parent s0 (VList vs))) (fun x _ => let '(init, changed, c1) := x in
      if init then if allow || forallb is_resolved changed then Ok (Some (VList changed), c1) else Throw EConfig else Ok (Some (VList vs), c1)));
      [grows elements_below|intros x ? ? _; apply below_refl| |].
    + inversion V as [|? F| | | | |]; subst. apply (elements_halt f); [exact IH|exact F|exact Fr|apply fits_push; assumption].
    + intros n [[init ch] c1] _. apply ends_const. destruct init; [|discriminate]. generalize allow at 1. intros []; [discriminate|]. cbn [orb]. destruct (forallb is_resolved ch); discriminate.
  - unfold resolve_object. cbn zeta. destruct r; [apply ends_const; discriminate|].
    apply (ends_bind _ _ (fun n => resolve_fields (R n) m c (push_parent s0 (VObj false i m))) (fun x _ => let '(rs, c1) := x in
      if all_unchanged m rs then Ok (Some (VObj false i m), c1) else Ok (Some (VObj (fields_resolved (kept_fields rs)) i (kept_fields rs)), c1)));
      [grows fields_below|intros x ? ? _; apply below_refl| |].
    + inversion V as [| |? ? ? _ F| | | |]; subst. apply (fields_halt f); [exact IH|exact F|exact Fr|apply fits_push; assumption].
    + intros n [rs c1] _. apply ends_const. destruct (all_unchanged m rs); discriminate.
  - inversion V as [| | |? ? ? ? HQ| | |]; subst. apply (reference_halt f); [intros g w Lt; apply IHf, Lt|exact HQ|exact Fr|exact Fi].
  - unfold resolve_concatenation.
    apply (ends_bind _ _ (fun n => resolve_pieces (R n) vs c s0) (fun x _ => let '(resolved, c1) := x in
      joined <- consolidate resolved ;;
      if (1 <? List.length joined)%nat && allow then v <- new_concatenation joined ;; Ok (Some v, c1)
      else match joined with [] => Ok (None, c1) | [v] => Ok (Some v, c1) | _ => Throw EConfig end)); [grows pieces_below|intros x ? ? _; apply below_refl| |].
    + inversion V as [| | | |? F| |]; subst. apply (pieces_halt f); assumption.
    + intros n [rs c1] _. apply ends_const, clean_ends. apply clean_bind; [apply consolidate_clean|]. intros j _. destruct (1 <? List.length j)%nat; cbn [andb].
      * generalize allow at 1. intros []; [apply clean_bind; [apply new_concat_clean|intros; exact I]|]. destruct j as [|a [|b j]]; try exact I. reflexivity.
      * destruct j as [|a [|b j]]; try exact I. reflexivity.
  - inversion V as [| | | | |? F|]; subst. apply (stack_halt f); try assumption. reflexivity.
  - inversion V as [| | | | | |? F]; subst. apply (stack_halt f); try assumption. reflexivity.
Qed.
End Ends.
