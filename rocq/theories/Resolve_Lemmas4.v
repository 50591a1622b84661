(** Cycle markers are kept when references are required or have one key. *)
From Verif Require Import Base BaseLemmas Util_Model Num_Model Path_Model Token_Model Value_Model Value_Spec Value_Lemmas Value_Lemmas2 Edit_Lemmas PathParser_Lemmas3 Path_Lemmas
  Duration_Model Config_Model Concat_Model Concat_Lemmas Resolve_Model Resolve_Spec Resolve_Lemmas Resolve_Lemmas2.

Lemma double_same_eq : forall a b, double_same a b = true <-> a = b.
Proof.
  intros a b. split.
  - destruct a, b; cbn; intro H; try discriminate; try (apply Bool.eqb_prop in H; congruence); try reflexivity.
    apply andb_prop in H. destruct H as [H H3]. apply andb_prop in H. destruct H as [H1 H2]. apply Bool.eqb_prop in H1. apply Pos.eqb_eq in H2. apply Z.eqb_eq in H3. congruence.
  - intros <-. destruct a; cbn; rewrite ?Bool.eqb_reflx, ?Pos.eqb_refl, ?Z.eqb_refl; reflexivity.
Qed.
Lemma scalar_same_eq : forall a b, scalar_same a b = true <-> a = b.
Proof.
  intros a b. split.
  - destruct a, b; cbn; intro H; try discriminate; try reflexivity; try (apply Bool.eqb_prop in H; congruence);
      apply andb_prop in H; destruct H as [H1 H2].
    + apply Z.eqb_eq in H1. apply str_eqb_eq in H2. congruence.
    + apply Z.eqb_eq in H1. apply str_eqb_eq in H2. congruence.
    + apply double_same_eq in H1. apply str_eqb_eq in H2. congruence.
    + apply str_eqb_eq in H1. apply Bool.eqb_prop in H2. congruence.
  - intros <-. destruct a; cbn; rewrite ?Bool.eqb_reflx, ?Z.eqb_refl, ?str_eqb_refl; try reflexivity. rewrite andb_true_r. apply double_same_eq. reflexivity.
Qed.
Lemma same_list_eq : forall a, Forall (fun x => forall y, same x y = true <-> x = y) a -> forall b, same_list same a b = true <-> a = b.
Proof.
  intros a H. induction H as [|x a Hx F IH]; intros [|y b]; cbn [same_list]; split; intro E; try discriminate; try reflexivity.
  - apply andb_prop in E. destruct E as [E1 E2]. apply Hx in E1. apply IH in E2. congruence.
  - injection E as <- <-. rewrite (proj2 (Hx x) eq_refl), (proj2 (IH a) eq_refl). reflexivity.
Qed.
Lemma same_eq : forall a b, same a b = true <-> a = b.
Proof.
  intro a. induction a as [s|vs IH|r i m IH|n p o l|vs IH|vs IH|vs IH] using value_induction; intro b;
    try (destruct b; cbn [same]; (split; [intro E; discriminate|discriminate]) || (rewrite (same_list_eq _ IH); split; congruence)).
  - destruct b; cbn [same]; try (split; discriminate). rewrite scalar_same_eq. split; congruence.
  - destruct b as [| |r' i' m'| | | |]; cbn [same]; try (split; discriminate).
    assert (F : same_fields same m m' = true <-> m = m').
    { clear r i r' i'. revert m'. induction IH as [|[k x] m Hx F IH']; intros [|[k' y] m']; cbn [same_fields]; split; intro E; try discriminate; try reflexivity.
      - apply andb_prop in E. destruct E as [E E3]. apply andb_prop in E. destruct E as [E1 E2]. apply str_eqb_eq in E1. apply Hx in E2. apply IH' in E3. cbn in *. congruence.
      - injection E as <- <- <-. cbn [snd] in Hx. rewrite str_eqb_refl, (proj2 (Hx x) eq_refl), (proj2 (IH' m) eq_refl). reflexivity. }
    split; intro E.
    + apply andb_prop in E. destruct E as [E E3]. apply andb_prop in E. destruct E as [E1 E2]. apply Bool.eqb_prop in E1, E2. apply F in E3. congruence.
    + injection E as <- <- <-. rewrite !Bool.eqb_reflx, (proj2 F eq_refl). reflexivity.
  - destruct b as [| | |n' p' o' l'| | |]; cbn [same]; try (split; discriminate). split; intro E.
    + apply andb_prop in E. destruct E as [E E4]. apply andb_prop in E. destruct E as [E E3]. apply andb_prop in E. destruct E as [E1 E2].
      apply Nat.eqb_eq in E1. apply path_eq_spec in E2. apply Bool.eqb_prop in E3. apply Z.eqb_eq in E4. congruence.
    + injection E as <- <- <- <-. rewrite Nat.eqb_refl, (proj2 (path_eq_spec p p) eq_refl), Bool.eqb_reflx, Z.eqb_refl. reflexivity.
Qed.
Lemma same_refl : forall a, same a a = true.
Proof. intro a. apply same_eq. reflexivity. Qed.

Definition vobj (v : value) : Prop := match v with VObj _ _ _ => True | _ => False end.
Definition memo_good (c : context) : Prop := Forall (fun m => vobj (fst m) -> match snd m with Some x => vobj x | None => False end) (memos c).
Definition source_good (s : source) : Prop := vobj (root s) /\ match parents s with [] => True | p :: ps => vobj (List.last ps p) end.

Lemma restrict_markers : forall c p, markers (restrict c p) = markers c.
Proof. intros c p. unfold restrict. destruct (path_eq p (restriction c)); reflexivity. Qed.
Lemma restrict_good : forall c p, memo_good c -> memo_good (restrict c p).
Proof. intros c p H. unfold restrict. destruct (path_eq p (restriction c)); [exact H|constructor]. Qed.
Lemma restrict_restriction : forall c p, restriction (restrict c p) = p.
Proof. intros c p. unfold restrict. destruct (path_eq p (restriction c)) eqn:E; [|reflexivity]. apply path_eq_spec in E. congruence. Qed.
Lemma memoize_markers : forall c v r, markers (memoize c v r) = markers c.
Proof. intros c v r. unfold memoize. destruct (find_memo (memos c) v); reflexivity. Qed.
Lemma memoize_good : forall c v r, memo_good c -> (vobj v -> match r with Some x => vobj x | None => False end) -> memo_good (memoize c v r).
Proof. intros c v r H V. unfold memoize. destruct (find_memo (memos c) v); [exact H|]. apply Forall_app. split; [exact H|]. constructor; [exact V|constructor]. Qed.
Lemma find_memo_in : forall m v r, find_memo m v = Some r -> In (v, r) m.
Proof. intro m. induction m as [|[w x] m IH]; intros v r E; cbn [find_memo] in E; [discriminate|]. destruct (same w v) eqn:S; [|right; exact (IH _ _ E)]. apply same_eq in S. left. congruence. Qed.
Lemma filter_fresh : forall id l, existsb (Nat.eqb id) l = false -> filter (fun x => negb (Nat.eqb id x)) (l ++ [id]) = l.
Proof.
  intros id l. induction l as [|x l IH]; cbn [existsb filter app]; intro H.
  - rewrite Nat.eqb_refl. reflexivity.
  - apply orb_false_iff in H. destruct H as [H1 H2]. rewrite H1. cbn. rewrite (IH H2). reflexivity.
Qed.
Lemma last_cons : forall A (l : list A) x d, List.last (x :: l) d = List.last l x.
Proof. intros A l. induction l as [|y l IH]; intros x d; [reflexivity|]. change (List.last (y :: l) d = List.last (y :: l) x). rewrite IH, IH. reflexivity. Qed.

Lemma push_parent_good : forall s v, source_good s -> source_good (push_parent s v).
Proof.
  intros [R ps] v [H1 H2]. unfold push_parent. cbn [parents root] in *. destruct ps as [|p ps].
  - destruct (is_object v && same v R) eqn:E; [|split; assumption]. apply andb_prop in E. destruct E as [_ E]. apply same_eq in E. subst v. split; exact H1.
  - split; [exact H1|]. cbn [parents]. rewrite last_cons. exact H2.
Qed.
Lemma replace_child_vobj : forall p child r x, vobj p -> replace_child p child r = Ok x -> match x with Some y => vobj y | None => False end.
Proof. intros p child r x V E. destruct p; try contradiction. cbn [replace_child] in E. destruct (replace_in_fields m child r); cbn [bind] in E; try discriminate. injection E as <-. exact I. Qed.
Lemma replace_chain_good : forall above old r chain, vobj (List.last above old) -> (above = [] -> match r with Some y => vobj y | None => False end) ->
  replace_chain old above r = Ok chain -> match chain with [] => False | x :: xs => vobj (List.last xs x) end.
Proof.
  intro above. induction above as [|p above IH]; intros old r chain L N E; cbn [replace_chain] in E.
  - specialize (N eq_refl). destruct r as [y|]; [|contradiction]. destruct y; try contradiction. cbn in E. injection E as <-. exact I.
  - match type of E with bind ?x _ = _ => destruct x as [np|e|u] eqn:C; cbn [bind] in E; try discriminate end.
    destruct (replace_chain p above np) as [tail|e|u] eqn:T; cbn [bind] in E; try discriminate.
    assert (K : match tail with [] => False | x :: xs => vobj (List.last xs x) end).
    { refine (IH _ _ _ _ _ T); [rewrite last_cons in L; exact L|]. intros ->. refine (replace_child_vobj _ _ _ _ _ C). exact L. }
    destruct tail as [|t ts]; [contradiction|]. injection E as <-. destruct r as [y|]; [|exact K]. destruct (is_container y); [|exact K]. rewrite last_cons. exact K.
Qed.
Lemma replace_within_good : forall s old r s', source_good s -> is_delayed old = true -> replace_within_current_parent s old r = Ok s' -> source_good s'.
Proof.
  intros [R ps] old r s' [H1 H2] D E. unfold replace_within_current_parent in E. cbn [parents root] in *. destruct (match r with Some r0 => same old r0 | None => false end); [injection E as <-; split; assumption|].
  destruct ps as [|p ps].
  - destruct r as [r|]; [|discriminate]. destruct (same old R) eqn:S; [|discriminate]. apply same_eq in S. subst R. destruct old; try discriminate D; contradiction.
  - destruct (replace_child p old r) as [np|e|u] eqn:C; cbn [bind] in E; try discriminate.
    match type of E with (if ?b then _ else _) = _ => destruct b; [injection E as <-; split; assumption|] end.
    match type of E with bind ?x _ = _ => destruct x as [chain|e|u] eqn:X; cbn [bind] in E; try discriminate end.
    assert (K : match chain with [] => False | x :: xs => vobj (List.last xs x) end).
    { refine (replace_chain_good _ _ _ _ H2 _ X). intros ->. assert (V := replace_child_vobj _ _ _ _ H2 C). destruct np as [y|]; [|contradiction]. destruct y; try contradiction. exact I. }
    destruct chain as [|x xs]; [contradiction|]. destruct (is_object (List.last xs x)); [|discriminate]. injection E as <-. split; exact K.
Qed.
Lemma reset_good : forall s, source_good s -> source_good (reset_parents s).
Proof. intros s [H _]. split; [exact H|exact I]. Qed.
Lemma find_path_last : forall p obj above v ps, find_path obj p above = Ok (v, ps) -> exists q, ps = q ++ obj :: above.
Proof.
  intro p. induction p as [|k p IH]; intros obj above v ps E; cbn [find_path] in E; [discriminate|]. destruct (peek k obj) as [w|e|u]; cbn [bind] in E; try discriminate.
  assert (D : Ok (None (A := value), obj :: above) = Ok (v, ps) -> exists q, ps = q ++ obj :: above) by (intro X; injection X as _ <-; exists []; reflexivity).
  destruct p as [|k' p]; [injection E as _ <-; exists []; reflexivity|]. destruct w as [w|]; [|exact (D E)]. destruct (is_object w); [|exact (D E)].
  destruct (IH _ _ _ _ E) as [q ->]. exists (q ++ [w]). rewrite <- app_assoc. reflexivity.
Qed.
Lemma peek_throws : forall k v e, peek k v = Throw e -> e <> ENotPossible.
Proof.
  intros k v. induction v as [s|vs IH|r i m IH|n p o l|vs IH|vs IH|vs IH] using value_induction; intros e E; cbn [peek] in E; try discriminate.
  induction IH as [|x vs Hx F IH']; cbn [peek_layers] in E; [congruence|]. destruct (is_object x).
  - destruct (peek k x) as [[w|]|e'|u]; cbn [bind] in E; [destruct (ignores_fallbacks w); [discriminate|exact (IH' E)]|destruct (is_unmergeable x); [congruence|exact (IH' E)]| |discriminate].
    injection E as <-. exact (Hx _ eq_refl).
  - destruct (is_unmergeable x); [congruence|]. destruct (negb (is_resolved x)); [destruct x; try congruence; exact (IH' E)|]. destruct (negb (ignores_fallbacks x)); congruence.
Qed.
Lemma find_path_throws : forall p obj above e, find_path obj p above = Throw e -> e <> ENotPossible.
Proof.
  intro p. induction p as [|k p IH]; intros obj above e E; cbn [find_path] in E; [discriminate|]. destruct (peek k obj) as [w|e'|u] eqn:P; cbn [bind] in E; try discriminate.
  - destruct p as [|k' p]; [discriminate|]. destruct w as [w|]; [|discriminate]. destruct (is_object w); [exact (IH _ _ _ E)|discriminate].
  - injection E as <-. exact (peek_throws _ _ _ P).
Qed.

Lemma finish_keep : forall allow self id o v c r c', finish_reference allow self id o v c = Ok (r, c') -> c' = remove_marker c id.
Proof. intros allow self id o v c r c' E. unfold finish_reference in E. destruct v; [injection E as _ <-; reflexivity|]. destruct o; [injection E as _ <-; reflexivity|]. destruct allow; [injection E as _ <-; reflexivity|discriminate]. Qed.

Section Fragment.
Variables allow use : bool.
Variable env : list (str * str).
Variable Q : nat -> path -> bool -> Z -> Prop.
Hypothesis Q_prefix : forall id p o l, Q id p o l -> l = 0.
Hypothesis Q_optional : forall id p l, Q id p true l -> use = false /\ exists k, p = [k].
Hypothesis Q_environment : forall id p o l, use = true -> Q id p o l -> allow = false /\ forall x, p = [x] -> find_key x (map (fun kv => (fst kv, VScalar (SStr (snd kv) true))) env) = None.

Definition keeping (f : context -> value -> source -> result (option value * context)) : Prop :=
  forall c v s r c', context_ok Q c -> sound Q v -> source_ok Q s -> memo_good c -> source_good s -> f c v s = Ok (r, c') ->
    markers c' = markers c /\ memo_good c' /\ (vobj v -> match r with Some x => vobj x | None => False end).
Definition one_key (f : context -> value -> source -> result (option value * context)) : Prop :=
  forall c v s k, vobj v -> restriction c = [k] -> f c v s <> Throw ENotPossible.

Section Steps.
Variable rec : context -> value -> source -> result (option value * context).
Hypothesis Rec : preserves Q rec.
Hypothesis Keep : keeping rec.
Hypothesis One : one_key rec.
Hypothesis Flat : forall c i m s r c', memos c = [] -> rec c (VObj true i m) s = Ok (r, c') -> r = Some (VObj true i m).

Lemma find_in_keep : forall obj c p v c' ps, context_ok Q c -> sound Q obj -> memo_good c -> vobj obj -> find_in_object rec obj c p = Ok (v, c', ps) ->
  markers c' = markers c /\ memo_good c' /\ match ps with [] => False | x :: xs => vobj (List.last xs x) end.
Proof.
  intros obj c p v c' ps C O M V E. unfold find_in_object in E. destruct (rec (restrict c p) obj (Source obj [])) as [[w c1]|e|u] eqn:R; cbn [bind] in E; try discriminate.
  destruct (Keep _ _ _ _ _ (restrict_ok Q _ _ C) O (conj O (Forall_nil _) : source_ok Q (Source obj [])) (restrict_good _ _ M) (conj V I : source_good (Source obj [])) R) as [K1 [K2 K3]]. specialize (K3 V). destruct w as [o|]; [|discriminate].
  destruct (is_object o); [|discriminate]. destruct (find_path o p []) as [[w ps']|e|u] eqn:F; cbn [bind] in E; try discriminate. injection E as <- <- <-.
  split; [rewrite restrict_markers, K1, restrict_markers; reflexivity|]. split; [apply restrict_good, K2|]. apply find_path_last in F. destruct F as [q ->]. destruct q as [|x q]; [exact K3|]. cbn [app]. rewrite last_last. exact K3.
Qed.
Lemma environment_nothing : forall p v c' ps, (forall x, p = [x] -> find_key x (map (fun kv => (fst kv, VScalar (SStr (snd kv) true))) env) = None) ->
  find_in_object rec (environment_object env) moved_from p = Ok (v, c', ps) -> v = None.
Proof.
  intros p v c' ps N E. unfold find_in_object in E. destruct (rec (restrict moved_from p) (environment_object env) (Source (environment_object env) [])) as [[w c1]|e|u] eqn:R; cbn [bind] in E; try discriminate.
  apply Flat in R; [|unfold restrict; destruct (path_eq p (restriction moved_from)); reflexivity]. subst w. cbn [is_object environment_object] in E.
  match type of E with bind ?x _ = _ => destruct x as [[w ps']|e|u] eqn:F; cbn [bind] in E; try discriminate end. injection E as <- _ _.
  destruct p as [|x p]; cbn [find_path] in F; [discriminate|]. cbn [peek bind] in F. destruct p as [|y p].
  - rewrite (N x eq_refl) in F. congruence.
  - destruct (find_key x (map (fun kv => (fst kv, VScalar (SStr (snd kv) true))) env)) as [o|] eqn:K; [|congruence].
    assert (O : is_object o = false); [|rewrite O in F; congruence]. clear - K. induction env as [|[k v] e IH]; cbn [map find_key fst snd] in K; [discriminate|]. destruct (str_eqb x k); [injection K as <-; reflexivity|exact (IH K)].
Qed.
Lemma lookup_keep : forall id c p o l s v c' ps, Q id p o l -> context_ok Q c -> source_ok Q s -> memo_good c -> source_good s -> lookup_subst use env rec c p l s = Ok (v, c', ps) ->
  match ps with [] => False | x :: xs => vobj (List.last xs x) end /\ (use = false \/ v <> None -> markers c' = markers c /\ memo_good c').
Proof.
  intros id c p o l s v c' ps H C S M G E. unfold lookup_subst in E. rewrite (Q_prefix _ _ _ _ H) in E. destruct (find_in_object rec (root s) c p) as [[[w c1] ps1]|e|u] eqn:F1; cbn [bind] in E; try discriminate.
  destruct (find_in_keep _ _ _ _ _ _ C (proj1 S) M (proj1 G) F1) as [K1 [K2 K3]]. destruct w as [w|]; [injection E as <- <- <-; auto|]. cbn [Z.ltb Z.compare bind] in E.
  assert (U : use = true \/ use = false) by (destruct use; auto). destruct U as [U|U]; rewrite U in E; [|injection E as <- <- <-; auto]. replace (sub_path p 0) with p in E by (destruct p as [|a [|b q]]; reflexivity).
  assert (N := environment_nothing _ _ _ _ (proj2 (Q_environment _ _ _ _ U H)) E). subst v.
  split; [|intros [X|X]; [congruence|contradiction]].
  assert (C0 : context_ok Q moved_from) by constructor. assert (M0 : memo_good moved_from) by constructor.
  exact (proj2 (proj2 (find_in_keep _ _ _ _ _ _ C0 (environment_ok Q env) M0 I E))).
Qed.
Lemma lookup_optional : forall c k s, vobj (root s) -> use = false -> lookup_subst use env rec c [k] 0 s <> Throw ENotPossible.
Proof.
  intros c k s V U E. unfold lookup_subst in E. rewrite U in E. destruct (find_in_object rec (root s) c [k]) as [[[w c1] ps1]|e|u] eqn:F1; cbn [bind] in E; [destruct w; discriminate| |discriminate].
  injection E as ->. unfold find_in_object in F1. destruct (rec (restrict c [k]) (root s) (Source (root s) [])) as [[w c1]|e|u] eqn:R; cbn [bind] in F1; [|injection F1 as ->|discriminate].
  - destruct w as [o|]; [|discriminate]. destruct (is_object o); [|discriminate]. destruct (find_path o [k] []) as [[w ps']|e|u] eqn:F; cbn [bind] in F1; try discriminate. injection F1 as ->. exact (find_path_throws _ _ _ _ F eq_refl).
  - exact (One _ _ _ k V (restrict_restriction _ _) R).
Qed.
Lemma remove_markers : forall c id, is_marked c id = false -> forall c', markers c' = markers (add_marker c id) -> markers (remove_marker c' id) = markers c.
Proof. intros c id H c' E. cbn [remove_marker markers]. rewrite E. cbn [add_marker markers]. apply filter_fresh, H. Qed.
Lemma reference_keep : forall id p o l c s r c', Q id p o l -> context_ok Q c -> source_ok Q s -> memo_good c -> source_good s ->
  resolve_reference allow use env rec id p o l c s = Ok (r, c') -> markers c' = markers c /\ memo_good c'.
Proof.
  intros id p o l c s r c' H C S M G E. unfold resolve_reference in E. destruct (is_marked c id) eqn:Mk; [discriminate|].
  assert (Z0 := Q_prefix _ _ _ _ H).
  assert (D : forall c1, markers c1 = markers (add_marker c id) -> c' = remove_marker c1 id -> markers c' = markers c /\ memo_good c').
  { intros c1 E1 ->. split; [exact (remove_markers _ _ Mk _ E1)|constructor]. }
  assert (C0 : context_ok Q (add_marker c id)) by constructor. assert (M0 : memo_good (add_marker c id)) by constructor.
  destruct (lookup_subst use env rec (add_marker c id) p l s) as [[[v c1] ps]|e|u] eqn:L; cbn [attempt bind] in E; [|destruct e; cbn [attempt bind] in E; try discriminate|discriminate].
  - destruct (lookup_keep _ _ _ _ _ _ _ _ _ H C0 S M0 G L) as [K1 K2].
    destruct v as [v|].
    + assert (Nn : use = false \/ Some v <> None) by (right; discriminate). destruct (K2 Nn) as [K3 K4].
      destruct (lookup_ok Q use env rec Rec _ _ _ _ _ _ _ C0 S L) as [L1 [L2 [L3 L4]]].
      destruct (rec c1 v (Source (List.last ps v) ps)) as [[w c2]|e|u] eqn:R; cbn [attempt bind] in E; [|destruct e; cbn [attempt bind] in E; try discriminate|discriminate].
      * assert (S1 : source_ok Q (Source (List.last ps v) ps)) by (split; [exact (last_ok Q _ _ L3 L1)|exact L3]).
        assert (G1 : source_good (Source (List.last ps v) ps)). { destruct ps as [|x xs]; [contradiction|]. split; cbn [root parents]; [rewrite last_cons|]; exact K1. }
        destruct (Keep _ _ _ _ _ L2 L1 S1 K4 G1 R) as [K5 _]. refine (D c2 _ (finish_keep _ _ _ _ _ _ _ _ E)). congruence.
      * destruct o; [|discriminate]. exact (D c1 K3 (finish_keep _ _ _ _ _ _ _ _ E)).
    + assert (U : use = true \/ use = false) by (destruct use; auto). destruct U as [U|U].
      * destruct o; [destruct (Q_optional _ _ _ H); congruence|]. unfold finish_reference in E. rewrite (proj1 (Q_environment _ _ _ _ U H)) in E. discriminate.
      * destruct (K2 (or_introl U)) as [K3 K4]. exact (D c1 K3 (finish_keep _ _ _ _ _ _ _ _ E)).
  - destruct o; [|discriminate]. destruct (Q_optional _ _ _ H) as [U [k ->]]. subst l. exfalso. exact (lookup_optional _ _ _ (proj1 G) U L).
Qed.
Lemma pieces_keep : forall pieces c s rs c', Forall (sound Q) pieces -> context_ok Q c -> source_ok Q s -> memo_good c -> source_good s ->
  resolve_pieces rec pieces c s = Ok (rs, c') -> markers c' = markers c /\ memo_good c'.
Proof.
  intro pieces. induction pieces as [|p ps IH]; intros c s rs c' F C S M G E; cbn [resolve_pieces] in E; [injection E as _ <-; auto|]. inversion F as [|? ? F1 F2]; subst.
  destruct (rec (restrict c []) p s) as [[r c1]|e|u] eqn:R; cbn [bind] in E; try discriminate.
  destruct (resolve_pieces rec ps (restrict c1 (restriction c)) s) as [[rs' c2]|e|u] eqn:P; cbn [bind] in E; try discriminate. injection E as _ <-.
  destruct (Keep _ _ _ _ _ (restrict_ok Q _ _ C) F1 S (restrict_good _ _ M) G R) as [K1 [K2 _]]. destruct (Rec _ _ _ _ _ (restrict_ok Q _ _ C) F1 S R) as [_ C1].
  destruct (IH _ _ _ _ F2 (restrict_ok Q _ _ C1) S (restrict_good _ _ K2) G P) as [K3 K4]. rewrite !restrict_markers in *. split; [congruence|exact K4].
Qed.
Lemma stack_source_good : forall self stack e count s s', source_good s -> is_delayed self = true ->
  (if is_unmergeable e then remainder <- make_replacement stack (S count) ;; s1 <- replace_within_current_parent s self remainder ;; Ok (reset_parents s1) else Ok (push_parent s self)) = Ok s' -> source_good s'.
Proof.
  intros self stack e count s s' G D E. destruct (is_unmergeable e); [|injection E as <-; apply push_parent_good, G].
  destruct (make_replacement stack (S count)) as [r|x|u]; cbn [bind] in E; try discriminate. destruct (replace_within_current_parent s self r) as [s1|x|u] eqn:R; cbn [bind] in E; try discriminate.
  injection E as <-. apply reset_good. exact (replace_within_good _ _ _ _ G D R).
Qed.
Lemma stack_source_ok : forall self stack e count s s', source_ok Q s -> sound Q self -> Forall (sound Q) stack ->
  (if is_unmergeable e then remainder <- make_replacement stack (S count) ;; s1 <- replace_within_current_parent s self remainder ;; Ok (reset_parents s1) else Ok (push_parent s self)) = Ok s' -> source_ok Q s'.
Proof.
  intros self stack e count s s' G D F E. destruct (is_unmergeable e); [|injection E as <-; apply push_parent_ok; assumption].
  destruct (make_replacement stack (S count)) as [r|x|u] eqn:M; cbn [bind] in E; try discriminate. destruct (replace_within_current_parent s self r) as [s1|x|u] eqn:R; cbn [bind] in E; try discriminate.
  injection E as <-. assert (K := replace_within_ok Q _ _ _ _ G (make_replacement_ok Q _ _ _ F M) R). destruct K as [K _]. split; [exact K|constructor].
Qed.
Lemma stack_keep : forall self stack ends count merged c s r c', sound Q self -> is_delayed self = true -> Forall (sound Q) stack -> Forall (sound Q) ends -> context_ok Q c -> source_ok Q s -> memo_good c -> source_good s ->
  resolve_stack rec self stack ends count merged c s = Ok (r, c') -> markers c' = markers c /\ memo_good c'.
Proof.
  intros self stack ends. induction ends as [|e ends IH]; intros count merged c s r c' Hs D Fs Fe C S M G E; cbn [resolve_stack] in E; [injection E as _ <-; auto|]. inversion Fe as [|? ? F1 F2]; subst.
  destruct (is_delayed e); [discriminate|]. match type of E with bind ?x _ = _ => destruct x as [s'|y|u] eqn:Src; cbn [bind] in E; try discriminate end.
  assert (G' := stack_source_good _ _ _ _ _ _ G D Src). assert (S' := stack_source_ok _ _ _ _ _ _ S Hs Fs Src).
  destruct (rec c e s') as [[x c1]|y|u] eqn:R; cbn [bind] in E; try discriminate. destruct (Keep _ _ _ _ _ C F1 S' M G' R) as [K1 [K2 _]]. destruct (Rec _ _ _ _ _ C F1 S' R) as [_ C1].
  match type of E with bind ?x _ = _ => destruct x as [m'|y|u] eqn:Mg; cbn [bind] in E; try discriminate end.
  destruct (IH _ _ _ _ _ _ Hs D Fs F2 C1 S K2 G E) as [K3 K4]. split; [congruence|exact K4].
Qed.
Lemma field_keep : forall k v c s r c', sound Q v -> context_ok Q c -> source_ok Q s -> memo_good c -> source_good s ->
  resolve_field rec k v c s = Ok (r, c') -> markers c' = markers c /\ memo_good c'.
Proof.
  intros k v c s r c' H C S M G E. unfold resolve_field in E. destruct (restriction c) as [|f rest].
  - destruct (rec c v s) as [[x c1]|e|u] eqn:R; cbn [bind] in E; try discriminate. injection E as _ <-. destruct (Keep _ _ _ _ _ C H S M G R) as [K1 [K2 _]]. split; [rewrite restrict_markers; exact K1|apply restrict_good, K2].
  - destruct (str_eqb k f); [|injection E as _ <-; auto]. destruct rest as [|f' rest]; [injection E as _ <-; auto|].
    destruct (rec (restrict c (f' :: rest)) v s) as [[x c1]|e|u] eqn:R; cbn [bind] in E; try discriminate. injection E as _ <-.
    destruct (Keep _ _ _ _ _ (restrict_ok Q _ _ C) H S (restrict_good _ _ M) G R) as [K1 [K2 _]]. split; [rewrite !restrict_markers in *; exact K1|apply restrict_good, restrict_good, K2].
Qed.
Lemma fields_keep : forall m c s rs c', Forall (fun kv => sound Q (snd kv)) m -> context_ok Q c -> source_ok Q s -> memo_good c -> source_good s ->
  resolve_fields rec m c s = Ok (rs, c') -> markers c' = markers c /\ memo_good c'.
Proof.
  intro m. induction m as [|[k v] m IH]; intros c s rs c' F C S M G E; cbn [resolve_fields] in E; [injection E as _ <-; auto|]. inversion F as [|? ? F1 F2]; subst. cbn [snd] in F1.
  destruct (resolve_field rec k v c s) as [[r c1]|e|u] eqn:R; cbn [bind] in E; try discriminate.
  destruct (resolve_fields rec m c1 s) as [[rs' c2]|e|u] eqn:P; cbn [bind] in E; try discriminate. injection E as _ <-.
  destruct (field_keep _ _ _ _ _ _ F1 C S M G R) as [K1 K2]. destruct (field_ok Q rec Rec _ _ _ _ _ _ F1 C S R) as [_ C1].
  destruct (IH _ _ _ _ F2 C1 S K2 G P) as [K3 K4]. split; [congruence|exact K4].
Qed.
Lemma elements_keep : forall rest before init changed c s i ch c', Forall (sound Q) rest -> context_ok Q c -> source_ok Q s -> memo_good c -> source_good s ->
  resolve_elements rec before rest init changed c s = Ok (i, ch, c') -> markers c' = markers c /\ memo_good c'.
Proof.
  intro rest. induction rest as [|v rest IH]; intros before init changed c s i ch c' F C S M G E; cbn [resolve_elements] in E; [injection E as _ _ <-; auto|]. inversion F as [|? ? F1 F2]; subst.
  destruct (rec c v s) as [[r c1]|e|u] eqn:R; cbn [bind] in E; try discriminate. destruct (Keep _ _ _ _ _ C F1 S M G R) as [K1 [K2 _]]. destruct (Rec _ _ _ _ _ C F1 S R) as [_ C1].
  destruct (IH _ _ _ _ _ _ _ _ F2 C1 S K2 G E) as [K3 K4]. split; [congruence|exact K4].
Qed.
Lemma step_keep : keeping (resolve_step allow use env rec).
Proof.
  intros c v s r c' C V S M G E. unfold resolve_step in E.
  assert (B : ('(r, c1) <- resolve_substitutions allow use env rec v c s ;;
        match r with
        | None => Ok (r, memoize c1 v r)
        | Some w =>
            if is_resolved w then Ok (r, memoize c1 v r)
            else if is_restricted c then Ok (r, c1)
            else if allow then Ok (r, memoize c1 v r)
            else Throw EBug
        end) = Ok (r, c') -> markers c' = markers c /\ memo_good c' /\ (vobj v -> match r with Some x => vobj x | None => False end)).
  { intro B. destruct (resolve_substitutions allow use env rec v c s) as [[x c1]|e|u] eqn:R; cbn [bind] in B; try discriminate.
    assert (K : markers c1 = markers c /\ memo_good c1 /\ (vobj v -> match x with Some y => vobj y | None => False end)).
    { destruct v as [sc|vs|f i m|id p o l|vs|vs|vs]; cbn [resolve_substitutions] in R.
      - injection R as <- <-. split; [reflexivity|]. split; [exact M|]. intros [].
      - unfold resolve_list in R. destruct (forallb is_resolved vs); [injection R as <- <-; repeat split; [exact M|intros []]|]. destruct (is_restricted c); [injection R as <- <-; repeat split; [exact M|intros []]|].
        inversion V as [|? F| | | | |]; subst. destruct (resolve_elements rec [] vs false [] c (push_parent s (VList vs))) as [[[init ch] c2]|e|u] eqn:El; cbn [bind] in R; try discriminate.
        destruct (elements_keep _ _ _ _ _ _ _ _ _ F C (push_parent_ok Q _ _ S V) M (push_parent_good _ _ G) El) as [K1 K2].
        destruct init; [destruct (allow || forallb is_resolved ch); [|discriminate]|]; injection R as _ <-; (split; [exact K1|split; [exact K2|intros []]]).
      - unfold resolve_object in R. destruct f; [injection R as <- <-; repeat split; exact M|]. inversion V as [| |? ? ? _ F| | | |]; subst.
        destruct (resolve_fields rec m c (push_parent s (VObj false i m))) as [[rs c2]|e|u] eqn:Fl; cbn [bind] in R; try discriminate.
        destruct (fields_keep _ _ _ _ _ F C (push_parent_ok Q _ _ S V) M (push_parent_good _ _ G) Fl) as [K1 K2].
        destruct (all_unchanged m rs); injection R as <- <-; (split; [exact K1|split; [exact K2|intros _; exact I]]).
      - inversion V as [| | |? ? ? ? H| | |]; subst. destruct (reference_keep _ _ _ _ _ _ _ _ H C S M G R) as [K1 K2]. split; [exact K1|split; [exact K2|intros []]].
      - inversion V as [| | | |? F| |]; subst. unfold resolve_concatenation in R. destruct (resolve_pieces rec vs c s) as [[rs c2]|e|u] eqn:P; cbn [bind] in R; try discriminate.
        destruct (pieces_keep _ _ _ _ _ F C S M G P) as [K1 K2]. assert (c1 = c2); [|subst; split; [exact K1|split; [exact K2|intros []]]].
        destruct (consolidate rs) as [j|e|u]; cbn [bind] in R; try discriminate. destruct ((1 <? List.length j)%nat && allow).
        + destruct (new_concatenation j); cbn [bind] in R; try discriminate. congruence.
        + destruct j as [|a [|b j]]; congruence.
      - inversion V as [| | | | |? F|]; subst. destruct (stack_keep _ _ _ _ _ _ _ _ _ V eq_refl F F C S M G R) as [K1 K2]. split; [exact K1|split; [exact K2|intros []]].
      - inversion V as [| | | | | |? F]; subst. destruct (stack_keep _ _ _ _ _ _ _ _ _ V eq_refl F F C S M G R) as [K1 K2]. split; [exact K1|split; [exact K2|intros []]]. }
    destruct K as [K1 [K2 K3]].
    assert (Mm : markers (memoize c1 v x) = markers c /\ memo_good (memoize c1 v x)) by (split; [rewrite memoize_markers; exact K1|exact (memoize_good _ _ _ K2 K3)]).
    destruct x as [w|].
    - destruct (is_resolved w); [injection B as <- <-; tauto|]. destruct (is_restricted c); [injection B as <- <-; tauto|]. destruct allow; [injection B as <- <-; tauto|discriminate].
    - injection B as <- <-. tauto. }
  destruct (find_memo (memos c) v) as [[w|]|] eqn:Fm.
  - injection E as <- <-. split; [reflexivity|]. split; [exact M|]. apply find_memo_in in Fm. unfold memo_good in M. rewrite Forall_forall in M. exact (M _ Fm).
  - destruct (match v with VRef id _ _ _ => is_marked c id | _ => false end); [discriminate|exact (B E)].
  - destruct (match v with VRef id _ _ _ => is_marked c id | _ => false end); [discriminate|exact (B E)].
Qed.
Lemma one_fields : forall m c s k, restriction c = [k] -> exists rs, resolve_fields rec m c s = Ok (rs, c).
Proof.
  intros m. induction m as [|[k' v] m IH]; intros c s k R; cbn [resolve_fields]; [eexists; reflexivity|].
  assert (F : resolve_field rec k' v c s = Ok (Some v, c)) by (unfold resolve_field; rewrite R; destruct (str_eqb k' k); reflexivity). rewrite F. cbn [bind].
  destruct (IH c s k R) as [rs E]. rewrite E. eexists. reflexivity.
Qed.
Lemma step_one : one_key (resolve_step allow use env rec).
Proof.
  intros c v s k V R E. destruct v as [|vs|f i m| | | |]; try contradiction. unfold resolve_step in E.
  assert (B : forall x, ('(r, c1) <- resolve_substitutions allow use env rec (VObj f i m) c s ;;
        match r with
        | None => Ok (r, memoize c1 (VObj f i m) r)
        | Some w =>
            if is_resolved w then Ok (r, memoize c1 (VObj f i m) r)
            else if is_restricted c then Ok (r, c1)
            else if allow then Ok (r, memoize c1 (VObj f i m) r)
            else Throw EBug
        end) <> Throw x).
  { intros x B. cbn [resolve_substitutions] in B. unfold resolve_object in B. unfold is_restricted in B. rewrite R in B. destruct f; [cbn [bind is_resolved] in B; discriminate|].
    destruct (one_fields m c (push_parent s (VObj false i m)) k R) as [rs F]. rewrite F in B. cbn [bind] in B. destruct (all_unchanged m rs); cbn [bind is_resolved is_empty_path negb] in B; [discriminate|].
    destruct (fields_resolved (kept_fields rs)); discriminate. }
  destruct (find_memo (memos c) (VObj f i m)) as [[w|]|]; [discriminate|exact (B _ E)|exact (B _ E)].
Qed.
Lemma step_flat : forall c i m s r c', memos c = [] -> resolve_step allow use env rec c (VObj true i m) s = Ok (r, c') -> r = Some (VObj true i m).
Proof. intros c i m s r c' M E. unfold resolve_step in E. rewrite M in E. cbn in E. congruence. Qed.
End Steps.

Lemma resolve_one : forall n, one_key (resolve_n allow use env n).
Proof. intros [|n]; [intros c v s k _ _; discriminate|]. cbn [resolve_n]. apply step_one. Qed.
Lemma resolve_flat : forall n c i m s r c', memos c = [] -> resolve_n allow use env n c (VObj true i m) s = Ok (r, c') -> r = Some (VObj true i m).
Proof. intros [|n] c i m s r c' M E; [discriminate|]. exact (step_flat _ _ _ _ _ _ _ M E). Qed.
Lemma resolve_keep : forall n, keeping (resolve_n allow use env n).
Proof.
  intro n. induction n as [|n IH]; [intros c v s r c' _ _ _ _ _ E; discriminate|]. cbn [resolve_n]. apply step_keep; [apply resolve_preserves|exact IH|apply resolve_one|apply resolve_flat].
Qed.
End Fragment.
