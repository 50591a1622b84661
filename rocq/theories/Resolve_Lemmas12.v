(** What resolving returns is what the value means, delayed merges included: replacing one of them. *)
From Verif Require Import Base BaseLemmas Util_Model Num_Model Path_Model Token_Model Value_Model Value_Spec Value_Lemmas Value_Lemmas2 Path_Lemmas
  Duration_Model Config_Model Concat_Model Concat_Lemmas Resolve_Model Resolve_Spec Resolve_Lemmas Resolve_Lemmas2 Resolve_Lemmas4 Resolve_Lemmas5 Resolve_Lemmas6 Resolve_Lemmas7 Resolve_Lemmas8.

Lemma mesh_inside : forall R v w, mesh R v -> inside w v -> mesh R w.
Proof.
  intros R v w W I0. induction I0 as [|v vs H I0 IH|r i m k v H I0 IH|v vs H I0 IH|v vs H I0 IH|v vs H I0 IH]; [exact W| | | | |]; apply IH;
    inversion W as [|? F|? ? ? _ F| |? F|? ? Dv F]; subst; try discriminate Dv; try (injection Dv as ->); rewrite Forall_forall in F; exact (F _ H).
Qed.

(** ** [old] replaced somewhere in [v] *)
Definition steady (old v w : value) : Prop := inside old v /\ forall p, direct p v -> direct p w /\ ((forall x, get p v = Some x -> ~ inside old x) -> get p w = get p v).

Lemma replace_in_fields_parts : forall m child x m', replace_in_fields m child x = Ok m' -> exists m1 k m2, m = m1 ++ (k, child) :: m2 /\ m' = m1 ++ (match x with Some y => [(k, y)] | None => [] end) ++ m2.
Proof.
  intro m. induction m as [|[k v] m IH]; intros child x m' E; cbn [replace_in_fields] in E; [discriminate|]. destruct (same v child) eqn:S.
  - apply same_eq in S. subst v. injection E as <-. exists [], k, m. split; [reflexivity|]. destruct x; reflexivity.
  - destruct (replace_in_fields m child x) as [m''| |] eqn:E2; cbn [bind] in E; try discriminate. injection E as <-. destruct (IH _ _ _ E2) as [m1 [k1 [m2 [-> ->]]]]. exists ((k, v) :: m1), k1, m2. split; reflexivity.
Qed.
Lemma replace_in_list_parts : forall vs child x vs', replace_in_list vs child x = Ok vs' -> exists a b, vs = a ++ child :: b /\ vs' = a ++ (match x with Some y => [y] | None => [] end) ++ b.
Proof.
  intro vs. induction vs as [|v vs IH]; intros child x vs' E; cbn [replace_in_list] in E; [discriminate|]. destruct (same v child) eqn:S.
  - apply same_eq in S. subst v. injection E as <-. exists [], vs. split; [reflexivity|]. destruct x; reflexivity.
  - destruct (replace_in_list vs child x) as [vs''| |] eqn:E2; cbn [bind] in E; try discriminate. injection E as <-. destruct (IH _ _ _ E2) as [a [b [-> ->]]]. exists (v :: a), b. split; reflexivity.
Qed.
Lemma find_key_app : forall k (a b : fields), find_key k (a ++ b) = match find_key k a with Some v => Some v | None => find_key k b end.
Proof. intros k a b. induction a as [|[k' v] a IH]; [reflexivity|]. cbn [app find_key]. destruct (str_eqb k k'); [reflexivity|exact IH]. Qed.
Lemma delayed_direct : forall old p, is_delayed old = true -> direct p old -> p = [].
Proof. intros old [|k p] D H; [reflexivity|]. destruct old; try discriminate; contradiction. Qed.

Lemma fields_steady : forall old child m1 k m2 x r r' i i', inside old child ->
  (match x with Some y => steady old child y | None => is_delayed child = true end) \/ child = old /\ is_delayed old = true ->
  steady old (VObj r i (m1 ++ (k, child) :: m2)) (VObj r' i' (m1 ++ (match x with Some y => [(k, y)] | None => [] end) ++ m2)).
Proof.
  intros old child m1 k m2 x r r' i i' I0 H. split; [exact (inside_object _ _ _ _ _ _ (in_elt _ _ _) I0)|].
  intros [|k0 p] D; [split; [exact I|]; intro N; exfalso; apply (N _ eq_refl); exact (inside_object _ _ _ _ _ _ (in_elt _ _ _) I0)|]. cbn [direct get] in *. split.
  - destruct D as [D|D]; [left; exact D|right]. intros w Iw. apply in_app_or in Iw. destruct Iw as [Iw|Iw]; [apply D; apply in_or_app; left; exact Iw|]. apply in_app_or in Iw. destruct Iw as [Iw|Iw]; [|apply D; apply in_or_app; right; right; exact Iw].
    destruct x as [y|]; [|destruct Iw]. destruct Iw as [Iw|[]]. injection Iw as <- <-. assert (Dc : direct p child) by (apply D; apply in_elt). destruct H as [H|[-> H]]; [exact (proj1 (proj2 H p Dc))|]. rewrite (delayed_direct _ _ H Dc). exact I.
  - intro N. rewrite (find_key_app k0 m1 ((k, child) :: m2)) in N |- *. rewrite (find_key_app k0 m1 (_ ++ m2)). destruct (find_key k0 m1) as [v|]; [reflexivity|]. cbn [find_key] in N |- *. rewrite (find_key_app k0 _ m2). destruct (str_eqb k0 k) eqn:E.
    + apply str_eqb_eq in E. subst k0. assert (Dc : p = [] \/ direct p child) by (destruct D as [D|D]; [left; exact D|right; apply D; apply in_elt]).
      assert (P : p <> []) by (intros ->; exact (N child eq_refl I0)). destruct Dc as [Dc|Dc]; [contradiction|].
      destruct H as [H|[-> H]]; [|destruct (P (delayed_direct _ _ H Dc))]. destruct x as [y|]; [|destruct (P (delayed_direct _ _ H Dc))]. cbn [find_key]. rewrite (proj2 (str_eqb_eq k k) eq_refl). exact (proj2 (proj2 H p Dc) N).
    + destruct x; cbn [find_key]; [rewrite E|]; reflexivity.
Qed.
Definition unconcat (v : value) : Prop := match v with VObj _ _ _ | VList _ | VMerge _ | VMergeObj _ => True | _ => False end.
Lemma opaque_steady : forall old v w, inside old v -> (forall p, p <> [] -> ~ direct p v) -> steady old v w.
Proof.
  intros old v w I0 H. split; [exact I0|]. intros p D. destruct p as [|k p]; [|exfalso; exact (H (k :: p) ltac:(discriminate) D)]. split; [exact I|]. intro N. exfalso. exact (N v eq_refl I0).
Qed.
Lemma child_steady : forall old parent child y np, unconcat parent -> steady old child y -> replace_child parent child (Some y) = Ok np -> exists w, np = Some w /\ unconcat w /\ steady old parent w.
Proof.
  intros old parent child y np U S E. assert (I0 := proj1 S). destruct parent as [s|vs|r i m|id q o l|vs|vs|vs]; try contradiction; cbn [replace_child] in E.
  - destruct (replace_in_list vs child (Some y)) as [vs'| |] eqn:E2; cbn [bind] in E; try discriminate. apply replace_in_list_parts in E2. destruct E2 as [a [b [-> ->]]].
    assert (Q : Ok np = Ok (Some (VList (a ++ [y] ++ b)))) by (rewrite <- E; destruct a; reflexivity). injection Q as ->. eexists. split; [reflexivity|]. split; [exact I|]. split; [exact (inside_list _ _ _ (in_elt _ _ _) I0)|].
    intros [|k p] D; [split; [exact I|]; intro N; exfalso; apply (N _ eq_refl); exact (inside_list _ _ _ (in_elt _ _ _) I0)|]. split; [exact I|reflexivity].
  - destruct (replace_in_fields m child (Some y)) as [m'| |] eqn:E2; cbn [bind] in E; try discriminate. injection E as <-. apply replace_in_fields_parts in E2. destruct E2 as [m1 [k [m2 [-> ->]]]]. eexists. split; [reflexivity|]. split; [exact I|].
    apply (fields_steady old child m1 k m2 (Some y)); [exact I0|left; exact S].
  - destruct (replace_in_list vs child (Some y)) as [vs'| |] eqn:E2; cbn [bind] in E; try discriminate. apply replace_in_list_parts in E2. destruct E2 as [a [b [-> ->]]].
    assert (Q : Ok np = Ok (Some (VMerge (a ++ [y] ++ b)))) by (rewrite <- E; destruct a; reflexivity). injection Q as ->. eexists. split; [reflexivity|]. split; [exact I|]. apply opaque_steady; [exact (inside_merge _ _ _ (in_elt _ _ _) I0)|]. intros [|k p] P D; [contradiction|exact D].
  - destruct (replace_in_list vs child (Some y)) as [vs'| |] eqn:E2; cbn [bind] in E; try discriminate. apply replace_in_list_parts in E2. destruct E2 as [a [b [-> ->]]].
    assert (Q : Ok np = Ok (Some (VMerge (a ++ [y] ++ b)))) by (rewrite <- E; destruct a; reflexivity). injection Q as ->. eexists. split; [reflexivity|]. split; [exact I|]. apply opaque_steady; [exact (inside_merge_object _ _ _ (in_elt _ _ _) I0)|]. intros [|k p] P D; [contradiction|exact D].
Qed.
Lemma chain_steady : forall old above child y chain, Forall unconcat above -> unconcat y -> steady old child y -> replace_chain child above (Some y) = Ok chain ->
  exists x xs, chain = x :: xs /\ steady old (List.last above child) (List.last xs x).
Proof.
  intros old above. induction above as [|parent above IH]; intros child y chain F U S E; cbn [replace_chain] in E.
  - assert (C : is_container y = true) by (destruct y; try contradiction; reflexivity). rewrite C in E. injection E as <-. exists y, []. split; [reflexivity|exact S].
  - assert (C : is_container y = true) by (destruct y; try contradiction; reflexivity). rewrite C in E. inversion F as [|? ? Up Fa]; subst.
    destruct (replace_child parent child (Some y)) as [np| |] eqn:R; cbn [bind] in E; try discriminate. destruct (child_steady _ _ _ _ _ Up S R) as [w [-> [Uw Sw]]].
    destruct (replace_chain parent above (Some w)) as [tail| |] eqn:T; cbn [bind] in E; try discriminate. destruct (IH _ _ _ Fa Uw Sw T) as [x [xs [-> St]]]. injection E as <-. exists y, (x :: xs). split; [reflexivity|]. rewrite last_cons, last_cons. exact St.
Qed.

(** The parents are containers but concatenations, the outermost one is the root *)
Definition nested (s : source) : Prop := vobj (root s) /\ Forall unconcat (parents s) /\ match parents s with [] => True | p :: ps => List.last ps p = root s end.
(** The value is a field of an object *)
Definition in_object (s : source) : Prop := match parents s with [] | VObj _ _ _ :: _ => True | _ => False end.
Lemma replace_steady : forall s old x s', nested s -> in_object s -> is_delayed old = true -> replace_within_current_parent s old x = Ok s' ->
  vobj (root s') /\ (root s' = root s \/ steady old (root s) (root s')).
Proof.
  intros [R ps] old x s' [V [F L]] O D E. unfold replace_within_current_parent in E. unfold in_object in O. cbn [parents root] in *. destruct (match x with Some r0 => same old r0 | None => false end); [injection E as <-; split; [exact V|left; reflexivity]|].
  destruct ps as [|p ps].
  - destruct x as [x|]; [|discriminate]. destruct (same old R) eqn:S; [|discriminate]. apply same_eq in S. subst R. destruct old; try discriminate D; contradiction.
  - destruct p as [| |r i m| | | |]; try contradiction. cbn [replace_child] in E. destruct (replace_in_fields m old x) as [m'|e|u] eqn:C; cbn [bind] in E; try discriminate. cbn [is_container] in E.
    match type of E with (if ?b then _ else _) = _ => destruct b; [injection E as <-; split; [exact V|left; reflexivity]|] end.
    assert (S : steady old (VObj r i m) (VObj (fields_resolved m') i m')). { apply replace_in_fields_parts in C. destruct C as [m1 [k [m2 [-> ->]]]]. apply fields_steady; [constructor|right; split; [reflexivity|exact D]]. }
    match type of E with bind ?x _ = _ => destruct x as [chain|e|u] eqn:X; cbn [bind] in E; try discriminate end.
    inversion F as [|? ? _ Fp]; subst. destruct (chain_steady old ps (VObj r i m) (VObj (fields_resolved m') i m') chain Fp I S X) as [y [ys [-> St]]].
    destruct (is_object (List.last ys y)) eqn:Oy; [|discriminate]. injection E as <-. cbn [root]. split; [|right; exact St].
    exact (replace_chain_good ps (VObj r i m) (Some (VObj (fields_resolved m') i m')) (y :: ys) V (fun _ => I) X).
Qed.
Lemma nested_push : forall s v, nested s -> unconcat v -> nested (push_parent s v).
Proof.
  intros [R ps] v [V [F L]] U. unfold push_parent. cbn [parents root] in *. destruct ps as [|p ps].
  - destruct (is_object v && same v R) eqn:E; [|split; [exact V|split; assumption]]. apply andb_prop in E. destruct E as [_ E]. apply same_eq in E. subst v. split; [exact V|split; [constructor; [exact U|constructor]|reflexivity]].
  - split; [exact V|]. split; [constructor; assumption|]. cbn [parents]. rewrite last_cons. exact L.
Qed.
Lemma root_push : forall s v, root (push_parent s v) = root s.
Proof. intros [R ps] v. unfold push_parent. cbn [parents root]. destruct ps; [destruct (is_object v && same v R)|]; reflexivity. Qed.

(** Walking down a direct path one meets objects *)
Lemma find_path_objects : forall p v above, vobj v -> p <> [] -> direct p v -> exists q, Forall vobj q /\ find_path v p above = Ok (get p v, q ++ v :: above).
Proof.
  intro p. induction p as [|k p IH]; intros v above V P D; [contradiction|]. destruct v as [| |r i m| | | |]; try contradiction. cbn [find_path peek bind direct get] in *.
  destruct p as [|k2 p]; [exists []; split; [constructor|]; cbn; destruct (find_key k m); reflexivity|]. destruct (find_key k m) as [w|] eqn:F; [|exists []; split; [constructor|reflexivity]].
  assert (I0 : In (k, w) m). { clear - F. induction m as [|[k' x] m IH]; cbn [find_key] in F; [discriminate|]. destruct (str_eqb k k') eqn:E; [apply str_eqb_eq in E; injection F as ->; left; congruence|right; exact (IH F)]. }
  destruct D as [D|D]; [discriminate|]. specialize (D w I0). destruct w as [| |r' i' m'| | | |]; cbn [is_object]; try (exists []; split; [constructor|reflexivity]); try contradiction.
  destruct (IH (VObj r' i' m') (VObj r i m :: above) I ltac:(discriminate) D) as [q [Fq E]]. exists (q ++ [VObj r' i' m']). split; [apply Forall_app; split; [exact Fq|constructor; [exact I|constructor]]|]. rewrite E, <- app_assoc. reflexivity.
Qed.
Lemma find_in_objects : forall allow use env n obj ms me p, vobj obj -> p <> [] -> direct p obj -> find_in_object (resolve_n allow use env n) obj (Context [] ms me) p = Stuck UFuel \/
  exists q, Forall vobj q /\ find_in_object (resolve_n allow use env n) obj (Context [] ms me) p = Ok (get p obj, Context [] ms [], q ++ [obj]).
Proof.
  intros allow use env n obj ms me p V P D. unfold find_in_object. rewrite restrict_new by exact P. destruct (walk allow use env n p ms obj (Source obj []) P D) as [E|[me' E]]; rewrite E; [left; reflexivity|right]. cbn [bind restriction].
  destruct obj; try contradiction. cbn [is_object]. destruct (find_path_objects p _ [] V P D) as [q [Fq F]]. rewrite F. cbn [bind]. rewrite restrict_new by congruence. exists q. split; [exact Fq|reflexivity].
Qed.
