(** The nodes of a JSON document: a grammar of what parsing gives and what editing keeps. *)
From Verif Require Import Base BaseLemmas Util_Model Num_Model Path_Model Token_Model Token_Spec Token_Lemmas Token_Lemmas2 PathParser_Model Doc_Model Edit_Model Value_Model Value_Spec Value_Lemmas Concat_Model ConfigParser_Model ConfigParser_Lemmas Json_Lemmas Json_Lemmas2 Render_Model Render_Lemmas3 Render_Lemmas4 JsonEdit_Lemmas.

Inductive white : node -> Prop :=
| white_newline : white (NTok TNewline)
| white_blank : forall w, blanks w -> white (NTok (TIgnored w))
| white_unquoted : forall w, blanks w -> white (NTok (TUnquoted w)).

(** Where we are inside braces or brackets: just opened, behind a value (with nothing but blanks since), behind a comma. *)
Inductive place := Open | After (close : bool) | Comma.
Definition line (p : place) : place := match p with After _ => After false | _ => p end.

Section Grammar.
(** May a newline stand between a field and the comma behind it? *)
Variable loose : bool.

Inductive good : node -> value -> Prop :=
| good_scalar : forall s x, readable (TValue s x) -> good (NSimple (TValue s x)) (VScalar s)
| good_list : forall cs vs, elements Open cs vs -> good (NArray (NTok TOpenSquare :: cs)) (VList vs)
| good_object : forall cs m, NoDup (map fst m) -> members Open cs m -> good (NObject (NTok TOpenCurly :: cs)) (new_object m)
with elements : place -> list node -> list value -> Prop :=
| el_white : forall p c cs vs, white c -> elements p cs vs -> elements p (c :: cs) vs
| el_comma : forall b cs vs, elements Comma cs vs -> elements (After b) (NTok TComma :: cs) vs
| el_value : forall p n v cs vs, p = Open \/ p = Comma -> good n v -> elements (After true) cs vs -> elements p (n :: cs) (v :: vs)
| el_end : forall p, p <> Comma -> elements p [NTok TCloseSquare] []
with field : list node -> str -> value -> Prop :=
| a_field : forall pre k t tl w1 w2 n v, Forall white pre -> readable (TValue (SStr k true) (token_text t)) -> tl = [] \/ tl = [TEnd] ->
    Forall white w1 -> Forall white w2 -> good n v ->
    field (pre ++ NPath ([k], t :: tl) :: w1 ++ NTok TColon :: w2 ++ [n]) k v
with members : place -> list node -> fields -> Prop :=
| me_blank : forall p w cs m, blanks w -> members p cs m -> members p (NTok (TIgnored w) :: cs) m
| me_line : forall p c cs m, white c -> members (line p) cs m -> members p (c :: cs) m
| me_comma : forall b cs m, b || loose = true -> members Comma cs m -> members (After b) (NTok TComma :: cs) m
| me_field : forall p fc k v cs m, p = Open \/ p = Comma -> field fc k v -> members (After true) cs m -> members p (NField fc :: cs) ((k, v) :: m)
| me_end : forall p, p <> Comma -> members p [NTok TCloseCurly] [].

Scheme good_min := Minimality for good Sort Prop
  with elements_min := Minimality for elements Sort Prop
  with field_min := Minimality for field Sort Prop
  with members_min := Minimality for members Sort Prop.
Combined Scheme good_mutual from good_min, elements_min, field_min, members_min.

(** ** The value of a node *)
Lemma good_value_node : forall n v, good n v -> is_value_node n = true.
Proof. intros n v H. destruct H; reflexivity. Qed.
Lemma white_dull : forall c, white c -> dull c.
Proof. intros c H. destruct H; split; (reflexivity || exact I). Qed.

Section Meaning.
Variable inc : include_kind -> str -> nat -> result (value * nat).
Notation parse := (ConfigParser_Model.parse_value JSON inc).
Lemma good_means_all :
  (forall n v, good n v -> forall st ac next, parse n st ac next = Ok (v, next)) /\
  (forall p cs vs, elements p cs vs -> forall st ac next, parse_values parse cs st ac next = Ok (vs, next)) /\
  (forall fc k v, field fc k v -> forall st ac next, ConfigParser_Model.parse_field parse fc st ac next = Ok ([k], v, next)) /\
  (forall p cs m, members p cs m -> forall m0 st ac next, NoDup (map fst m) -> (forall k, In k (map fst m) -> ~ In k (map fst m0)) ->
     parse_object_nodes JSON inc parse cs m0 st ac next = Ok (new_object (m0 ++ m), next)).
Proof.
  apply good_mutual.
  - reflexivity.
  - intros cs vs _ IH st ac next. cbn [ConfigParser_Model.parse_value].
    change (parse_values parse (NTok TOpenSquare :: cs) st (ac + 1) next) with (parse_values parse cs st (ac + 1) next). rewrite IH. reflexivity.
  - intros cs m D _ IH st ac next. cbn [ConfigParser_Model.parse_value].
    change (parse_object_nodes JSON inc parse (NTok TOpenCurly :: cs) [] st ac next) with (parse_object_nodes JSON inc parse cs [] st ac next).
    rewrite IH; [reflexivity|exact D|]. intros k _ [].
  - intros p c cs vs W _ IH st ac next. destruct W; cbn [parse_values is_value_node]; apply IH.
  - intros b cs vs _ IH st ac next. cbn [parse_values is_value_node]. apply IH.
  - intros p n v cs vs _ G IHn _ IH st ac next. cbn [parse_values]. rewrite (good_value_node n v G), IHn. cbn [bind]. rewrite IH. reflexivity.
  - reflexivity.
  - intros pre k t tl w1 w2 n v Wp R T W1 W2 G IH st ac next. unfold ConfigParser_Model.parse_field.
    assert (FP : forall ns r, Forall white ns -> field_path (ns ++ NPath r :: w1 ++ NTok TColon :: w2 ++ [n]) = Ok r).
    { intros ns r H. induction H as [|c ns C H IHw]; [reflexivity|]. cbn [app]. destruct C; exact IHw. }
    rewrite FP by exact Wp. cbn [bind fst].
    assert (PE : forall ns r, Forall white ns -> is_plus_equals (ns ++ r) = is_plus_equals r).
    { intros ns r H. induction H as [|c ns C H IHw]; [reflexivity|]. cbn [app]. destruct C; exact IHw. }
    rewrite PE by exact Wp. change (is_plus_equals (NPath ([k], t :: tl) :: w1 ++ NTok TColon :: w2 ++ [n])) with (is_plus_equals (w1 ++ NTok TColon :: w2 ++ [n])).
    rewrite PE by exact W1. cbn [is_plus_equals andb].
    assert (FV : forall ns r st ac next, Forall white ns -> parse_field_value parse (ns ++ r) st ac next = parse_field_value parse r st ac next).
    { intros ns r st' ac' next' H. apply field_value_dull. eapply Forall_impl; [|exact H]. exact white_dull. }
    rewrite FV by exact Wp. cbn [parse_field_value is_value_node]. rewrite FV by exact W1. cbn [parse_field_value is_value_node]. rewrite FV by exact W2.
    cbn [parse_field_value]. rewrite (good_value_node n v G), IH. reflexivity.
  - intros p w cs m W _ IH m0 st ac next D I. cbn [parse_object_nodes]. apply IH; assumption.
  - intros p c cs m W _ IH m0 st ac next D I. destruct W; cbn [parse_object_nodes]; apply IH; assumption.
  - intros b cs m _ _ IH m0 st ac next D I. cbn [parse_object_nodes]. apply IH; assumption.
  - intros p fc k v cs m _ _ IHf _ IH m0 st ac next D I. cbn [map fst] in D, I. inversion D as [|? ? D1 D2]; subst.
    cbn [parse_object_nodes]. rewrite IHf. cbn [bind add_field].
    assert (Z : find_key k m0 = None) by (apply find_key_none; apply I; left; reflexivity).
    rewrite Z. cbn [bind]. rewrite find_none_append by exact Z. rewrite IH.
    + rewrite <- app_assoc. reflexivity.
    + exact D2.
    + intros q Q. rewrite map_app, in_app_iff. intros [K|[<-|[]]]; [exact (I q (or_intror Q) K)|exact (D1 Q)].
  - intros p _ m0 st ac next _ _. cbn [parse_object_nodes]. rewrite app_nil_r. reflexivity.
Qed.
Lemma good_means : forall n v, good n v -> forall st ac next, parse n st ac next = Ok (v, next).
Proof. exact (proj1 good_means_all). Qed.
End Meaning.

(** ** The text of a node *)
Lemma nodes_cons : forall c cs, render_nodes (c :: cs) = render_node c ++ render_nodes cs.
Proof. intros. unfold render_nodes, render_node. cbn [flat_map]. apply render_app. Qed.
Lemma nodes_app : forall a b, render_nodes (a ++ b) = render_nodes a ++ render_nodes b.
Proof. intros. unfold render_nodes. rewrite flat_map_app. apply render_app. Qed.
Lemma white_joins : forall c g, white c -> white_gap g -> exists g', white_gap g' /\ render_tokens g' = render_node c ++ render_tokens g.
Proof.
  assert (K : forall w g, blanks w -> white_gap g -> exists g', white_gap g' /\ render_tokens g' = w ++ render_tokens g).
  { intros w g W G. destruct G as [|w' W'|g G|w' g W' G].
    - exists [TIgnored w]. split; [constructor; exact W|reflexivity].
    - exists [TIgnored (w ++ w')]. split; [constructor|].
      + destruct W, W'. split; [intro E; apply app_eq_nil in E; tauto|apply Forall_app; auto].
      + unfold render_tokens. cbn. rewrite !app_nil_r. reflexivity.
    - exists (TIgnored w :: TNewline :: g). split; [constructor; assumption|reflexivity].
    - exists (TIgnored (w ++ w') :: TNewline :: g). split; [constructor; [|exact G]|].
      + destruct W, W'. split; [intro E; apply app_eq_nil in E; tauto|apply Forall_app; auto].
      + rewrite !render_cons. cbn [token_text]. rewrite <- app_assoc. reflexivity. }
  intros c g C G. destruct C as [|w W|w W].
  - exists (TNewline :: g). split; [constructor; exact G|reflexivity].
  - destruct (K w g W G) as [g' [G' E]]. exists g'. split; [exact G'|]. rewrite E. unfold render_node, render_tokens. cbn. rewrite app_nil_r. reflexivity.
  - destruct (K w g W G) as [g' [G' E]]. exists g'. split; [exact G'|]. rewrite E. unfold render_node, render_tokens. cbn. rewrite app_nil_r. reflexivity.
Qed.
Lemma whites_join : forall ws g, Forall white ws -> white_gap g -> exists g', white_gap g' /\ render_tokens g' = render_nodes ws ++ render_tokens g.
Proof.
  intros ws g H G. induction H as [|c ws C H [g1 [G1 E1]]]; [exists g; split; [exact G|reflexivity]|].
  destruct (white_joins c g1 C G1) as [g2 [G2 E2]]. exists g2. split; [exact G2|]. rewrite E2, E1, nodes_cons, <- app_assoc. reflexivity.
Qed.
Lemma whites_gap : forall ws, Forall white ws -> exists g, white_gap g /\ render_tokens g = render_nodes ws.
Proof. intros ws H. destruct (whites_join ws [] H wg_nil) as [g [G E]]. exists g. split; [exact G|]. rewrite E. apply app_nil_r. Qed.

(** What is spelled from a place on *)
Definition elements_spelled (p : place) (cs : list node) (vs : list value) : Prop :=
  match p with
  | After _ => exists ts, spell_others vs ts /\ render_nodes cs = render_tokens ts ++ lit "]"
  | _ => (exists g v vs' tv ts, white_gap g /\ vs = v :: vs' /\ spell v tv /\ spell_others vs' ts /\ render_nodes cs = render_tokens (g ++ tv ++ ts) ++ lit "]") \/
         (p = Open /\ exists g, white_gap g /\ vs = [] /\ render_nodes cs = render_tokens g ++ lit "]")
  end.
Definition members_spelled (p : place) (cs : list node) (m : fields) : Prop :=
  match p with
  | After _ => exists ts, spell_entries m ts /\ render_nodes cs = render_tokens ts ++ lit "}"
  | _ => (exists g k v m' te ts, white_gap g /\ m = (k, v) :: m' /\ spell_entry k v te /\ spell_entries m' ts /\ render_nodes cs = render_tokens (g ++ te ++ ts) ++ lit "}") \/
         (p = Open /\ exists g, white_gap g /\ m = [] /\ render_nodes cs = render_tokens g ++ lit "}")
  end.
Lemma members_white : forall p c cs m, white c -> members_spelled (line p) cs m -> members_spelled p (c :: cs) m.
Proof.
  assert (K : forall c cs m, white c -> (exists ts, spell_entries m ts /\ render_nodes cs = render_tokens ts ++ lit "}") -> exists ts, spell_entries m ts /\ render_nodes (c :: cs) = render_tokens ts ++ lit "}").
  { intros c cs m W [ts [S E]]. destruct S as [g G|g g' k v m te ts G G' S O].
    - destruct (white_joins c g W G) as [g1 [G1 E1]]. exists g1. split; [constructor; exact G1|]. rewrite nodes_cons, E, E1, <- app_assoc. reflexivity.
    - destruct (white_joins c g W G) as [g1 [G1 E1]]. exists (g1 ++ TComma :: g' ++ te ++ ts). split; [constructor; assumption|].
      rewrite nodes_cons, E, !render_app, E1, <- !app_assoc. reflexivity. }
  intros p c cs m W H. destruct p as [|b|]; cbn [members_spelled line] in *.
  - destruct H as [[g [k [v [m' [te [ts [G [-> [S [O E]]]]]]]]]]|[_ [g [G [-> E]]]]].
    + left. destruct (white_joins c g W G) as [g1 [G1 E1]]. exists g1, k, v, m', te, ts. repeat split; auto. rewrite nodes_cons, E, !render_app, E1, <- !app_assoc. reflexivity.
    + right. split; [reflexivity|]. destruct (white_joins c g W G) as [g1 [G1 E1]]. exists g1. repeat split; auto. rewrite nodes_cons, E, E1, <- !app_assoc. reflexivity.
  - apply K; assumption.
  - destruct H as [[g [k [v [m' [te [ts [G [-> [S [O E]]]]]]]]]]|[X _]]; [|discriminate].
    left. destruct (white_joins c g W G) as [g1 [G1 E1]]. exists g1, k, v, m', te, ts. repeat split; auto. rewrite nodes_cons, E, !render_app, E1, <- !app_assoc. reflexivity.
Qed.
Lemma elements_white : forall p c cs vs, white c -> elements_spelled p cs vs -> elements_spelled p (c :: cs) vs.
Proof.
  intros p c cs vs W H. destruct p as [|b|]; cbn [elements_spelled] in *.
  - destruct H as [[g [v [vs' [tv [ts [G [-> [S [O E]]]]]]]]]|[_ [g [G [-> E]]]]].
    + left. destruct (white_joins c g W G) as [g1 [G1 E1]]. exists g1, v, vs', tv, ts. repeat split; auto. rewrite nodes_cons, E, !render_app, E1, <- !app_assoc. reflexivity.
    + right. split; [reflexivity|]. destruct (white_joins c g W G) as [g1 [G1 E1]]. exists g1. repeat split; auto. rewrite nodes_cons, E, E1, <- !app_assoc. reflexivity.
  - destruct H as [ts [S E]]. destruct S as [g G|g g' v vs tv ts G G' S O].
    + destruct (white_joins c g W G) as [g1 [G1 E1]]. exists g1. split; [constructor; exact G1|]. rewrite nodes_cons, E, E1, <- app_assoc. reflexivity.
    + destruct (white_joins c g W G) as [g1 [G1 E1]]. exists (g1 ++ TComma :: g' ++ tv ++ ts). split; [constructor; assumption|].
      rewrite nodes_cons, E, !render_app, E1, <- !app_assoc. reflexivity.
  - destruct H as [[g [v [vs' [tv [ts [G [-> [S [O E]]]]]]]]]|[X _]]; [|discriminate].
    left. destruct (white_joins c g W G) as [g1 [G1 E1]]. exists g1, v, vs', tv, ts. repeat split; auto. rewrite nodes_cons, E, !render_app, E1, <- !app_assoc. reflexivity.
Qed.

Lemma good_spelled_all :
  (forall n v, good n v -> exists tv, spell v tv /\ render_node n = render_tokens tv) /\
  (forall p cs vs, elements p cs vs -> elements_spelled p cs vs) /\
  (forall fc k v, field fc k v -> exists g te, white_gap g /\ spell_entry k v te /\ render_nodes fc = render_tokens (g ++ te)) /\
  (forall p cs m, members p cs m -> members_spelled p cs m).
Proof.
  apply good_mutual.
  - intros s x R. exists [TValue s x]. split; [constructor; exact R|reflexivity].
  - intros cs vs _ IH. change (render_node (NArray (NTok TOpenSquare :: cs))) with (render_nodes (NTok TOpenSquare :: cs)). rewrite nodes_cons.
    destruct IH as [[g [v [vs' [tv [ts [G [-> [S [O E]]]]]]]]]|[_ [g [G [-> E]]]]]; rewrite E.
    + exists (TOpenSquare :: g ++ tv ++ ts ++ [TCloseSquare]). split; [constructor; assumption|]. rewrite render_cons, !render_app, <- !app_assoc. reflexivity.
    + exists (TOpenSquare :: g ++ [TCloseSquare]). split; [constructor; assumption|]. rewrite render_cons, !render_app. reflexivity.
  - intros cs m D _ IH. change (render_node (NObject (NTok TOpenCurly :: cs))) with (render_nodes (NTok TOpenCurly :: cs)). rewrite nodes_cons.
    destruct IH as [[g [k [v [m' [te [ts [G [-> [S [O E]]]]]]]]]]|[_ [g [G [-> E]]]]]; rewrite E.
    + exists (TOpenCurly :: g ++ te ++ ts ++ [TCloseCurly]). split; [constructor; assumption|]. rewrite render_cons, !render_app, <- !app_assoc. reflexivity.
    + exists (TOpenCurly :: g ++ [TCloseCurly]). split; [constructor; assumption|]. rewrite render_cons, !render_app. reflexivity.
  - intros p c cs vs W _ IH. apply elements_white; assumption.
  - intros b cs vs _ IH. destruct IH as [[g [v [vs' [tv [ts [G [-> [S [O E]]]]]]]]]|[X _]]; [|discriminate].
    exists ([] ++ TComma :: g ++ tv ++ ts). split; [constructor; try assumption; constructor|]. rewrite nodes_cons, E. reflexivity.
  - intros p n v cs vs P _ [tv [S E1]] _ [ts [O E2]]. cut (exists g v' vs' tv ts, white_gap g /\ v :: vs = v' :: vs' /\ spell v' tv /\ spell_others vs' ts /\ render_nodes (n :: cs) = render_tokens (g ++ tv ++ ts) ++ lit "]").
    + intro K. destruct P as [-> | ->]; left; exact K.
    + exists [], v, vs, tv, ts. repeat split; auto; [constructor|]. rewrite nodes_cons, E1, E2. cbn [app]. rewrite render_app, <- app_assoc. reflexivity.
  - intros p P. destruct p as [|b|]; [|exists []|congruence].
    + right. split; [reflexivity|]. exists []. repeat split. constructor.
    + split; [repeat constructor|reflexivity].
  - intros pre k t tl w1 w2 n v Wp R T W1 W2 _ [tv [S E]]. destruct (whites_gap pre Wp) as [g [G Eg]]. destruct (whites_gap w1 W1) as [g1 [G1 E1]]. destruct (whites_gap w2 W2) as [g2 [G2 E2]].
    exists g, (TValue (SStr k true) (token_text t) :: g1 ++ TColon :: g2 ++ tv). split; [exact G|]. split; [constructor; assumption|].
    rewrite nodes_app, nodes_cons, nodes_app, nodes_cons, nodes_app, nodes_cons. rewrite !render_app, render_cons, !render_app, render_cons, render_app, Eg, E1, E2, E. unfold render_nodes at 4. cbn [flat_map render_tokens map concat]. rewrite app_nil_r.
    f_equal. destruct T as [-> | ->]; unfold render_node at 1; cbn [node_tokens]; rewrite !render_cons; cbn [render_tokens map concat token_text]; rewrite !app_nil_r; reflexivity.
  - intros p w cs m W _ IH. destruct p as [|b|]; [apply (members_white Open)| |apply (members_white Comma)]; try (constructor; exact W); try exact IH.
    apply (members_white (After false)); [constructor; exact W|exact IH].
  - intros p c cs m W _ IH. apply members_white; assumption.
  - intros b cs m _ _ IH. destruct IH as [[g [k [v [m' [te [ts [G [-> [S [O E]]]]]]]]]]|[X _]]; [|discriminate].
    exists ([] ++ TComma :: g ++ te ++ ts). split; [constructor; try assumption; constructor|]. rewrite nodes_cons, E. reflexivity.
  - intros p fc k v cs m P _ [g [te [G [S E1]]]] _ [ts [O E2]].
    assert (K : members_spelled Comma (NField fc :: cs) ((k, v) :: m)).
    { left. exists g, k, v, m, te, ts. repeat split; auto. rewrite nodes_cons, E2. change (render_node (NField fc)) with (render_nodes fc). rewrite E1, !render_app, <- !app_assoc. reflexivity. }
    destruct P as [-> | ->]; [|exact K]. destruct K as [K|[X _]]; [left; exact K|discriminate].
  - intros p P. destruct p as [|b|]; [|exists []|congruence].
    + right. split; [reflexivity|]. exists []. repeat split. constructor.
    + split; [repeat constructor|reflexivity].
Qed.
Lemma good_spelled : forall n v, good n v -> exists tv, spell v tv /\ render_node n = render_tokens tv.
Proof. exact (proj1 good_spelled_all). Qed.
End Grammar.
