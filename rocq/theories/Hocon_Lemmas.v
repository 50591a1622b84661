(** Definitions one after the other, and values merged one after the other. *)
From Verif Require Import Base BaseLemmas Util_Model Num_Model Path_Model Token_Model PathParser_Model Doc_Model Value_Model Value_Spec Value_Lemmas Value_Lemmas2 Value_Lemmas3 Concat_Model ConfigParser_Model ConfigParser_Lemmas Rfc_Spec Rfc_Spec3 Rfc_Lemmas6 Rfc_Lemmas7 Rfc_Lemmas8 Hocon_Spec.

(** ** Definitions over what is there *)
Definition over (d : definition) (b : option json) : json := match b with Some j => overlay (nested (fst d) (snd d)) j | None => nested (fst d) (snd d) end.
Definition stack (ds : list definition) (b : option json) : option json := fold_left (fun b d => Some (over d b)) ds b.
Definition inner (k : str) (b : option json) : option json := match b with Some (JObject ms) => member k ms | _ => None end.
Definition uniques (ds : list definition) : Prop := Forall (fun d => unique (snd d)) ds.
Definition uniquely (b : option json) : Prop := match b with Some j => unique j | None => True end.

Lemma stack_app : forall a c b, stack (a ++ c) b = stack c (stack a b).
Proof. intros a c b. unfold stack. apply fold_left_app. Qed.
Lemma stack_defined : forall ds b, stack ds (Some b) = Some (fold_left (fun before d => overlay (nested (fst d) (snd d)) before) ds b).
Proof. induction ds as [|d ds IH]; intro b; [reflexivity|]. unfold stack in *. cbn [fold_left over]. apply IH. Qed.
Lemma defined_stack : forall ds, stack (([], JObject []) :: ds) None = Some (defined ds).
Proof. intro ds. unfold stack. cbn [fold_left over nested fst snd]. exact (stack_defined ds (JObject [])). Qed.
Lemma nested_unique : forall p j, unique j -> unique (nested p j).
Proof. induction p as [|k p IH]; intros j U; [exact U|]. cbn [nested]. apply unique_object; [repeat constructor; intros []|]. intros q i [E|[]]. injection E as <- <-. auto. Qed.
Lemma over_unique : forall d b, unique (snd d) -> uniquely b -> unique (over d b).
Proof. intros d [j|] U B; [apply overlay_unique; [apply nested_unique, U|exact B]|apply nested_unique, U]. Qed.
Lemma stack_unique : forall ds b, uniques ds -> uniquely b -> uniquely (stack ds b).
Proof. induction ds as [|d ds IH]; intros b U B; [exact B|]. inversion U as [|? ? U1 U2]; subst. apply (IH (Some (over d b))); [exact U2|]. apply over_unique; assumption. Qed.
Lemma inner_unique : forall k b, uniquely b -> uniquely (inner k b).
Proof.
  intros k [[]|] U; try exact I. cbn [inner]. destruct (member k ms) as [j|] eqn:E; [|exact I]. inversion U as [|? N F|? B]; subst; [|destruct B]. exact (F _ _ (member_in _ _ _ E)).
Qed.

(** ** Below a key *)
Lemma member_rest : forall k x ms q, q <> k -> member q (rest [(k, x)] ms) = member q ms.
Proof.
  intros k x ms q Hq. induction ms as [|[i j] ms IH]; [reflexivity|]. unfold rest in *. cbn [filter]. cbn [member] in IH |- *. destruct (str_eqb i k) eqn:E.
  - apply str_eqb_eq in E. subst i. rewrite IH. destruct (str_eqb q k) eqn:E2; [apply str_eqb_eq in E2; congruence|reflexivity].
  - cbn [member]. rewrite IH. reflexivity.
Qed.
Lemma over_below : forall k d b, exists ms, over (below [k] d) b = JObject ms /\ member k ms = Some (over d (inner k b)) /\ forall q, q <> k -> member q ms = inner q b.
Proof.
  intros k [p j] b. unfold over, below. cbn [fst snd app nested]. set (x := nested p j).
  assert (One : exists ms, JObject [(k, x)] = JObject ms /\ member k ms = Some x /\ forall q, q <> k -> member q ms = None).
  { exists [(k, x)]. split; [reflexivity|]. cbn [member]. rewrite str_eqb_refl. split; [reflexivity|]. intros q Hq. destruct (str_eqb q k) eqn:E; [apply str_eqb_eq in E; congruence|reflexivity]. }
  destruct b as [b|]; [|exact One]. destruct b; try exact One.
  rewrite overlay_objects. eexists. split; [reflexivity|]. unfold both. cbn [map app inner]. split.
  - cbn [member]. rewrite str_eqb_refl. reflexivity.
  - intros q Hq. cbn [member]. destruct (str_eqb q k) eqn:E; [apply str_eqb_eq in E; congruence|]. apply member_rest, Hq.
Qed.
Lemma stack_below : forall k E b, E <> [] -> exists ms, stack (map (below [k]) E) b = Some (JObject ms) /\ member k ms = stack E (inner k b) /\ forall q, q <> k -> member q ms = inner q b.
Proof.
  intros k E. induction E as [|d E IH]; intros b N; [congruence|]. destruct (over_below k d b) as [ms [E1 [E2 E3]]]. unfold stack in *. cbn [map fold_left]. rewrite E1. destruct E as [|d2 E].
  - exists ms. cbn [map fold_left]. auto.
  - destruct (IH (Some (JObject ms)) ltac:(discriminate)) as [ms2 [F1 [F2 F3]]]. exists ms2. split; [exact F1|]. split; [rewrite F2; cbn [inner]; rewrite E2; reflexivity|]. intros q Hq. rewrite F3 by exact Hq. cbn [inner]. auto.
Qed.

(** ** Values over what is there *)
Definition based (b : option json) (w : option value) : Prop :=
  match b, w with Some j, Some v => unique j /\ denotes j v /\ plain v | None, None => True | _, _ => False end.
Definition fall (v : value) (w : option value) : result value := match w with Some w => with_fallback v w | None => Ok v end.
Definition inside_of (k : str) (w : option value) : option value := match w with Some (VObj _ _ m) => find_key k m | _ => None end.
Definition acts (E : list definition) (v : value) : Prop :=
  plain v /\ E <> [] /\ uniques E /\ forall b w u, based b w -> fall v w = Ok u -> exists j, stack E b = Some j /\ denotes j u.
Definition same (b : option json) (w : option value) : Prop := match b, w with Some j, Some v => denotes j v | None, None => True | _, _ => False end.
Definition collects (D : list definition) (m : Value_Model.fields) : Prop :=
  plain (VObj true false m) /\ uniques D /\ forall b w u, based b w -> fall (VObj true false m) w = Ok u -> forall q, same (inner q (stack D b)) (inside_of q (Some u)).

Lemma based_unique : forall b w, based b w -> uniquely b.
Proof. intros [j|] [v|] H; try exact I; try destruct H. assumption. Qed.
Lemma based_inside : forall b w k, based b w -> same (inner k b) (inside_of k w).
Proof.
  intros [j|] [v|] k H; try exact I; try (destruct H; fail). destruct H as [U [D P]]. destruct D; cbn [inner inside_of]; try exact I.
  destruct (member k ms) as [j|] eqn:E.
  - destruct (H1 _ _ (member_in _ _ _ E)) as [v [F Dv]]. rewrite F. exact Dv.
  - assert (X : find_key k m = None); [|rewrite X; exact I]. destruct (find_key k m) as [v|] eqn:F; [|reflexivity]. destruct (member_none _ _ E). apply H0. exact (find_in _ _ _ F).
Qed.
Lemma plain_fall : forall v w, plain v -> (forall x, w = Some x -> plain x) -> exists u, fall v w = Ok u /\ plain u.
Proof. intros v [w|] P Q; [exact (plain_merge v w P (Q w eq_refl))|exists v; split; [reflexivity|exact P]]. Qed.
Lemma based_plain : forall b w x, based b w -> w = Some x -> plain x.
Proof. intros b w x H ->. destruct b; [apply H|destruct H]. Qed.
Lemma inside_plain : forall w k y, (forall x, w = Some x -> plain x) -> inside_of k w = Some y -> plain y.
Proof. intros [w|] k y P H; [|discriminate]. specialize (P w eq_refl). destruct w; try discriminate H. exact (plain_find _ _ _ _ _ P H). Qed.
(** Field by field. *)
Lemma fall_fields : forall m w u, plain (VObj true false m) -> (forall x, w = Some x -> plain x) -> fall (VObj true false m) w = Ok u ->
  exists r i f, u = VObj r i f /\ forall k, match find_key k m with None => find_key k f = inside_of k w | Some v => exists y, fall v (inside_of k w) = Ok y /\ find_key k f = Some y end.
Proof.
  intros m [w|] u P Q H; [|cbn [fall] in H; injection H as <-; exists true, false, m; split; [reflexivity|]; intro k; destruct (find_key k m) as [v|]; [exists v; split; reflexivity|reflexivity]].
  cbn [fall] in H. specialize (Q w eq_refl). assert (K : (exists r2 i2 m2, w = VObj r2 i2 m2) \/ match w with VObj _ _ _ => False | _ => True end) by (destruct w; eauto 6). destruct K as [[r2 [i2 [m2 ->]]]|K].
  - destruct (merge_find _ _ _ _ _ _ H) as [f [-> S]]. exists (fields_resolved f), i2, f. split; [reflexivity|]. intro k. specialize (S k). cbn [inside_of]. destruct (find_key k m) as [v|]; [|exact S].
    destruct (find_key k m2) as [x|]; [exact S|exists v; split; [reflexivity|exact S]].
  - assert (E : u = VObj true true m).
    { rewrite with_fallback_eq in H. cbn [ignores_fallbacks] in H. rewrite (plain_mergeable _ Q) in H. inversion Q; subst; try (destruct K; fail); cbn in H; injection H as <-; reflexivity. }
    subst u. exists true, true, m. split; [reflexivity|]. intro k. assert (Z : inside_of k (Some w) = None) by (destruct w; try reflexivity; destruct K). rewrite Z. destruct (find_key k m) as [v|]; [exists v; split; reflexivity|reflexivity].
Qed.
Lemma fall_twice : forall v old w a b c, plain v -> plain old -> (forall x, w = Some x -> plain x) -> with_fallback v old = Ok a -> fall old w = Ok b -> fall a w = Ok c -> with_fallback v b = Ok c.
Proof.
  intros v old [w|] a b c Pv Po Pw A B C; cbn [fall] in *; [|injection B as <-; injection C as <-; exact A]. rewrite (fallback_assoc v old w a b Pv Po (Pw w eq_refl) A B) in C. exact C.
Qed.
Lemma set_plain : forall m k v, plain (VObj true false m) -> plain v -> plain (VObj true false (set_key m k v)).
Proof.
  intros m k v P Pv. inversion P as [| |? ? N F]; subst. clear P. constructor.
  - induction m as [|[q w] m IH]; cbn [set_key map fst]; [repeat constructor; intros []|]. cbn [map fst] in N. inversion N as [|? ? N1 N2]; subst. inversion F as [|? ? F1 F2]; subst. destruct (str_eqb k q) eqn:E; [exact N|]. cbn [map fst]. constructor; [|auto].
    intro I. apply find_some in I. destruct I as [x I]. rewrite find_set_key in I. destruct (str_eqb q k) eqn:E2; [apply str_eqb_eq in E2; subst; rewrite str_eqb_refl in E; discriminate|]. apply find_in in I. contradiction.
  - induction m as [|[q w] m IH]; cbn [set_key]; [constructor; [exact Pv|constructor]|]. cbn [map fst] in N. inversion N as [|? ? N1 N2]; subst. inversion F as [|? ? F1 F2]; subst. destruct (str_eqb k q); constructor; auto.
Qed.

Lemma collects_put : forall D m E v k a, collects D m -> acts E v -> fall v (find_key k m) = Ok a -> collects (D ++ map (below [k]) E) (set_key m k a).
Proof.
  intros D m E v k a [P [UD C]] [Pv [NE [UE A]]] Ha.
  assert (Pm : forall x, find_key k m = Some x -> plain x) by (intros x F; exact (plain_find _ _ _ _ _ P F)).
  assert (Pa : plain a) by (destruct (plain_fall v (find_key k m) Pv Pm) as [a' [E1 E2]]; rewrite Ha in E1; injection E1 as <-; exact E2).
  split; [apply set_plain; assumption|]. split.
  { apply Forall_app. split; [exact UD|]. apply Forall_forall. intros d I. apply in_map_iff in I. destruct I as [d0 [<- I]]. unfold uniques in UE. rewrite Forall_forall in UE. exact (UE _ I). }
  intros b w u B H q. pose proof (fun x => based_plain _ _ x B) as Pw. rewrite stack_app. destruct (plain_fall _ w P Pw) as [u0 [H0 Pu0]]. pose proof (C b w u0 B H0) as C0.
  destruct (fall_fields _ _ _ P Pw H0) as [r0 [i0 [f0 [-> S0]]]]. destruct (fall_fields _ _ _ (set_plain m k a P Pa) Pw H) as [r [i [f [-> S]]]]. cbn [inside_of] in *.
  destruct (stack_below k E (stack D b) NE) as [ms [M1 [M2 M3]]]. rewrite M1. cbn [inner]. destruct (str_eqb q k) eqn:Eq.
  - apply str_eqb_eq in Eq. subst q. rewrite M2. specialize (S k). rewrite find_set_key, str_eqb_refl in S. destruct S as [y [Y1 Y2]]. rewrite Y2.
    assert (Fy : fall v (find_key k f0) = Ok y).
    { specialize (S0 k). destruct (find_key k m) as [old|] eqn:Fo; [|rewrite S0; cbn [fall] in Ha; injection Ha as <-; exact Y1]. destruct S0 as [y0 [Z1 Z2]]. rewrite Z2. cbn [fall] in Ha |- *.
      refine (fall_twice v old (inside_of k w) a y0 y Pv (Pm _ eq_refl) _ Ha Z1 Y1). intros x Hx. exact (inside_plain w k x Pw Hx). }
    assert (Bk : based (inner k (stack D b)) (find_key k f0)).
    { specialize (C0 k). unfold same in C0. unfold based. pose proof (inner_unique k _ (stack_unique D b UD (based_unique _ _ B))) as Uk. destruct (inner k (stack D b)) as [j|]; destruct (find_key k f0) as [x|] eqn:Fx; try exact C0. split; [exact Uk|]. split; [exact C0|]. exact (plain_find _ _ _ _ _ Pu0 Fx). }
    destruct (A _ _ _ Bk Fy) as [j [J1 J2]]. rewrite J1. exact J2.
  - assert (Hq : q <> k) by (intros ->; rewrite str_eqb_refl in Eq; discriminate). rewrite (M3 q Hq). specialize (C0 q). specialize (S q). specialize (S0 q). rewrite find_set_key, Eq in S.
    destruct (find_key q m) as [x|]; [|rewrite S; rewrite S0 in C0; exact C0]. destruct S as [y [Y1 Y2]]. destruct S0 as [y0 [Z1 Z2]]. rewrite Y1 in Z1. injection Z1 as <-. rewrite Y2. rewrite Z2 in C0. exact C0.
Qed.

Lemma collects_acts : forall D m, collects D m -> D <> [] -> (forall b, exists ms, stack D b = Some (JObject ms)) -> acts D (VObj true false m).
Proof.
  intros D m [P [U C]] N O. split; [exact P|]. split; [exact N|]. split; [exact U|]. intros b w u B H. specialize (C b w u B H). pose proof (fun x => based_plain _ _ x B) as Pw.
  destruct (O b) as [ms Os]. exists (JObject ms). split; [exact Os|]. destruct (plain_fall _ w P Pw) as [u' [H' Pu]]. rewrite H in H'. injection H' as <-. destruct (fall_fields _ _ _ P Pw H) as [r [i [f [-> _]]]]. clear H.
  pose proof (stack_unique D b U (based_unique _ _ B)) as Us. rewrite Os in *. cbn [inner inside_of uniquely] in *. inversion Us as [|? Nd F|? Bd]; subst; [|destruct Bd]. inversion Pu as [| |? ? Nf Ff]; subst. constructor; [exact Nf| |].
  - intros k I. destruct (find_some _ _ I) as [x X]. specialize (C k). rewrite X in C. unfold same in C. destruct (member k ms) as [j|] eqn:E; [|destruct C]. exact (in_map fst _ _ (member_in _ _ _ E)).
  - intros k j I. specialize (C k). rewrite (once_member _ _ _ Nd I) in C. unfold same in C. destruct (find_key k f) as [x|]; [eauto|destruct C].
Qed.
Lemma collects_nothing : collects [] [].
Proof.
  split; [constructor; constructor|]. split; [constructor|]. intros b w u B H q. pose proof (fun x => based_plain _ _ x B) as Pw.
  destruct (fall_fields [] w u ltac:(constructor; constructor) Pw H) as [r [i [f [-> S]]]]. specialize (S q). cbn [find_key] in S. cbn [inside_of]. rewrite S. exact (based_inside _ _ q B).
Qed.
Lemma collects_start : collects [([], JObject [])] [].
Proof.
  destruct collects_nothing as [P [U C]]. split; [exact P|]. split; [constructor; [apply unique_object; [constructor|intros k j []]|constructor]|]. intros b w u B H q. specialize (C b w u B H q).
  unfold stack in *. cbn [fold_left over nested fst snd] in *. assert (X : inner q (Some (over ([], JObject []) b)) = inner q b); [|rewrite X; exact C].
  destruct b as [b|]; [|reflexivity]. destruct b; try reflexivity. cbn [over nested fst snd]. rewrite overlay_objects. cbn [both map app inner]. f_equal. unfold rest. cbn [member]. clear. induction ms as [|[k j] ms IH]; [reflexivity|]. cbn [filter]. f_equal. exact IH.
Qed.
Lemma acts_leaf : forall j v, unique j -> denotes j v -> plain v -> fresh v -> acts [([], j)] v.
Proof.
  intros j v U D P F. split; [exact P|]. split; [discriminate|]. split; [constructor; [exact U|constructor]|]. intros b w u B H. unfold stack. cbn [fold_left over nested fst snd].
  destruct b as [b|], w as [w|]; try (destruct B; fail).
  - destruct B as [Ub [Db Pb]]. eexists. split; [reflexivity|]. cbn [fall] in H. exact (overlay_denotes j U v D P F b w u Ub Db Pb H).
  - cbn [fall] in H. injection H as <-. eauto.
Qed.
Lemma new_plain : forall m, plain (VObj true false m) -> new_object m = VObj true false m.
Proof. intros m P. pose proof (plain_resolved _ P) as R. unfold new_object. f_equal. inversion P as [| |? ? N F]; subst. clear -F. unfold fields_resolved. apply forallb_forall. rewrite Forall_forall in F. intros kv I. apply plain_resolved. exact (F _ I). Qed.
Lemma below_app : forall p q E, map (below p) (map (below q) E) = map (below (p ++ q)) E.
Proof. intros p q E. rewrite map_map. apply map_ext. intros [r j]. unfold below. cbn [fst snd]. rewrite app_assoc. reflexivity. Qed.
Lemma below_nil : forall E, map (below []) E = E.
Proof. induction E as [|[p j] E IH]; [reflexivity|]. cbn [map]. rewrite IH. reflexivity. Qed.
Lemma acts_under : forall p E v, acts E v -> acts (map (below p) E) (create_value_under_path p v).
Proof.
  induction p as [|k p IH]; intros E v A; [rewrite below_nil; exact A|]. specialize (IH _ _ A). cbn [create_value_under_path]. change (k :: p) with ([k] ++ p). rewrite <- below_app.
  pose proof (collects_put [] [] _ _ k _ collects_nothing IH eq_refl) as C. cbn [app set_key] in C. rewrite new_plain by apply C. destruct IH as [_ [N _]]. apply collects_acts; [exact C|destruct (map (below p) E); [congruence|discriminate]|].
  intro b. destruct (stack_below k _ b N) as [ms [M _]]. eauto.
Qed.

(** ** Adding a field *)
Lemma collects_field : forall D m E v p, collects D m -> acts E v -> p <> [] -> exists m', add_field CONF m p v = Ok m' /\ collects (D ++ map (below p) E) m'.
Proof.
  intros D m E v [|k p] C A N; [congruence|]. pose proof C as [P _]. pose proof (acts_under p E v A) as A2. change (k :: p) with ([k] ++ p). rewrite <- below_app. set (x := create_value_under_path p v) in *.
  assert (Pm : forall y, find_key k m = Some y -> plain y) by (intros y F; exact (plain_find _ _ _ _ _ P F)).
  destruct (plain_fall x (find_key k m) (proj1 A2) Pm) as [a [Ha Pa]]. exists (set_key m k a). split; [|exact (collects_put _ _ _ _ _ _ C A2 Ha)].
  cbn [app]. destruct p as [|k2 p].
  - cbn [create_value_under_path] in x. unfold x in *. cbn [add_field]. destruct (find_key k m) as [y|]; cbn [fall] in Ha; [rewrite Ha; reflexivity|injection Ha as <-; reflexivity].
  - cbn [add_field]. fold x. destruct (find_key k m) as [y|] eqn:F; cbn [fall] in Ha; [|injection Ha as <-; reflexivity]. rewrite Ha. cbn [bind].
    assert (O : simple_object a). { apply (object_merge x y a (proj1 A2) (Pm _ eq_refl)); [unfold x; cbn [create_value_under_path]; unfold new_object; repeat eexists|exact Ha]. } destruct O as [r [i [f ->]]]. reflexivity.
Qed.

(** ** Adding the fields of an included object *)
Lemma set_absent : forall m k (v : value), find_key k m = None -> m ++ [(k, v)] = set_key m k v.
Proof. intros m k v. induction m as [|[q w] m IH]; intro F; [reflexivity|]. cbn [find_key set_key app] in *. destruct (str_eqb k q); [discriminate|]. rewrite IH by exact F. reflexivity. Qed.
Lemma included_fields : forall m values, plain (VObj true false m) -> plain (VObj true false values) -> exists values', add_included values m = Ok values' /\ plain (VObj true false values') /\
  forall q, match find_key q m with None => find_key q values' = find_key q values | Some v => exists y, fall v (find_key q values) = Ok y /\ find_key q values' = Some y end.
Proof.
  induction m as [|[k v] m IH]; intros values P Q; [exists values; split; [reflexivity|split; [exact Q|reflexivity]]|].
  inversion P as [| |? ? N F]; subst. cbn [map fst] in N. inversion N as [|? ? N1 N2]; subst. inversion F as [|? ? F1 F2]; subst. cbn [snd] in F1.
  assert (Pm : plain (VObj true false m)) by (constructor; assumption).
  assert (Pk : forall x, find_key k values = Some x -> plain x) by (intros x X; exact (plain_find _ _ _ _ _ Q X)).
  destruct (plain_fall v (find_key k values) F1 Pk) as [a [Ha Pa]]. pose proof (set_plain values k a Q Pa) as Q'.
  destruct (IH _ Pm Q') as [values' [E [P' S]]]. exists values'. split; [|split; [exact P'|]].
  - cbn [add_included]. destruct (find_key k values) as [old|] eqn:Fo; cbn [fall] in Ha; [rewrite Ha; exact E|]. injection Ha as <-. rewrite set_absent by exact Fo. exact E.
  - intro q. specialize (S q). cbn [find_key]. rewrite find_set_key in S. destruct (str_eqb q k) eqn:Eq; [|exact S]. apply str_eqb_eq in Eq. subst q.
    assert (Z : find_key k m = None). { destruct (find_key k m) as [x|] eqn:X; [|reflexivity]. destruct N1. exact (find_in _ _ _ X). }
    rewrite Z in S. exists a. split; [exact Ha|exact S].
Qed.
Definition members_of (b : option json) : list (str * json) := match b with Some (JObject ms) => ms | _ => [] end.
Lemma over_members : forall k p j b, over (k :: p, j) (Some (JObject (members_of b))) = over (k :: p, j) b.
Proof.
  intros k p j b. cbn [over nested fst snd]. destruct b as [b|]; [|cbn [members_of]; rewrite overlay_objects; reflexivity]. destruct b; cbn [members_of]; try reflexivity; rewrite overlay_objects; reflexivity.
Qed.
Lemma over_start : forall b, over ([], JObject []) (Some (JObject (members_of b))) = JObject (members_of b).
Proof.
  intro b. cbn [over nested fst snd]. rewrite overlay_objects. cbn [both map app]. f_equal. unfold rest. generalize (members_of b) as ms. induction ms as [|[k j] ms IH]; [reflexivity|]. cbn [filter member] in IH |- *. rewrite IH. reflexivity.
Qed.
Lemma inner_stack : forall ds b q, Forall (fun d => fst d <> []) ds -> inner q (stack (([], JObject []) :: ds) (Some (JObject (members_of b)))) = inner q (stack ds b).
Proof.
  intros ds b q R. change (stack (([], JObject []) :: ds) (Some (JObject (members_of b)))) with (stack ds (Some (over ([], JObject []) (Some (JObject (members_of b)))))). rewrite over_start.
  destruct ds as [|[[|k p] j] ds]; [destruct b as [[]|]; reflexivity|inversion R as [|? ? X]; destruct (X eq_refl)|]. unfold stack. cbn [fold_left]. rewrite over_members. reflexivity.
Qed.
Lemma collects_included : forall D values ds m, collects D values -> collects (([], JObject []) :: ds) m -> Forall (fun d => fst d <> []) ds ->
  exists values', add_included values m = Ok values' /\ collects (D ++ ds) values'.
Proof.
  intros D values ds m [P [UD C]] [Pm [Ud Cm]] R. destruct (included_fields m values Pm P) as [values' [E [P' S']]]. exists values'. split; [exact E|]. split; [exact P'|].
  split; [apply Forall_app; split; [exact UD|inversion Ud; assumption]|].
  intros b w u B H q. pose proof (fun x => based_plain _ _ x B) as Pw. rewrite stack_app. destruct (plain_fall _ w P Pw) as [u0 [H0 Pu0]]. pose proof (C b w u0 B H0) as C0.
  destruct (fall_fields _ _ _ P Pw H0) as [r0 [i0 [f0 [-> S0]]]]. destruct (fall_fields _ _ _ P' Pw H) as [r [i [f [-> S]]]]. cbn [inside_of] in C0 |- *.
  pose proof (stack_unique D b UD (based_unique _ _ B)) as Us.
  assert (Im : forall k, inner k (stack D b) = member k (members_of (stack D b))) by (intro k; destruct (stack D b) as [[]|]; reflexivity).
  assert (Um : unique (JObject (members_of (stack D b)))).
  { destruct (stack D b) as [[]|]; cbn [members_of]; try (apply unique_object; [constructor|intros ? ? []]); exact Us. }
  assert (Bs : based (Some (JObject (members_of (stack D b)))) (Some (VObj r0 i0 f0))).
  { split; [exact Um|]. split; [|exact Pu0]. inversion Um as [|? Nd _|? Bd]; subst; [|destruct Bd]. inversion Pu0 as [| |? ? Nf _]; subst. constructor; [exact Nf| |].
    - intros k I. destruct (find_some _ _ I) as [x X]. specialize (C0 k). rewrite X, Im in C0. unfold same in C0. destruct (member k (members_of (stack D b))) as [j|] eqn:Ek; [|destruct C0]. exact (in_map fst _ _ (member_in _ _ _ Ek)).
    - intros k j I. specialize (C0 k). rewrite Im, (once_member _ _ _ Nd I) in C0. unfold same in C0. destruct (find_key k f0) as [x|]; [eauto|destruct C0]. }
  destruct (plain_fall _ (Some (VObj r0 i0 f0)) Pm (fun x X => based_plain _ _ x Bs X)) as [y [Hy Py]]. pose proof (Cm _ _ _ Bs Hy q) as Cy. rewrite inner_stack in Cy by exact R.
  destruct (fall_fields _ _ _ Pm (fun x X => based_plain _ _ x Bs X) Hy) as [r2 [i2 [f2 [-> S2]]]]. cbn [inside_of] in *.
  assert (X : find_key q f2 = find_key q f); [|rewrite <- X; exact Cy]. specialize (S q). specialize (S0 q). specialize (S2 q). specialize (S' q).
  destruct (find_key q m) as [v|] eqn:Fm.
  - destruct S' as [a [A1 A2]]. rewrite A2 in S. destruct S as [c [C1 C2]]. destruct S2 as [d [D1 D2]]. rewrite C2, D2. f_equal. destruct (find_key q values) as [old|] eqn:Fo; cbn [fall] in A1.
    + destruct S0 as [e [E1 E2]]. rewrite E2 in D1. cbn [fall] in D1.
      pose proof (fall_twice v old (inside_of q w) a e c (plain_find _ _ _ _ _ Pm Fm) (plain_find _ _ _ _ _ P Fo) (fun x X => inside_plain w q x Pw X) A1 E1 C1) as T. congruence.
    + injection A1 as <-. rewrite S0 in D1. congruence.
  - rewrite S' in S. rewrite S2. destruct (find_key q values) as [old|].
    + destruct S0 as [e [E1 E2]]. destruct S as [c [C1 C2]]. congruence.
    + congruence.
Qed.
