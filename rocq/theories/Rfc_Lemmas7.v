(** Reading a JSON document with the getters. *)
From Verif Require Import Base BaseLemmas Util_Model Num_Model Path_Model Token_Model PathParser_Model Doc_Model Value_Model Value_Spec Value_Lemmas Value_Lemmas2 Value_Lemmas3 Concat_Model ConfigParser_Model Escape_Spec Round_Spec Duration_Model Config_Model Config_Spec Config_Lemmas Config_Lemmas2 Json_Lemmas3
  Resolve_Model Resolve_Lemmas Include_Model Rfc_Spec Rfc_Spec2 Rfc_Lemmas4 Rfc_Lemmas6.

(** ** Names are unique everywhere *)
Inductive unique : json -> Prop :=
| unique_array : forall js, unique (JArray js)
| unique_object : forall ms, NoDup (map fst ms) -> (forall k j, In (k, j) ms -> unique j) -> unique (JObject ms)
| unique_leaf : forall j, match j with JArray _ | JObject _ => False | _ => True end -> unique j.
Scheme written_ind3 := Minimality for written Sort Prop with items_ind3 := Minimality for items Sort Prop with members_ind3 := Minimality for members Sort Prop.
Lemma written_unique : forall blank string number j s, written blank string number j s -> unique j.
Proof.
  intros blank string number. refine (written_ind3 blank string number (fun j _ => unique j) (fun _ _ => True) (fun ms _ => forall k j, In (k, j) ms -> unique j) _ _ _ _ _ _ _ _ _ _ _ _ _);
    try (intros; constructor; exact I); try (intros; exact I); try (intros; apply unique_array).
  - intros a A. apply unique_object; [constructor|intros k j []].
  - intros ms s M H N. apply unique_object; assumption.
  - intros a t k b c j s d A T B C W U D k' j' [E|[]]. injection E as <- <-. exact U.
  - intros a t k b c j s d ms r A T B C W U D M H k' j' [E|I]; [injection E as <- <-; exact U|]. exact (H _ _ I).
Qed.

Lemma find_in : forall k (m : fields) v, find_key k m = Some v -> In k (map fst m).
Proof. intros k m. induction m as [|[q w] m IH]; intros v H; [discriminate|]. cbn [find_key] in H. destruct (str_eqb k q) eqn:E; [apply str_eqb_eq in E; left; auto|right; eauto]. Qed.
Lemma member_or : forall k (ms : list (str * json)), (exists j, In (k, j) ms) \/ ~ In k (map fst ms).
Proof.
  intros k ms. destruct (in_dec (list_eq_dec Ascii.ascii_dec) k (map fst ms)) as [H|H]; [|auto]. left. apply in_map_iff in H. destruct H as [[q j] [E H]]. cbn in E. subst q. eauto.
Qed.
(** The value found in the config is that of the JSON value. *)
Lemma found_get : forall p j v, unique j -> denotes j v -> plain v ->
  (forall j', found j p j' -> exists v', get p v = Some v' /\ denotes j' v') /\ ((forall j', ~ found j p j') -> get p v = None).
Proof.
  induction p as [|k p IH]; intros j v U D P.
  - split; [|intro N; destruct (N j (found_here j))]. intros j' F. inversion F; subst. exists v. auto.
  - assert (K : (exists ms, j = JObject ms) \/ match j with JObject _ => False | _ => True end) by (destruct j; eauto). destruct K as [[ms ->]|K].
    + inversion D as [| | | | |? r i m Nd L F]; subst. inversion U as [|? N U2|? B]; subst; [|destruct B]. destruct (member_or k ms) as [[j1 I1]|N1].
      * destruct (F _ _ I1) as [v1 [F1 D1]]. assert (P1 : plain v1) by exact (plain_find _ _ _ _ _ P F1). destruct (IH j1 v1 (U2 _ _ I1) D1 P1) as [H1 H2]. cbn [get]. rewrite F1. split.
        -- intros j' H. inversion H as [|? ? j2 ? ? I2 H3]; subst. assert (j2 = j1) by (clear -N I1 I2; induction ms as [|[q w] ms IH]; [destruct I1|]; cbn [map fst] in N; inversion N as [|? ? N1 N2]; subst; destruct I1 as [I1|I1], I2 as [I2|I2]; try congruence; [injection I1 as -> ->; destruct N1; exact (in_map fst _ _ I2)|injection I2 as -> ->; destruct N1; exact (in_map fst _ _ I1)|auto]).
           subst j2. exact (H1 _ H3).
        -- intro H. apply H2. intros j' H3. exact (H j' (found_member _ _ _ _ _ I1 H3)).
      * assert (Q : find_key k m = None).
        { destruct (find_key k m) as [u|] eqn:E; [|reflexivity]. exfalso. apply N1, L. exact (find_in _ _ _ E). }
        cbn [get]. rewrite Q. split; [|auto]. intros j' H. inversion H as [|? ? ? ? ? I2 _]; subst. destruct N1. exact (in_map fst _ _ I2).
    + split; [intros j' H; inversion H; subst; destruct K|]. intros _. destruct D; try reflexivity. destruct K.
Qed.

(** ** Lists of one kind of elements *)
Section Elements.
Context {A : Type}.
Variables (R : json -> A -> Prop) (element : value -> A -> Prop).
Hypothesis Into : forall j v a, denotes j v -> R j a -> element v a.
Hypothesis Only : forall v a b, element v a -> element v b -> a = b.
Lemma elements_into : forall js vs l, Forall2 denotes js vs -> Forall2 R js l -> Forall2 element vs l.
Proof. intros js vs l F. revert l. induction F as [|j v js vs D F IH]; intros l E; inversion E; subst; constructor; eauto. Qed.
Lemma elements_only : forall vs l l', Forall2 element vs l -> Forall2 element vs l' -> l = l'.
Proof. intros vs l l' E. revert l'. induction E as [|v a vs l H E IH]; intros l' E'; inversion E'; subst; [reflexivity|]. f_equal; eauto. Qed.
Lemma elements_listed : forall js vs l r, Forall2 denotes js vs -> lists_elements element (Some (VList vs)) r -> Forall2 R js l -> r = Ok l.
Proof.
  intros js vs l r F H E. pose proof (elements_into _ _ _ F E) as E1. cbn [lists_elements] in H. destruct H as [[l' [-> E']]|[_ [v [I N]]]]; [f_equal; exact (elements_only _ _ _ E' E1)|].
  exfalso. clear -E1 I N. induction E1 as [|w a vs l H E IH]; [destruct I|]. destruct I as [<-|I]; [exact (N _ H)|exact (IH I)].
Qed.
Hypothesis Back : forall j v a, denotes j v -> element v a -> R j a.
Lemma elements_rejected : forall js vs r, Forall2 denotes js vs -> lists_elements element (Some (VList vs)) r -> (forall l, ~ Forall2 R js l) -> r = Throw EConfig.
Proof.
  intros js vs r F H N. cbn [lists_elements] in H. destruct H as [[l [_ E]]|[-> _]]; [|reflexivity]. exfalso. apply (N l). clear -F E Back. revert l E. induction F as [|j v js vs D F IH]; intros l E; inversion E; subst; constructor; eauto.
Qed.
End Elements.
Lemma wrapped : forall (A : Type) (wrap : A -> json) js l, js = map wrap l <-> Forall2 (fun j a => j = wrap a) js l.
Proof.
  intros A wrap js l. split; [intros ->; induction l; constructor; auto|]. induction 1 as [|j a js l -> E ->]; reflexivity.
Qed.
Lemma strings_listed : forall js vs, Forall2 denotes js vs -> forall r, lists_elements string_element (Some (VList vs)) r ->
  (forall l, js = map JString l -> r = Ok l) /\ ((forall l, js <> map JString l) -> r = Throw EConfig).
Proof.
  intros js vs F r H. split.
  - intros l E. apply wrapped in E. apply (elements_listed (fun j a => j = JString a) string_element) with (js := js) (vs := vs); try assumption; [intros j v a D ->; inversion D; subst; eexists; reflexivity|intros v a b [q1 ->] [q2 Q]; congruence].
  - intro N. apply (elements_rejected (fun j a => j = JString a) string_element) with (js := js) (vs := vs); try assumption; [intros j v a D [q ->]; inversion D; subst; [discriminate|reflexivity]|intros l E; apply wrapped in E; exact (N _ E)].
Qed.
Lemma bools_listed : forall js vs, Forall2 denotes js vs -> forall r, lists_elements bool_element (Some (VList vs)) r ->
  (forall l, js = map JBool l -> r = Ok l) /\ ((forall l, js <> map JBool l) -> r = Throw EConfig).
Proof.
  intros js vs F r H. unfold bool_element in H. split.
  - intros l E. apply wrapped in E. apply (elements_listed (fun j a => j = JBool a) bool_element) with (js := js) (vs := vs); try assumption; [intros j v a D ->; inversion D; subst; reflexivity|intros v a b Q1 Q2; unfold bool_element in *; congruence].
  - intro N. apply (elements_rejected (fun j a => j = JBool a) bool_element) with (js := js) (vs := vs); try assumption; [intros j v a D Q; unfold bool_element in Q; subst v; inversion D; subst; [reflexivity|discriminate]|intros l E; apply wrapped in E; exact (N _ E)].
Qed.
Lemma integers_listed : forall js vs, Forall2 denotes js vs -> forall r1 r2, lists_elements int_element (Some (VList vs)) r1 -> lists_elements long_element (Some (VList vs)) r2 ->
  forall l, Forall2 integer js l -> r2 = Ok l /\ r1 = if forallb fits_int l then Ok l else Throw EConfig.
Proof.
  assert (K : forall j v n, denotes j v -> integer j n -> exists t, v = VScalar (if fits_int n then SInt n t else SLong n t)).
  { intros j v n D [t [x [-> T]]]. inversion D as [| |? ? ? s ? ? ? I| | |]; subst. eexists. f_equal. exact (I T). }
  intros js vs F r1 r2 H1 H2 l E. split.
  - apply (elements_listed integer long_element) with (js := js) (vs := vs); try assumption.
    + intros j v n D I. destruct (K _ _ _ D I) as [t ->]. exists t. destruct (fits_int n); auto.
    + intros v a b [t [->| ->]] [u [Q|Q]]; congruence.
  - destruct (forallb fits_int l) eqn:B.
    + apply (elements_listed (fun j n => integer j n /\ fits_int n = true) int_element) with (js := js) (vs := vs); try assumption.
      * intros j v n D [I Fi]. destruct (K _ _ _ D I) as [t ->]. rewrite Fi. exists t. reflexivity.
      * intros v a b [t ->] [u Q]; congruence.
      * clear -E B. induction E as [|j n js l H E IH]; constructor; cbn [forallb] in B; apply andb_true_iff in B; destruct B; auto.
    + cbn [lists_elements] in H1. destruct H1 as [[l' [_ E']]|[-> _]]; [|reflexivity]. exfalso. clear r2 H2. revert l E B l' E'. induction F as [|j v js vs D F IH]; intros l E B l' E'; inversion E as [|? n ? l1 I E1]; subst; [discriminate|].
      inversion E' as [|? n' ? l2 He E2]; subst. destruct He as [u Q]. cbn [forallb] in B. destruct (K _ _ _ D I) as [t Q2]. rewrite Q in Q2. destruct (fits_int n); [exact (IH _ E1 B _ E2)|discriminate].
Qed.
Section Getters.
Variables (self : value) (ps : str) (p : path).
Hypotheses (Ps : plain self) (Os : simple_object self) (Hp : new_path ps = Ok p).
Lemma absent_given : get p self = None -> absent self ps.
Proof.
  intro G. destruct (getters_spec self ps p Ps Os Hp) as [G1 [G2 [G3 [G4 [G5 G6]]]]]. destruct (has_path_value self ps p Ps Os Hp) as [G7 G8]. destruct (get_int_other self ps p Ps Os Hp) as [G9 G10]; [rewrite G; exact I|].
  rewrite G in *. unfold absent. rewrite G1, G2, G3, G4, G5, G6, G7, G8, G9, G10. repeat split; reflexivity.
Qed.
Lemma value_given_at : forall j v, denotes j v -> plain v -> get p self = Some v -> gives self ps j.
Proof.
  intros j v D P G. destruct (getters_spec self ps p Ps Os Hp) as [G1 [G2 [G3 [G4 [G5 G6]]]]]. destruct (has_path_value self ps p Ps Os Hp) as [G7 G8]. pose proof (get_int_other self ps p Ps Os Hp) as G9.
  rewrite G in G1, G2, G3, G4, G5, G6, G7, G8, G9. destruct D as [|b|t n x s N T Hu I|s q|js vs F|ms r i m Nd L F]; cbn [gives].
  - destruct (G9 eq_refl) as [G10 G11]. unfold null_at. rewrite G1, G2, G3, G4, G5, G6, G7, G8, G10, G11. repeat split; reflexivity.
  - destruct (G9 eq_refl) as [G10 G11]. unfold present, no_container. rewrite G2, G3, G4, G5, G6, G7, G8, G10, G11. repeat split; destruct b; reflexivity.
  - unfold present, no_container. rewrite G2, G3, G4, G5, G6, G7, G8. pose proof (get_number_spec self ps p Ps Os Hp) as Gn. rewrite G in Gn.
    assert (Gn' : get_number self ps = Ok s) by (rewrite Gn; destruct s; try discriminate N; reflexivity).
    destruct s as [|?|z u|z u|d u|? ?]; try discriminate N; cbn [outcome is_null as_text as_bool as_double as_object as_list negb] in *.
    all: repeat (split; [reflexivity || (split; reflexivity) || (f_equal; rewrite <- T; destruct u; reflexivity) || (eexists; split; [reflexivity|exact Hu])|]).
    all: intro It; specialize (I It); unfold get_long, get_int; rewrite Gn'; cbn [bind]; unfold int_value_range_checked; rewrite I; unfold fits_int; destruct ((-2147483648 <=? n) && (n <=? 2147483647)) eqn:Fi; cbn [long_value bind]; (split; [reflexivity|]); unfold in_int; change int_min with (-2147483648); change int_max with 2147483647; rewrite Fi; reflexivity.
  - unfold present, no_container. rewrite G2, G5, G6, G7, G8. repeat split; reflexivity.
  - destruct (G9 eq_refl) as [G10 G11]. unfold present, no_scalar. rewrite G2, G3, G4, G5, G6, G7, G8, G10, G11. destruct (list_getters self ps p Ps Os Hp) as [L1 [L2 [_ [L4 L5]]]]. rewrite G in L1, L2, L4, L5.
    repeat (split; [reflexivity || (repeat split; reflexivity) || (eexists; split; [reflexivity|exact F])|]).
    destruct (strings_listed _ _ F _ L4) as [S1 S2]. destruct (bools_listed _ _ F _ L5) as [B1 B2]. split; [exact S1|]. split; [exact S2|]. split; [exact B1|]. split; [exact B2|]. split; [exact (integers_listed _ _ F _ _ L1 L2)|].
    intros l E. exists vs. split; [|exact F]. unfold get_object_list, the_list. rewrite G6. cbn [outcome as_list is_null bind]. replace (forallb is_object vs) with true; [reflexivity|]. symmetry. apply forallb_forall. subst js.
    clear -F. intros v I. revert vs F I. induction l as [|m l IH]; intros vs F I; inversion F as [|? w ? ws D F']; subst; [destruct I|]. destruct I as [<-|I]; [inversion D; reflexivity|exact (IH _ F' I)].
  - destruct (G9 eq_refl) as [G10 G11]. unfold present, no_scalar, get_config. rewrite G2, G3, G4, G5, G6, G7, G8, G10, G11. repeat (split; [reflexivity || (repeat split; reflexivity)|]). eexists. split; [reflexivity|]. constructor; assumption.
Qed.
End Getters.

(** ** Documents *)
Definition readable_as (self : value) (j : json) : Prop :=
  forall ps p, new_path ps = Ok p -> (forall j', found j p j' -> gives self ps j') /\ ((forall j', ~ found j p j') -> absent self ps).
Lemma document_object_unique : forall text ms, json_document text (JObject ms) -> unique (JObject ms).
Proof. intros text ms H. inversion H as [|a s b ? A Wr B]; subst. exact (written_unique _ _ _ _ _ Wr). Qed.
Lemma denoted_readable : forall j v, unique j -> denotes j v -> plain v -> simple_object v -> readable_as v j.
Proof.
  intros j v U D Pv O ps p Hp. destruct (found_get p _ v U D Pv) as [F1 F2]. split.
  - intros j' F. destruct (F1 j' F) as [v' [G D']]. exact (value_given_at v ps p Pv O Hp j' v' D' (plain_get _ _ _ Pv G) G).
  - intro F. exact (absent_given v ps p Pv O Hp (F2 F)).
Qed.
Lemma denoted_object : forall ms v, denotes (JObject ms) v -> simple_object v.
Proof. intros ms v D. inversion D; subst. repeat eexists. Qed.
Lemma parsed_json : forall f inc text ms next, json_document text (JObject ms) ->
  exists self, parse_config f inc text next = Ok (Some self, next) /\ sound (JObject ms) self.
Proof.
  intros f inc text ms next H. destruct (json_parses inc text (JObject ms) next H) as [v [P D]]. exists v. split; [destruct f; [exact (config_same inc inc text next _ P)|exact P]|].
  destruct (json_given _ _ _ _ _ P) as [_ [j [v' [E [_ [_ Pv]]]]]]. injection E as <-. split; assumption.
Qed.
Lemma resolve_plain : forall self, plain self -> forall allow use env n, resolve_config allow use env (S n) self = Ok (Some self).
Proof. intros self P allow use env n. unfold resolve_config. apply resolve_settled_again, plain_resolved, P. Qed.
Lemma parsed_object : forall files env depth rec p o text ms next, p_text p = text -> json_document text (JObject ms) ->
  exists self, parse_object_of files env depth rec p o next = Ok (self, next) /\ sound (JObject ms) self.
Proof.
  intros files env depth rec p o text ms next T H. unfold parse_object_of. rewrite T.
  destruct (parsed_json (match o_syntax (fixup_options (p_guess p) o) with Some s => s | None => CONF end) (run_includer files env depth rec (o_includer (fixup_options (p_guess p) o)) p) text ms next H) as [self [P S]].
  destruct (denoted_object _ _ (proj1 S)) as [r [i [m ->]]]. exists (VObj r i m). rewrite P. split; [reflexivity|exact S].
Qed.
Lemma string_sound : forall files env depth n text ms o next, json_document text (JObject ms) -> exists self, parse_string files env depth n text o next = Ok (self, next) /\ sound (JObject ms) self.
Proof. intros files env depth n text ms o next H. unfold parse_string. apply (parsed_object _ _ _ _ _ _ text); [reflexivity|exact H]. Qed.
Lemma file_sound : forall files env depth n name text ms o next, json_document text (JObject ms) -> files name = Some text -> ends_with (lit ".json") name = true ->
  exists self, parse_file_any_syntax files env depth (S n) name o next = Ok (self, next) /\ sound (JObject ms) self.
Proof.
  intros files env depth n name text ms o next H F E. unfold parse_file_any_syntax, from_basename. rewrite E, orb_true_r. cbn [parse_parseable]. change (max_include_depth <=? 0)%nat with false. cbv iota.
  apply (parsed_object _ _ _ _ _ _ text); [|exact H]. unfold new_file. cbn [p_text]. rewrite F. reflexivity.
Qed.
Lemma sound_read : forall text ms self, json_document text (JObject ms) -> sound (JObject ms) self ->
  readable_as self (JObject ms) /\ forall allow use env' k, resolve_config allow use env' (S k) self = Ok (Some self).
Proof. intros text ms self H [D [P _]]. split; [|exact (resolve_plain self P)]. exact (denoted_readable _ _ (document_object_unique _ _ H) D P (denoted_object _ _ D)). Qed.
Lemma json_string_read : forall files env depth n text ms o next, json_document text (JObject ms) ->
  exists self, parse_string files env depth n text o next = Ok (self, next) /\ readable_as self (JObject ms) /\
    forall allow use env' k, resolve_config allow use env' (S k) self = Ok (Some self).
Proof. intros files env depth n text ms o next H. destruct (string_sound files env depth n text ms o next H) as [self [P S]]. exists self. split; [exact P|exact (sound_read text ms self H S)]. Qed.
Lemma json_file_read : forall files env depth n name text ms o next, json_document text (JObject ms) -> files name = Some text -> ends_with (lit ".json") name = true ->
  exists self, parse_file_any_syntax files env depth (S n) name o next = Ok (self, next) /\ readable_as self (JObject ms) /\
    forall allow use env' k, resolve_config allow use env' (S k) self = Ok (Some self).
Proof. intros files env depth n name text ms o next H F E. destruct (file_sound files env depth n name text ms o next H F E) as [self [P S]]. exists self. split; [exact P|exact (sound_read text ms self H S)]. Qed.
Lemma json_list_rejected : forall files env depth n text js o next, json_document text (JArray js) -> parse_string files env depth n text o next = Throw EWrongType.
Proof.
  intros files env depth n text js o next H. unfold parse_string, parse_object_of.
  match goal with |- context [parse_config ?f ?inc _ next] => destruct (json_accepted f inc text (JArray js) next ltac:(destruct f; auto) H) as [v [P D]] end.
  cbn [p_text new_string]. rewrite P. inversion D; subst. reflexivity.
Qed.
