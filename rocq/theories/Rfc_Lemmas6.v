(** What is accepted as JSON is written as the grammar says, and means what is written. *)
From Verif Require Import Base BaseLemmas Util_Model Num_Model Path_Model Token_Model Token_Spec Token_Lemmas Token_Lemmas2 PathParser_Model Doc_Model Edit_Model Value_Model Value_Spec Value_Lemmas Concat_Model ConfigParser_Model ConfigParser_Lemmas Json_Lemmas Json_Lemmas2 Json_Lemmas3
  Escape_Spec Round_Spec Render_Lemmas4 Render_Lemmas6 Rfc_Spec Rfc_Lemmas Rfc_Lemmas3 Rfc_Lemmas5.

Local Notation "'W'" := (written lax_blank lax_string lax_number).
Local Notation "'Its'" := (items lax_blank lax_string lax_number).
Local Notation "'Mems'" := (members lax_blank lax_string lax_number).

Lemma stream_pop : forall t r s, stream (t :: r) s -> json_forbids JSON t = false -> t = TEnd /\ r = [] /\ s = [] \/ t <> TEnd /\ exists x s', s = x ++ s' /\ says t x /\ stream r s'.
Proof.
  intros t r s H A. inversion H as [|?|? ? ? F|? x ? s' N S St]; subst; [left; auto|congruence|]. right. split; [exact N|]. eauto.
Qed.
Lemma skipped_blank : forall t x, json_forbids JSON t = false -> skipped t = true -> says t x -> lax_blank x.
Proof. intros t x A K S. destruct t; try discriminate K; cbn in S; try contradiction; try exact S. subst x. constructor; [cbn; auto 10|constructor]. Qed.
Lemma blank_app : forall a b, lax_blank a -> lax_blank b -> lax_blank (a ++ b).
Proof. intros a b A B. apply Forall_app. auto. Qed.
Lemma collect_given : forall e ts ns t r, collect JSON e ts = Ok (ns, t, r) -> forall s, stream ts s ->
  exists a s', s = a ++ s' /\ lax_blank a /\ stream (t :: r) s' /\ Forall dull ns /\ json_forbids JSON t = false /\ skipped t = false.
Proof.
  intro e. apply (collect_induction e (fun ts ns t r => forall s, stream ts s -> exists a s', s = a ++ s' /\ lax_blank a /\ stream (t :: r) s' /\ Forall dull ns /\ json_forbids JSON t = false /\ skipped t = false)).
  - intros t r A S s H. exists [], s. split; [reflexivity|]. split; [constructor|]. split; [exact H|]. split; [constructor|]. auto.
  - intros x ts ns t r A S _ IH s H. destruct (stream_pop _ _ _ H A) as [[-> _]|[_ [y [s1 [-> [Y H1]]]]]]; [discriminate S|].
    destruct (IH _ H1) as [a [s' [-> [B [H2 [D R]]]]]]. exists (y ++ a), s'. split; [rewrite app_assoc; reflexivity|]. split; [apply blank_app; [exact (skipped_blank x y A S Y)|exact B]|]. split; [exact H2|]. split; [|exact R].
    constructor; [|exact D]. destruct x; try discriminate S; (split; [reflexivity|exact I]).
Qed.

(** Value and contents, all of it resolved and open to fallbacks. *)
Inductive fresh : value -> Prop :=
| fresh_scalar : forall s, fresh (VScalar s)
| fresh_list : forall vs, fresh (VList vs)
| fresh_object : forall r m, Forall (fun kv => fresh (snd kv)) m -> fresh (VObj r false m).
Definition sound (j : json) (v : value) : Prop := denotes j v /\ plain v /\ fresh v.
Definition sound_entries (ms : list (str * json)) (m : fields) : Prop := Forall2 (fun a b => fst a = fst b /\ sound (snd a) (snd b)) ms m.
Lemma sound_list : forall js vs, Forall2 sound js vs -> sound (JArray js) (VList vs).
Proof. intros js vs H. split; [|split]; constructor; induction H as [|j v js vs [D [P _]] H IH]; constructor; assumption. Qed.
Lemma sound_object : forall ms ws, sound_entries ms ws -> NoDup (map fst ms) -> sound (JObject ms) (new_object ws).
Proof.
  intros ms ws FF D.
  assert (P : Forall (fun kv => plain (snd kv)) ws) by (clear D; induction FF as [|a b la lb [_ [_ [Q _]]] FF IH]; constructor; assumption).
  assert (O : Forall (fun kv => fresh (snd kv)) ws) by (clear D P; induction FF as [|a b la lb [_ [_ [_ Q]]] FF IH]; constructor; assumption).
  assert (N : map fst ms = map fst ws) by (clear D P O; induction FF as [|a b la lb [Q _] FF IH]; [reflexivity|cbn [map]; congruence]).
  split; [|unfold new_object; rewrite (plain_fields_resolved ws P); split; constructor; [rewrite <- N; exact D|exact P|exact O]]. apply denotes_object.
  - rewrite <- N. exact D.
  - rewrite <- N. auto.
  - clear P N O. intros q u U. revert U D. induction FF as [|[a1 a2] [b1 b2] la lb [Q1 [Q2 _]] FF IH]; intros U D; [destruct U|].
    cbn [fst snd map] in *. subst b1. inversion D as [|? ? N D2]; subst. cbn [find_key]. destruct (str_eqb q a1) eqn:E.
    { apply str_eqb_eq in E. subst q. destruct U as [U|U]; [injection U as <-; eauto|]. destruct N. exact (in_map fst _ _ U). }
    { destruct U as [U|U]; [injection U as -> ->; rewrite str_eqb_refl in E; discriminate|]. auto. }
Qed.

Section Given.
Variables (e : lex_end) (inc : include_kind -> str -> nat -> result (value * nat)).
Notation parse := (ConfigParser_Model.parse_value JSON inc).
Notation read k := (Doc_Model.parse_value k JSON e).

Definition meant (n : node) (j : json) : Prop := forall st ac next v next', parse n st ac next = Ok (v, next') -> next' = next /\ sound j v.
Definition value_given (pv : token -> list token -> result (node * list token)) : Prop :=
  (forall ts, pv TEnd ts = Throw EParse \/ exists u, pv TEnd ts = Stuck u) /\
  forall t ts n r x s, pv t ts = Ok (n, r) -> json_forbids JSON t = false -> skipped t = false -> says t x -> stream ts s ->
  exists j s1 s2, s = s1 ++ s2 /\ stream r s2 /\ W j (x ++ s1) /\ is_value_node n = true /\ meant n j /\ ((t = TOpenCurly -> exists ms, j = JObject ms) /\ (t = TOpenSquare -> exists js, j = JArray js)).

Lemma dull_comma : forall ns, Forall dull ns -> Forall dull (ns ++ [NTok TComma]).
Proof. intros ns D. apply Forall_app. split; [exact D|]. repeat constructor. Qed.
Lemma separator_given : forall ts sn b r s, check_element_separator JSON e ts = Ok (sn, b, r) -> stream ts s ->
  exists a s', s = a ++ s' /\ lax_blank a /\ Forall dull sn /\ (b = true /\ (exists s2, s' = lit "," ++ s2 /\ stream r s2) \/ b = false /\ stream r s').
Proof.
  intros ts sn b r s H S. unfold check_element_separator in H. step H as [[ns t] r1] C. destruct (collect_given _ _ _ _ _ C s S) as [a [s' [-> [B [S1 [D [A _]]]]]]]. exists a, s'. split; [reflexivity|]. split; [exact B|].
  assert (K : t = TComma \/ t <> TComma /\ sn = ns /\ b = false /\ r = t :: r1) by (destruct t; injection H as <- <- <-; auto; right; (split; [discriminate|auto])).
  destruct K as [->|[_ [-> [-> ->]]]]; [|split; [exact D|right; auto]]. injection H as <- <- <-. split; [apply dull_comma, D|]. left. split; [reflexivity|].
  destruct (stream_pop _ _ _ S1 A) as [[K _]|[_ [x [s2 [-> [X S2]]]]]]; [discriminate|]. cbn in X. subst x. eauto.
Qed.

(** ** Arrays *)
Definition array_tail (js : list json) (s : str) : Prop :=
  exists b, lax_blank b /\ (js = [] /\ s = b ++ lit "]" \/ exists q, Its js q /\ s = b ++ lit "," ++ q ++ lit "]").
Definition meant_list (ns : list node) (js : list json) : Prop := forall st ac next vs next', parse_values parse ns st ac next = Ok (vs, next') -> next' = next /\ Forall2 sound js vs.
Lemma tail_items : forall a j y js s, lax_blank a -> W j y -> array_tail js s -> exists q, a ++ y ++ s = q ++ lit "]" /\ Its (j :: js) q.
Proof.
  intros a j y js s A Y [b [B [[-> ->]|[q [Q ->]]]]].
  - exists (a ++ y ++ b). split; [rewrite <- !app_assoc; reflexivity|]. apply items_one; assumption.
  - exists (a ++ y ++ b ++ lit "," ++ q). split; [rewrite <- !app_assoc; reflexivity|]. apply items_more; assumption.
Qed.
Lemma meant_skip : forall ns ms js, Forall dull ns -> meant_list ms js -> meant_list (ns ++ ms) js.
Proof. intros ns ms js D M st ac next vs next' H. rewrite values_dull in H by exact D. exact (M _ _ _ _ _ H). Qed.
Lemma meant_cons : forall n j ms js, is_value_node n = true -> meant n j -> meant_list ms js -> meant_list (n :: ms) (j :: js).
Proof.
  intros n j ms js N M L st ac next vs next' H. cbn [parse_values] in H. rewrite N in H. step H as [v n1] P. step H as [vs' n2] Q. injection H as <- <-.
  destruct (M _ _ _ _ _ P) as [-> Dv]. destruct (L _ _ _ _ _ Q) as [-> Dl]. split; [reflexivity|constructor; assumption].
Qed.
Lemma array_given : forall pv, value_given pv -> forall f ts ns r s, array_loop pv JSON e f ts = Ok (ns, r) -> stream ts s ->
  exists js s1 s2, s = s1 ++ s2 /\ stream r s2 /\ array_tail js s1 /\ meant_list ns js.
Proof.
  intros pv V f. induction f as [|f IH]; intros ts ns r s H S; [discriminate|]. cbn [array_loop] in H. step H as [[sn b] r0] C.
  destruct (separator_given _ _ _ _ _ C S) as [a [s' [-> [B [D K]]]]]. destruct K as [[-> [s2 [-> S2]]]|[-> S2]]; cbn [negb] in H.
  - cbn [consolidate_values bind] in H. step H as [[ws t] r2] C2. destruct (is_value_start t) eqn:T; [|discriminate]. step H as [v r3] P. step H as [rest r4] L. injection H as <- <-.
    destruct (collect_given _ _ _ _ _ C2 _ S2) as [a2 [s3 [-> [B2 [S3 [D2 [A3 K3]]]]]]]. destruct (stream_pop _ _ _ S3 A3) as [[-> _]|[_ [x [s4 [-> [X S4]]]]]]; [discriminate T|].
    destruct (proj2 V _ _ _ _ _ _ P A3 K3 X S4) as [j [y [s5 [-> [S5 [Y [N [M _]]]]]]]]. destruct (IH _ _ _ _ L S5) as [js [z [s6 [-> [S6 [Tl Ml]]]]]].
    destruct (tail_items _ _ _ _ _ B2 Y Tl) as [q [Eq Q]]. exists (j :: js), (a ++ lit "," ++ q ++ lit "]"), s6. split; [|split; [exact S6|split]].
    + rewrite <- Eq. rewrite <- !app_assoc. reflexivity.
    + exists a. split; [exact B|]. right. eauto.
    + apply meant_skip; [exact D|]. cbn [app]. apply meant_skip; [exact D2|]. apply meant_cons; assumption.
  - step H as [[ws t] r2] C2. destruct (collect_given _ _ _ _ _ C2 _ S2) as [a2 [s3 [-> [B2 [S3 [D2 [A3 K3]]]]]]]. destruct t; try discriminate. injection H as <- <-.
    destruct (stream_pop _ _ _ S3 A3) as [[K _]|[_ [x [s4 [-> [X S4]]]]]]; [discriminate|]. cbn in X. subst x. exists [], ((a ++ a2) ++ lit "]"), s4. split; [rewrite <- !app_assoc; reflexivity|]. split; [exact S4|]. split.
    + exists (a ++ a2). split; [apply blank_app; assumption|]. left. auto.
    + apply meant_skip; [exact D|]. apply meant_skip; [exact D2|]. intros st ac next vs next' H. cbn [parse_values is_value_node] in H. injection H as <- <-. split; [reflexivity|constructor].
Qed.
Lemma array_written : forall pv, value_given pv -> forall ts n r s, parse_array pv JSON e ts = Ok (n, r) -> stream ts s ->
  exists js s1 s2, s = s1 ++ s2 /\ stream r s2 /\ W (JArray js) (lit "[" ++ s1) /\ is_value_node n = true /\ meant n (JArray js).
Proof.
  intros pv V ts n r s H S. unfold parse_array in H. cbn [consolidate_values bind] in H. step H as [cs r'] H1. injection H as <- <-. step H1 as [[ws t] r1] C.
  destruct (collect_given _ _ _ _ _ C _ S) as [a [s' [-> [B [S1 [D [A K]]]]]]].
  assert (Mn : forall cs0 js, meant_list cs0 js -> meant (NArray (NTok TOpenSquare :: cs0)) (JArray js)).
  { intros cs0 js M st ac next v next' H. cbn [ConfigParser_Model.parse_value] in H. step H as [vs n1] P. injection H as <- <-. change (parse_values parse (NTok TOpenSquare :: cs0) st (ac + 1) next) with (parse_values parse cs0 st (ac + 1) next) in P.
    destruct (M _ _ _ _ _ P) as [-> F]. split; [reflexivity|apply sound_list, F]. }
  assert (K2 : t = TCloseSquare /\ cs = ws ++ [NTok t] /\ r' = r1 \/ exists v r2 rest, pv t r1 = Ok (v, r2) /\ array_loop pv JSON e (Datatypes.S (List.length r2)) r2 = Ok (rest, r') /\ cs = ws ++ v :: rest /\ t <> TEnd).
  { destruct t; cbn [is_value_start] in H1; try discriminate; try (left; injection H1 as <- <-; auto; fail); right; step H1 as [v9 r2] P; step H1 as [rest r3] L; injection H1 as <- <-; exists v9, r2, rest; (split; [exact P|split; [exact L|split; [reflexivity|discriminate]]]). }
  destruct (stream_pop _ _ _ S1 A) as [[-> _]|[_ [x [s4 [-> [X S4]]]]]]; [destruct K2 as [[K2 _]|[v [r2 [rest [_ [_ [_ K2]]]]]]]; [discriminate|congruence]|].
  destruct K2 as [[-> [-> ->]]|[v [r2 [rest [P [L [-> _]]]]]]].
  - cbn in X. subst x. exists [], (a ++ lit "]"), s4. split; [rewrite <- !app_assoc; reflexivity|]. split; [exact S4|]. split; [apply written_no_items; exact B|]. split; [reflexivity|]. apply Mn.
    apply meant_skip; [exact D|]. intros st ac next vs next' H. cbn [parse_values is_value_node] in H. injection H as <- <-. split; [reflexivity|constructor].
  - destruct (proj2 V _ _ _ _ _ _ P A K X S4) as [j [y [s5 [-> [S5 [Y [N [M _]]]]]]]]. destruct (array_given pv V _ _ _ _ _ L S5) as [js [z [s6 [-> [S6 [Tl Ml]]]]]]. destruct (tail_items _ _ _ _ _ B Y Tl) as [q [Eq Q]].
    exists (j :: js), (q ++ lit "]"), s6. split; [rewrite <- Eq, <- !app_assoc; reflexivity|]. split; [exact S6|]. split; [apply written_array; exact Q|]. split; [reflexivity|]. apply Mn. apply meant_skip; [exact D|]. apply meant_cons; assumption.
Qed.

(** ** Objects *)
Definition meant_field (fcs : list node) (k : str) (j : json) : Prop :=
  forall st ac next p v next', ConfigParser_Model.parse_field parse fcs st ac next = Ok (p, v, next') -> p = [k] /\ next' = next /\ sound j v.
Lemma field_given : forall pv, value_given pv -> forall keys t ts n keys' r x s, Doc_Model.parse_field pv JSON e keys t ts = Ok (n, keys', r) -> says t x -> stream ts s ->
  exists k j fcs b c y s2, n = NField fcs /\ keys' = k :: keys /\ ~ In k keys /\ s = (b ++ lit ":" ++ c ++ y) ++ s2 /\ stream r s2 /\ lax_blank b /\ lax_blank c /\ W j y /\ lax_string x k /\ meant_field fcs k j.
Proof.
  intros pv V keys t ts n keys' r x s H X S. unfold Doc_Model.parse_field in H. cbn [is_json negb andb] in H. step H as [pn r1] Pk. cbn [parse_key] in Pk. destruct (is_string_value t) eqn:Es; [|discriminate].
  destruct t as [| | | | | | | | | | | | | | |]; try discriminate Es. destruct v as [|?|?|?|?|k q]; try discriminate Es. destruct X as [-> X]. rewrite quoted_key in Pk. cbn [bind] in Pk. injection Pk as <- <-.
  step H as [[ws ak] r2] C. destruct (collect_given _ _ _ _ _ C _ S) as [b [s' [-> [B [S1 [D [A K]]]]]]]. step H as [nodes r3] Hn. cbn [fst] in H.
  destruct (is_key_value_separator JSON ak) eqn:Sep; [|discriminate]. cbn [negb consolidate_values bind] in Hn. step Hn as [[ws' t'] r4] C2. step Hn as [v r5] P. injection Hn as <- <-.
  assert (ak = TColon) by (destruct ak; try discriminate Sep; reflexivity). subst ak. destruct (stream_pop _ _ _ S1 A) as [[K0 _]|[_ [x2 [s3 [-> [X2 S3]]]]]]; [discriminate|]. cbn in X2. subst x2.
  destruct (collect_given _ _ _ _ _ C2 _ S3) as [c [s4 [-> [B2 [S4 [D2 [A2 K2]]]]]]].
  destruct (stream_pop _ _ _ S4 A2) as [[-> [-> ->]]|[_ [x3 [s5 [-> [X3 S5]]]]]].
  { destruct (proj1 V []) as [Q|[u Q]]; rewrite Q in P; discriminate P. }
  destruct (proj2 V _ _ _ _ _ _ P A2 K2 X3 S5) as [j [y [s6 [-> [S6 [Y [N [M _]]]]]]]].
  destruct (existsb (str_eqb k) keys) eqn:Ek; [discriminate|]. injection H as <- <- <-.
  eexists k, j, _, b, c, (x3 ++ y), s6. split; [reflexivity|]. split; [reflexivity|]. split; [|split; [|split; [exact S6|split; [exact B|split; [exact B2|split; [exact Y|split; [exact X|]]]]]]].
  - intro I. assert (existsb (str_eqb k) keys = true) by (apply existsb_exists; exists k; split; [exact I|apply str_eqb_refl]). congruence.
  - rewrite <- !app_assoc. reflexivity.
  - intros st ac next p w next' H. unfold ConfigParser_Model.parse_field in H. cbn [field_path bind] in H.
    assert (PE : forall l, Forall dull l -> forall r, is_plus_equals (l ++ NTok TColon :: r) = false).
    { intros l D0 r0. induction D0 as [|a l [_ D0] Dl IH]; [reflexivity|]. cbn [app]. destruct a as [[]| | | | | | | |]; try destruct D0; cbn [is_plus_equals]; try exact IH; reflexivity. }
    match type of H with context [is_plus_equals (?h :: ?l)] => change (is_plus_equals (h :: l)) with (is_plus_equals l) in H end. rewrite PE in H by exact D. cbn [andb] in H. step H as [v0 n1] Pv. cbn [bind] in H. injection H as <- <- <-.
    match type of Pv with parse_field_value ?p (?h :: ?l) ?a ?b ?c = _ => change (parse_field_value p (h :: l) a b c) with (parse_field_value p l a b c) in Pv end.
    rewrite field_value_dull in Pv by exact D. change (NTok TColon :: ?l) with ([NTok TColon] ++ l) in Pv. rewrite field_value_dull in Pv by (repeat constructor). cbn [app] in Pv. rewrite field_value_dull in Pv by exact D2.
    cbn [parse_field_value] in Pv. rewrite N in Pv. destruct (M _ _ _ _ _ Pv) as [-> Dn]. auto.
Qed.

Definition meant_fields (ns : list node) (ms : list (str * json)) : Prop :=
  forall m0 st ac next v next', NoDup (map fst ms) -> (forall k, In k (map fst ms) -> ~ In k (map fst m0)) -> parse_object_nodes JSON inc parse ns m0 st ac next = Ok (v, next') ->
  next' = next /\ exists ws, v = new_object (m0 ++ ws) /\ sound_entries ms ws.
Lemma fields_skip : forall ns l ms, Forall dull ns -> meant_fields l ms -> meant_fields (ns ++ l) ms.
Proof. intros ns l ms D M m0 st ac next v next' U F H. rewrite fields_dull in H by exact D. exact (M _ _ _ _ _ _ U F H). Qed.
Lemma fields_cons : forall fcs k j l ms, meant_field fcs k j -> meant_fields l ms -> meant_fields (NField fcs :: l) ((k, j) :: ms).
Proof.
  intros fcs k j l ms M L m0 st ac next v next' U F H. cbn [parse_object_nodes] in H. step H as [[p w] n1] P. step H as m1 A. destruct (M _ _ _ _ _ _ P) as [-> [-> Dn]].
  cbn [map fst] in U, F. inversion U as [|? ? U1 U2]; subst. cbn [add_field] in A. assert (Z : find_key k m0 = None) by (apply find_key_none; apply F; left; reflexivity).
  rewrite Z in A. injection A as <-. rewrite find_none_append in H by exact Z. apply L in H; [|exact U2|].
  - destruct H as [-> [ws [-> Dw]]]. split; [reflexivity|]. exists ((k, w) :: ws). split; [rewrite <- app_assoc; reflexivity|]. constructor; [split; [reflexivity|exact Dn]|exact Dw].
  - intros q Q. rewrite map_app, in_app_iff. intros [K|[<-|[]]]; [exact (F q (or_intror Q) K)|exact (U1 Q)].
Qed.
Lemma fields_end : forall ns, Forall dull ns -> meant_fields ns [].
Proof.
  intros ns D. rewrite <- (app_nil_r ns). apply fields_skip; [exact D|]. intros m0 st ac next v next' _ _ H. injection H as <- <-. split; [reflexivity|]. exists []. rewrite app_nil_r. split; [reflexivity|constructor].
Qed.
Definition object_rest (after_comma : bool) (ms : list (str * json)) (s : str) : Prop :=
  after_comma = false /\ ms = [] /\ (exists a, lax_blank a /\ s = a ++ lit "}") \/ exists q, Mems ms q /\ s = q ++ lit "}".
Lemma dull_close : forall ns t, Forall dull ns -> t = TCloseCurly -> Forall dull (ns ++ [NTok t]).
Proof. intros ns t D ->. apply Forall_app. split; [exact D|]. repeat constructor. Qed.
Lemma object_given : forall pv, value_given pv -> forall f ac keys ts ns r s, object_loop pv JSON e f true ac keys ts = Ok (ns, r) -> stream ts s ->
  exists ms s1 s2, s = s1 ++ s2 /\ stream r s2 /\ object_rest ac ms s1 /\ NoDup (map fst ms) /\ (forall k, In k (map fst ms) -> ~ In k keys) /\ meant_fields ns ms.
Proof.
  intros pv V f. induction f as [|f IH]; intros ac keys ts ns r s H S; [discriminate|]. cbn [object_loop] in H. step H as [[ws t] r0] C.
  destruct (collect_given _ _ _ _ _ C _ S) as [a [s' [-> [B [S1 [D [A K]]]]]]].
  assert (Q : t = TCloseCurly /\ ac = false /\ ns = ws ++ [NTok TCloseCurly] /\ r = r0 \/
    exists item keys' r2 sn sep r3, Doc_Model.parse_field pv JSON e keys t r0 = Ok (item, keys', r2) /\ check_element_separator JSON e r2 = Ok (sn, sep, r3) /\
      (sep = true /\ (exists rest, object_loop pv JSON e f true true keys' r3 = Ok (rest, r) /\ ns = ws ++ item :: sn ++ rest) \/
       sep = false /\ (exists ws2, collect JSON e r3 = Ok (ws2, TCloseCurly, r) /\ ns = ws ++ item :: sn ++ ws2 ++ [NTok TCloseCurly]))).
  { cbn [is_json negb andb] in H. assert (T : t = TCloseCurly \/ t <> TCloseCurly) by (destruct t; auto; right; discriminate). destruct T as [->|T].
    - left. destruct ac; [discriminate|]. injection H as <- <-. auto.
    - right. assert (H' : ('(item, keys', r2) <- Doc_Model.parse_field pv JSON e keys t r0 ;; '(sn, separated, r3) <- check_element_separator JSON e r2 ;;
          if separated then '(rest, r4) <- object_loop pv JSON e f true true keys' r3 ;; Ok (ws ++ item :: sn ++ rest, r4)
          else '(ws2, t2, r4) <- collect JSON e r3 ;; match t2 with TCloseCurly => Ok (ws ++ item :: sn ++ ws2 ++ [NTok t2], r4) | _ => Throw EParse end) = Ok (ns, r)).
      { rewrite <- H. clear H. destruct t; try congruence; (destruct (Doc_Model.parse_field _ _ _ _ _ _) as [[[? ?] ?]|?|?]; try reflexivity; cbn [bind]; destruct (check_element_separator _ _ _) as [[[? []] ?]|?|?]; try reflexivity; cbn [bind];
          destruct (collect _ _ _) as [[[? t2] ?]|?|?]; try reflexivity; cbn [bind]; destruct t2; reflexivity). }
      clear H. step H' as [[item keys'] r2] P. step H' as [[sn sep] r3] Sp. exists item, keys', r2, sn, sep, r3. split; [exact P|]. split; [exact Sp|]. destruct sep.
      + left. step H' as [rest r4] L. injection H' as <- <-. split; [reflexivity|]. eauto.
      + right. step H' as [[ws2 t2] r4] L. destruct t2; try discriminate. injection H' as <- <-. split; [reflexivity|]. eauto. }
  clear H. destruct Q as [[-> [-> [-> ->]]]|[item [keys' [r2 [sn [sep [r3 [P [Sp Q]]]]]]]]].
  - destruct (stream_pop _ _ _ S1 A) as [[K0 _]|[_ [x [s4 [-> [X S4]]]]]]; [discriminate|]. cbn in X. subst x. exists [], (a ++ lit "}"), s4. split; [rewrite <- app_assoc; reflexivity|]. split; [exact S4|]. split; [left; eauto|]. split; [constructor|]. split; [intros k []|]. apply fields_end, dull_close; auto.
  - destruct (stream_pop _ _ _ S1 A) as [[-> _]|[_ [x [s4 [-> [X S4]]]]]]; [discriminate P|].
    destruct (field_given pv V _ _ _ _ _ _ _ _ P X S4) as [k [j [fcs [b [c [y [s5 [-> [-> [Nk [-> [S5 [Bb [Bc [Y [Ks Mf]]]]]]]]]]]]]]]].
    destruct (separator_given _ _ _ _ _ Sp S5) as [d [s6 [-> [Bd [Dd K6]]]]]. destruct Q as [[-> [rest [L ->]]]|[-> [ws2 [L ->]]]]; (destruct K6 as [[K6 S6]|[K6 S6]]; [|try discriminate K6]; try discriminate K6).
    + destruct S6 as [s7 [-> S7]]. destruct (IH _ _ _ _ _ _ L S7) as [ms [z [s8 [-> [S8 [R [U [F M]]]]]]]]. destruct R as [[R _]|[q [Q ->]]]; [discriminate|].
      exists ((k, j) :: ms), ((a ++ x ++ b ++ lit ":" ++ c ++ y ++ d ++ lit "," ++ q) ++ lit "}"), s8. split; [rewrite <- !app_assoc; reflexivity|]. split; [exact S8|]. split; [right; eexists; split; [|reflexivity]; apply members_more; assumption|].
      split; [cbn [map fst]; constructor; [|exact U]; intro I; exact (F k I (or_introl eq_refl))|]. split; [intros q0 [<-|I]; [exact Nk|]; intro I2; exact (F q0 I (or_intror I2))|].
      apply fields_skip; [exact D|]. apply fields_cons; [exact Mf|]. apply fields_skip; assumption.
    + destruct (collect_given _ _ _ _ _ L _ S6) as [d2 [s7 [-> [Bd2 [S7 [D2 [A2 _]]]]]]]. destruct (stream_pop _ _ _ S7 A2) as [[K0 _]|[_ [x2 [s8 [-> [X2 S8]]]]]]; [discriminate|]. cbn in X2. subst x2.
      exists [(k, j)], ((a ++ x ++ b ++ lit ":" ++ c ++ y ++ (d ++ d2)) ++ lit "}"), s8. split; [rewrite <- !app_assoc; reflexivity|]. split; [exact S8|]. split; [right; eexists; split; [|reflexivity]; apply members_one; try assumption; apply blank_app; assumption|].
      split; [constructor; [intros []|constructor]|]. split; [intros q0 [<-|[]]; exact Nk|]. apply fields_skip; [exact D|]. apply fields_cons; [exact Mf|]. apply fields_skip; [exact Dd|]. apply fields_end, dull_close; auto.
Qed.
Lemma object_written : forall pv, value_given pv -> forall ts n r s, parse_object pv JSON e true ts = Ok (n, r) -> stream ts s ->
  exists ms s1 s2, s = s1 ++ s2 /\ stream r s2 /\ W (JObject ms) (lit "{" ++ s1) /\ is_value_node n = true /\ meant n (JObject ms).
Proof.
  intros pv V ts n r s H S. unfold parse_object in H. step H as [ns r1] L. injection H as <- <-. destruct (object_given pv V _ _ _ _ _ _ _ L S) as [ms [s1 [s2 [-> [S2 [R [U [_ M]]]]]]]].
  exists ms, s1, s2. split; [reflexivity|]. split; [exact S2|]. split; [|split; [reflexivity|]].
  - destruct R as [[_ [-> [a [B ->]]]]|[q [Q ->]]]; [apply written_no_members, B|apply written_object; assumption].
  - intros st ac next v next' H. cbn [ConfigParser_Model.parse_value app] in H.
    change (parse_object_nodes JSON inc parse (NTok TOpenCurly :: ns) [] st ac next) with (parse_object_nodes JSON inc parse ns [] st ac next) in H.
    apply M in H; [|exact U|intros k _ []]. destruct H as [-> [ws [-> Dw]]]. split; [reflexivity|]. apply sound_object; assumption.
Qed.

(** ** Values *)
Lemma read_given : forall k, value_given (read k).
Proof.
  induction k as [|k IH]; split.
  - intro ts. right. eexists. reflexivity.
  - intros t ts n r x s H. discriminate.
  - intro ts. left. reflexivity.
  - intros t ts n r x s H A K X S. destruct t as [| | | | | | | | | | | | | |v o|]; try discriminate.
    + cbn [Doc_Model.parse_value] in H. destruct (object_written (read k) IH _ _ _ _ H S) as [ms [s1 [s2 [-> [S2 [Wr [N M]]]]]]]. cbn in X. subst x. exists (JObject ms), s1, s2. repeat (split; [assumption || reflexivity|]). split; intro Q; [eauto|discriminate Q].
    + cbn [Doc_Model.parse_value] in H. destruct (array_written (read k) IH _ _ _ _ H S) as [js [s1 [s2 [-> [S2 [Wr [N M]]]]]]]. cbn in X. subst x. exists (JArray js), s1, s2. repeat (split; [assumption || reflexivity|]). split; intro Q; [discriminate Q|eauto].
    + exfalso. unfold skipped in K. cbn in A, K. rewrite K in A. discriminate A.
    + cbn [Doc_Model.parse_value] in H. injection H as <- <-.
      assert (J : exists j, W j x /\ denotes j (VScalar v)).
      { destruct v as [|[]|z u|z u|d u|q0 q1]; cbn in X.
        - subst x. eexists. split; constructor.
        - subst x. eexists. split; constructor.
        - subst x. eexists. split; constructor.
        - destruct X as [m [y [X1 X2]]]. exists (JNumber x m y). split; [constructor; exact X1|exact X2].
        - destruct X as [m [y [X1 X2]]]. exists (JNumber x m y). split; [constructor; exact X1|exact X2].
        - destruct X as [m [y [X1 X2]]]. exists (JNumber x m y). split; [constructor; exact X1|exact X2].
        - destruct X as [-> X]. exists (JString q0). split; constructor. exact X. }
      destruct J as [j [Wj Dj]]. exists j, [], s. rewrite app_nil_r. repeat (split; [assumption || reflexivity|]). split; [|split; intro Q; discriminate Q].
      intros st ac next v0 next' H. injection H as <- <-. split; [reflexivity|split; [exact Dj|split; constructor]].
Qed.
End Given.

(** ** Documents *)
Lemma root_dull : forall inc ns, Forall dull ns -> forall cs next, parse_root_nodes JSON inc None (ns ++ cs) next = parse_root_nodes JSON inc None cs next.
Proof.
  intros inc ns D cs next. induction D as [|n ns [N D] Dl IH]; [reflexivity|]. cbn [app parse_root_nodes]. destruct n as [[]| | | | | | | |]; try discriminate N; try exact IH; destruct D.
Qed.
Lemma root_rest : forall inc ns, Forall dull ns -> forall v next, parse_root_nodes JSON inc (Some v) ns next = Ok (Some v, next).
Proof.
  intros inc ns D v next. induction D as [|n ns [N D] Dl IH]; [reflexivity|]. cbn [parse_root_nodes]. destruct n as [[]| | | | | | | |]; try discriminate N; try exact IH; try reflexivity; destruct D.
Qed.
Lemma json_given : forall inc s next r next', parse_config JSON inc s next = Ok (r, next') -> next' = next /\ exists j v, r = Some v /\ lax_document s j /\ sound j v.
Proof.
  intros inc s next r next' H. unfold parse_config in H. step H as ns P. unfold parse_document, after_start in P. cbn [is_json negb] in P. destruct (delivered (lex false s)) as [ts e] eqn:L. apply delivered_given in L.
  destruct ts as [|t0 ts]; [destruct e; discriminate P|]. cbn [List.tl] in L. unfold parse_root in P. step P as [[ws t] r0] C. destruct (collect_given _ _ _ _ _ C _ L) as [a [s' [-> [B [S1 [D [A K]]]]]]].
  assert (Q : (t = TOpenCurly \/ t = TOpenSquare) /\ exists v r1 ws2 r2, Doc_Model.parse_value (S (List.length ts)) JSON e t r0 = Ok (v, r1) /\ collect JSON e r1 = Ok (ws2, TEnd, r2) /\ ns = ws ++ v :: ws2).
  { assert (T : (t = TOpenCurly \/ t = TOpenSquare) \/ t <> TOpenCurly /\ t <> TOpenSquare) by (destruct t; auto; right; split; discriminate). destruct T as [T|[T1 T2]].
    - split; [exact T|]. assert (P' : ('(v, r1) <- Doc_Model.parse_value (S (List.length ts)) JSON e t r0 ;; '(ws2, t2, _) <- collect JSON e r1 ;; match t2 with TEnd => Ok ((ws ++ [v]) ++ ws2) | _ => Throw EParse end) = Ok ns).
      { rewrite <- P. destruct T as [-> | ->]; (destruct (Doc_Model.parse_value _ _ _ _ _) as [[v r1]|?|?]; try reflexivity; cbn [bind]; destruct (collect _ _ r1) as [[[? t2] ?]|?|?]; try reflexivity; cbn [bind]; destruct t2; reflexivity). }
      clear P. step P' as [v r1] Pv. step P' as [[ws2 t2] r2] C2. destruct t2; try discriminate. injection P' as <-. exists v, r1, ws2, r2. rewrite <- app_assoc. auto.
    - exfalso. destruct t; try congruence; discriminate P. }
  clear P. destruct Q as [T [n [r1 [ws2 [r2 [Pv [C2 ->]]]]]]].
  destruct (stream_pop _ _ _ S1 A) as [[-> _]|[_ [x [s4 [-> [X S4]]]]]]; [destruct T; discriminate|].
  destruct (proj2 (read_given e inc _) _ _ _ _ _ _ Pv A K X S4) as [j [y [s5 [-> [S5 [Wj [N [M [O1 O2]]]]]]]]].
  destruct (collect_given _ _ _ _ _ C2 _ S5) as [b [s6 [-> [B2 [S6 [D2 [A2 K2]]]]]]]. destruct (stream_pop _ _ _ S6 A2) as [[_ [_ ->]]|[Q _]]; [|congruence].
  pose proof (opened_complex _ _ _ _ _ _ T Pv) as Cx. rewrite root_dull in H by exact D.
  assert (H' : ('(v, next'') <- ConfigParser_Model.parse_value JSON inc n [] 0 next ;; parse_root_nodes JSON inc (Some v) ws2 next'') = Ok (r, next')).
  { rewrite <- H. cbn [parse_root_nodes]. destruct n; try discriminate Cx; rewrite Cx; reflexivity. }
  clear H. step H' as [v n1] Pn. rewrite root_rest in H' by exact D2. injection H' as <- <-. destruct (M _ _ _ _ _ Pn) as [-> Dv]. split; [reflexivity|]. exists j, v. split; [reflexivity|]. split; [|exact Dv].
  replace (a ++ x ++ y ++ b ++ []) with (a ++ (x ++ y) ++ b) by (rewrite app_nil_r, <- !app_assoc; reflexivity).
  destruct T as [-> | ->]; [destruct (O1 eq_refl) as [ms ->]; apply document_object|destruct (O2 eq_refl) as [js ->]; apply document_array]; assumption.
Qed.
Lemma json_accepts : forall inc s next r next', parse_config JSON inc s next = Ok (r, next') -> next' = next /\ exists j v, r = Some v /\ lax_document s j /\ denotes j v.
Proof. intros inc s next r next' H. destruct (json_given _ _ _ _ _ H) as [E [j [v [R [L [D _]]]]]]. split; [exact E|]. eauto. Qed.
