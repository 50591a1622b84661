(** Documents that were parsed: their keys and values are read from their text wherever it stands. *)
From Verif Require Import Base BaseLemmas Util_Model Num_Model Path_Model Token_Model Token_Spec Token_Lemmas Token_Lemmas2 PathParser_Model Doc_Model Doc_Spec Doc_Lemmas Doc_Lemmas2 Doc_Lemmas3 Edit_Model Value_Model Json_Lemmas Json_Lemmas2 Render_Lemmas3 JsonEdit_Lemmas ConfEdit_Spec ConfText_Spec ConfText_Lemmas ConfText_Lemmas2 ConfText_Lemmas3 ConfText_Lemmas4 ConfText_Lemmas5 ConfText_Lemmas6 ConfText_Lemmas7 ConfText_Lemmas8.

(** The rest of the tokens of a text. *)
Definition src (ts : list token) : Prop :=
  good ts /\ exists A B ls, ts = B ++ [TEnd] /\ spelt ls (A ++ B) [] /\ no_nul (render_tokens (A ++ B)).
Lemma src_suffix : forall a b, src (a ++ b) -> b <> [] -> src b.
Proof.
  intros a b [G [A [B [ls [E [S N]]]]]] Nb. split; [exact (good_suffix _ _ G)|]. destruct (exists_last Nb) as [b' [x ->]]. rewrite app_assoc in E. apply app_inj_tail in E. destruct E as [<- ->].
  exists (A ++ a), b', ls. rewrite <- app_assoc. auto.
Qed.
Lemma src_ndb : forall ts, src ts -> no_double_blank ts.
Proof. intros ts [[_ G] _]. exact G. Qed.
Lemma spelt_word : forall ls ts r, spelt ls ts r -> forall A w B, ts = A ++ TUnquoted w :: B -> solid (TUnquoted w) = false -> exists t B', B = t :: B' /\ is_simple_value t = true.
Proof.
  intros ls ts r H. induction H as [ls r|ls t ts r R H IH|ls w t ts r W Sm R H IH|w t ts r W Sm R H IH|ls w r W]; intros A x B E Nx.
  - destruct A; discriminate.
  - destruct A as [|a A]; [|injection E as -> E; exact (IH _ _ _ E Nx)]. injection E as -> ->. rewrite (reads_solid _ _ R) in Nx. discriminate.
  - destruct A as [|a [|a2 A]]; [discriminate| |injection E as _ _ E; exact (IH _ _ _ E Nx)]. injection E as _ -> ->. rewrite (reads_solid _ _ R) in Nx. discriminate.
  - destruct A as [|a [|a2 A]]; [injection E as _ <-; eauto| |injection E as _ _ E; exact (IH _ _ _ E Nx)]. injection E as _ -> ->. rewrite (reads_solid _ _ R) in Nx. discriminate.
  - destruct A as [|a [|]]; discriminate.
Qed.
Lemma last_split : forall (u : list token), u <> [] -> exists u' t, u = u' ++ [t] /\ List.last u TEnd = t.
Proof. intros u N. destruct (exists_last N) as [u' [t ->]]. exists u', t. split; [reflexivity|]. rewrite last_app by discriminate. reflexivity. Qed.
Lemma src_chunk : forall A u b B, src (A ++ u ++ b :: B) -> u <> [] -> solid (hd TEnd u) = true -> match List.last u TEnd with TIgnored _ | TComment _ _ => false | _ => true end = true -> is_simple_value b = false -> chunk u.
Proof.
  intros A u b B [_ [A0 [B0 [ls [E [S N]]]]]] Nu Sh Cl Sb. destruct (last_split u Nu) as [u' [t [Eu El]]]. rewrite El in Cl.
  assert (EB : exists B', B0 = A ++ u ++ B' /\ b :: B = B' ++ [TEnd]).
  { assert (Nb : b :: B <> []) by discriminate. destruct (exists_last Nb) as [B' [x Ex]]. rewrite Ex in E. exists B'. rewrite !app_assoc in E. apply app_inj_tail in E. destruct E as [<- <-]. rewrite <- !app_assoc. auto. }
  destruct EB as [B' [-> EB]].
  assert (St : solid t = true).
  { destruct (solid t) eqn:X; [reflexivity|]. exfalso. assert (W : exists w, t = TUnquoted w) by (destruct t; try discriminate X; try discriminate Cl; eauto). destruct W as [w ->].
    destruct (spelt_word _ _ _ S (A0 ++ A ++ u') w B') as [s [B2 [-> Ss]]]; [rewrite Eu, <- !app_assoc; reflexivity|exact X|]. cbn [app] in EB. injection EB as -> _. congruence. }
  assert (Ct : is_comment t = false) by (destruct t; try reflexivity; discriminate Cl).
  split; [|split; [exact Nu|split; [exact Sh|rewrite El; auto]]]. intros k r Nr. destruct u as [|x u]; [congruence|]. cbn [hd] in Sh.
  assert (S1 : spelt k ((x :: u) ++ B') []) by (apply (spelt_suffix _ _ _ S (A0 ++ A) x (u ++ B')); [rewrite <- !app_assoc; reflexivity|exact Sh]).
  rewrite Eu in S1 |- *. pose proof (spelt_prefix _ _ _ S1 u' t B' eq_refl St) as S2. apply (spelt_moved _ _ _ S2 u' t r); auto. rewrite app_nil_r.
  rewrite <- Eu. rewrite !render_app' in N. unfold no_nul in *. intro I. apply N. apply in_or_app. right. apply in_or_app. right. apply in_or_app. apply in_app_or in I. exact I.
Qed.

Lemma value_pv : forall k N t ts n r, no_double_blank (t :: ts) -> parse_value k CONF LEnd t ts = Ok (n, r) ->
  exists u, ts = u ++ r /\ is_value_node n = true /\ closed (List.last (t :: u) TEnd) = true /\ forall r2, (List.length u < N)%nat -> parse_value N CONF LEnd t (u ++ r2) = Ok (n, r2).
Proof. intros k N t ts n r D H. destruct (value_frame _ _ _ _ _ D H) as [u [E [V [C A]]]]. exists u. split; [exact E|]. split; [exact V|]. split; [exact C|]. intros r2 L. apply A, L. Qed.

(** The fields of an object were parsed one by one. *)
Lemma collect_layout : forall ts ns t r, collect CONF LEnd ts = Ok (ns, t, r) -> forall fc, ~ In (NField fc) ns.
Proof.
  induction ts as [|x ts IH]; intros ns t r H fc; cbn [collect] in H; [discriminate|]. change (json_forbids CONF x) with false in H. cbv iota in H.
  destruct (match x with TIgnored _ | TNewline => true | _ => is_unquoted_whitespace x end).
  - step H as [[ns' t'] r'] C. injection H as <- <- <-. intros [E|I]; [discriminate|exact (IH _ _ _ C _ I)].
  - destruct x; try (injection H as <- <- <-; intros []). step H as [[ns' t'] r'] C. injection H as <- <- <-. intros [E|I]; [discriminate|exact (IH _ _ _ C _ I)].
Qed.
Lemma sep_layout : forall ts b ns b' r, separator_conf b CONF LEnd ts = Ok (ns, b', r) -> forall fc, ~ In (NField fc) ns.
Proof.
  induction ts as [|x ts IH]; intros b ns b' r H fc; cbn [separator_conf] in H; [discriminate|]. change (json_forbids CONF x) with false in H. cbv iota in H.
  destruct (match x with TIgnored _ => true | _ => is_unquoted_whitespace x end).
  - step H as [[ns' t'] r'] C. injection H as <- <- <-. intros [E|I]; [discriminate|exact (IH _ _ _ _ C _ I)].
  - destruct x; try (injection H as <- <- <-; intros I; cbn in I; intuition discriminate); step H as [[ns' t'] r'] C; injection H as <- <- <-; (intros [E|I]; [discriminate|exact (IH _ _ _ _ C _ I)]).
Qed.
Lemma include_node : forall t ts n r, parse_include CONF LEnd t ts = Ok (n, r) -> forall fc, n <> NField fc.
Proof.
  intros t ts n r H fc. unfold parse_include in H. step H as [[ws1 t1] r1] C1. destruct t1; try discriminate H; try (destruct (is_string_value _); [|discriminate]; injection H as <- <-; discriminate).
  destruct (include_kind_of text); [|discriminate]. step H as [[ws2 t2] r2] C2. destruct (negb (is_string_value t2)); [discriminate|]. step H as [[ws3 t3] r3] C3. destruct (negb _); [discriminate|]. injection H as <- <-. discriminate.
Qed.
Lemma object_members : forall k n hoc ac keys ts cs r, src ts -> object_loop (parse_value k CONF LEnd) CONF LEnd n hoc ac keys ts = Ok (cs, r) -> forall fc, In (NField fc) cs ->
  exists A t rest keys0 keys1 r', ts = A ++ t :: rest /\ parse_field (parse_value k CONF LEnd) CONF LEnd keys0 t rest = Ok (NField fc, keys1, r') /\ is_include_keyword t = false /\ solid t = true.
Proof.
  intros k. induction n as [|n IH]; intros hoc ac keys ts cs r Sr H fc I; cbn [object_loop] in H; [discriminate|]. step H as [[ws t] r0] C. destruct (collect_frame _ _ _ _ C) as [u [-> [_ [St [_ [_ _]]]]]]. pose proof (collect_layout _ _ _ _ C) as Lw.
  assert (Go : ('(item, keys', r2) <- (if negb (is_json CONF) && is_include_keyword t then '(inc, r2) <- parse_include CONF LEnd t r0 ;; Ok (inc, keys, r2) else parse_field (parse_value k CONF LEnd) CONF LEnd keys t r0) ;;
     '(sn, separated, r3) <- check_element_separator CONF LEnd r2 ;;
          if separated then
            '(rest, r4) <- object_loop (parse_value k CONF LEnd) CONF LEnd n hoc true keys' r3 ;;
            Ok (ws ++ item :: sn ++ rest, r4)
          else
            '(ws2, t2, r4) <- collect CONF LEnd r3 ;;
            match t2, hoc with
            | TCloseCurly, true => Ok (ws ++ item :: sn ++ ws2 ++ [NTok t2], r4)
            | TEnd, false => Ok (ws ++ item :: sn ++ ws2, t2 :: r4)
            | _, _ => Throw EParse
            end) = Ok (cs, r) -> exists A t' rest keys0 keys1 r', u ++ t :: r0 = A ++ t' :: rest /\ parse_field (parse_value k CONF LEnd) CONF LEnd keys0 t' rest = Ok (NField fc, keys1, r') /\ is_include_keyword t' = false /\ solid t' = true).
  { clear H. intro H. step H as [[item keys'] r2] Mb. change (negb (is_json CONF)) with true in Mb. cbn [andb] in Mb. fold (member (parse_value k CONF LEnd) keys t r0) in Mb. cbn [check_element_separator] in H. step H as [[sn separated] r3] Sp.
    assert (D0 : no_double_blank (t :: r0)) by (apply src_ndb in Sr; exact (ndb_suffix _ _ Sr)).
    destruct (member_frame (parse_value k CONF LEnd) (parse_value 0 CONF LEnd) 0 (value_pv k 0) (value_starts k) _ _ _ _ _ _ D0 Mb) as [u2 [-> _]].
    destruct (sep_frame _ _ _ _ _ Sp) as [u3 [-> [_ [_ Sc]]]]. pose proof (sep_layout _ _ _ _ _ Sp) as Ls.
    assert (Item : item = NField fc -> exists A t' rest keys0 keys1 r', u ++ t :: u2 ++ u3 ++ r3 = A ++ t' :: rest /\ parse_field (parse_value k CONF LEnd) CONF LEnd keys0 t' rest = Ok (NField fc, keys1, r') /\ is_include_keyword t' = false /\ solid t' = true).
    { intros ->. unfold member in Mb. destruct (is_include_keyword t) eqn:Ik; [step Mb as [inc r9] Pi; injection Mb as -> _ _; destruct (include_node _ _ _ _ Pi fc eq_refl)|]. exists u, t, (u2 ++ u3 ++ r3), keys, keys', (u3 ++ r3). auto. }
    destruct separated.
    - step H as [rest r4] L. injection H as <- <-. apply in_app_or in I. destruct I as [I|I]; [destruct (Lw _ I)|]. destruct I as [E|I]; [exact (Item E)|]. apply in_app_or in I. destruct I as [I|I]; [destruct (Ls _ I)|].
      assert (N3 : r3 <> []) by (intros ->; destruct n; discriminate L).
      assert (S3 : src r3) by (apply (src_suffix (u ++ t :: u2 ++ u3)); [rewrite <- !app_assoc; cbn [app]; rewrite <- !app_assoc; exact Sr|exact N3]).
      destruct (IH _ _ _ _ _ _ S3 L fc I) as [A [t' [rest' [k0 [k1 [r' [-> [Pf Ik]]]]]]]]. exists (u ++ t :: u2 ++ u3 ++ A), t', rest', k0, k1, r'. split; [|auto]. rewrite <- !app_assoc. cbn [app]. rewrite <- !app_assoc. reflexivity.
    - step H as [[ws2 t2] r4] C2. pose proof (collect_layout _ _ _ _ C2) as L2.
      assert (I' : In (NField fc) (ws ++ item :: sn ++ ws2)).
      { destruct t2, hoc; try discriminate H; injection H as <- <-; [exact I|]. rewrite app_comm_cons, !app_assoc in I. apply in_app_or in I. destruct I as [I|[I|[]]]; [|discriminate]. rewrite <- !app_assoc in I. exact I. }
      apply in_app_or in I'. destruct I' as [I'|I']; [destruct (Lw _ I')|]. destruct I' as [E|I']; [exact (Item E)|]. apply in_app_or in I'. destruct I' as [I'|I']; [destruct (Ls _ I')|destruct (L2 _ I')]. }
  assert (Stop : forall z, Ok (ws ++ z, r0) = Ok (cs, r) -> (forall fc, ~ In (NField fc) z) -> exists A t' rest keys0 keys1 r', u ++ t :: r0 = A ++ t' :: rest /\ parse_field (parse_value k CONF LEnd) CONF LEnd keys0 t' rest = Ok (NField fc, keys1, r') /\ is_include_keyword t' = false /\ solid t' = true).
  { intros z E Nz. injection E as <- _. apply in_app_or in I. destruct I as [I|I]; [destruct (Lw _ I)|destruct (Nz _ I)]. }
  destruct t; try (exact (Go H)).
  - destruct hoc; [exact (Go H)|]. injection H as <- _. destruct (Lw _ I).
  - change (is_json CONF && ac) with false in H. cbv iota in H. destruct hoc; [|discriminate]. cbn [negb] in H. apply (Stop _ H). intros fc2 [E|[]]; discriminate.
Qed.

Lemma field_key : forall p keys t ts fc keys' r, parse_field p CONF LEnd keys t ts = Ok (NField fc, keys', r) ->
  exists ks pn t' r', fc = NPath pn :: tl fc /\ t :: ts = ks ++ t' :: r' /\ ks <> [] /\ hd TEnd ks = t /\ is_simple_value t' = false /\ Forall (fun t => keyish t = true) ks /\ parse_path_expression false CONF ks LEnd = Ok pn /\ fst pn <> [].
Proof.
  intros p keys t ts fc keys' r H. unfold parse_field in H. step H as [pn r1] K. cbn [parse_key] in K. step K as [ks r1'] Kt. destruct (key_parts _ _ _ _ Kt) as [E [Fk [t' [r' [-> Kl]]]]].
  destruct ks as [|k ks]; [discriminate|]. step K as pn' Pp. injection K as -> <-. step H as [[ws ak] r2] C. step H as [nodes r3] Hn. exists (k :: ks), pn, t', r'.
  assert (Key : fst pn <> []) by (intro Z; rewrite Z in H; discriminate H).
  assert (En : NField fc = NField (NPath pn :: nodes)).
  { cbn [is_json] in H. destruct (fst pn) as [|key [|key2 rest]]; [discriminate| |]; [destruct (existsb (str_eqb key) keys)|]; congruence. }
  injection En as ->. split; [reflexivity|]. split; [exact E|]. split; [discriminate|]. split; [injection E as -> _; reflexivity|]. split; [|auto].
  destruct t'; try reflexivity; try discriminate Kl. exfalso. cbn in C. injection C as <- <- <-. cbn in Hn. discriminate Hn.
Qed.

Inductive sound : node -> Prop :=
| sound_leaf : forall v, (forall cs, v <> NObject cs) -> is_value_node v = true -> (paren_free v = true -> exists ts, value_ok v ts) -> sound v
| sound_object : forall cs, (forall fc, In (NField fc) cs -> lead_of fc = []) -> (forall fc pn, In (NField fc) cs -> field_shape fc = true -> In (NPath pn) fc -> key_ok pn) -> (forall fc v, In (NField fc) cs -> field_shape fc = true -> In v fc -> is_value_node v = true -> sound v) -> sound (NObject cs).

Lemma layout_value : forall ws v, In v ws -> Forall (fun n => match n with NTok _ | NComment _ => true | _ => false end = true) ws -> is_value_node v = false /\ forall pn, v <> NPath pn.
Proof. intros ws v I F. rewrite Forall_forall in F. specialize (F _ I). destruct v; try discriminate F; split; try reflexivity; discriminate. Qed.
Lemma collect_plain' : forall ts ns t r, collect CONF LEnd ts = Ok (ns, t, r) -> Forall (fun n => match n with NTok _ | NComment _ => true | _ => false end = true) ns.
Proof.
  induction ts as [|x ts IH]; intros ns t r H; cbn [collect] in H; [discriminate|]. change (json_forbids CONF x) with false in H. cbv iota in H.
  destruct (match x with TIgnored _ | TNewline => true | _ => is_unquoted_whitespace x end).
  - step H as [[ns' t'] r'] C. injection H as <- <- <-. constructor; [reflexivity|exact (IH _ _ _ C)].
  - destruct x; try (injection H as <- <- <-; constructor). step H as [[ns' t'] r'] C. injection H as <- <- <-. constructor; [reflexivity|exact (IH _ _ _ C)].
Qed.

Lemma key_sound : forall ks pn, good ks -> chunk ks -> Forall (fun t => keyish t = true) ks -> is_include_keyword (hd TEnd ks) = false -> parse_path_expression false CONF ks LEnd = Ok pn -> fst pn <> [] -> key_ok pn.
Proof.
  intros ks [p acc] [G _] C F I P N. destruct (parse_path_text _ _ _ _ G P) as [R _]. exists ks, (p, acc). cbn [fst snd] in *. repeat split; auto; apply C.
Qed.
Lemma good_prefix : forall a b, good (a ++ b) -> good a.
Proof. intros a b [F D]. split; [apply Forall_app in F; tauto|exact (ndb_prefix _ _ D)]. Qed.
Lemma keyish_closed : forall ks, ks <> [] -> Forall (fun t => keyish t = true) ks -> match List.last ks TEnd with TIgnored _ | TComment _ _ => false | _ => true end = true.
Proof.
  intros ks N F. destruct (last_split ks N) as [k' [t [-> E]]]. rewrite E. apply Forall_app in F. destruct F as [_ F]. inversion F as [|? ? K _]; subst. destruct t; try discriminate K; reflexivity.
Qed.
Lemma stop_simple : forall r, stop r -> exists b r', r = b :: r' /\ is_simple_value b = false.
Proof. intros [|b r] St; [contradiction|]. exists b, r. split; [reflexivity|]. cbn [stop] in St. destruct b; try reflexivity; destruct r; discriminate St. Qed.
Lemma value_layout : forall v, is_value_node v = true -> is_layout v = false.
Proof. intros v V. destruct v; try discriminate V; reflexivity. Qed.

Lemma consolidate_sound : forall k A ts ns v r, (forall t ts cs r, src (t :: ts) -> parse_value k CONF LEnd t ts = Ok (NObject cs, r) -> sound (NObject cs)) ->
  src (A ++ ts) -> consolidate_values (parse_value k CONF LEnd) CONF LEnd ts = Ok (ns, Some v, r) -> sound v.
Proof.
  intros k A ts ns v r IH S H.
  assert (Nts : ts <> []) by (intros ->; discriminate H).
  pose proof (src_suffix _ _ S Nts) as S1. pose proof (src_ndb _ S1) as D.
  assert (Leaf : (forall cs, v <> NObject cs) -> sound v).
  { intro NO. pose proof (consolidate_frame (parse_value k CONF LEnd) (parse_value 0 CONF LEnd) 0 (value_pv k 0) _ _ _ _ D H) as Fr. cbv beta iota in Fr.
    destruct Fr as [u0 [u [E [E0 [Nu [Sh [Ch Fr]]]]]]]. destruct Fr as [Nh [Cl [V [St _]]]]. apply sound_leaf; [exact NO|exact V|]. intro Pf. exists u.
    assert (X : forall fuel r2, stop r2 -> (List.length u <= fuel)%nat -> consolidate_values (parse_value fuel CONF LEnd) CONF LEnd (u ++ r2) = Ok ([], Some v, r2)).
    { intros fuel r2 St2 L. pose proof (consolidate_frame (parse_value k CONF LEnd) (parse_value fuel CONF LEnd) fuel (value_pv k fuel) _ _ _ _ D H) as Fr. cbv beta iota in Fr.
      destruct Fr as [u0' [u' [E' [E0' Fr]]]]. assert (u' = u) as -> by (rewrite E, <- E0, <- E0' in E'; apply app_inv_head, app_inv_tail in E'; congruence). apply Fr; assumption. }
    split; [|split; [|split; [exact Ch|split; [exact Nh|]]]].
    - rewrite (paren_free_render v Pf). specialize (X (List.length u) r St (le_n _)). destruct S1 as [G1 _]. rewrite E in G1. apply good_suffix in G1.
      destruct (consolidate_takes _ _ _ _ _ _ _ (parse_value_keeps _ CONF LEnd) G1 X) as [[pre [Ep Er]] _]. apply app_inv_tail in Ep. subst pre. exact Er.
    - destruct (stop_simple _ St) as [b [r' [-> Sb]]]. rewrite E in S. rewrite app_assoc in S. apply (src_chunk _ _ _ _ S); auto.
    - intros fuel r2 St2 L. exists v. split; [exact (X _ _ St2 L)|]. split; [apply value_layout, V|reflexivity]. }
  destruct v; try (apply Leaf; discriminate).
  destruct (consolidate_single (parse_value k CONF LEnd) (parse_value 0 CONF LEnd) 0 (value_pv k 0) _ _ _ _ D H) as [t [r0 [E [P _]]]]; [discriminate|].
  rewrite E in S1. exact (IH _ _ _ _ (src_suffix _ _ S1 ltac:(discriminate)) P).
Qed.
Lemma after_gap_parts : forall fc, fc = after_gap fc \/ exists w, fc = NTok (TIgnored w) :: after_gap fc.
Proof. intros [|[[]| | | | | | | |] fc]; try (left; reflexivity). cbn [after_gap]. destruct (blank_text text); eauto. Qed.
Lemma shape_rest : forall pn ws v, field_shape (NPath pn :: ws ++ [v]) = true -> forall c, In c ws -> exists t, c = NTok t.
Proof.
  intros pn ws v H c I. unfold field_shape in H. cbn [core_of] in H. assert (L : forall a b, a ++ [v] = [b] -> a = []) by (intros [|x [|y a]] b E; [reflexivity|discriminate|discriminate]).
  assert (After : after_gap (ws ++ [v]) = ws ++ [v] \/ exists w z, ws = NTok (TIgnored w) :: z /\ after_gap (ws ++ [v]) = z ++ [v]).
  { destruct (after_gap_parts (ws ++ [v])) as [E|[w E]]; [left; congruence|]. destruct ws as [|a z]; [destruct v as [[]| | | | | | | |]; try discriminate E; cbn [app after_gap] in *; destruct (blank_text text); discriminate|]. right. cbn [app] in E. injection E as -> E. exists w, z. auto. }
  assert (Main : forall z, (match z ++ [v] with [x] => field_object x | NTok (TColon | TEquals) :: r' => match after_gap r' with [x] => field_thing x | _ => false end | _ => false end = true) -> forall c, In c z -> exists t, c = NTok t).
  { clear. intros [|a z] H c I; [destruct I|]. cbn [app] in H. destruct (z ++ [v]) as [|b y] eqn:E; [destruct z; discriminate|].
    assert (exists t, a = NTok t /\ match after_gap (b :: y) with [x] => field_thing x | _ => false end = true) as [t [-> H']] by (destruct a as [[]| | | | | | | |]; try discriminate H; eauto).
    destruct I as [<-|I]; [eauto|]. rewrite <- E in H'. destruct z as [|a2 z]; [destruct I|]. cbn [app] in H'. destruct z as [|a3 z].
    - destruct I as [<-|[]]. destruct a2; try discriminate H'. eauto.
    - exfalso. cbn [app] in H'. destruct a2 as [[]| | | | | | | |]; try discriminate H'; destruct z; cbn in H'; try discriminate H'; destruct (blank_text text); discriminate H'. }
  destruct After as [E|[w [z [-> E]]]]; rewrite E in H; [exact (Main _ H _ I)|]. destruct I as [<-|I]; [eauto|exact (Main _ H _ I)].
Qed.
Lemma fields_sound : forall k n hoc ac keys ts cs r, (forall t ts cs r, src (t :: ts) -> parse_value k CONF LEnd t ts = Ok (NObject cs, r) -> sound (NObject cs)) -> src ts ->
  object_loop (parse_value k CONF LEnd) CONF LEnd n hoc ac keys ts = Ok (cs, r) ->
  (forall fc, In (NField fc) cs -> lead_of fc = []) /\ (forall fc pn, In (NField fc) cs -> field_shape fc = true -> In (NPath pn) fc -> key_ok pn) /\ (forall fc v, In (NField fc) cs -> field_shape fc = true -> In v fc -> is_value_node v = true -> sound v).
Proof.
  intros k n hoc ac keys ts cs r IH Sr H.
  assert (Main : forall fc, In (NField fc) cs -> exists pn ws v, key_ok pn /\ sound v /\ is_value_node v = true /\ fc = NPath pn :: ws ++ [v]).
  { intros fc I. destruct (object_members _ _ _ _ _ _ _ _ Sr H fc I) as [A [t [rest [k0 [k1 [r' [E [Pf [Ik Sd]]]]]]]]].
    subst ts. assert (S1 : src (t :: rest)) by (apply (src_suffix _ _ Sr); discriminate).
    destruct (field_key _ _ _ _ _ _ _ Pf) as [ks [pn [t' [r1 [Ef [Et [Nk [Hk [Sb [Fk [Pp Np]]]]]]]]]]].
    assert (K : key_ok pn).
    { apply (key_sound ks); auto.
      - destruct S1 as [G _]. rewrite Et in G. exact (good_prefix _ _ G).
      - rewrite Et in Sr. apply (src_chunk _ _ _ _ Sr); auto; [rewrite Hk; exact Sd|apply keyish_closed; auto].
      - rewrite Hk. exact Ik. }
    exists pn. destruct (field_parts (parse_value k CONF LEnd) (parse_value 0 CONF LEnd) 0 (value_pv k 0) (value_starts k) _ _ _ _ _ _ (src_ndb _ S1) Pf) as [ks2 [pn2 [ws [_ [_ [_ [_ [_ [_ [Obj|Sep]]]]]]]]]].
    - destruct Obj as [uv [v [En [Eu [Pv [V _]]]]]]. injection En as En. exists ws, v. rewrite En in Ef. injection Ef as ->. split; [exact K|]. split; [|auto].
      assert (O : exists cs, v = NObject cs).
      { destruct k; cbn [parse_value] in Pv; [discriminate|]. unfold parse_object in Pv. step Pv as [ns r2] L. injection Pv as <- _. eauto. }
      destruct O as [cs2 ->]. apply (IH TOpenCurly (uv ++ r') cs2 r'); [|exact Pv]. rewrite Eu in S1. rewrite app_assoc in S1. apply (src_suffix _ _ S1). discriminate.
    - destruct Sep as [sep [ns [u [v [_ [En [Eu [Cv [_ [_ [_ [_ [_ [_ [V _]]]]]]]]]]]]]]]. injection En as En. exists (ws ++ NTok sep :: ns), v. rewrite En in Ef. injection Ef as ->. split; [exact K|].
      split; [|split; [exact V|rewrite En, <- app_assoc; reflexivity]]. rewrite Eu in S1. eapply (consolidate_sound k (ks2 ++ flat_map node_tokens ws ++ [sep]) _ _ _ _ IH); [|exact Cv]. rewrite <- !app_assoc. exact S1. }
  assert (Shape : forall fc pn ws v, field_shape fc = true -> fc = NPath pn :: ws ++ [v] -> forall c, In c ws -> is_value_node c = false /\ forall q, c <> NPath q).
  { intros fc pn ws v Fs -> c I. destruct (shape_rest _ _ _ Fs c I) as [t ->]. split; [reflexivity|discriminate]. }
  split; [|split].
  - intros fc I. destruct (Main fc I) as [pn [ws [v [_ [_ [_ ->]]]]]]. reflexivity.
  - intros fc q I Fs Iq. destruct (Main fc I) as [pn [ws [v [K [_ [V E]]]]]]. pose proof (Shape _ _ _ _ Fs E) as Sh. rewrite E in Iq. destruct Iq as [Q|Iq]; [injection Q as <-; exact K|]. apply in_app_or in Iq. destruct Iq as [Iq|[->|[]]]; [destruct (Sh _ Iq) as [_ Z]; destruct (Z q eq_refl)|discriminate V].
  - intros fc w I Fs Iq W. destruct (Main fc I) as [pn [ws [v [_ [Sv [V E]]]]]]. pose proof (Shape _ _ _ _ Fs E) as Sh. rewrite E in Iq. destruct Iq as [<-|Iq]; [discriminate W|]. apply in_app_or in Iq. destruct Iq as [Iq|[<-|[]]]; [destruct (Sh _ Iq) as [Z _]; congruence|exact Sv].
Qed.
Lemma object_sound : forall k t ts cs r, src (t :: ts) -> parse_value k CONF LEnd t ts = Ok (NObject cs, r) -> sound (NObject cs).
Proof.
  induction k as [|k IH]; intros t ts cs r S H; cbn [parse_value] in H; [discriminate|]. destruct t; try discriminate H.
  - unfold parse_object in H. step H as [ns r1] L. injection H as <- <-. cbn [app].
    assert (N : ts <> []) by (intros ->; discriminate L). destruct (fields_sound _ _ _ _ _ _ _ _ IH (src_suffix [TOpenCurly] ts S N) L) as [Ld [K V]].
    apply sound_object; [intros fc [E|I]; [discriminate E|exact (Ld _ I)]| |]; intros fc x [E|I]; try discriminate E; [exact (K _ _ I)|exact (V _ _ I)].
  - unfold parse_array in H. step H as [[ns nx] r1] C. step H as [cs' r'] D. discriminate.
Qed.

(** Tidy nodes whose keys and values were parsed. *)
Lemma shape_braced : forall fc, field_shape fc = true -> lead_of fc = [] -> forall children, In (NObject children) fc -> braced children = true.
Proof.
  intros fc Fs Ld children Iv.
  pose proof (field_split fc) as E. rewrite Ld in E. cbn [app] in E.
  assert (NT : forall (l : list token), ~ In (NObject children) (map NTok l)) by (intros l Z; apply in_map_iff in Z; destruct Z as [t [Z _]]; discriminate).
  destruct (shape_parts _ Fs) as [pn [g1 [G1 [[v [E1 O]]|[sep [g2 [v [Sp [G2 [E1 O]]]]]]]]]]; rewrite E, E1 in Iv.
  - destruct Iv as [Iv|Iv]; [discriminate|]. apply in_app_or in Iv. destruct Iv as [Iv|[->|[]]]; [destruct (NT _ Iv)|exact O].
  - destruct Iv as [Iv|Iv]; [discriminate|]. apply in_app_or in Iv. destruct Iv as [Iv|[Iv|Iv]]; [destruct (NT _ Iv)|discriminate|]. apply in_app_or in Iv. destruct Iv as [Iv|[->|[]]]; [destruct (NT _ Iv)|exact O].
Qed.
Lemma sound_tame : forall n, sound n -> tidy n = true -> match n with NObject cs => braced cs = true -> tame n | _ => tame n end.
Proof.
  intros n H. induction H as [v NO V L|cs Ld K V IH]; intro T.
  - assert (tame v) by (destruct L as [ts L]; [destruct v; try exact T; destruct (NO _ eq_refl)|exact (tame_leaf _ _ NO V L)]). destruct v; auto.
  - intro B. cbn [tidy] in T. rewrite forallb_forall in T.
    assert (Sh : forall fc, In (NField fc) cs -> field_shape fc = true /\ forallb tidy fc = true) by (intros fc I; specialize (T _ I); cbv beta iota in T; apply andb_true_iff; exact T).
    apply tame_object; [exact B|intros fc I; apply Sh, I|intros fc pn I; apply K; [exact I|apply Sh, I]|]. intros fc v I Iv Vv. destruct (Sh _ I) as [Fs Ft]. rewrite forallb_forall in Ft. specialize (IH _ _ I Fs Iv Vv (Ft _ Iv)).
    destruct v; try exact IH. apply IH. exact (shape_braced _ Fs (Ld _ I) _ Iv).
Qed.
Lemma sound_fields : forall cs, sound (NObject cs) -> tidy (NObject cs) = true -> tame_fields cs.
Proof.
  intros cs H T. inversion H as [v NO V L|cs' Ld K V]; subst; [destruct (NO _ eq_refl)|].
  assert (Sh : forall fc, In (NField fc) cs -> field_shape fc = true /\ forallb tidy fc = true) by (cbn [tidy] in T; rewrite forallb_forall in T; intros fc I; specialize (T _ I); cbv beta iota in T; apply andb_true_iff; exact T).
  split; [intros fc I; apply Sh, I|]. split; [intros fc pn I; apply K; [exact I|apply Sh, I]|]. intros fc v I Iv Vv. destruct (Sh _ I) as [Fs Ft]. rewrite forallb_forall in Ft. pose proof (sound_tame _ (V _ _ I Fs Iv Vv) (Ft _ Iv)) as Z.
  destruct v; try exact Z. apply Z. exact (shape_braced _ Fs (Ld _ I) _ Iv).
Qed.

(** Documents. *)
Lemma stream_src : forall text ts, no_nul text -> lex_loop (S (List.length text)) true saver_init text = (ts, LEnd) -> src ts.
Proof.
  intros text ts N H. split; [exact (lex_loop_stream _ _ _ _ _ _ H)|]. destruct (lex_spelt _ _ _ _ N H) as [body [-> [S [R _]]]]. exists [], body, false. cbn [app]. auto.
Qed.
Lemma document_src : forall text ns, no_nul text -> parse_document CONF text = Ok ns -> exists ts, src ts /\ parse_root CONF LEnd ts = Ok ns.
Proof.
  intros text ns N H. unfold parse_document, after_start, lex in H. change (negb (is_json CONF)) with true in H.
  destruct (lex_loop (S (List.length text)) true saver_init text) as [ts e] eqn:El.
  pose proof (lex_loop_stream _ _ _ _ _ _ El) as Hg. pose proof (lex_loop_shape _ _ _ _ _ _ (le_n _) El) as [_ [Hs Hn]].
  assert (Hbad : e <> LEnd -> forall e0, e0 = e -> match (removelast (TStart :: ts), e0) with (_ :: ts, e) => parse_root CONF e ts | ([], e) => raise_end e (Stuck UOutOfBounds) end = Ok ns -> False).
  { intros He e0 ->. destruct ts as [|t ts]; [destruct e; try discriminate; congruence|]. cbn [removelast]. intro E.
    apply parse_root_end in E; [|exact (good_removelast _ Hg)|intro K; congruence].
    apply (Hn He). rewrite (app_removelast_last TEnd (l := t :: ts)) by discriminate. apply in_app_iff. left. exact E. }
  destruct e; cbn [delivered] in H.
  - exists ts. split; [exact (stream_src _ _ N El)|exact H].
  - exfalso. eapply Hbad; [|reflexivity|exact H]. discriminate.
  - exfalso. eapply Hbad; [|reflexivity|exact H]. discriminate.
Qed.
Lemma single_end : forall e ts v, good ts -> parse_single_value CONF e ts = Ok v -> In TEnd ts.
Proof.
  intros e ts v G H. unfold parse_single_value in H. step H as [t r] Nx. destruct ts as [|x ts]; [destruct e; discriminate Nx|]. cbn [next_token] in Nx. change (json_forbids CONF x) with false in Nx. injection Nx as -> ->.
  destruct (match t with TIgnored _ | TNewline | TComment _ _ => true | _ => is_unquoted_whitespace t end); [discriminate|].
  assert (H' : ('(_, v, r1) <- consolidate_values (parse_value (S (List.length (t :: r))) CONF e) CONF e (t :: r) ;; '(t1, _) <- next_token CONF e r1 ;; match t1 with TEnd => Ok v | _ => Throw EParse end) = Ok v) by (destruct t; first [exact H|discriminate H]).
  clear H. step H' as [[ns nv] r1] C. step H' as [t1 r2] N1. destruct t1; try discriminate H'. destruct r1 as [|y r1]; [destruct e; discriminate N1|]. cbn [next_token] in N1. change (json_forbids CONF y) with false in N1. injection N1 as -> ->.
  destruct (consolidate_takes _ _ _ _ _ _ _ (parse_value_keeps _ CONF e) G C) as [[pre [Ep _]] _]. rewrite Ep. apply in_or_app. right. left. reflexivity.
Qed.
Lemma value_src : forall text v, no_nul text -> parse_value_text CONF text = Ok v -> exists ts, src ts /\ parse_single_value CONF LEnd ts = Ok v.
Proof.
  intros text ns N H. unfold parse_value_text, after_start, lex in H. change (negb (is_json CONF)) with true in H.
  destruct (lex_loop (S (List.length text)) true saver_init text) as [ts e] eqn:El.
  pose proof (lex_loop_stream _ _ _ _ _ _ El) as Hg. pose proof (lex_loop_shape _ _ _ _ _ _ (le_n _) El) as [_ [Hs Hn]].
  assert (Hbad : e <> LEnd -> forall e0, e0 = e -> match (removelast (TStart :: ts), e0) with (_ :: ts, e) => parse_single_value CONF e ts | ([], e) => raise_end e (Stuck UOutOfBounds) end = Ok ns -> False).
  { intros He e0 ->. destruct ts as [|t ts]; [destruct e; try discriminate; congruence|]. cbn [removelast]. intro E.
    apply single_end in E; [|exact (good_removelast _ Hg)].
    apply (Hn He). rewrite (app_removelast_last TEnd (l := t :: ts)) by discriminate. apply in_app_iff. left. exact E. }
  destruct e; cbn [delivered] in H.
  - exists ts. split; [exact (stream_src _ _ N El)|exact H].
  - exfalso. eapply Hbad; [|reflexivity|exact H]. discriminate.
  - exfalso. eapply Hbad; [|reflexivity|exact H]. discriminate.
Qed.
Lemma value_tame : forall text v, no_nul text -> parse_value_text CONF text = Ok (Some v) -> tidy v = true -> (forall cs, v = NObject cs -> braced cs = true) -> tame v.
Proof.
  intros text v N H T B. destruct (value_src _ _ N H) as [ts [S P]]. unfold parse_single_value in P. step P as [t r] Nx. destruct ts as [|x ts]; [discriminate Nx|]. cbn [next_token] in Nx. change (json_forbids CONF x) with false in Nx. injection Nx as -> ->.
  destruct (match t with TIgnored _ | TNewline | TComment _ _ => true | _ => is_unquoted_whitespace t end); [discriminate|].
  assert (H' : ('(_, v, r1) <- consolidate_values (parse_value (Datatypes.S (List.length (t :: r))) CONF LEnd) CONF LEnd (t :: r) ;; '(t1, _) <- next_token CONF LEnd r1 ;; match t1 with TEnd => Ok v | _ => Throw EParse end) = Ok (Some v)) by (destruct t; first [exact P|discriminate P]).
  clear P. step H' as [[ns nv] r1] C. step H' as [t1 r2] N1. assert (nv = Some v) as -> by (destruct t1; try discriminate H'; congruence).
  pose proof (sound_tame v (consolidate_sound _ [] _ _ _ _ (object_sound _) S C) T) as Z. destruct v; try exact Z. apply Z. exact (B _ eq_refl).
Qed.
Lemma no_fields_layout : forall ws, Forall (fun n => match n with NTok _ | NComment _ => true | _ => false end = true) ws -> forall fc, ~ In (NField fc) ws.
Proof. intros ws F fc I. rewrite Forall_forall in F. specialize (F _ I). discriminate. Qed.
Lemma root_sound : forall ts ns, src ts -> parse_root CONF LEnd ts = Ok ns -> forall cs, In (NObject cs) ns -> sound (NObject cs).
Proof.
  intros ts ns S H cs I. unfold parse_root in H. step H as [[ws t] r] C. pose proof (collect_plain' _ _ _ _ C) as Pw. destruct (collect_frame _ _ _ _ C) as [u [-> _]].
  assert (S1 : src (t :: r)) by (apply (src_suffix _ _ S); discriminate).
  step H as [[mc ch] r1] B. step H as [[ws2 t2] r2] C2. pose proof (collect_plain' _ _ _ _ C2) as P2.
  assert (NL : forall l, Forall (fun n => match n with NTok _ | NComment _ => true | _ => false end = true) l -> ~ In (NObject cs) l) by (intros l F Z; rewrite Forall_forall in F; specialize (F _ Z); discriminate).
  assert (Vl : forall k, ('(v, r1) <- parse_value k CONF LEnd t r ;; Ok (false, ws ++ [v], r1)) = Ok (mc, ch, r1) -> sound (NObject cs)).
  { intros k E. step E as [v r3] P. injection E as <- <- <-. destruct t2; try discriminate H. injection H as <-. rewrite <- app_assoc in I. apply in_app_or in I. destruct I as [I|[->|I]]; [destruct (NL _ Pw I)| |destruct (NL _ P2 I)]. exact (object_sound _ _ _ _ _ S1 P). }
  assert (Ob : forall k, ('(v, r1) <- parse_object (parse_value k CONF LEnd) CONF LEnd false (t :: r) ;; match v with NObject cs => Ok (true, ws ++ cs, r1) | _ => Ok (true, ws ++ [v], r1) end) = Ok (mc, ch, r1) -> sound (NObject cs)).
  { intros k E. step E as [v r3] P. unfold parse_object in P. step P as [ns2 r4] L. injection P as <- <-. cbn [app] in E. injection E as <- <- <-. destruct t2; try discriminate H. injection H as <-. destruct I as [I|[]]. injection I as <-.
    destruct (fields_sound _ _ _ _ _ _ _ _ (object_sound k) S1 L) as [Ld [K V]].
    assert (F : forall fc, In (NField fc) ((ws ++ ns2) ++ ws2) -> In (NField fc) ns2).
    { intros fc Z. apply in_app_or in Z. destruct Z as [Z|Z]; [|destruct (no_fields_layout _ P2 _ Z)]. apply in_app_or in Z. destruct Z as [Z|Z]; [destruct (no_fields_layout _ Pw _ Z)|exact Z]. }
    apply sound_object; intros fc; [|intros pn|intros x]; intro Z; apply F in Z; eauto. }
  destruct t; first [exact (Vl _ B)|exact (Ob _ B)].
Qed.
Lemma around_parts : forall ns s, tidy_around s ns = true -> exists pre cs post h s', ns = pre ++ NObject cs :: post /\ root_layout pre = true /\ root_layout post = true /\ walk s pre = Some (Before, h) /\ walk (Behind, false) post = Some s' /\ braced cs = true /\ tidy (NObject cs) = true.
Proof.
  induction ns as [|c ns IH]; intros s H; [discriminate|].
  assert (L : root_layout [c] && match step s c with Some s' => tidy_around s' ns | None => false end = true -> exists pre cs post h s', c :: ns = pre ++ NObject cs :: post /\ root_layout pre = true /\ root_layout post = true /\ walk s pre = Some (Before, h) /\ walk (Behind, false) post = Some s' /\ braced cs = true /\ tidy (NObject cs) = true).
  { clear H. intro H. apply andb_true_iff in H. destruct H as [Rl H]. destruct (step s c) as [s1|] eqn:E; [|discriminate]. destruct (IH _ H) as [pre [cs [post [h [s' [-> [R1 [R2 [W1 [W2 X]]]]]]]]]]. exists (c :: pre), cs, post, h, s'.
    split; [reflexivity|]. split; [|split; [exact R2|split; [cbn [walk]; rewrite E; exact W1|split; [exact W2|exact X]]]]. unfold root_layout in *. cbn [forallb] in *. rewrite andb_true_r in Rl. rewrite Rl. exact R1. }
  destruct c; try exact (L H). clear L. cbn [tidy_around] in H. apply andb_true_iff in H. destruct H as [H W]. apply andb_true_iff in H. destruct H as [H Rp]. apply andb_true_iff in H. destruct H as [Td Br].
  destruct s as [[] h]; try discriminate W. destruct (walk (Behind, false) ns) as [s'|] eqn:E; [|discriminate]. exists [], children, ns, h, s'. repeat split; auto.
Qed.
Lemma parsed_tame : forall text ns, no_nul text -> parse_document CONF text = Ok ns -> tidy_document ns = true -> tame_document ns.
Proof.
  intros text ns N H T. destruct (document_src _ _ N H) as [ts [S P]]. pose proof (root_sound _ _ S P) as Sd.
  assert (Ar : tidy_around (Before, false) ns = true -> tame_document ns).
  { intro A. destruct (around_parts _ _ A) as [pre [cs [post [h [s' [-> [R1 [R2 [W1 [W2 [B Td]]]]]]]]]]]. right. exists pre, cs, post, h, s'. repeat split; auto; apply sound_fields; auto; apply Sd, in_or_app; right; left; reflexivity. }
  assert (One : forall cs, ns = [NObject cs] -> tidy (NObject cs) && (braced cs || unbraced cs) = true -> tame_document ns).
  { intros cs -> X. apply andb_true_iff in X. destruct X as [Td X]. assert (F : tame_fields cs) by (apply sound_fields; [apply Sd; left; reflexivity|exact Td]). apply orb_true_iff in X. destruct X as [X|X].
    - right. exists [], cs, [], false, (Behind, false). repeat split; auto; apply F.
    - left. exists cs. auto. }
  destruct ns as [|c [|c2 ns]]; [exact (Ar T)| |]; destruct c; try exact (Ar T). exact (One _ eq_refl T).
Qed.
