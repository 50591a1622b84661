(** HOCON texts are read as what they define. *)
From Verif Require Import Base BaseLemmas Util_Model Num_Model Path_Model Path_Spec Path_Lemmas Token_Model Token_Spec Token_Lemmas Token_Lemmas2 PathParser_Model PathParser_Spec PathParser_Lemmas PathParser_Lemmas2 PathParser_Lemmas3 Doc_Model Doc_Lemmas Edit_Model
  Value_Model Value_Spec Value_Lemmas Concat_Model ConfigParser_Model Json_Lemmas2 Render_Lemmas3 JsonEdit_Lemmas JsonEdit_Lemmas2 JsonEdit_Lemmas7 JsonEdit_Spec ConfEdit_Spec ConfEdit_Lemmas6 ConfEdit_Lemmas7 ConfText_Spec ConfText_Lemmas ConfText_Lemmas2 ConfText_Lemmas3 ConfText_Lemmas4 ConfText_Lemmas5 ConfText_Lemmas6
  ConfText_Lemmas7 ConfText_Lemmas8 ConfText_Lemmas11 ConfText_Lemmas12 RenderConf_Lemmas RenderConf_Lemmas2 RenderConf_Lemmas3 Escape_Spec Round_Spec Rfc_Spec Rfc_Spec3 Rfc_Lemmas Rfc_Lemmas2 Rfc_Lemmas6 Rfc_Lemmas7 Rfc_Lemmas8 Hocon_Spec Hocon_Lemmas Phrase_Lemmas Key_Lemmas.
From Verif Require RenderRef_Lemmas2.
From Verif Require Import Lists_Lemmas.
Notation parse inc := (ConfigParser_Model.parse_value CONF inc).

Scheme value_text_min := Minimality for value_text Sort Prop with lists_min := Minimality for lists Sort Prop with objects_min := Minimality for objects Sort Prop with elements_min := Minimality for elements Sort Prop with fields_min := Minimality for fields Sort Prop with field_min := Minimality for field Sort Prop.
Combined Scheme text_mutual from value_text_min, lists_min, objects_min, elements_min, fields_min, field_min.

(** ** Include statements *)
Definition include_node (g w named : str) : node := NInclude [NTok (TUnquoted (lit "include")); NTok (TUnquoted g); NSimple (string_token w named)] KHeuristic.
Lemma blank_word : forall g, blank_text g = true -> is_unquoted_whitespace (TUnquoted g) = true.
Proof. intros g H. apply blank_text_spec in H. destruct H as [_ F]. cbn [is_unquoted_whitespace]. apply forallb_forall. rewrite Forall_forall in F. intros c I. specialize (F c I). unfold is_whitespace_not_newline in F. apply andb_true_iff in F. apply F. Qed.
Lemma include_read : forall g w named, blank_text g = true -> Escape_Spec.stands_for w named ->
  exists ts, fieldly (include_node g w named) ts /\ chunk ts /\ render_tokens ts = lit "include" ++ g ++ between_quotes w /\ render_tokens ts = render_node (include_node g w named).
Proof.
  intros g w named G W. exists [TUnquoted (lit "include"); TUnquoted g; string_token w named].
  assert (T : render_tokens [TUnquoted (lit "include"); TUnquoted g; string_token w named] = lit "include" ++ g ++ between_quotes w) by (unfold render_tokens; cbn [map concat token_text string_token]; rewrite app_nil_r; reflexivity).
  split; [|split; [|split; [exact T|reflexivity]]].
  - eexists _, _. split; [reflexivity|]. split; [reflexivity|]. split; [reflexivity|]. intros fuel keys r St L. exists (include_node g w named), keys. split; [|split; reflexivity].
    unfold one_item. change (is_include_keyword (TUnquoted (lit "include"))) with true. cbv iota. unfold Doc_Model.parse_include.
    assert (Cl : collect CONF LEnd ([TUnquoted g; string_token w named] ++ r) = Ok ([NTok (TUnquoted g)], string_token w named, r)).
    { cbn [app collect]. change (json_forbids CONF (TUnquoted g)) with false. cbv iota. rewrite (blank_word g G). reflexivity. }
    rewrite Cl. reflexivity.
  - split; [|split; [discriminate|split; [reflexivity|split; reflexivity]]]. intros k r Nr. apply blank_text_spec in G.
    assert (Rs : reads' (string_token w named) ([] ++ r)).
    { apply reads_fuel, reads_escaped; [exact W|]. destruct r as [|c r]; [exact I|]. intros ->. discriminate Nr. }
    apply sp_tok; [|apply sp_word; [exact G|reflexivity|exact Rs|constructor]].
    assert (Ci : chunk [TUnquoted (lit "include")]).
    { apply one_chunk; [apply (reads_word' "i" (lit "nclude")); [repeat (constructor; [reflexivity|]); constructor|]|intro I; cbn in I; intuition discriminate|reflexivity].
      exact (word_dotted (lit "include") [] ltac:(repeat constructor; try discriminate; left; reflexivity) ltac:(right; split; [left; reflexivity|split; [|split]; intros x E; discriminate E])). }
    destruct Ci as [Ci _]. assert (Ng : neutral (render_tokens [TUnquoted g; string_token w named] ++ r)) by (rewrite render_cons', <- app_assoc; apply blank_ender, G).
    specialize (Ci k _ Ng). inversion Ci as [|? ? ? ? Rd _| | |]; subst. exact Rd.
Qed.

Section Reading.
Variable included : str -> list definition -> Prop.
Variable inc : include_kind -> str -> nat -> result (value * nat).
Hypothesis Inc : forall named ds, included named ds -> exists m, Forall (fun d => fst d <> []) ds /\ collects (([], JObject []) :: ds) m /\ forall next, inc KHeuristic named next = Ok (VObj true false m, next).
Definition stands (n : node) (v : value) : Prop := forall st ac next, parse inc n st ac next = Ok (v, next).

Definition read_as (j : json) (s : str) : Prop := exists n ts v, value_ok n ts /\ render_tokens ts = s /\ is_value_node n = true /\ stands n v /\ denotes j v /\ plain v /\ (match j with JObject _ => False | _ => True end -> fresh v).
Lemma leaf_read : forall j t, leaf_token j t -> read_as j (token_text t).
Proof.
  intros j t L. pose proof (leaf_chunk j t L) as K.
  assert (V : exists v, stands (NSimple t) (VScalar v) /\ denotes j (VScalar v)).
  { destruct L as [|b|w s F|v c more n x Dn F M T]; eexists; (split; [intros st ac next; reflexivity|]); first [exact Dn|constructor]. }
  destruct V as [v [V1 V2]]. exists (NSimple t), [t], (VScalar v). split; [exact K|]. split; [apply app_nil_r|]. split; [reflexivity|]. split; [exact V1|]. split; [exact V2|]. split; [constructor|]. intros _. constructor.
Qed.
Lemma raw_read : forall t s, raw_string t s -> read_as (JString s) t.
Proof.
  intros t s R. exists (NSimple (TValue (SStr s true) t)), [TValue (SStr s true) t], (VScalar (SStr s true)). split; [exact (raw_ok t s R)|]. split; [apply app_nil_r|]. split; [reflexivity|].
  split; [intros st ac next; reflexivity|]. split; [constructor|]. split; [constructor|]. intros _. constructor.
Qed.
Lemma word_read : forall s, bare_word s -> read_as (JString s) s.
Proof.
  intros s P. pose proof (bare_ok s P) as K. exists (NSimple (TUnquoted s)), [TUnquoted s], (VScalar (SStr s false)). split; [exact K|]. split; [apply app_nil_r|]. split; [reflexivity|].
  split; [intros st ac next; reflexivity|]. split; [constructor|]. split; [constructor|]. intros _. constructor.
Qed.

Definition elements_read_as (p : place) (js : list json) (s : str) (e : place) : Prop := exists its vs,
  irun p its = Some e /\ fine value_ok its /\ render_tokens (itoks its) = s /\ Forall2 denotes js vs /\ Forall plain vs /\
  forall rest st ac next, parse_values (parse inc) (map inode its ++ rest) st ac next = ('(us, nx) <- parse_values (parse inc) rest st ac next ;; Ok (vs ++ us, nx)).
Lemma gap_read : forall g, gap_text g -> exists ts, gapn ts /\ render_tokens ts = g.
Proof. intros g [->|H]; [exists []; split; [left; reflexivity|reflexivity]|exists [TIgnored g]; split; [right; eauto|apply app_nil_r]]. Qed.
Definition lists_read_as (js : list json) (s : str) : Prop := exists ns ts c vs vss,
  row_ok ns ts (S c) /\ render_tokens ts = s /\ c = List.length vss /\ Forall2 denotes js (concat (vs :: vss)) /\ Forall plain (concat (vs :: vss)) /\
  forall st ac next, parse_values (parse inc) ns st ac next = Ok (map VList (vs :: vss), next).
Lemma array_read : forall js s e, elements_read_as Before js s e -> e <> Remark -> exists n u vs,
  RenderRef_Lemmas2.piece_ok n (TOpenSquare :: u) /\ render_tokens (TOpenSquare :: u) = lit "[" ++ s ++ lit "]" /\ is_value_node n = true /\ Forall2 denotes js vs /\ Forall plain vs /\ stands n (VList vs).
Proof.
  intros js s e [its [vs [R [F [T [Dn [Pl Pv]]]]]]] E. destruct (fine_parts _ _ F) as [Ck [Fo Fm]]. destruct (array_from its e R E Ck Fo Fm) as [u [Tx [Ch A]]]. eexists. exists u, vs.
  split; [split; [exact Tx|]; split; [exact Ch|]; split; [reflexivity|]; exists TOpenSquare, u; split; [reflexivity|]; split; [reflexivity|exact A]|].
  split; [rewrite Tx, array_text, T by exact Fm; reflexivity|]. split; [reflexivity|]. split; [exact Dn|]. split; [exact Pl|].
  intros st ac next. cbn [ConfigParser_Model.parse_value].
  change (parse_values (parse inc) (NTok TOpenSquare :: map inode its ++ [NTok TCloseSquare]) st (ac + 1) next) with (parse_values (parse inc) (map inode its ++ [NTok TCloseSquare]) st (ac + 1) next).
  rewrite Pv. cbn [parse_values is_value_node bind]. rewrite app_nil_r. reflexivity.
Qed.
Lemma lists_read_one : forall js s e, elements_read_as Before js s e -> e <> Remark -> lists_read_as js (lit "[" ++ s ++ lit "]").
Proof.
  intros js s e H E. destruct (array_read js s e H E) as [n [u [vs [P [T [Vn [Dn [Pl St]]]]]]]]. exists [n], (TOpenSquare :: u), O, vs, []. split; [apply row_one; [left; reflexivity|exact P]|]. split; [exact T|]. split; [reflexivity|].
  cbn [concat]. rewrite app_nil_r. split; [exact Dn|]. split; [exact Pl|]. intros st ac next. cbn [parse_values]. rewrite Vn, St. reflexivity.
Qed.
Lemma lists_read_more : forall js s e g js' s', elements_read_as Before js s e -> e <> Remark -> gap_text g -> lists_read_as js' s' -> exists ns ts c vs us vss,
  row_ok ns ts (S (S c)) /\ render_tokens ts = lit "[" ++ s ++ lit "]" ++ g ++ s' /\ c = List.length vss /\ Forall2 denotes (js ++ js') (concat (vs :: us :: vss)) /\ Forall plain (concat (vs :: us :: vss)) /\
  forall st ac next, parse_values (parse inc) ns st ac next = Ok (map VList (vs :: us :: vss), next).
Proof.
  intros js s e g js' s' H E G [ns [ts [c [us [vss [Ro [T' [Ec [Dn' [Pl' Pv']]]]]]]]]]. destruct (array_read js s e H E) as [n [u [vs [P [T [Vn [Dn [Pl St]]]]]]]]. destruct (gap_read g G) as [b [Gb Tb]].
  exists (n :: map NTok b ++ ns), ((TOpenSquare :: u) ++ b ++ ts), c, vs, us, vss. split; [apply row_more; [left; reflexivity|assumption..]|]. split; [rewrite !render_app', T, Tb, T', <- !app_assoc; reflexivity|]. split; [exact Ec|].
  cbn [concat] in *. split; [apply Forall2_app; assumption|]. split; [apply Forall_app; split; assumption|].
  intros st ac next. cbn [parse_values]. rewrite Vn, St. cbn [bind]. replace (parse_values (parse inc) (map NTok b ++ ns) st ac next) with (parse_values (parse inc) ns st ac next) by (destruct Gb as [->|[w [-> _]]]; reflexivity). rewrite Pv'. reflexivity.
Qed.
Lemma lists_value : forall js s e g js' s', elements_read_as Before js s e -> e <> Remark -> gap_text g -> lists_read_as js' s' -> read_as (JArray (js ++ js')) (lit "[" ++ s ++ lit "]" ++ g ++ s').
Proof.
  intros js s e g js' s' H E G H'. destruct (lists_read_more js s e g js' s' H E G H') as [ns [ts [c [vs [us [vss [Ro [T [_ [Dn [Pl Pv]]]]]]]]]]].
  exists (NConcat ns), ts, (VList (concat (vs :: us :: vss))). split; [apply (row_value _ _ _ Ro); lia|]. split; [exact T|]. split; [reflexivity|]. split; [|split; [constructor; exact Dn|split; [constructor; exact Pl|intros _; constructor]]].
  intros st ac next. cbn [ConfigParser_Model.parse_value].
  change (parse_values _ ns st ac next) with (parse_values (parse inc) ns st ac next). rewrite Pv. cbn [bind]. rewrite lists_concatenated. reflexivity.
Qed.
Definition rooted (ds : list definition) : Prop := Forall (fun d => fst d <> []) ds.
Definition fields_read_as (p : place) (ds : list definition) (s : str) (e : place) : Prop := exists its,
  rooted ds /\ irun p its = Some e /\ fine fieldly its /\ render_tokens (itoks its) = s /\
  forall D m, collects D m -> exists m', collects (D ++ ds) m' /\
    forall rest st ac next, parse_object_nodes CONF inc (parse inc) (map inode its ++ rest) m st ac next = parse_object_nodes CONF inc (parse inc) rest m' st ac next.
Definition field_read_as (ds : list definition) (s : str) : Prop := exists fc ts p E v,
  chunk ts /\ fieldly (NField fc) ts /\ render_tokens ts = s /\ render_tokens ts = render_node (NField fc) /\ p <> [] /\ ds = map (below p) E /\ acts E v /\
  forall st ac next, ConfigParser_Model.parse_field (parse inc) fc st ac next = Ok (p, v, next).

Lemma pass_layout : forall p t q, t <> TCloseCurly -> layout_step p t = Some q -> pass' p t = Some q.
Proof. intros p t q N H. unfold pass'. destruct t; try (destruct p; exact H). congruence. Qed.
Lemma separator_read : forall s, separator s -> exists t, is_sep t /\ token_text t = s.
Proof. intros s [->| ->]; [exists TColon|exists TEquals]; (split; [red; auto|reflexivity]). Qed.
Lemma object_of_fields : forall ds s e, fields_read_as Before ds s e -> e <> Remark ->
  exists n ts m, object_ok n ts /\ render_tokens ts = lit "{" ++ s ++ lit "}" /\ is_value_node n = true /\ stands n (VObj true false m) /\ collects (([], JObject []) :: ds) m.
Proof.
  intros ds s e [its [_ [R [F [T A]]]]] E. destruct (fine_parts _ _ F) as [Ck [Fo Fm]]. destruct (object_from its e R E Ck Fo Fm) as [ts Ok_]. destruct (A _ _ collects_start) as [m [C Pn]]. cbn [app] in C.
  exists (NObject (NTok TOpenCurly :: map inode its ++ [NTok TCloseCurly])), ts, m. split; [exact Ok_|]. split; [pose proof Ok_ as [Tx _]; rewrite Tx, object_text, T by exact Fm; reflexivity|]. split; [reflexivity|]. split; [|exact C].
  intros st ac next. cbn [ConfigParser_Model.parse_value].
  change (parse_object_nodes CONF inc (parse inc) (NTok TOpenCurly :: map inode its ++ [NTok TCloseCurly]) [] st ac next) with (parse_object_nodes CONF inc (parse inc) (map inode its ++ [NTok TCloseCurly]) [] st ac next).
  rewrite Pn. cbn [parse_object_nodes]. rewrite new_plain by apply C. reflexivity.
Qed.
Lemma rooted_stack : forall ds ms, rooted ds -> exists ms', stack ds (Some (JObject ms)) = Some (JObject ms').
Proof.
  intros ds. induction ds as [|[p j] ds IH]; intros ms R; [exists ms; reflexivity|]. inversion R as [|? ? H R']; subst. cbn [fst] in H. destruct p as [|k p]; [congruence|]. unfold stack in *. cbn [fold_left over nested fst snd]. rewrite overlay_objects. apply IH, R'.
Qed.
Lemma object_acts : forall ds m, rooted ds -> collects (([], JObject []) :: ds) m -> acts (([], JObject []) :: ds) (VObj true false m).
Proof.
  intros ds m R C. apply collects_acts; [exact C|discriminate|]. intro b. change (stack (([], JObject []) :: ds) b) with (stack ds (Some (over ([], JObject []) b))).
  assert (O : exists ms, over ([], JObject []) b = JObject ms). { destruct b as [b|]; [|eexists; reflexivity]. destruct b; eexists; reflexivity. }
  destruct O as [ms ->]. apply rooted_stack, R.
Qed.
Lemma object_denotes : forall ds m, rooted ds -> collects (([], JObject []) :: ds) m -> denotes (defined ds) (VObj true false m).
Proof.
  intros ds m R C. destruct (object_acts ds m R C) as [_ [_ [_ A]]]. destruct (A None None (VObj true false m) I eq_refl) as [j [J D]]. rewrite defined_stack in J. injection J as <-. exact D.
Qed.

(** Objects behind each other. *)
Definition is_an_object (v : value) : Prop := exists r i f, v = VObj r i f.
Lemma acts_over : forall E1 v1 E2 m2, acts E1 v1 -> acts E2 (VObj true false m2) -> exists v, with_fallback (VObj true false m2) v1 = Ok v /\ acts (E1 ++ E2) v /\ is_an_object v.
Proof.
  intros E1 v1 E2 m2 [P1 [N1 [U1 A1]]] [P2 [N2 [U2 A2]]]. assert (Q1 : forall x, Some v1 = Some x -> plain x) by (intros x E; injection E as <-; exact P1).
  destruct (plain_fall _ (Some v1) P2 Q1) as [v [H Pv]]. exists v. split; [exact H|]. destruct (fall_fields _ _ _ P2 Q1 H) as [r [i [f [Ev _]]]]. split; [|exists r, i, f; exact Ev]. clear Ev.
  split; [exact Pv|]. split; [destruct E1; [congruence|discriminate]|]. split; [apply Forall_app; split; assumption|].
  intros b w u B Hu. pose proof (fun x => based_plain _ _ x B) as Pw. destruct (plain_fall v1 w P1 Pw) as [u1 [H1 Pu1]]. destruct (A1 b w u1 B H1) as [j1 [J1 D1]].
  pose proof (fall_twice _ v1 w v u1 u P2 P1 Pw H H1 Hu) as T. pose proof (stack_unique E1 b U1 (based_unique _ _ B)) as Us. rewrite stack_app, J1 in *. apply (A2 (Some j1) (Some u1) u); [split; [exact Us|split; assumption]|exact T].
Qed.
Definition piled (Es : list (list definition)) (ms : list Value_Model.fields) : Prop := Forall2 (fun E m => acts E (VObj true false m)) Es ms.
Lemma objects_joined : forall Es ms, piled Es ms -> forall E x, acts E x -> is_an_object x -> exists y, join_all [x] (map (VObj true false) ms) = Ok [y] /\ acts (E ++ concat Es) y /\ is_an_object y.
Proof.
  intros Es ms F. induction F as [|E' m Es ms A F IH]; intros E x Ax Ox; cbn [map join_all concat]; [exists x; rewrite app_nil_r; auto|].
  destruct (acts_over E x E' m Ax A) as [v [H [Av Ov]]]. replace (join_values x (VObj true false m)) with (Ok (Some v)) by (destruct Ox as [r [i [f ->]]]; unfold join_values; cbn [is_object is_list andb bind]; rewrite H; reflexivity).
  cbn [bind]. rewrite app_assoc. apply IH; assumption.
Qed.
Lemma objects_concatenated : forall E m E' m' Es ms, piled (E :: E' :: Es) (m :: m' :: ms) -> exists y, concatenate (map (VObj true false) (m :: m' :: ms)) = Ok (Some y) /\ acts (concat (E :: E' :: Es)) y /\ is_an_object y.
Proof.
  intros E m E' m' Es ms F. inversion F as [|? ? ? ? A F']; subst. destruct (objects_joined _ _ F' E _ A (ex_intro _ _ (ex_intro _ _ (ex_intro _ _ eq_refl)))) as [y [J [Ay Oy]]]. exists y. split; [|split; assumption].
  unfold concatenate, consolidate. cbn [map].
  assert (Fl : flattened (map (VObj true false) (m :: m' :: ms)) = map (VObj true false) (m :: m' :: ms)) by (unfold flattened; clear; induction (m :: m' :: ms) as [|a l IH]; [reflexivity|]; cbn [map flat_map]; rewrite IH; reflexivity).
  cbn [map] in Fl, J. rewrite Fl. change (join_all [] (VObj true false m :: ?l)) with (join_all [VObj true false m] l). rewrite J. reflexivity.
Qed.
Definition objects_read_as (ds : list definition) (s : str) : Prop := exists ns ts m ms E Es,
  row_ok ns ts (S (List.length ms)) /\ render_tokens ts = s /\ piled (E :: Es) (m :: ms) /\ ds = concat (E :: Es) /\
  forall st ac next, parse_values (parse inc) ns st ac next = Ok (map (VObj true false) (m :: ms), next).
Lemma objects_read_one : forall ds s e, fields_read_as Before ds s e -> e <> Remark -> objects_read_as (([], JObject []) :: ds) (lit "{" ++ s ++ lit "}").
Proof.
  intros ds s e H N. destruct (object_of_fields ds s e H N) as [n [ts [m [Oo [Tx [Vn [St C]]]]]]]. destruct H as [its [R _]]. pose proof (RenderRef_Lemmas2.object_piece n ts Oo Vn) as P. destruct Oo as [_ [_ [u [-> _]]]].
  exists [n], (TOpenCurly :: u), m, [], (([], JObject []) :: ds), []. split; [apply row_one; [right; reflexivity|exact P]|]. split; [exact Tx|]. split; [constructor; [apply object_acts; assumption|constructor]|]. split; [cbn [concat]; rewrite app_nil_r; reflexivity|].
  intros st ac next. cbn [parse_values]. rewrite Vn, St. reflexivity.
Qed.
Lemma objects_read_more : forall ds s e g ds' s', fields_read_as Before ds s e -> e <> Remark -> gap_text g -> objects_read_as ds' s' -> exists ns ts m m' ms E Es,
  row_ok ns ts (S (S (List.length ms))) /\ render_tokens ts = lit "{" ++ s ++ lit "}" ++ g ++ s' /\ piled ((([], JObject []) :: ds) :: E :: Es) (m :: m' :: ms) /\ ds' = concat (E :: Es) /\
  forall st ac next, parse_values (parse inc) ns st ac next = Ok (map (VObj true false) (m :: m' :: ms), next).
Proof.
  intros ds s e g ds' s' H N G [ns [ts' [m' [ms [E [Es [Ro [T' [Pi [Ed Pv']]]]]]]]]]. destruct (object_of_fields ds s e H N) as [n [ts [m [Oo [Tx [Vn [St C]]]]]]]. destruct H as [its [R _]]. pose proof (RenderRef_Lemmas2.object_piece n ts Oo Vn) as P. destruct Oo as [_ [_ [u [-> _]]]]. destruct (gap_read g G) as [b [Gb Tb]].
  exists (n :: map NTok b ++ ns), ((TOpenCurly :: u) ++ b ++ ts'), m, m', ms, E, Es. split; [apply row_more; [right; reflexivity|assumption..]|]. split; [rewrite !render_app', Tx, Tb, T', <- !app_assoc; reflexivity|]. split; [constructor; [apply object_acts; assumption|exact Pi]|]. split; [exact Ed|].
  intros st ac next. cbn [parse_values]. rewrite Vn, St. cbn [bind]. replace (parse_values (parse inc) (map NTok b ++ ns) st ac next) with (parse_values (parse inc) ns st ac next) by (destruct Gb as [->|[w [-> _]]]; reflexivity). rewrite Pv'. reflexivity.
Qed.
Lemma objects_value : forall ds s e g ds' s', fields_read_as Before ds s e -> e <> Remark -> gap_text g -> objects_read_as ds' s' -> exists n ts v,
  value_ok n ts /\ render_tokens ts = lit "{" ++ s ++ lit "}" ++ g ++ s' /\ is_value_node n = true /\ stands n v /\ acts (([], JObject []) :: ds ++ ds') v /\ is_an_object v.
Proof.
  intros ds s e g ds' s' H N G H'. destruct (objects_read_more ds s e g ds' s' H N G H') as [ns [ts [m [m' [ms [E [Es [Ro [T [Pi [-> Pv]]]]]]]]]]]. destruct (objects_concatenated _ _ _ _ _ _ Pi) as [v [Cv [Av Ov]]].
  exists (NConcat ns), ts, v. split; [apply (row_value _ _ _ Ro); lia|]. split; [exact T|]. split; [reflexivity|]. split; [|split; [exact Av|exact Ov]].
  intros st ac next. cbn [ConfigParser_Model.parse_value].
  change (parse_values _ ns st ac next) with (parse_values (parse inc) ns st ac next). rewrite Pv. cbn [bind]. rewrite Cv. reflexivity.
Qed.
Lemma rooted_below : forall p E, p <> [] -> rooted (map (below p) E).
Proof. intros p E N. apply Forall_forall. intros d I. apply in_map_iff in I. destruct I as [d0 [<- _]]. unfold below. cbn [fst]. destruct p; [congruence|discriminate]. Qed.

(** A field with a separator. *)
Lemma field_with_sep : forall kt p g1 sep g2 n tv vt E v, key_text kt p -> gap_text g1 -> separator sep -> gap_text g2 -> value_ok n tv -> render_tokens tv = vt -> is_value_node n = true -> stands n v -> acts E v ->
  field_read_as (map (below p) E) (kt ++ g1 ++ sep ++ g2 ++ vt).
Proof.
  intros kt p g1 sep g2 n tv vt E v K G1 S G2 Vo Tv Vn St A. destruct (key_read kt p K) as [Np [ks [Ko Tk]]]. destruct (gap_read g1 G1) as [a [Ga Ta]]. destruct (gap_read g2 G2) as [b [Gb Tb]]. destruct (separator_read sep S) as [t [Ts Tt]].
  pose proof (value_layout n Vn) as Ly. destruct (field_sep_ok (p, ks) a t b n tv Ko Ga Ts Gb Vo Ly) as [ts [Fd [Ch Tx]]].
  exists (NPath (p, ks) :: map NTok a ++ NTok t :: map NTok b ++ [n]), ts, p, E, v. split; [exact Ch|]. split; [exact Fd|]. split; [|split; [exact Tx|split; [exact Np|split; [reflexivity|split; [exact A|]]]]].
  - rewrite Tx. pose proof Vo as [Rv _]. rewrite render_nodes_cons. unfold render_nodes. rewrite !flat_map_app, node_gap, render_app'. cbn [flat_map]. rewrite flat_map_app, node_gap. cbn [flat_map]. rewrite app_nil_r.
    change (node_tokens (NTok t) ++ b ++ node_tokens n) with ([t] ++ b ++ node_tokens n). rewrite !render_app'. unfold render_node in Rv |- *. cbn [node_tokens snd]. rewrite <- Rv, Tk, Ta, Tb, Tv. rewrite render_cons'. cbn [render_tokens map concat]. rewrite app_nil_r, Tt. reflexivity.
  - intros st ac next. unfold ConfigParser_Model.parse_field. cbn [field_path bind].
    assert (Pe : is_plus_equals (NPath (p, ks) :: map NTok a ++ NTok t :: map NTok b ++ [n]) = false).
    { destruct Ga as [->|[w [-> _]]], Gb as [->|[w2 [-> _]]], Ts as [->| ->]; destruct n; try discriminate Vn; reflexivity. }
    rewrite Pe. cbn [andb].
    assert (Pv : forall s k x, parse_field_value (parse inc) (NPath (p, ks) :: map NTok a ++ NTok t :: map NTok b ++ [n]) s k x = Ok (v, x)).
    { intros s k x. destruct Ga as [->|[w [-> _]]], Gb as [->|[w2 [-> _]]], Ts as [->| ->]; cbn [map app parse_field_value is_value_node]; rewrite Vn; apply St. }
    rewrite Pv. reflexivity.
Qed.
(** A field without. *)
Lemma field_bare : forall kt p g1 n tv vt E v, key_text kt p -> gap_text g1 -> object_ok n tv -> render_tokens tv = vt -> is_value_node n = true -> stands n v -> acts E v ->
  field_read_as (map (below p) E) (kt ++ g1 ++ vt).
Proof.
  intros kt p g1 n tv vt E v K G1 Vo Tv Vn St A. destruct (key_read kt p K) as [Np [ks [Ko Tk]]]. destruct (gap_read g1 G1) as [a [Ga Ta]].
  pose proof (value_layout n Vn) as Ly. destruct (field_object_ok (p, ks) a n tv Ko Ga Vo Ly) as [ts [Fd [Ch Tx]]].
  exists (NPath (p, ks) :: map NTok a ++ [n]), ts, p, E, v. split; [exact Ch|]. split; [exact Fd|]. split; [|split; [exact Tx|split; [exact Np|split; [reflexivity|split; [exact A|]]]]].
  - rewrite Tx. pose proof Vo as [Rv _]. rewrite render_nodes_cons. unfold render_nodes. rewrite !flat_map_app, node_gap, render_app'. cbn [flat_map]. rewrite app_nil_r.
    unfold render_node in Rv |- *. cbn [node_tokens snd]. rewrite <- Rv, Tk, Ta, Tv. reflexivity.
  - intros st ac next. unfold ConfigParser_Model.parse_field. cbn [field_path bind].
    assert (Pe : is_plus_equals (NPath (p, ks) :: map NTok a ++ [n]) = false).
    { destruct Ga as [->|[w [-> _]]]; destruct n; try discriminate Vn; reflexivity. }
    rewrite Pe. cbn [andb].
    assert (Pv : forall s k x, parse_field_value (parse inc) (NPath (p, ks) :: map NTok a ++ [n]) s k x = Ok (v, x)).
    { intros s k x. destruct Ga as [->|[w [-> _]]]; cbn [map app parse_field_value is_value_node]; rewrite Vn; apply St. }
    rewrite Pv. reflexivity.
Qed.

Lemma layout_value_step : forall p0 t rest st ac next, parse_values p0 (layout_node t :: rest) st ac next = parse_values p0 rest st ac next.
Proof. intros. exact (layout_values p0 [t] rest st ac next). Qed.
Lemma layout_field_step : forall p0 t rest m st ac next, parse_object_nodes CONF inc p0 (layout_node t :: rest) m st ac next = parse_object_nodes CONF inc p0 rest m st ac next.
Proof. intros. exact (layout_fields inc p0 [t] rest m st ac next). Qed.

Lemma text_read :
  (forall j s, value_text included j s -> read_as j s) /\ (forall js s, lists included js s -> lists_read_as js s) /\ (forall ds s, objects included ds s -> objects_read_as ds s) /\ (forall p js s e, elements included p js s e -> elements_read_as p js s e) /\
  (forall p ds s e, fields included p ds s e -> fields_read_as p ds s e) /\ (forall ds s, field included ds s -> field_read_as ds s).
Proof.
  apply text_mutual.
  - exact (leaf_read JNull _ leaf_null).
  - exact (leaf_read (JBool true) _ (leaf_bool true)).
  - exact (leaf_read (JBool false) _ (leaf_bool false)).
  - intros t n x [c more n' x' Nm C B]. destruct (number_leaf c more n' x' Nm C B) as [v L]. exact (leaf_read _ _ L).
  - intros t s0 [w s S]. exact (leaf_read _ _ (leaf_string w s S)).
  - exact raw_read.
  - exact word_read.
  - intros t s t' s' P Ph. destruct (phrase_value t s t' s' inc P Ph) as [n [ts [K [T [V St]]]]]. exists n, ts, (VScalar (SStr (s ++ s') true)). split; [exact K|]. split; [exact T|]. split; [exact V|]. split; [exact St|].
    split; [constructor|]. split; [constructor|]. intros _. constructor.
  - intros js s e _ [its [vs [R [F [T [Dn [Pl Pv]]]]]]] E. destruct (fine_parts _ _ F) as [Ck [Fo Fm]]. destruct (array_value its e R E Ck Fo Fm) as [ts Vo]. eexists. exists ts, (VList vs). split; [exact Vo|].
    split; [pose proof Vo as [Tx _]; rewrite Tx, array_text, T by exact Fm; reflexivity|]. split; [reflexivity|]. split; [|split; [constructor; exact Dn|split; [constructor; exact Pl|intros _; constructor]]].
    intros st ac next. cbn [ConfigParser_Model.parse_value].
    change (parse_values (parse inc) (NTok TOpenSquare :: map inode its ++ [NTok TCloseSquare]) st (ac + 1) next) with (parse_values (parse inc) (map inode its ++ [NTok TCloseSquare]) st (ac + 1) next).
    rewrite Pv. cbn [parse_values is_value_node bind]. rewrite app_nil_r. reflexivity.
  - intros js s e g js' s' _ IH E G _ IH'. exact (lists_value js s e g js' s' IH E G IH').
  - intros ds s e _ IH E. destruct (object_of_fields ds s e IH E) as [n [ts [m [Oo [Tx [Vn [St C]]]]]]]. destruct IH as [its [R _]]. exists n, ts, (VObj true false m). split; [apply object_value, Oo|]. split; [exact Tx|]. split; [exact Vn|]. split; [exact St|].
    split; [apply object_denotes; assumption|]. split; [apply C|]. intro N. exfalso. pose proof (object_denotes ds m R C) as D. inversion D as [| | | | |ms ? ? ? ? ? ? Eq]. rewrite <- Eq in N. exact N.
  - intros ds s e g ds' s' _ IH E G _ IH'. destruct (objects_value ds s e g ds' s' IH E G IH') as [n [ts [v [Vo [T [Vn [St [[Pl [_ [_ A]]] Ov]]]]]]]]. exists n, ts, v. split; [exact Vo|]. split; [exact T|]. split; [exact Vn|]. split; [exact St|].
    destruct (A None None v I eq_refl) as [j [J D]]. rewrite defined_stack in J. injection J as <-. split; [exact D|]. split; [exact Pl|]. intro N. exfalso. destruct Ov as [r0 [i0 [f0 ->]]]. inversion D as [| | | | |ms ? ? ? ? ? ? Eq]. rewrite <- Eq in N. exact N.
  - intros js s e _ IH E. exact (lists_read_one js s e IH E).
  - intros js s e g js' s' _ IH E G _ IH'. destruct (lists_read_more js s e g js' s' IH E G IH') as [ns [ts [c [vs [us [vss [Ro [T [-> R]]]]]]]]]. exists ns, ts, (S (List.length vss)), vs, (us :: vss). split; [exact Ro|]. split; [exact T|]. split; [reflexivity|exact R].
  - intros ds s e _ IH E. exact (objects_read_one ds s e IH E).
  - intros ds s e g ds' s' _ IH N G _ IH'. destruct (objects_read_more ds s e g ds' s' IH N G IH') as [ns [ts [m [m' [ms [E [Es [Ro [T [Pi [-> Pv]]]]]]]]]]]. exists ns, ts, m, (m' :: ms), (([], JObject []) :: ds), (E :: Es). split; [exact Ro|]. split; [exact T|]. split; [exact Pi|]. split; [reflexivity|exact Pv].
  - intro p. exists [], []. split; [reflexivity|]. split; [constructor|]. split; [reflexivity|]. split; [constructor|]. split; [constructor|]. intros rest st ac next. cbn [map app]. destruct (parse_values (parse inc) rest st ac next) as [[us nx]|?|?]; reflexivity.
  - intros p t q js s e N P _ [its [vs [R [F [T [Dn [Pl Pv]]]]]]]. exists (IL t :: its), vs. split; [cbn [irun]; rewrite (pass_layout _ _ _ N P); exact R|]. split; [constructor; [exact I|exact F]|]. split; [rewrite itoks_cons, render_app', T, render_cons'; cbn [render_tokens map concat]; rewrite app_nil_r; reflexivity|].
    split; [exact Dn|]. split; [exact Pl|]. intros rest st ac next. cbn [map app inode]. rewrite layout_value_step. apply Pv.
  - intros j t js s e _ [n [ts [v [Vo [Tv [Vn [St [D [P Fr]]]]]]]]] _ [its [vs [R [F [T [Dn [Pl Pv]]]]]]]. exists (IX n ts :: its), (v :: vs). pose proof Vo as [Rv [Ch _]]. split; [exact R|]. split; [constructor; [|exact F]; split; [exact Ch|]; split; [exact Vo|]; split; [exact (value_layout n Vn)|exact Rv]|].
    split; [rewrite itoks_cons, render_app', T, Tv; reflexivity|]. split; [constructor; assumption|]. split; [constructor; assumption|]. intros rest st ac next. cbn [map app inode parse_values]. rewrite Vn, St. cbn [bind]. rewrite Pv. destruct (parse_values (parse inc) rest st ac next) as [[us nx]|?|?]; reflexivity.
  - intro p. exists []. split; [constructor|]. split; [reflexivity|]. split; [constructor|]. split; [reflexivity|]. intros D m C. exists m. rewrite app_nil_r. split; [exact C|]. reflexivity.
  - intros p t q ds s e N P _ [its [Ro [R [F [T A]]]]]. exists (IL t :: its). split; [exact Ro|]. split; [cbn [irun]; rewrite (pass_layout _ _ _ N P); exact R|]. split; [constructor; [exact I|exact F]|]. split; [rewrite itoks_cons, render_app', T, render_cons'; cbn [render_tokens map concat]; rewrite app_nil_r; reflexivity|].
    intros D m C. destruct (A D m C) as [m' [C' Pn]]. exists m'. split; [exact C'|]. intros rest st ac next. cbn [map app inode]. rewrite layout_field_step. apply Pn.
  - intros ds1 t ds2 s e _ [fc [ts [p [E [v [Ch [Fd [Tt [Tx [Np [-> [Ac Pf]]]]]]]]]]]] _ [its [Ro [R [F [T A]]]]]. exists (IX (NField fc) ts :: its). split; [apply Forall_app; split; [apply rooted_below, Np|exact Ro]|]. split; [exact R|].
    split; [constructor; [|exact F]; split; [exact Ch|]; split; [exact Fd|]; split; [reflexivity|exact Tx]|]. split; [rewrite itoks_cons, render_app', T, Tt; reflexivity|].
    intros D m C. destruct (collects_field D m E v p C Ac Np) as [m1 [Ad C1]]. destruct (A _ _ C1) as [m' [C' Pn]]. exists m'. split; [rewrite app_assoc; exact C'|]. intros rest st ac next. cbn [map app inode parse_object_nodes]. rewrite Pf. cbn [bind]. rewrite Ad. cbn [bind]. apply Pn.
  - intros g t named ds1 ds2 s e G J Hi _ [its [Ro [R [F [T A]]]]]. destruct J as [w named W]. destruct (include_read g w named G W) as [ts [Fd [Ch [Tt Tx]]]]. destruct (Inc _ _ Hi) as [m1 [Ro1 [C1 Em]]].
    exists (IX (include_node g w named) ts :: its). split; [apply Forall_app; split; assumption|]. split; [exact R|].
    split; [constructor; [|exact F]; split; [exact Ch|]; split; [exact Fd|]; split; [reflexivity|exact Tx]|]. split; [rewrite itoks_cons, render_app', T, Tt; reflexivity|].
    intros D m C. destruct (collects_included D m ds1 m1 C C1 Ro1) as [m2 [Ad C2]]. destruct (A _ _ C2) as [m' [C' Pn]]. exists m'. split; [rewrite app_assoc; exact C'|].
    intros rest st ac next. cbn [map app inode]. unfold include_node. cbn [parse_object_nodes is_json]. unfold ConfigParser_Model.parse_include. cbn [include_name bind token_value string_token transform_to_string].
    rewrite Em. cbn [bind]. rewrite (plain_resolved _ (proj1 C1)), andb_false_r. assert (Bp : below_path st (VObj true false m1) = VObj true false m1) by (destruct st; reflexivity). rewrite Bp, Ad. cbn [bind]. apply Pn.
  - intros kt p g1 sep g2 j s K G1 S G2 _ [n [ts [v [Vo [Tv [Vn [St [D [P Fr]]]]]]]]] Nj. replace [(p, j)] with (map (below p) [([], j)]) by (unfold below; cbn [map fst snd]; rewrite app_nil_r; reflexivity).
    apply (field_with_sep kt p g1 sep g2 n ts s [([], j)] v); try assumption. apply acts_leaf; [destruct j; try (apply unique_leaf; exact I); [apply unique_array|destruct Nj]|exact D|exact P|exact (Fr Nj)].
  - intros kt p g1 ds s e K G1 _ IH E. destruct (object_of_fields ds s e IH E) as [n [ts [m [Oo [Tx [Vn [St C]]]]]]]. destruct IH as [its [R _]]. apply (field_bare kt p g1 n ts _ _ (VObj true false m)); try assumption. apply object_acts; assumption.
  - intros kt p g1 sep g2 ds s e K G1 S G2 _ IH E. destruct (object_of_fields ds s e IH E) as [n [ts [m [Oo [Tx [Vn [St C]]]]]]]. destruct IH as [its [R _]]. apply (field_with_sep kt p g1 sep g2 n ts _ _ (VObj true false m)); try assumption; [apply object_value, Oo|apply object_acts; assumption].
  - intros kt p g1 sep g2 ds s e g ds' s' K G1 S G2 _ IH E G _ IH'. destruct (objects_value ds s e g ds' s' IH E G IH') as [n [ts [v [Vo [T [Vn [St [A _]]]]]]]]. apply (field_with_sep kt p g1 sep g2 n ts _ _ v); assumption.
Qed.
End Reading.
