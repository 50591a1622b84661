(** HOCON documents that include others. *)
From Verif Require Import Base BaseLemmas Util_Model Num_Model Path_Model Token_Model Token_Spec PathParser_Model PathParser_Spec Doc_Model Value_Model Value_Spec Value_Lemmas2 Value_Lemmas3 Concat_Model ConfigParser_Model Duration_Model Config_Model Config_Spec Resolve_Model
  Include_Model Include_Spec Include_Lemmas2 Render_Lemmas3 Json_Lemmas3 Rfc_Spec Rfc_Spec2 Rfc_Spec3 Rfc_Lemmas Rfc_Lemmas2 Rfc_Lemmas3 Rfc_Lemmas4 Rfc_Lemmas6 Rfc_Lemmas7 Rfc_Lemmas8 Hocon_Spec Hocon_Lemmas Hocon_Lemmas2 Hocon_Lemmas3.

(** ** The members of a JSON object as definitions *)
Notation singles := (map (fun '(k, j) => ([k], j))).
Lemma inner_single : forall k j b q, inner q (Some (over ([k], j) b)) = if str_eqb q k then Some (over ([], j) (inner k b)) else inner q b.
Proof.
  intros k j b q. destruct (over_below k ([], j) b) as [ms [E1 [E2 E3]]]. change (below [k] ([], j)) with ([k], j) in E1. rewrite E1. cbn [inner]. destruct (str_eqb q k) eqn:E; [apply str_eqb_eq in E; subst; exact E2|]. apply E3. intros ->. rewrite str_eqb_refl in E. discriminate.
Qed.
Lemma inner_singles : forall ms b q, NoDup (map fst ms) -> inner q (stack (singles ms) b) = match member q ms with Some j => Some (over ([], j) (inner q b)) | None => inner q b end.
Proof.
  induction ms as [|[k j] ms IH]; intros b q N; [reflexivity|]. cbn [map fst] in N. inversion N as [|? ? N1 N2]; subst. cbn [map]. change (stack (([k], j) :: singles ms) b) with (stack (singles ms) (Some (over ([k], j) b))). rewrite IH by exact N2. rewrite inner_single. cbn [member].
  destruct (str_eqb q k) eqn:E; [|reflexivity]. apply str_eqb_eq in E. subst q. destruct (member k ms) as [j'|] eqn:M; [|reflexivity]. destruct N1. exact (in_map fst _ _ (member_in _ _ _ M)).
Qed.
Lemma member_app : forall q a b, member q (a ++ b) = match member q a with Some j => Some j | None => member q b end.
Proof. intros q a b. induction a as [|[k j] a IH]; [reflexivity|]. cbn [app member]. destruct (str_eqb q k); [reflexivity|exact IH]. Qed.
Lemma inner_overlay : forall ms b q, inner q (Some (over ([], JObject ms) b)) = match member q ms with Some j => Some (over ([], j) (inner q b)) | None => inner q b end.
Proof.
  intros ms b q. unfold over. cbn [fst snd nested]. assert (One : inner q (Some (JObject ms)) = match member q ms with Some j => Some j | None => None end) by (cbn [inner]; destruct (member q ms); reflexivity).
  destruct b as [b|]; [|exact One]. destruct b as [| | | | |ms2]; try exact One. rewrite overlay_objects. cbn [inner]. rewrite member_app.
  assert (B : member q (both ms ms2) = match member q ms with Some j => Some (match member q ms2 with Some j2 => overlay j j2 | None => j end) | None => None end).
  { clear One. unfold both. induction ms as [|[k j] ms IH]; [reflexivity|]. cbn [map member]. destruct (str_eqb q k) eqn:E; [apply str_eqb_eq in E; subst; reflexivity|exact IH]. }
  rewrite B. destruct (member q ms) as [j|] eqn:M; [reflexivity|].
  unfold rest. clear -M. induction ms2 as [|[k j] ms2 IH]; [reflexivity|]. cbn [filter]. cbn [member] in IH |- *. destruct (str_eqb q k) eqn:E.
  - apply str_eqb_eq in E. subst k. rewrite M. cbn [member]. rewrite str_eqb_refl. reflexivity.
  - destruct (member k ms); [exact IH|]. cbn [member]. rewrite E. exact IH.
Qed.
Lemma json_collects : forall ms m, unique (JObject ms) -> sound (JObject ms) (VObj true false m) -> collects (([], JObject []) :: singles ms) m.
Proof.
  intros ms m U [D [P F]]. pose proof U as U0. inversion U0 as [|? N Um|? B]; subst; [|destruct B]. split; [exact P|]. split.
  { constructor; [apply unique_object; [constructor|intros ? ? []]|]. apply Forall_forall. intros d I. apply in_map_iff in I. destruct I as [[k j] [<- I]]. exact (Um _ _ I). }
  intros b w u B H q. destruct (acts_leaf _ _ U D P F) as [_ [_ [_ A]]]. destruct (A _ _ _ B H) as [j [J Dj]]. unfold stack in J. cbn [fold_left] in J. injection J as J.
  change (stack (([], JObject []) :: singles ms) b) with (stack (singles ms) (Some (over ([], JObject []) b))). rewrite inner_singles by exact N.
  assert (St : inner q (Some (over ([], JObject []) b)) = inner q b) by (rewrite inner_overlay; reflexivity). rewrite St, <- inner_overlay, J.
  assert (Uj : unique j). { rewrite <- J. apply (over_unique ([], JObject ms)); [exact U|exact (based_unique _ _ B)]. }
  assert (Pu : plain u). { destruct (plain_fall _ w P (fun x X => based_plain _ _ x B X)) as [u' [H' P']]. rewrite H in H'. injection H' as <-. exact P'. }
  exact (based_inside (Some j) (Some u) q (conj Uj (conj Dj Pu))).
Qed.
Lemma singles_rooted : forall ms, rooted (singles ms).
Proof. intro ms. apply Forall_forall. intros d I. apply in_map_iff in I. destruct I as [[k j] [<- _]]. discriminate. Qed.
Lemma json_always : forall f inc s ms, json_document s (JObject ms) -> exists m, sound (JObject ms) (VObj true false m) /\ forall next, parse_config f inc s next = Ok (Some (VObj true false m), next).
Proof.
  intros f inc s ms H.
  assert (K : exists v, forall next, parse_config JSON inc s next = Ok (Some v, next)).
  { inversion H as [|a t b ms0 A W B]; subst. destruct (blank_layout a A) as [g [G <-]]. destruct (blank_layout b B) as [g' [G' <-]]. destruct (proj1 written_spelled _ t W) as [tv [S <-]].
    destruct (json_root inc _ g tv g' G S I G') as [ns [w [P [V C]]]]. exists w. intro next. rewrite <- !render_app.
    unfold parse_config, parse_document, after_start. cbn [is_json negb]. rewrite (json_lex false _ g tv g' G S G'). cbn [delivered]. rewrite P. cbn [bind]. apply V. }
  destruct K as [v V]. destruct (parsed_json JSON inc s ms 0 H) as [v' [P S]]. rewrite V in P. injection P as <-. pose proof S as [D [Pl F]]. inversion D; subst. inversion Pl; subst. inversion F; subst.
  eexists. split; [exact S|]. intro next. destruct f; [exact (config_same inc inc s next _ (V next))|exact (V next)].
Qed.

Section Files.
Variable files : str -> option str.
Variable env : list (str * str).
Variable depth : nat.
Notation parsed := (parse_parseable files env depth).

(** The includer of a text or file that has no other. *)
Lemma include_step : forall k p named m, o_includer (p_options p) = None -> has_extension named ->
  (forall next, parsed k 0 (new_file files (seen_from (p_dir p) named) (context_options p)) (set_missing (p_options (new_file files (seen_from (p_dir p) named) (context_options p))) true) next = Ok (VObj true false m, next)) ->
  forall next, run_includer files env depth (parsed k 0) None p KHeuristic named next = Ok (VObj true false m, next).
Proof.
  intros k p named m Oi Cn H next. unfold run_includer, default_include, from_basename. rewrite (proj2 (extension_iff named) Cn).
  unfold relative_to. change (match named with c :: _ => if Ascii.eqb c "/" then named else p_dir p ++ named | [] => p_dir p end) with (seen_from (p_dir p) named).
  change (o_missing (context_options p)) with true. rewrite H. reflexivity.
Qed.
Lemma file_read : forall n name ds, file_makes files n name ds -> forall k o miss, (n <= k)%nat -> o_includer o = None -> (o_syntax o = None \/ o_syntax o = Some CONF) ->
  exists m, rooted ds /\ collects (([], JObject []) :: ds) m /\
    forall next, parsed k 0 (new_file files name o) (set_missing (p_options (new_file files name o)) miss) next = Ok (VObj true false m, next).
Proof.
  induction n as [|n IH]; intros name ds H k o miss L Oi Os; [destruct H|]. destruct k as [|k]; [lia|]. cbn [parse_parseable]. change (max_include_depth <=? 0)%nat with false. cbv iota. cbn [pred]. unfold parse_object_of.
  set (p := new_file files name o). set (final := fixup_options (p_guess p) (set_missing (p_options p) miss)).
  assert (Fi : o_includer final = None) by exact Oi. rewrite Fi. change (p_text p) with (contents files name).
  destruct H as [[base [dir [En [Dr Dc]]]]|[base [ms [En [Dj ->]]]]].
  - apply directory_unique in Dr. subst dir.
    assert (E : ends_with (lit ".conf") name = true) by (apply ends_iff; eauto).
    assert (Sx : o_syntax final = Some CONF).
    { unfold final, p, new_file. cbn [p_guess p_options]. unfold syntax_from_extension. rewrite (conf_not_json _ E), E. unfold fixup_options. destruct o as [sy og mi ic]; cbn in *. destruct Os as [-> | ->]; reflexivity. }
    rewrite Sx.
    assert (Inc : includes_right (fun named made => has_extension named /\ file_makes files n (seen_from (directory name) named) made) (run_includer files env depth (parsed k 0) None p)).
    { intros named made [He Hm]. destruct (IH _ _ Hm k (context_options p) true ltac:(lia) Oi (or_introl eq_refl)) as [m [Rt [C P]]]. exists m. split; [exact Rt|]. split; [exact C|]. apply include_step; assumption. }
    destruct (parsed_document _ _ _ _ Inc Dc) as [m [Rt [C P]]]. exists m. split; [exact Rt|]. split; [exact C|]. intro next. rewrite P. reflexivity.
  - destruct (json_always (match o_syntax final with Some s => s | None => CONF end) (run_includer files env depth (parsed k 0) None p) _ _ Dj) as [m [S P]]. exists m. split; [apply singles_rooted|]. split; [apply json_collects; [exact (document_object_unique _ _ Dj)|exact S]|].
    intro next. rewrite P. reflexivity.
Qed.
Lemma text_read_layer : forall n text ds k o, text_makes files n text ds -> (n <= k)%nat -> o_includer o = None ->
  exists self, (forall next, parse_string files env depth k text o next = Ok (self, next)) /\ hocon_layer ds self.
Proof.
  intros n text ds k o H L Oi. unfold parse_string, parse_object_of. set (p := new_string text o).
  assert (Inc : includes_right (fun named made => has_extension named /\ file_makes files n (seen_from [] named) made) (run_includer files env depth (parsed k 0) (o_includer (fixup_options (p_guess p) no_options)) p)).
  { intros named made [He Hm]. destruct (file_read _ _ _ Hm k (context_options p) true L Oi (or_introl eq_refl)) as [m [Rt [C P]]]. exists m. split; [exact Rt|]. split; [exact C|]. apply include_step; assumption. }
  destruct (parsed_document _ _ _ _ Inc H) as [m [Rt [C P]]]. exists (VObj true false m). split; [|exists m; auto]. intro next. change (o_syntax (fixup_options (p_guess p) no_options)) with (Some CONF). cbv iota. change (p_text p) with text. rewrite P. reflexivity.
Qed.
Lemma file_read_layer : forall n name ds k o, file_makes files n name ds -> (n <= k)%nat -> o_includer o = None -> o_syntax o <> Some JSON ->
  exists self, (forall next, parse_file_any_syntax files env depth k name o next = Ok (self, next)) /\ hocon_layer ds self.
Proof.
  intros n name ds k o H L Oi Os. assert (He : has_extension name).
  { destruct n; [destruct H|]. destruct H as [[base [dir [-> _]]]|[base [ms [-> _]]]]; [left|right]; eauto. }
  destruct (file_read n name ds H k o (o_missing o) L Oi) as [m [Rt [C P]]]; [destruct (o_syntax o) as [[]|]; auto; congruence|]. exists (VObj true false m). split; [|exists m; auto].
  intro next. unfold parse_file_any_syntax, from_basename. rewrite (proj2 (extension_iff name) He). apply P.
Qed.
End Files.
