(** HOCON documents are read as what they define, alone and as fallbacks of each other. *)
From Verif Require Import Base BaseLemmas Util_Model Num_Model Path_Model Token_Model Token_Spec Token_Lemmas Token_Lemmas2 PathParser_Model PathParser_Spec Doc_Model Doc_Lemmas Edit_Model Edit_Lemmas4
  Value_Model Value_Spec Value_Lemmas Value_Lemmas2 Value_Lemmas3 Concat_Model ConfigParser_Model Duration_Model Config_Model Config_Spec Resolve_Model Resolve_Lemmas Include_Model Include_Spec Include_Lemmas2 Layers_Model Json_Lemmas2 Render_Lemmas3 JsonEdit_Lemmas ConfEdit_Spec ConfEdit_Lemmas5 ConfEdit_Lemmas6 ConfEdit_Lemmas7 ConfText_Spec ConfText_Lemmas ConfText_Lemmas2 ConfText_Lemmas3 ConfText_Lemmas4 ConfText_Lemmas5 ConfText_Lemmas6
  ConfText_Lemmas7 ConfText_Lemmas8 RenderConf_Lemmas RenderConf_Lemmas2 RenderConf_Lemmas3 Rfc_Spec Rfc_Spec2 Rfc_Spec3 Rfc_Lemmas6 Rfc_Lemmas7 Rfc_Lemmas8 Hocon_Spec Hocon_Lemmas Hocon_Lemmas2.

(** ** Without braces *)
Lemma root_any : forall its e, irun Before its = Some e -> chunks its -> fields_only its -> firm its ->
  exists ns', parse_document CONF (render_tokens (itoks its)) = Ok ns' /\ root_bones ns' = [NObject (kept (map inode its))].
Proof.
  intros its e R Ck Fo Fm. rewrite (inode_kept _ _ _ R Fm).
  destruct (squeeze_ok its) as [Sq [Rs [Bs [Cs [Fs Rr]]]]]. specialize (Rr _ _ R). specialize (Cs Ck). specialize (Fs Fo). rewrite <- Rs, <- Bs. set (its2 := squeeze its) in *.
  assert (Sp : spelt false (itoks its2 ++ []) []).
  { apply (lex_items its2 Before e [] [] Rr Sq Cs); [|reflexivity]. split; [intro; constructor|]. split; [exact I|]. split; [congruence|auto]. }
  rewrite app_nil_r in Sp. pose proof (spelt_lexes _ _ _ Sp eq_refl) as Lx.
  rewrite (parse_lexed _ _ Lx). clear Sp Lx. unfold parse_root.
  destruct (collect_items _ _ _ Rr (or_introl eq_refl)) as [L [its' [E2 [FL [En A]]]]]. clearbody its2. subst its2. rewrite itoks_app, itoks_layout. rewrite <- app_assoc.
  rewrite ibones_app, ibones_layout. cbn [app]. unfold fields_only in Fs. rewrite Forall_app in Fs. destruct Fs as [_ Fs].
  destruct En as [->|[[n [ts [its'' ->]]] R']].
  - cbn [itoks flat_map app]. rewrite (A TEnd []) by (reflexivity || discriminate). cbn [bind]. eexists. split; [reflexivity|].
    apply root_kept. rewrite !kept_app, (plain_all _ FL). reflexivity.
  - inversion Fs as [|? ? Fn _]; subst. destruct Fn as [t [u [-> [Kt [St _]]]]].
    set (fuel := S (List.length (L ++ itoks (IX n (t :: u) :: its'') ++ [TEnd]))).
    destruct (loop_items (List.length (IX n (t :: u) :: its'')) _ _ false (le_n _) R' (squeezed_app _ _ Sq) Fs fuel (S (List.length (itoks (IX n (t :: u) :: its'') ++ [TEnd]))) [] false []
      ltac:(pose proof (items_length _ Fs); rewrite app_length; lia) ltac:(unfold fuel; rewrite !app_length; lia)) as [cs' [O K]].
    change (end_token false) with TEnd in O. cbn [end_nodes end_rest] in O. rewrite app_nil_r in O. clearbody fuel. change (itoks (IX n (t :: u) :: its'')) with (t :: u ++ itoks its'') in *. cbn [app] in *.
    rewrite (A t _ St) by (destruct t; try discriminate Kt; reflexivity || discriminate). cbn [bind].
    assert (Br : forall (X Y : result (bool * list node * list token)), match t with TOpenCurly | TOpenSquare => X | _ => Y end = Y) by (intros; destruct t; try discriminate Kt; reflexivity).
    rewrite Br. cbn [is_json]. unfold parse_object. rewrite O. cbn [bind app]. eexists. split; [reflexivity|].
    apply root_kept. rewrite app_nil_r, kept_app, (plain_all _ FL), K. reflexivity.
Qed.

(** ** With braces *)
Definition quiet_layout (L : list token) : Prop := Forall (fun t => plain_layout t = true) L.
Lemma quiet_squeezed : forall t L, plain_layout t = true -> quiet_layout L -> exists L', quiet_layout L' /\ (forall X, squeeze X = map IL L -> squeeze (IL t :: X) = map IL L') /\
  forall X n ts R, squeeze X = map IL L ++ IX n ts :: R -> squeeze (IL t :: X) = map IL L' ++ IX n ts :: R.
Proof.
  intros t L H F. destruct t as [| | | | | | | | | | |txt|w|sl txt|o ex|v0 txt]; try discriminate H;
    try (match type of H with plain_layout ?t = _ => exists (t :: L) end; split; [constructor; [reflexivity|exact F]|split; intros; cbn [squeeze]; match goal with E : squeeze _ = _ |- _ => rewrite E end; reflexivity]).
  destruct L as [|t' L]; [exists [TIgnored w]; split; [constructor; [reflexivity|exact F]|split; intros; cbn [squeeze]; match goal with E : squeeze _ = _ |- _ => rewrite E end; reflexivity]|]. inversion F as [|? ? H' F'']; subst.
  destruct t' as [| | | | | | | | | | |txt|w'|sl txt|o ex|v0 txt]; try discriminate H';
    [ | |]; match type of H' with plain_layout (TIgnored _) = _ => exists (TIgnored (w ++ w') :: L) | _ => match type of F with quiet_layout ?l => exists (TIgnored w :: l) end end;
    (split; [repeat constructor; assumption|split; intros; cbn [squeeze]; match goal with E : squeeze _ = _ |- _ => rewrite E end; reflexivity]).
Qed.
Lemma squeeze_quiet : forall L, quiet_layout L -> exists L', squeeze (map IL L) = map IL L' /\ quiet_layout L'.
Proof.
  intros L F. induction F as [|t L H F [L' [E F']]]; [exists []; split; [reflexivity|constructor]|]. destruct (quiet_squeezed t L' H F') as [L2 [Q [A _]]]. exists L2. split; [exact (A _ E)|exact Q].
Qed.
Lemma squeeze_before : forall n ts X L, quiet_layout L -> exists L', squeeze (map IL L ++ IX n ts :: X) = map IL L' ++ IX n ts :: squeeze X /\ quiet_layout L'.
Proof.
  intros n ts X L F. induction F as [|t L H F [L' [E F']]]; [exists []; split; [reflexivity|constructor]|]. destruct (quiet_squeezed t L' H F') as [L2 [Q [_ A]]]. exists L2. split; [exact (A _ _ _ _ E)|exact Q].
Qed.
Lemma around_read : forall p s e, around p s e -> exists L, quiet_layout L /\ irun p (map IL L) = Some e /\ render_tokens L = s.
Proof.
  intros p s e H. induction H as [p|p t q s e N1 N2 P H [L [F [R T]]]]; [exists []; split; [constructor|split; reflexivity]|]. exists (t :: L). split; [|split].
  - constructor; [|exact F]. unfold pass in P. destruct t; try reflexivity; destruct p; try discriminate P; congruence.
  - assert (P' : layout_step p t = Some q) by (destruct p; try exact P; destruct t; try exact P; congruence). cbn [map irun]. rewrite (pass_layout _ _ _ N1 P'). exact R.
  - rewrite render_cons', T. reflexivity.
Qed.
Lemma root_braces : forall pre post n ts e inc next v, quiet_layout pre -> quiet_layout post -> irun Before (map IL pre) = Some Before -> irun Behind (map IL post) = Some e -> object_ok n ts -> is_value_node n = true -> stands inc n v ->
  parse_config CONF inc (render_tokens (pre ++ ts ++ post)) next = Ok (Some v, next).
Proof.
  intros pre post n ts e inc next v Q1 Q2 R1 R2 Oo Vn St. pose proof Oo as [Tx [Ch [u [Eu A]]]]. set (its := map IL pre ++ IX n ts :: map IL post).
  assert (R : irun Before its = Some e) by (unfold its; rewrite irun_app, R1; exact R2).
  assert (Ck : chunks its). { unfold its. apply Forall_app. split; [apply Forall_map, Forall_forall; intros; exact I|]. constructor; [exact Ch|apply Forall_map, Forall_forall; intros; exact I]. }
  destruct (squeeze_ok its) as [Sq [Rs [_ [Cs [_ Rr]]]]]. specialize (Rr _ _ R). specialize (Cs Ck).
  assert (Ti : render_tokens (pre ++ ts ++ post) = render_tokens (itoks its)) by (unfold its; rewrite itoks_app, itoks_cons, !itoks_layout; reflexivity). rewrite Ti, <- Rs.
  assert (Sp : spelt false (itoks (squeeze its) ++ []) []).
  { apply (lex_items (squeeze its) Before e [] [] Rr Sq Cs); [|reflexivity]. split; [intro; constructor|]. split; [exact I|]. split; [congruence|auto]. }
  rewrite app_nil_r in Sp. pose proof (spelt_lexes _ _ _ Sp eq_refl) as Lx. unfold parse_config. rewrite (parse_lexed _ _ Lx). clear Sp Lx Rs.
  destruct (squeeze_before n ts (map IL post) pre Q1) as [pre' [E1 F1]]. destruct (squeeze_quiet post Q2) as [post' [E2 F2]]. fold its in E1. rewrite E1, E2, itoks_app, itoks_cons, !itoks_layout, Eu. rewrite <- !app_assoc. cbn [app]. unfold parse_root.
  set (toks := pre' ++ TOpenCurly :: u ++ post' ++ [TEnd]). assert (Lt : (List.length u < S (List.length toks))%nat) by (unfold toks; rewrite !app_length; cbn [List.length]; rewrite !app_length; lia).
  assert (Cl : collect CONF LEnd toks = Ok (map layout_node pre', TOpenCurly, u ++ post' ++ [TEnd])) by (apply collect_plain; [exact F1|reflexivity|reflexivity|discriminate]). rewrite Cl. cbn [bind].
  destruct (A _ (post' ++ [TEnd]) Lt) as [v' [P [V [Ly B]]]]. rewrite P. cbn [bind].
  rewrite (collect_plain post' TEnd [] F2) by (reflexivity || discriminate). cbn [bind app].
  assert (Pv : ConfigParser_Model.parse_value CONF inc v' [] 0 next = Ok (v, next)) by (rewrite <- (proj1 (bones_all v')), B, (proj1 (bones_all n)); apply St).
  assert (Ov : match v' with NObject _ | NArray _ => True | _ => False end) by exact (open_value _ _ _ _ _ _ _ (or_introl eq_refl) P).
  assert (Qt : forall L, quiet_layout L -> quiets (map layout_node L) = true). { intros L F. induction F as [|t L H F IH]; [reflexivity|]. cbn [map]. destruct t; try discriminate H; exact IH. }
  rewrite <- app_assoc. cbn [app]. rewrite root_parses by ((apply Qt; assumption) || exact Ov). rewrite Pv. reflexivity.
Qed.

(** ** Documents *)
Definition includes_right (included : str -> list definition -> Prop) (inc : include_kind -> str -> nat -> result (value * nat)) : Prop :=
  forall named ds, included named ds -> exists m, rooted ds /\ collects (([], JObject []) :: ds) m /\ forall next, inc KHeuristic named next = Ok (VObj true false m, next).
Lemma parsed_document : forall included inc text ds, includes_right included inc -> document included text ds -> exists m, rooted ds /\ collects (([], JObject []) :: ds) m /\
  forall next, parse_config CONF inc text next = Ok (Some (VObj true false m), next).
Proof.
  intros included inc text ds Inc [ds0 s e F|a ds0 s e b e' A F N B].
  - destruct (proj1 (proj2 (proj2 (proj2 (proj2 (text_read included inc Inc))))) _ _ _ _ F) as [its [Rt [R [Fi [T Rd]]]]]. destruct (fine_parts _ _ Fi) as [Ck [Fo Fm]]. destruct (Rd _ _ collects_start) as [m [C Pn]]. cbn [app] in C.
    exists m. split; [exact Rt|]. split; [exact C|]. intro next. destruct (root_any its e R Ck Fo Fm) as [ns' [P Bn]]. unfold parse_config. rewrite <- T, P. cbn [bind]. pose proof (parsed_shape _ _ _ P) as S1.
    assert (S2 : shape [NObject (map inode its)]) by (exists [], (NObject (map inode its)), []; repeat split).
    rewrite (bones_root ns' [NObject (map inode its)] inc next S1 S2) by (rewrite Bn; unfold root_bones; cbn [flat_map app]; reflexivity).
    change [NObject (map inode its)] with ([] ++ NObject (map inode its) :: []). rewrite root_parses by (reflexivity || exact I).
    cbn [ConfigParser_Model.parse_value]. rewrite <- (app_nil_r (map inode its)). rewrite Pn. cbn [parse_object_nodes bind]. rewrite new_plain by apply C. reflexivity.
  - pose proof (proj1 (proj2 (proj2 (proj2 (proj2 (text_read included inc Inc))))) _ _ _ _ F) as Fr. destruct (object_of_fields inc _ _ _ Fr N) as [n [ts [m [Oo [T [Vn [St C]]]]]]]. exists m. split; [destruct Fr as [its [Rt _]]; exact Rt|]. split; [exact C|].
    destruct (around_read _ _ _ A) as [pre [Q1 [R1 T1]]]. destruct (around_read _ _ _ B) as [post [Q2 [R2 T2]]]. intro next.
    assert (E : a ++ lit "{" ++ s ++ lit "}" ++ b = render_tokens (pre ++ ts ++ post)) by (rewrite !render_app', T, T1, T2, <- !app_assoc; reflexivity). rewrite E. eapply root_braces; eassumption.
Qed.
Lemma parsed_hocon : forall text ds inc, hocon_text text ds -> exists m, rooted ds /\ collects (([], JObject []) :: ds) m /\ forall next, parse_config CONF inc text next = Ok (Some (VObj true false m), next).
Proof. intros text ds inc H. apply (parsed_document (fun _ _ => False) inc text ds); [intros ? ? []|exact H]. Qed.
Definition hocon_layer (ds : list definition) (v : value) : Prop := exists m, v = VObj true false m /\ rooted ds /\ collects (([], JObject []) :: ds) m.
Lemma hocon_string_layer : forall files env depth n text ds o next, hocon_text text ds -> exists self, parse_string files env depth n text o next = Ok (self, next) /\ hocon_layer ds self.
Proof.
  intros files env depth n text ds o next H. destruct (parsed_hocon _ _ (run_includer files env depth (parse_parseable files env depth n 0) (o_includer (fixup_options None no_options)) (new_string text o)) H) as [m [Rt [C P]]]. exists (VObj true false m). split; [|exists m; auto]. unfold parse_string, parse_object_of.
  cbn [p_text p_guess new_string]. change (o_syntax (fixup_options None no_options)) with (Some CONF). cbv iota. rewrite P. reflexivity.
Qed.
Lemma conf_not_json : forall name, ends_with (lit ".conf") name = true -> ends_with (lit ".json") name = false.
Proof.
  intros name H. unfold ends_with in *. change (rev (lit ".conf")) with (lit "fnoc.") in H. change (rev (lit ".json")) with (lit "nosj."). destruct (rev name) as [|c r]; [discriminate H|].
  cbn in H |- *. apply andb_true_iff in H. destruct H as [H _]. apply Ascii.eqb_eq in H. subst c. reflexivity.
Qed.
Lemma hocon_file_layer : forall files env depth n name text ds o next, hocon_text text ds -> files name = Some text -> ends_with (lit ".conf") name = true -> o_syntax o <> Some JSON ->
  exists self, parse_file_any_syntax files env depth (S n) name o next = Ok (self, next) /\ hocon_layer ds self.
Proof.
  intros files env depth n name text ds o next H F E O. set (pf := new_file files name o). destruct (parsed_hocon _ _ (run_includer files env depth (parse_parseable files env depth n 0) (o_includer (fixup_options (p_guess pf) (set_missing (p_options pf) (o_missing o)))) pf) H) as [m [Rt [C P]]]. exists (VObj true false m). split; [|exists m; auto].
  unfold parse_file_any_syntax, from_basename. rewrite E. cbn [orb]. cbn [parse_parseable]. change (max_include_depth <=? 0)%nat with false. cbv iota.
  unfold parse_object_of, new_file. cbn [p_text p_guess p_options]. rewrite F.
  unfold syntax_from_extension. rewrite (conf_not_json _ E), E.
  assert (Sx : o_syntax (fixup_options (Some CONF) (set_missing (fixup_options (Some CONF) o) (o_missing o))) = Some CONF) by (unfold fixup_options; destruct o as [[[]|] og mi ic]; cbn in *; congruence).
  rewrite Sx, P. reflexivity.
Qed.
