(** Objects and documents that are read from their text. *)
From Verif Require Import Base BaseLemmas Util_Model Num_Model Path_Model Token_Model Token_Spec Token_Lemmas Token_Lemmas2 PathParser_Model Doc_Model Doc_Lemmas Doc_Lemmas2 Edit_Model Value_Model Json_Lemmas Json_Lemmas2 Render_Lemmas3 JsonEdit_Lemmas ConfEdit_Spec ConfText_Spec ConfText_Lemmas ConfText_Lemmas2 ConfText_Lemmas3 ConfText_Lemmas5 ConfText_Lemmas6 ConfText_Lemmas7.

Lemma walk_closed : forall h cs s, walk (Closed, h) cs = Some s -> cs = [] /\ s = (Closed, h).
Proof.
  intros h [|c cs] s H; [injection H as <-; auto|]. cbn [walk] in H. destruct c; try discriminate H; destruct t; try discriminate H; destruct h; discriminate H.
Qed.
Lemma render_nodes_app : forall a b, render_nodes (a ++ b) = render_nodes a ++ render_nodes b.
Proof. intros. unfold render_nodes. rewrite flat_map_app. apply render_app'. Qed.
Lemma render_nodes_cons : forall c b, render_nodes (c :: b) = render_node c ++ render_nodes b.
Proof. intros. unfold render_nodes. cbn [flat_map]. apply render_app'. Qed.
(** A step over a child that is not a field. *)
Lemma step_layout : forall p h c s, step (p, h) c = Some s -> is_field c = false ->
  exists t, c = layout_node t /\ match t with TComment _ _ => True | _ => c = NTok t end /\ snd s = false /\ pass p t = Some (fst s) /\ p <> Closed /\ (h = true -> t = TNewline \/ t = TCloseCurly).
Proof.
  intros p h c s H F. destruct c; try discriminate H; try discriminate F.
  - assert (Pc : p <> Closed) by (intros ->; cbn in H; destruct t; discriminate H). exists t.
    assert (C : is_comment t = false) by (destruct t; try reflexivity; discriminate H).
    assert (K : match pass p t with Some p' => if h then match t with TNewline | TCloseCurly => Some (p', false) | _ => None end else Some (p', false) | None => None end = Some s) by (destruct t; try discriminate C; exact H).
    destruct (pass p t) as [p'|]; [|discriminate]. split; [destruct t; try discriminate C; reflexivity|]. split; [destruct t; try discriminate C; reflexivity|].
    destruct h; [|injection K as <-; repeat split; auto; discriminate]. destruct t; try discriminate K; injection K as <-; repeat split; auto.
  - destruct t; try discriminate H. cbn [step] in H. destruct h; [discriminate|]. exists (TComment double_slash text). destruct (pass p (TComment double_slash text)) as [p'|] eqn:P; [|discriminate]. injection H as <-.
    repeat split; auto; [|discriminate]. intros ->. discriminate P.
Qed.
Lemma layout_kept : forall t s p, pass p t = Some s -> kept [layout_node t] = [].
Proof. intros t s p H. destruct t; try (destruct p; discriminate H); reflexivity. Qed.
Lemma layout_render : forall t, render_node (layout_node t) = token_text t.
Proof. intros []; unfold render_node; cbn [layout_node node_tokens]; rewrite render_cons'; apply app_nil_r. Qed.
Lemma pass_curly : forall p t q, pass p t = Some q -> (t = TCloseCurly <-> q = Closed).
Proof.
  intros p t q H. destruct p, t; try discriminate H; unfold pass in H; try (destruct double_slash); try (destruct (blank_text _)); try (destruct (line_text _)); try discriminate H; injection H as <-; split; try discriminate; reflexivity.
Qed.
Lemma spread_items : forall cs p h q h', walk (p, h) cs = Some (q, h') -> p <> Closed -> (forall fc, In (NField fc) cs -> field_good fc) ->
  exists its body e, irun (low (p, h)) its = Some e /\ chunks its /\ fields_only its /\ ibones its = kept body /\ render_tokens (itoks its) = render_nodes body /\
    ((q = Closed /\ cs = body ++ [NTok TCloseCurly] /\ e <> Remark /\ e <> Closed) \/ (q <> Closed /\ cs = body /\ e = low (q, h'))).
Proof.
  induction cs as [|c cs IH]; intros p h q h' W Pc G.
  - injection W as <- <-. exists [], [], (low (p, h)). split; [reflexivity|]. split; [constructor|]. split; [constructor|]. split; [reflexivity|]. split; [reflexivity|]. right. auto.
  - cbn [walk] in W. destruct (step (p, h) c) as [[p1 h1]|] eqn:S; [|discriminate]. destruct (is_field c) eqn:F.
    + destruct c; try discriminate F. rename children into fc. destruct (G fc (or_introl eq_refl)) as [ts [Ff [Cf Rf]]].
      assert (K : exists L, lead_of fc = map NTok L /\ bones (NField fc) = bones (NField (core_of fc)) /\ p1 <> Closed /\ forall its, irun (low (p, h)) (map IL L ++ IX (NField (core_of fc)) ts :: its) = irun (low (p1, h1)) its).
      { cbn [step] in S. destruct (line_lead (lead_of fc)) eqn:LL.
        - assert (E : p1 = p /\ h1 = true) by (destruct p; try congruence; injection S as <- <-; auto). destruct E as [-> ->]. unfold line_lead in LL. destruct (lead_of fc) as [|c l] eqn:El; [discriminate|]. destruct c; try discriminate LL. destruct t; try discriminate LL.
          destruct (lead_items l Before LL eq_refl) as [L [-> A]]. exists (TNewline :: L). split; [reflexivity|]. split; [apply lead_bones; right; rewrite El; exact LL|]. split; [exact Pc|].
          intro its. cbn [map app irun]. assert (X : pass' (low (p, h)) TNewline = Some Before) by (unfold low; destruct h, p; try reflexivity; congruence). rewrite X, A. reflexivity.
        - destruct (inline_lead (lead_of fc) && negb h) eqn:Il; [|destruct p; discriminate S]. apply andb_true_iff in Il. destruct Il as [Il Hh]. apply negb_true_iff in Hh. subst h. destruct p; try discriminate S. injection S as <- <-.
          assert (Il' : forallb (fun c => is_newline c || is_gap c) (lead_of fc) = true) by (unfold inline_lead in Il; rewrite forallb_forall in *; intros c Ic; rewrite (Il c Ic); apply orb_true_r).
          destruct (lead_items _ Before Il' eq_refl) as [L [EL A]]. exists L. split; [exact EL|]. split; [apply lead_bones; left; exact Il|]. split; [discriminate|]. intro its. unfold low at 1. cbn [snd fst]. rewrite A. reflexivity. }
      destruct K as [L [EL [Bn [Pc1 A]]]]. destruct (IH _ _ _ _ W Pc1 (fun fc Hf => G fc (or_intror Hf))) as [its [body [e [R [Ck [Fo [Ib [Rn Fin]]]]]]]].
      exists (map IL L ++ IX (NField (core_of fc)) ts :: its), (NField fc :: body), e. split; [rewrite A; exact R|].
      split; [unfold chunks; rewrite Forall_app; split; [apply Forall_map, Forall_forall; intros; exact I|constructor; assumption]|].
      split; [unfold fields_only; rewrite Forall_app; split; [apply Forall_map, Forall_forall; intros; exact I|constructor; assumption]|].
      split; [rewrite ibones_app, ibones_layout; change (bones (NField (core_of fc)) :: ibones its = bones (NField fc) :: kept body); rewrite Bn, Ib; reflexivity|].
      split; [rewrite itoks_app, itoks_layout; change (itoks (IX (NField (core_of fc)) ts :: its)) with (ts ++ itoks its); rewrite !render_app', Rf, Rn, render_nodes_cons;
              unfold render_node; cbn [node_tokens]; rewrite (field_split fc) at 2; rewrite flat_map_app, EL, node_gap, render_app', <- app_assoc; reflexivity|].
      destruct Fin as [[E1 [-> E2]]|[E1 [-> E2]]]; [left|right]; auto.
    + destruct (step_layout _ _ _ _ S F) as [t [-> [Ct [Hs [P [_ Hh]]]]]]. cbn [fst snd] in Hs, P. subst h1.
      pose proof (pass_curly _ _ _ P) as Cur. assert (D : t = TCloseCurly \/ t <> TCloseCurly) by (destruct t; auto; right; discriminate). destruct D as [->|D].
      * destruct Cur as [Cur _]. specialize (Cur eq_refl). subst p1. destruct (walk_closed _ _ _ W) as [-> E]. injection E as -> ->.
        exists [], [], (low (p, h)). split; [reflexivity|]. split; [constructor|]. split; [constructor|]. split; [reflexivity|]. split; [reflexivity|]. left. split; [reflexivity|]. split; [reflexivity|].
        unfold low. cbn [fst snd]. destruct h; [split; discriminate|]. destruct p; try discriminate P; split; discriminate.
      * assert (Pc1 : p1 <> Closed) by (intro E; apply D; apply Cur; exact E). destruct (IH _ _ _ _ W Pc1 (fun fc Hf => G fc (or_intror Hf))) as [its [body [e [R [Ck [Fo [Ib [Rn Fin]]]]]]]].
        exists (IL t :: its), (layout_node t :: body), e. cbn [irun].
        assert (X : pass' (low (p, h)) t = Some p1).
        { unfold low. cbn [fst snd]. destruct h; [destruct (Hh eq_refl) as [->|]; [|congruence]; destruct p; try discriminate P; injection P as <-; reflexivity|]. unfold pass'. destruct t; try exact P; [destruct p; try exact P; discriminate P|congruence]. }
        rewrite X. unfold low in R at 1. cbn [fst snd] in R. split; [exact R|]. split; [constructor; [exact I|exact Ck]|]. split; [constructor; [exact I|exact Fo]|].
        split; [change (layout_node t :: body) with ([layout_node t] ++ body); rewrite kept_app, (layout_kept _ _ _ P); exact Ib|].
        split; [change (itoks (IL t :: its)) with (t :: itoks its); rewrite render_cons', Rn, render_nodes_cons, layout_render; reflexivity|].
        destruct Fin as [[E1 [-> E2]]|[E1 [-> E2]]]; [left|right]; auto.
Qed.

(** An object with braces is read from its text. *)
Lemma braced_ok : forall cs, braced cs = true -> (forall fc, In (NField fc) cs -> field_good fc) -> exists ts, object_ok (NObject cs) ts.
Proof.
  intros cs B G. unfold braced in B. destruct cs as [|c cs]; [discriminate|]. destruct c; try discriminate B. destruct t; try discriminate B. apply andb_true_iff in B. destruct B as [B _].
  destruct (walk (Before, false) cs) as [[q h]|] eqn:W; [|discriminate]. assert (q = Closed) as -> by (destruct q; try discriminate B; reflexivity).
  destruct (spread_items _ _ _ _ _ W ltac:(discriminate) (fun fc Hf => G fc (or_intror Hf))) as [its [body [e [R [Ck [Fo [Ib [Rn [[_ [-> [E1 E2]]]|[E _]]]]]]]]]]; [|congruence].
  destruct (squeeze_ok its) as [Sq [Rs [Bs [Cs [Fs Rr]]]]]. change (low (Before, false)) with Before in R. specialize (Rr _ _ R). specialize (Cs Ck). specialize (Fs Fo).
  set (its2 := squeeze its) in *. exists (TOpenCurly :: itoks its2 ++ [TCloseCurly]).
  assert (Sp : forall r, neutral r -> spelt false (itoks its2 ++ [TCloseCurly]) r).
  { intros r N. apply (lex_items its2 Before e [TCloseCurly] r Rr Sq Cs); [|reflexivity]. split; [intro k; apply sp_tok; [apply reads_fuel, reads_mark; cbn; auto|constructor]|]. split; [reflexivity|]. split; [split; reflexivity|]. intro; congruence. }
  split; [|split].
  - unfold render_node. cbn [node_tokens flat_map app]. rewrite !render_cons', flat_map_app, !render_app', Rs, Rn. reflexivity.
  - split; [intros k r N; apply sp_tok; [apply reads_fuel, reads_mark; cbn; auto|apply Sp, N]|]. split; [discriminate|]. split; [reflexivity|].
    change (TOpenCurly :: itoks its2 ++ [TCloseCurly]) with ((TOpenCurly :: itoks its2) ++ [TCloseCurly]). rewrite last_app by discriminate. split; reflexivity.
  - eexists. split; [reflexivity|]. intros fuel r L. destruct fuel as [|fuel]; [lia|]. rewrite <- app_assoc. cbn [app]. rewrite app_length in L. cbn [List.length] in L.
    assert (Len : (List.length its2 <= List.length (itoks its2))%nat).
    { clear -Fs. induction Fs as [|i l H F IH]; [cbn; lia|]. change (itoks (i :: l)) with ((match i with IL t => [t] | IX _ ts => ts end) ++ itoks l). rewrite app_length. cbn [List.length]. destruct i as [t|n ts]; [cbn; lia|]. destruct H as [t [u [-> _]]]. cbn. lia. }
    destruct (loop_items (List.length its2) its2 e true (le_n _) Rr Sq Fs fuel (S (List.length (itoks its2 ++ TCloseCurly :: r))) [] false r ltac:(rewrite app_length; cbn [List.length]; lia) ltac:(lia)) as [cs' [O K]].
    cbn [parse_value]. unfold parse_object. change (end_token true) with TCloseCurly in O. rewrite O. cbn [bind]. eexists. split; [reflexivity|]. split; [reflexivity|]. split; [reflexivity|].
    cbn [end_nodes app]. change (NObject (kept (NTok TOpenCurly :: cs' ++ [NTok TCloseCurly])) = NObject (kept (NTok TOpenCurly :: body ++ [NTok TCloseCurly]))). f_equal.
    change (kept (cs' ++ [NTok TCloseCurly]) = kept (body ++ [NTok TCloseCurly])). rewrite !kept_app, K, Bs, Ib. reflexivity.
Qed.

(** Values that are read from their text and keep being so when they are edited. *)
Inductive tame : node -> Prop :=
| tame_leaf : forall v ts, (forall cs, v <> NObject cs) -> is_value_node v = true -> value_ok v ts -> tame v
| tame_object : forall cs, braced cs = true -> (forall fc, In (NField fc) cs -> field_shape fc = true) -> (forall fc pn, In (NField fc) cs -> In (NPath pn) fc -> key_ok pn) ->
    (forall fc v, In (NField fc) cs -> In v fc -> is_value_node v = true -> tame v) -> tame (NObject cs).
Definition tame_fields (cs : list node) : Prop :=
  (forall fc, In (NField fc) cs -> field_shape fc = true) /\ (forall fc pn, In (NField fc) cs -> In (NPath pn) fc -> key_ok pn) /\ (forall fc v, In (NField fc) cs -> In v fc -> is_value_node v = true -> tame v).
Lemma core_in : forall fc c, In c (core_of fc) -> In c fc.
Proof. intros fc c H. rewrite (field_split fc). apply in_or_app. right. exact H. Qed.
Lemma thing_value : forall v, field_thing v = true -> is_value_node v = true /\ is_layout v = false.
Proof. intros [] H; try discriminate H; split; reflexivity. Qed.
Lemma object_thing : forall v, field_object v = true -> field_thing v = true.
Proof. intros [] H; try discriminate H; exact H. Qed.
Lemma fields_good : forall (P : node -> Prop) cs, (forall fc, In (NField fc) cs -> field_shape fc = true) -> (forall fc pn, In (NField fc) cs -> In (NPath pn) fc -> key_ok pn) ->
  (forall v, P v -> exists ts, value_ok v ts /\ (field_object v = true -> object_ok v ts)) ->
  (forall fc v, In (NField fc) cs -> In v fc -> is_value_node v = true -> P v) -> forall fc, In (NField fc) cs -> field_good fc.
Proof.
  intros P cs Sh Ky Pv Vl fc H. pose proof (Sh _ H) as Sf. destruct (shape_parts _ Sf) as [pn [g1 [G1 [[v [E O]]|[sep [g2 [v [S [G2 [E T]]]]]]]]]].
  - assert (Iv : In v fc) by (apply core_in; rewrite E; right; apply in_or_app; right; left; reflexivity). assert (Ip : In (NPath pn) fc) by (apply core_in; rewrite E; left; reflexivity).
    destruct (thing_value _ (object_thing _ O)) as [Vn Ly]. destruct (Pv v (Vl _ _ H Iv Vn)) as [tv [_ Ov]]. destruct (field_object_ok pn g1 v tv (Ky _ _ H Ip) G1 (Ov O) Ly) as [ts [A [B C]]]. exists ts. rewrite E. auto.
  - assert (Iv : In v fc) by (apply core_in; rewrite E; right; apply in_or_app; right; right; apply in_or_app; right; left; reflexivity). assert (Ip : In (NPath pn) fc) by (apply core_in; rewrite E; left; reflexivity).
    destruct (thing_value _ T) as [Vn Ly]. destruct (Pv v (Vl _ _ H Iv Vn)) as [tv [Ov _]]. destruct (field_sep_ok pn g1 sep g2 v tv (Ky _ _ H Ip) G1 S G2 Ov Ly) as [ts [A [B C]]]. exists ts. rewrite E. auto.
Qed.
Lemma tame_value : forall v, tame v -> exists ts, value_ok v ts /\ (field_object v = true -> object_ok v ts).
Proof.
  intros v T. induction T as [v ts N V O|cs B Sh Ky _ IH].
  - exists ts. split; [exact O|]. intro F. destruct v; try discriminate F. destruct (N children eq_refl).
  - destruct (braced_ok cs B) as [ts O]; [|exists ts; split; [apply object_value, O|intros _; exact O]].
    apply (fields_good (fun v => exists ts, value_ok v ts /\ (field_object v = true -> object_ok v ts))); [exact Sh|exact Ky|auto|exact IH].
Qed.
Lemma tame_good : forall cs, tame_fields cs -> forall fc, In (NField fc) cs -> field_good fc.
Proof. intros cs [Sh [Ky Vl]]. exact (fields_good tame cs Sh Ky tame_value Vl). Qed.

(** ** Documents *)
Definition tame_document (ns : list node) : Prop :=
  (exists cs, ns = [NObject cs] /\ unbraced cs = true /\ tame_fields cs) \/
  (exists pre cs post h s, ns = pre ++ NObject cs :: post /\ root_layout pre = true /\ root_layout post = true /\ walk (Before, false) pre = Some (Before, h) /\ walk (Behind, false) post = Some s /\
     braced cs = true /\ tame_fields cs).
Lemma squeeze_split : forall a n ts b, squeeze (a ++ IX n ts :: b) = squeeze a ++ IX n ts :: squeeze b.
Proof.
  induction a as [|i a IH]; intros n ts b; [reflexivity|]. cbn [app squeeze]. rewrite IH. destruct i as [t|]; [|reflexivity]. destruct t; try reflexivity. destruct (squeeze a) as [|[t|] r]; try reflexivity. destruct t; reflexivity.
Qed.
Lemma squeeze_layout : forall L, Forall (fun t => plain_layout t = true) L -> exists L', squeeze (map IL L) = map IL L' /\ Forall (fun t => plain_layout t = true) L'.
Proof.
  induction L as [|t L IH]; intro F; [exists []; split; constructor|]. inversion F as [|? ? Ft F']; subst. destruct (IH F') as [L' [E G]]. cbn [map squeeze]. rewrite E. destruct t; try discriminate Ft; try (eexists (_ :: L'); split; [reflexivity|constructor; [reflexivity|exact G]]).
  destruct L' as [|x L']; [exists [TIgnored text]; split; [reflexivity|constructor; [reflexivity|constructor]]|]. inversion G; subst. destruct x; try (eexists (TIgnored text :: _ :: L'); split; [reflexivity|constructor; [reflexivity|exact G]]).
  exists (TIgnored (text ++ text0) :: L'). split; [reflexivity|]. constructor; [reflexivity|assumption].
Qed.
Lemma root_items : forall l p h q h', root_layout l = true -> walk (p, h) l = Some (q, h') -> h = false -> p <> Closed ->
  exists L, l = map layout_node L /\ Forall (fun t => plain_layout t = true) L /\ (forall its, irun p (map IL L ++ its) = irun q its) /\ render_tokens L = render_nodes l /\ q <> Closed /\ root_bones l = [].
Proof.
  induction l as [|c l IH]; intros p h q h' R W Hh Pc; [injection W as <- <-; exists []; repeat split; auto|]. subst h. cbn [root_layout forallb] in R. apply andb_true_iff in R. destruct R as [Rc R]. cbn [walk] in W.
  destruct (step (p, false) c) as [[p1 h1]|] eqn:S; [|discriminate]. assert (F : is_field c = false) by (destruct c; try discriminate Rc; reflexivity). destruct (step_layout _ _ _ _ S F) as [t [-> [Ct [Hs [P [_ _]]]]]]. cbn [fst snd] in Hs, P. subst h1.
  pose proof (pass_curly _ _ _ P) as Cur. assert (Pl : plain_layout t = true) by (destruct t; try discriminate Rc; reflexivity). assert (Pc1 : p1 <> Closed) by (intros ->; destruct Cur as [_ Cur]; rewrite Cur in Pl by reflexivity; discriminate).
  destruct (IH _ _ _ _ R W eq_refl Pc1) as [L [-> [FL [A [Rn [Qc Rb]]]]]]. exists (t :: L). split; [reflexivity|]. split; [constructor; assumption|]. split; [|split; [|split; [exact Qc|]]].
  - intro its. cbn [map app irun]. assert (X : pass' p t = Some p1) by (unfold pass'; destruct t; try discriminate Pl; exact P). rewrite X. apply A.
  - rewrite render_cons', Rn, render_nodes_cons, layout_render. reflexivity.
  - destruct t; try discriminate Pl; exact Rb.
Qed.
Lemma collect_plain : forall L t r, Forall (fun t => plain_layout t = true) L -> solid t = true -> is_comment t = false -> t <> TNewline -> collect CONF LEnd (L ++ t :: r) = Ok (map layout_node L, t, r).
Proof.
  intros L t r F S C N. induction F as [|x L Hx F IH]; [apply collect_solid; assumption|]. cbn [app collect]. change (json_forbids CONF x) with false. cbv iota. rewrite IH. destruct x; try discriminate Hx; reflexivity.
Qed.
Lemma parse_lexed : forall s ts, lexes true false s (ts ++ [TEnd]) -> parse_document CONF s = parse_root CONF LEnd (ts ++ [TEnd]).
Proof.
  intros s ts H. unfold parse_document, after_start. change (negb (is_json CONF)) with true. unfold lex. change saver_init with (@nil ascii, false). rewrite (H _ (Nat.lt_succ_diag_r _)). reflexivity.
Qed.
Lemma layout_bones : forall L, Forall (fun t => plain_layout t = true) L -> root_bones (map layout_node L) = [].
Proof. induction 1 as [|t L Ht F IH]; [reflexivity|]. destruct t; try discriminate Ht; exact IH. Qed.
Lemma root_bones_app : forall a b, root_bones (a ++ b) = root_bones a ++ root_bones b.
Proof. intros. apply flat_map_app. Qed.
Lemma items_length : forall its, fields_only its -> (List.length its <= List.length (itoks its))%nat.
Proof.
  intros its F. induction F as [|i l H F IH]; [cbn; lia|]. change (itoks (i :: l)) with ((match i with IL t => [t] | IX _ ts => ts end) ++ itoks l). rewrite app_length. cbn [List.length]. destruct i as [t|n ts]; [cbn; lia|]. destruct H as [t [u [-> _]]]. cbn. lia.
Qed.
Lemma root_one : forall x y, kept x = kept y -> root_bones [NObject x] = [NObject (kept y)].
Proof. intros x y <-. reflexivity. Qed.
Theorem tame_reread : forall ns, tame_document ns -> reread ns.
Proof.
  intros ns [[cs [-> [U T]]]|[pre [cs [post [h [[q h'] [-> [Rpre [Rpost [Wpre [Wpost [B T]]]]]]]]]]]].
  - unfold unbraced in U. apply andb_true_iff in U. destruct U as [U _]. destruct (walk (Before, false) cs) as [[q h]|] eqn:W; [|discriminate]. assert (Qc : q <> Closed) by (intros ->; discriminate U).
    destruct (spread_items _ _ _ _ _ W ltac:(discriminate) (tame_good _ T)) as [its [body [e [R [Ck [Fo [Ib [Rn [[E _]|[_ [-> Ee]]]]]]]]]]]; [congruence|].
    destruct (squeeze_ok its) as [Sq [Rs [Bs [Cs [Fs Rr]]]]]. change (low (Before, false)) with Before in R. specialize (Rr _ _ R). specialize (Cs Ck). specialize (Fs Fo). set (its2 := squeeze its) in *.
    assert (Sp : spelt false (itoks its2 ++ []) []).
    { apply (lex_items its2 Before e [] [] Rr Sq Cs); [|reflexivity]. split; [intro; constructor|]. split; [exact I|]. split; [congruence|auto]. }
    rewrite app_nil_r in Sp. pose proof (spelt_lexes _ _ _ Sp eq_refl) as Lx. unfold reread.
    assert (Tx : render_document [NObject body] = render_tokens (itoks its2)) by (rewrite Rs, Rn; unfold render_document, render_nodes; cbn [flat_map node_tokens]; rewrite app_nil_r; reflexivity).
    rewrite Tx, (parse_lexed _ _ Lx). clear Sp Lx Tx. unfold parse_root.
    destruct (collect_items _ _ _ Rr (or_introl eq_refl)) as [L [its' [E2 [FL [En A]]]]]. clearbody its2. subst its2. rewrite itoks_app, itoks_layout. rewrite <- app_assoc.
    rewrite ibones_app, ibones_layout in Bs. cbn [app] in Bs. change (root_bones [NObject body]) with [NObject (kept body)]. unfold fields_only in Fs. rewrite Forall_app in Fs. destruct Fs as [_ Fs].
    destruct En as [->|[[n [ts [its'' ->]]] R']].
    + cbn [itoks flat_map app]. rewrite (A TEnd []) by (reflexivity || discriminate). cbn [bind]. eexists. split; [reflexivity|]. apply root_one. rewrite !kept_app, (plain_all _ FL), <- Ib, <- Bs. reflexivity.
    + inversion Fs as [|? ? Fn _]; subst. destruct Fn as [t [u [-> [Kt [St _]]]]].
      set (fuel := S (List.length (L ++ itoks (IX n (t :: u) :: its'') ++ [TEnd]))).
      destruct (loop_items (List.length (IX n (t :: u) :: its'')) _ _ false (le_n _) R' (squeezed_app _ _ Sq) Fs fuel (S (List.length (itoks (IX n (t :: u) :: its'') ++ [TEnd]))) [] false []
        ltac:(pose proof (items_length _ Fs); rewrite app_length; lia) ltac:(unfold fuel; rewrite !app_length; lia)) as [cs' [O K]].
      change (end_token false) with TEnd in O. cbn [end_nodes end_rest] in O. rewrite app_nil_r in O. clearbody fuel. change (itoks (IX n (t :: u) :: its'')) with (t :: u ++ itoks its'') in *. cbn [app] in *.
      rewrite (A t _ St) by (destruct t; try discriminate Kt; reflexivity || discriminate). cbn [bind].
      assert (Br : forall (X Y : result (bool * list node * list token)), match t with TOpenCurly | TOpenSquare => X | _ => Y end = Y) by (intros; destruct t; try discriminate Kt; reflexivity).
      rewrite Br. cbn [is_json]. unfold parse_object. rewrite O. cbn [bind app]. eexists. split; [reflexivity|].
      apply root_one. rewrite app_nil_r, kept_app, (plain_all _ FL), K, Bs, Ib. reflexivity.
  - destruct (root_items _ _ _ _ _ Rpre Wpre eq_refl ltac:(discriminate)) as [L1 [-> [F1 [A1 [R1 [_ B1]]]]]]. destruct (root_items _ _ _ _ _ Rpost Wpost eq_refl ltac:(discriminate)) as [L2 [-> [F2 [A2 [R2 [Qc B2]]]]]].
    destruct (braced_ok cs B (tame_good _ T)) as [ts [Ro [Co [u [-> Po]]]]].
    set (its := map IL L1 ++ IX (NObject cs) (TOpenCurly :: u) :: map IL L2).
    assert (R : irun Before its = Some q) by (unfold its; rewrite A1; cbn [irun]; rewrite <- (app_nil_r (map IL L2)), A2; reflexivity).
    assert (Ck : chunks its) by (unfold chunks, its; rewrite Forall_app; split; [apply Forall_map, Forall_forall; intros; exact I|constructor; [exact Co|apply Forall_map, Forall_forall; intros; exact I]]).
    destruct (squeeze_ok its) as [Sq [Rs [_ [Cs [_ Rr]]]]]. specialize (Rr _ _ R). specialize (Cs Ck). unfold its in Sq, Rs, Rr, Cs. rewrite squeeze_split in Sq, Rs, Rr, Cs.
    destruct (squeeze_layout _ F1) as [M1 [E1 G1]]. destruct (squeeze_layout _ F2) as [M2 [E2 G2]]. rewrite E1, E2 in *.
    set (its2 := map IL M1 ++ IX (NObject cs) (TOpenCurly :: u) :: map IL M2) in *.
    assert (Sp : spelt false (itoks its2 ++ []) []).
    { apply (lex_items its2 Before q [] [] Rr Sq Cs); [|reflexivity]. split; [intro; constructor|]. split; [exact I|]. split; [congruence|auto]. }
    rewrite app_nil_r in Sp. pose proof (spelt_lexes _ _ _ Sp eq_refl) as Lx. unfold reread.
    assert (Tk : itoks its2 = M1 ++ TOpenCurly :: u ++ M2) by (unfold its2; rewrite itoks_app, itoks_layout; change (itoks (IX (NObject cs) (TOpenCurly :: u) :: map IL M2)) with ((TOpenCurly :: u) ++ itoks (map IL M2)); rewrite itoks_layout; reflexivity).
    assert (Tx : render_document (map layout_node L1 ++ NObject cs :: map layout_node L2) = render_tokens (itoks its2)).
    { rewrite Rs. rewrite itoks_app, itoks_layout. change (itoks (IX (NObject cs) (TOpenCurly :: u) :: map IL L2)) with ((TOpenCurly :: u) ++ itoks (map IL L2)). rewrite itoks_layout, !render_app', R1, Ro, R2. unfold render_document. rewrite render_nodes_app, render_nodes_cons. reflexivity. }
    rewrite Tx, (parse_lexed _ _ Lx), Tk. unfold parse_root. replace ((M1 ++ TOpenCurly :: u ++ M2) ++ [TEnd]) with (M1 ++ TOpenCurly :: u ++ M2 ++ [TEnd]) by (rewrite <- !app_assoc; cbn [app]; rewrite <- app_assoc; reflexivity).
    rewrite (collect_plain M1 TOpenCurly) by (assumption || reflexivity || discriminate). cbn [bind].
    destruct (Po (S (List.length (M1 ++ TOpenCurly :: u ++ M2 ++ [TEnd]))) (M2 ++ [TEnd]) ltac:(rewrite app_length; cbn [List.length]; rewrite app_length; lia)) as [v' [Pv [Vn [Ly Bv]]]]. rewrite Pv. cbn [bind].
    rewrite (collect_plain M2 TEnd []) by (assumption || reflexivity || discriminate). cbn [bind]. eexists. split; [reflexivity|].
    rewrite !root_bones_app, (layout_bones _ G1), (layout_bones _ G2). change (NObject cs :: map layout_node L2) with ([NObject cs] ++ map layout_node L2). rewrite root_bones_app, B1, B2, !app_nil_r. cbn [app].
    unfold root_bones. cbn [flat_map]. rewrite <- Bv. destruct v'; try discriminate Ly; try discriminate Vn; reflexivity.
Qed.
