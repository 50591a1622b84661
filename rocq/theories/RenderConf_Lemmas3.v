(** What is rendered as HOCON is read back: the root. *)
From Verif Require Import Base BaseLemmas Util_Model Num_Model Path_Model Token_Model Token_Spec Token_Lemmas Token_Lemmas2 PathParser_Model Doc_Model Doc_Lemmas Edit_Model Value_Model Value_Spec Value_Lemmas Concat_Model ConfigParser_Model Json_Lemmas2 Render_Model Render_Spec Render_Lemmas Render_Lemmas3 Render_Lemmas4 Render_Lemmas5 JsonEdit_Lemmas ConfEdit_Spec ConfEdit_Lemmas6 ConfEdit_Lemmas7 ConfText_Spec ConfText_Lemmas ConfText_Lemmas2 ConfText_Lemmas3 ConfText_Lemmas4 ConfText_Lemmas5 ConfText_Lemmas6 ConfText_Lemmas7 ConfText_Lemmas8 RenderConf_Spec RenderConf_Lemmas RenderConf_Lemmas2.

Lemma root_kept : forall x b, kept x = b -> root_bones [NObject x] = [NObject b].
Proof. intros x b <-. reflexivity. Qed.
Lemma root_from : forall its e, irun Before its = Some e -> e = Before \/ e = Behind -> chunks its -> fields_only its -> firm its ->
  exists ns', parse_document CONF (render_tokens (itoks its)) = Ok ns' /\ root_bones ns' = [NObject (kept (map inode its))].
Proof.
  intros its e R He Ck Fo Fm. rewrite (inode_kept _ _ _ R Fm).
  destruct (squeeze_ok its) as [Sq [Rs [Bs [Cs [Fs Rr]]]]]. specialize (Rr _ _ R). specialize (Cs Ck). specialize (Fs Fo). rewrite <- Rs, <- Bs. set (its2 := squeeze its) in *.
  assert (Sp : spelt false (itoks its2 ++ []) []).
  { apply (lex_items its2 Before e [] [] Rr Sq Cs); [|reflexivity]. split; [intro; constructor|]. split; [exact I|]. split; [destruct He; congruence|auto]. }
  rewrite app_nil_r in Sp. pose proof (spelt_lexes _ _ _ Sp eq_refl) as Lx.
  rewrite (parse_lexed _ _ Lx). clear Sp Lx. unfold parse_root.
  destruct (collect_items _ _ _ Rr (or_introl eq_refl)) as [L [its' [E2 [FL [En A]]]]]. clearbody its2. subst its2. rewrite itoks_app, itoks_layout. rewrite <- app_assoc.
  rewrite ibones_app, ibones_layout. cbn [app]. unfold fields_only in Fs. rewrite Forall_app in Fs. destruct Fs as [_ Fs].
  destruct En as [->|[[n [ts [its'' ->]]] R']].
  - cbn [itoks flat_map app]. rewrite (A TEnd []) by (reflexivity || discriminate). cbn [bind]. eexists. split; [reflexivity|].
    apply root_kept. rewrite !kept_app, (plain_all _ FL). reflexivity.
  - inversion Fs as [|? ? Fn _]; subst. destruct Fn as [t [u [-> [Kt [St _]]]]].
    set (fuel := S (List.length (L ++ itoks (IX n (t :: u) :: its'') ++ [TEnd]))).
    destruct (loop_items (List.length (IX n (t :: u) :: its'')) _ _ false (le_n _) R' (squeezed_app _ _ Sq) Fs fuel (S (List.length (itoks (IX n (t :: u) :: its'') ++ [TEnd]))) [] false []
      ltac:(pose proof (items_length _ Fs); rewrite app_length; lia) ltac:(unfold fuel; rewrite !app_length; lia)) as [cs' [O K]].
    change (end_token false) with TEnd in O. cbn [end_nodes end_rest] in O. rewrite app_nil_r in O. clearbody fuel. change (itoks (IX n (t :: u) :: its'')) with (t :: u ++ itoks its'') in *. cbn [app] in *.
    rewrite (A t _ St) by (destruct t; try discriminate Kt; reflexivity || discriminate). cbn [bind].
    assert (Br : forall (X Y : result (bool * list node * list token)), match t with TOpenCurly | TOpenSquare => X | _ => Y end = Y) by (intros; destruct t; try discriminate Kt; reflexivity).
    rewrite Br. cbn [is_json]. unfold parse_object. rewrite O. cbn [bind app]. eexists. split; [reflexivity|].
    apply root_kept. rewrite app_nil_r, kept_app, (plain_all _ FL), K. reflexivity.
Qed.

Lemma object_rendered_parses : forall o ns r i m includer next, json o = false -> (origin_comments o || comments o = true -> one_line_comments ns) -> writable (VObj r i m) ->
  exists text w, render_value o ns (VObj r i m) = Ok text /\ same_contents (VObj r i m) w /\ parse_config CONF includer text next = Ok (Some w, next).
Proof.
  intros o ns r i m inc next J C W. unfold render_value. rewrite render_object, J. cbn [orb negb andb key_text app]. destruct m as [|kv0 m0].
  - cbn [bind]. eexists. exists (new_object []). split; [reflexivity|]. split; [apply same_objects; [reflexivity|intros k v H; discriminate H]|].
    destruct (formatted o); vm_compute; reflexivity.
  - set (m := kv0 :: m0) in *. inversion W as [| | | | | | |? ? ? D F]; subst.
    assert (Fs : Forall (fun kv => fst kv <> [] /\ Forall quotable (fst kv) /\ writable (snd kv) /\ reading o ns (snd kv)) m).
    { rewrite Forall_forall in *. intros x X. destruct (F x X) as [F1 [F2 F3]]. repeat split; auto. apply writable_reading; assumption. }
    destruct (object_fields_read o ns J C m [] 0%nat 0%nat ltac:(discriminate) D Fs) as [its [F' [Q [Rn [Fi [Sm Pv]]]]]].
    rewrite Q. cbn [bind]. rewrite chop_end by reflexivity. set (its2 := its ++ map IL (Render_Lemmas5.line o)).
    assert (R2 : exists e, irun Before its2 = Some e /\ (e = Before \/ e = Behind)).
    { unfold its2. rewrite irun_app, Rn. unfold Render_Lemmas5.line. destruct (formatted o); eexists; (split; [reflexivity|auto]). }
    destruct R2 as [e [R2 He]].
    assert (Fw : fine fieldly its2) by (apply fine_app; [exact Fi|apply fine_layout]). destruct (fine_parts _ _ Fw) as [Ck [Fo Fm]].
    destruct (root_from its2 e R2 He Ck Fo Fm) as [ns' [P B]]. exists (render_tokens (itoks its2)), (new_object F'). split; [|split; [apply Sm|]].
    + unfold its2. rewrite itoks_app, itoks_layout, render_app', line_text'. reflexivity.
    + unfold parse_config. rewrite P. cbn [bind]. pose proof (parsed_shape _ _ _ P) as S1.
      assert (S2 : shape [NObject (map inode its2)]) by (exists [], (NObject (map inode its2)), []; repeat split).
      rewrite (bones_root ns' [NObject (map inode its2)] inc next S1 S2) by (rewrite B; unfold root_bones; cbn [flat_map app]; reflexivity).
      change [NObject (map inode its2)] with ([] ++ NObject (map inode its2) :: []). rewrite root_parses by (reflexivity || exact I).
      cbn [ConfigParser_Model.parse_value]. unfold its2. rewrite map_app, inode_layout, Pv.
      rewrite <- (app_nil_r (map layout_node (Render_Lemmas5.line o))), layout_fields. reflexivity.
Qed.

(** ** Lists at the root *)
Lemma flat_items : forall o ns vs at_ indent i b b', (forall v, In v vs -> forall at_ indent, render o ns v [] at_ indent b = render o ns v [] at_ indent b') ->
  list_items o ns at_ indent b i vs = list_items o ns at_ indent b' i vs.
Proof.
  intros o ns vs. induction vs as [|v vs IH]; intros at_ indent i b b' H; [reflexivity|]. cbn [list_items]. rewrite (H v (or_introl eq_refl)), (IH at_ indent (S i) b b'); [reflexivity|].
  intros w Hw. apply H. right. exact Hw.
Qed.
Lemma flat_render : forall o ns v, no_objects v -> forall at_ indent b b', render o ns v [] at_ indent b = render o ns v [] at_ indent b'.
Proof.
  intros o ns v. induction v as [s|vs IH|r i m IH|n p q l|vs IH|vs IH|vs IH] using value_induction; intro N; try (inversion N; fail); intros at_ indent b b'; [reflexivity|].
  rewrite !render_list. inversion N as [|? F]; subst. rewrite (flat_items o ns vs at_ indent 0 b b'); [reflexivity|].
  intros v Hv at' indent'. rewrite Forall_forall in IH, F. apply IH; auto.
Qed.
Lemma list_rendered_parses : forall o ns vs includer next, json o = false -> (origin_comments o || comments o = true -> one_line_comments ns) -> writable (VList vs) -> no_objects (VList vs) ->
  exists text w, render_value o ns (VList vs) = Ok text /\ same_contents (VList vs) w /\ parse_config CONF includer text next = Ok (Some w, next).
Proof.
  intros o ns vs inc next J C W N. unfold render_value. rewrite (flat_render o ns _ N [] 0 true false).
  assert (X : exists its e ws, render o ns (VList vs) [] [] 0 false = Ok (render_node (NArray (NTok TOpenSquare :: map inode its ++ [NTok TCloseSquare]))) /\
    irun Before its = Some e /\ e <> Remark /\ fine value_ok its /\ Forall2 same_contents vs ws /\
    ConfigParser_Model.parse_value CONF inc (NArray (NTok TOpenSquare :: map inode its ++ [NTok TCloseSquare])) [] 0 next = Ok (VList ws, next)).
  { rewrite render_list. cbn [key_text app]. destruct vs as [|v vs].
    - exists [], Before, []. repeat split; try constructor. discriminate.
    - inversion W as [| | | | | |? F|]; subst.
      assert (R : Forall (reading o ns) (v :: vs)) by (eapply Forall_impl; [|exact F]; intros; apply writable_reading; assumption).
      inversion R as [|? ? R1 R2]; subst. destruct (elements_read o ns C vs v [] 0%nat 0%nat R1 R2) as [its [ws [Q [Rn [Fi [Sw Pv]]]]]].
      destruct (wrapped_run o its 0 Rn) as [e [Rw Re]]. set (its2 := map IL (Render_Lemmas5.line o) ++ its ++ map IL (Render_Lemmas5.closing o 0)) in *.
      assert (Fw : fine value_ok its2) by (apply fine_app; [apply fine_layout|apply fine_app; [exact Fi|apply fine_layout]]). destruct (fine_parts _ _ Fw) as [Ck [Fo Fm]].
      exists its2, e, ws. split; [|split; [exact Rw|split; [exact Re|split; [exact Fw|split; [exact Sw|]]]]].
      + rewrite (array_text its2 Fm). unfold its2. rewrite wrapped_text, Q. cbn [bind]. rewrite line_text'. destruct (formatted o); rewrite chop_end by reflexivity; rewrite ?app_nil_r, <- ?app_assoc; reflexivity.
      + cbn [ConfigParser_Model.parse_value]. unfold its2. rewrite !map_app, !inode_layout, <- !app_assoc.
        match goal with |- context [parse_values ?p (NTok TOpenSquare :: ?x) ?a ?b ?c] => change (parse_values p (NTok TOpenSquare :: x) a b c) with (parse_values p x a b c) end.
        rewrite layout_values, Pv, layout_values. cbn [parse_values is_value_node bind]. rewrite app_nil_r. reflexivity. }
  destruct X as [its [e [ws [Rd [Rn [Re [Fi [Sw Pv]]]]]]]]. destruct (fine_parts _ _ Fi) as [Ck [Fo Fm]].
  destruct (array_from its e Rn Re Ck Fo Fm) as [u [Tx [Ch A]]]. set (n := NArray (NTok TOpenSquare :: map inode its ++ [NTok TCloseSquare])) in *.
  exists (render_node n), (VList ws). split; [exact Rd|]. split; [constructor; exact Sw|].
  assert (Sp : spelt false (TOpenSquare :: u) []).
  { destruct Ch as [Ch _]. apply Ch. split; exact I. }
  pose proof (spelt_lexes _ _ _ Sp eq_refl) as Lx. rewrite <- Tx. unfold parse_config. rewrite (parse_lexed _ _ Lx). unfold parse_root.
  assert (Cl : collect CONF LEnd ((TOpenSquare :: u) ++ [TEnd]) = Ok ([], TOpenSquare, u ++ [TEnd])) by reflexivity.
  rewrite Cl. cbn [bind]. destruct (A (S (List.length ((TOpenSquare :: u) ++ [TEnd]))) [TEnd] ltac:(rewrite app_length; cbn [List.length]; lia)) as [v' [P [V [Ly B]]]].
  rewrite P. cbn [bind]. change (collect CONF LEnd [TEnd]) with (@Ok (list node * token * list token) ([], TEnd, [])). cbn [bind app].
  assert (Pv' : ConfigParser_Model.parse_value CONF inc v' [] 0 next = Ok (VList ws, next)) by (rewrite <- (proj1 (bones_all v')), B, (proj1 (bones_all n)); exact Pv).
  unfold n in B. destruct v'; try discriminate B. match goal with |- context [parse_root_nodes _ _ _ [?x] _] => change [x] with ([] ++ x :: []) end. rewrite root_parses by (reflexivity || exact I). rewrite Pv'. reflexivity.
Qed.
Lemma rendered_hocon_parses : forall o ns v includer next, json o = false -> (origin_comments o || comments o = true -> one_line_comments ns) -> writable v -> a_root v ->
  exists text w, render_value o ns v = Ok text /\ same_contents v w /\ parse_config CONF includer text next = Ok (Some w, next).
Proof. intros o ns [] includer next J C W R; try contradiction; [apply list_rendered_parses|apply object_rendered_parses]; assumption. Qed.
