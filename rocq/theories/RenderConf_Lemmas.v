(** Objects and arrays that are read from a sequence of layout, fields and elements. *)
From Verif Require Import Base BaseLemmas Util_Model Num_Model Path_Model Token_Model Token_Spec Token_Lemmas Token_Lemmas2 PathParser_Model Doc_Model Doc_Lemmas Doc_Lemmas2 Edit_Model Value_Model Json_Lemmas Json_Lemmas2 Render_Lemmas3 JsonEdit_Lemmas ConfEdit_Spec ConfText_Spec ConfText_Lemmas ConfText_Lemmas2 ConfText_Lemmas3 ConfText_Lemmas4 ConfText_Lemmas5 ConfText_Lemmas6 ConfText_Lemmas7 ConfText_Lemmas8.

Definition inode (i : item) : node := match i with IL t => layout_node t | IX n _ => n end.
Definition firm (its : list item) : Prop := Forall (fun i => match i with IX n ts => is_layout n = false /\ render_tokens ts = render_node n | IL _ => True end) its.
Lemma itoks_cons : forall i its, itoks (i :: its) = (match i with IL t => [t] | IX _ ts => ts end) ++ itoks its.
Proof. reflexivity. Qed.
Lemma inode_kept : forall its p e, irun p its = Some e -> firm its -> kept (map inode its) = ibones its.
Proof.
  induction its as [|i its IH]; intros p e R F; [reflexivity|]. inversion F as [|? ? Fi F']; subst. destruct i as [t|n ts]; cbn [irun] in R.
  - destruct (pass' p t) as [p'|] eqn:P; [|discriminate]. specialize (IH _ _ R F'). unfold kept in *. cbn [map flat_map inode]. rewrite IH.
    unfold pass', pass in P. destruct p, t; try discriminate P; reflexivity.
  - destruct p; try discriminate R. specialize (IH _ _ R F'). destruct Fi as [Fi _]. unfold kept, ibones in *. cbn [map flat_map inode]. rewrite IH, Fi. reflexivity.
Qed.
Lemma inode_text : forall its, firm its -> render_nodes (map inode its) = render_tokens (itoks its).
Proof.
  intros its F. induction F as [|i its Fi F IH]; [reflexivity|]. cbn [map]. rewrite render_nodes_cons, itoks_cons, render_app', IH. f_equal.
  destruct i as [t|n ts]; [|symmetry; apply Fi]. cbn [inode]. rewrite layout_render. unfold render_tokens. cbn. rewrite app_nil_r. reflexivity.
Qed.

(** ** Objects *)
Lemma object_from : forall its e, irun Before its = Some e -> e <> Remark -> chunks its -> fields_only its -> firm its ->
  exists ts, object_ok (NObject (NTok TOpenCurly :: map inode its ++ [NTok TCloseCurly])) ts.
Proof.
  intros its e R E2 Ck Fo Fm. pose proof (inode_kept _ _ _ R Fm) as Ib. pose proof (inode_text _ Fm) as Rn.
  destruct (squeeze_ok its) as [Sq [Rs [Bs [Cs [Fs Rr]]]]]. specialize (Rr _ _ R). specialize (Cs Ck). specialize (Fs Fo).
  set (its2 := squeeze its) in *. exists (TOpenCurly :: itoks its2 ++ [TCloseCurly]).
  assert (Sp : forall r, neutral r -> spelt false (itoks its2 ++ [TCloseCurly]) r).
  { intros r N. apply (lex_items its2 Before e [TCloseCurly] r Rr Sq Cs); [|reflexivity]. split; [intro k; apply sp_tok; [apply reads_fuel, reads_mark; cbn; auto|constructor]|]. split; [reflexivity|]. split; [split; reflexivity|]. intro; congruence. }
  split; [|split].
  - unfold render_node. cbn [node_tokens flat_map app]. rewrite !render_cons', flat_map_app, !render_app', Rs, <- Rn. reflexivity.
  - split; [intros k r N; apply sp_tok; [apply reads_fuel, reads_mark; cbn; auto|apply Sp, N]|]. split; [discriminate|]. split; [reflexivity|].
    change (TOpenCurly :: itoks its2 ++ [TCloseCurly]) with ((TOpenCurly :: itoks its2) ++ [TCloseCurly]). rewrite last_app by discriminate. split; reflexivity.
  - eexists. split; [reflexivity|]. intros fuel r L. destruct fuel as [|fuel]; [lia|]. rewrite <- app_assoc. cbn [app]. rewrite app_length in L. cbn [List.length] in L.
    pose proof (items_length _ Fs) as Len.
    destruct (loop_items (List.length its2) its2 e true (le_n _) Rr Sq Fs fuel (S (List.length (itoks its2 ++ TCloseCurly :: r))) [] false r ltac:(rewrite app_length; cbn [List.length]; lia) ltac:(lia)) as [cs' [O K]].
    cbn [parse_value]. unfold parse_object. change (end_token true) with TCloseCurly in O. rewrite O. cbn [bind]. eexists. split; [reflexivity|]. split; [reflexivity|]. split; [reflexivity|].
    cbn [end_nodes app]. change (NObject (kept (NTok TOpenCurly :: cs' ++ [NTok TCloseCurly])) = NObject (kept (NTok TOpenCurly :: map inode its ++ [NTok TCloseCurly]))). f_equal.
    change (kept (cs' ++ [NTok TCloseCurly]) = kept (map inode its ++ [NTok TCloseCurly])). rewrite !kept_app, K, Bs, Ib. reflexivity.
Qed.

(** ** Arrays *)
Definition elements_only (its : list item) : Prop := Forall (fun i => match i with IX n ts => value_ok n ts | IL _ => True end) its.
Definition starter (t : token) : Prop := solid t = true /\ is_comment t = false /\ t <> TNewline /\ t <> TComma.
Lemma element_sep : forall its p b e, irun p its = Some e -> p <> Closed -> (p = Before -> b = true) ->
  exists L its' b', its = map IL L ++ its' /\ Forall (fun t => plain_layout t = true) L /\
    ((its' = [] /\ forall r, separator_conf b CONF LEnd (L ++ TCloseSquare :: r) = Ok (map layout_node L, b', TCloseSquare :: r)) \/
     (exists its'', its' = IL TComma :: its'' /\ irun Before its'' = Some e /\ forall r, separator_conf b CONF LEnd (L ++ TComma :: r) = Ok (map layout_node (L ++ [TComma]), true, r)) \/
     (exists n ts its'', its' = IX n ts :: its'' /\ irun Before its' = Some e /\ forall t r, starter t -> separator_conf b CONF LEnd (L ++ t :: r) = Ok (map layout_node L, true, t :: r))).
Proof.
  induction its as [|i its IH]; intros p b e R Pc Pb.
  - exists [], [], b. split; [reflexivity|]. split; [constructor|]. left. split; [reflexivity|]. intro r. reflexivity.
  - destruct i as [t|n ts].
    + cbn [irun] in R. destruct (pass' p t) as [p'|] eqn:P; [|discriminate].
      assert (Cm : t = TComma \/ plain_layout t = true) by (unfold pass', pass in P; destruct t; auto; destruct p; discriminate P).
      destruct Cm as [->|Pl].
      * exists [], (IL TComma :: its), b. split; [reflexivity|]. split; [constructor|]. right. left. exists its. split; [reflexivity|]. split; [|reflexivity]. destruct p; try discriminate P; injection P as <-; exact R.
      * set (b1 := match t with TNewline => true | _ => b end).
        assert (X : p' <> Closed /\ (p' = Before -> b1 = true)).
        { unfold pass', pass in P. destruct p, t; try discriminate P; try discriminate Pl; try congruence; try (destruct double_slash); try discriminate P; try (destruct (blank_text _)); try (destruct (line_text _)); try discriminate P; injection P as <-; split; try discriminate; intros _; try reflexivity; apply Pb; reflexivity. }
        destruct X as [Pc' Pb']. destruct (IH _ b1 _ R Pc' Pb') as [L [its' [b' [-> [F En]]]]]. exists (t :: L), its', b'. split; [reflexivity|]. split; [constructor; assumption|].
        assert (One : forall x ns bb z, separator_conf b1 CONF LEnd (L ++ x) = Ok (ns, bb, z) -> separator_conf b CONF LEnd ((t :: L) ++ x) = Ok (layout_node t :: ns, bb, z)).
        { intros x ns bb z H. cbn [app separator_conf]. change (json_forbids CONF t) with false. cbv iota. unfold b1 in H. destruct t; try discriminate Pl; cbn [layout_node is_unquoted_whitespace]; rewrite H; reflexivity. }
        destruct En as [[E A]|[[its'' [E [R' A]]]|[n [ts [its'' [E [R' A]]]]]]].
        -- left. split; [exact E|]. intro r. apply One, A.
        -- right. left. exists its''. split; [exact E|]. split; [exact R'|]. intro r. apply One, A.
        -- right. right. exists n, ts, its''. split; [exact E|]. split; [exact R'|]. intros x r Sx. apply One, A, Sx.
    + exists [], (IX n ts :: its), b. split; [reflexivity|]. split; [constructor|]. right. right. exists n, ts, its. split; [reflexivity|]. destruct p; try discriminate R. rewrite (Pb eq_refl). split; [exact R|].
      intros t r [S [C [N M]]]. cbn [app separator_conf]. change (json_forbids CONF t) with false. cbv iota.
      destruct t; try congruence; try discriminate S; try discriminate C; try reflexivity. unfold solid in S. apply negb_true_iff in S. rewrite S. reflexivity.
Qed.
(** The tokens of a value behind layout. *)
Lemma consolidate_layout : forall p L ts v r, Forall (fun t => plain_layout t = true) L -> ts <> [] -> solid (hd TEnd ts) = true -> is_comment (hd TEnd ts) = false -> hd TEnd ts <> TNewline ->
  consolidate_values p CONF LEnd (ts ++ r) = Ok ([], Some v, r) -> consolidate_values p CONF LEnd (L ++ ts ++ r) = Ok (map layout_node L, Some v, r).
Proof.
  intros p L [|t ts] v r G N S C Nl H; [congruence|]. cbn [hd app] in *. unfold consolidate_values in *. rewrite (collect_plain L) by assumption. rewrite (collect_solid t) in H by assumption. cbn [bind] in *.
  step H as [[[vs c] t'] r'] K. rewrite K. cbn [bind]. destruct (c <? 2)%nat.
  - step H as [[before v'] r''] Sv. rewrite Sv. cbn [bind app] in *. injection H as -> -> ->. rewrite app_nil_r. reflexivity.
  - destruct (put_back_trailing (rev vs) (t' :: r')) as [vs' r'']. injection H as -> ->. reflexivity.
Qed.
Lemma consolidate_end : forall p L r, Forall (fun t => plain_layout t = true) L -> consolidate_values p CONF LEnd (L ++ TCloseSquare :: r) = Ok (map layout_node L, None, TCloseSquare :: r).
Proof.
  intros p L r F. unfold consolidate_values. rewrite (collect_plain L) by (assumption || reflexivity || discriminate). cbn. rewrite app_nil_r. reflexivity.
Qed.
Lemma kept_more : forall a n n' c x, kept a = [] -> kept c = [] -> is_layout n' = false -> bones n' = bones n -> kept (a ++ c ++ n' :: x) = bones n :: kept x.
Proof. intros a n n' c x A C L B. rewrite !kept_app, A, C. cbn [app]. unfold kept. cbn [flat_map]. rewrite L, B. reflexivity. Qed.
Lemma elements_loop : forall m its e, (List.length its <= m)%nat -> irun Behind its = Some e -> squeezed its -> elements_only its ->
  forall fuel k r, (List.length its + 1 < k)%nat -> (List.length (itoks its) <= fuel)%nat ->
  exists cs, array_loop (parse_value fuel CONF LEnd) CONF LEnd k (itoks its ++ TCloseSquare :: r) = Ok (cs ++ [NTok TCloseSquare], r) /\ kept cs = ibones its.
Proof.
  induction m as [|m IH]; intros its e Lm R Q Fo fuel k r Lk Lf.
  { destruct its; [|cbn in Lm; lia]. destruct k as [|k]; [cbn in Lk; lia|]. exists []. split; reflexivity. }
  destruct k as [|k]; [lia|]. destruct (element_sep _ _ false _ R ltac:(discriminate) ltac:(discriminate)) as [L [its' [b' [-> [FL Cs]]]]].
  rewrite itoks_app, itoks_layout in Lf |- *. rewrite <- app_assoc. rewrite ibones_app, ibones_layout. cbn [app]. rewrite !app_length, map_length in Lk, Lm. rewrite app_length in Lf.
  apply squeezed_app in Q. unfold elements_only in Fo. rewrite Forall_app in Fo. destruct Fo as [_ Fo].
  destruct Cs as [[-> A]|[[its4 [-> [R4 A]]]|[n [ts [its4 [-> [R4 A]]]]]]].
  - cbn [itoks flat_map app array_loop check_element_separator]. rewrite A. cbn [bind]. destruct b'; cbn [negb].
    + pose proof (consolidate_end (parse_value fuel CONF LEnd) [] r ltac:(constructor)) as Ce. cbn [app map] in Ce. rewrite Ce. cbn [bind]. rewrite (collect_solid TCloseSquare r) by (reflexivity || discriminate). cbn [bind is_value_start is_json negb andb].
      destruct k as [|k]; [lia|]. rewrite square_end. cbn [bind app]. exists (map layout_node L). split; [reflexivity|]. rewrite plain_all by exact FL. reflexivity.
    + rewrite (collect_solid TCloseSquare r) by (reflexivity || discriminate). cbn [bind app]. exists (map layout_node L). split; [reflexivity|]. rewrite plain_all by exact FL. reflexivity.
  - change (itoks (IL TComma :: its4)) with (TComma :: itoks its4) in *. cbn [app List.length array_loop check_element_separator] in *. rewrite A. cbn [bind negb]. inversion Fo as [|? ? _ Fo4]; subst. destruct Q as [_ Q4].
    assert (Kl : kept (map layout_node (L ++ [TComma])) = []) by (rewrite map_app, kept_app, plain_all by exact FL; reflexivity).
    destruct (collect_items _ _ _ R4 (or_introl eq_refl)) as [L2 [its5 [-> [FL2 [En _]]]]]. rewrite itoks_app, itoks_layout in Lf |- *. rewrite <- app_assoc. rewrite app_length, map_length in Lk, Lm. rewrite app_length in Lf.
    apply squeezed_app in Q4. rewrite Forall_app in Fo4. destruct Fo4 as [_ Fo5]. change (ibones (IL TComma :: map IL L2 ++ its5)) with (ibones (map IL L2 ++ its5)). rewrite ibones_app, ibones_layout. cbn [app].
    destruct En as [->|[[n [ts [its6 ->]]] R5]].
    + cbn [itoks flat_map app]. rewrite (consolidate_end _ L2 r FL2). cbn [bind]. rewrite (collect_solid TCloseSquare r) by (reflexivity || discriminate). cbn [bind is_value_start is_json negb andb].
      destruct k as [|k]; [lia|]. rewrite square_end. cbn [bind app]. exists (map layout_node (L ++ [TComma]) ++ map layout_node L2). split; [rewrite <- app_assoc; reflexivity|]. rewrite kept_app, Kl, plain_all by exact FL2. reflexivity.
    + inversion Fo5 as [|? ? Fn Fo6]; subst. destruct Q4 as [_ Q6]. destruct Fn as [_ [[_ [Tn [Th _]]] [Tc [Tl Av]]]]. cbn [irun] in R5. rewrite itoks_cons in *. cbn [List.length] in *. rewrite app_length in Lf. rewrite <- app_assoc.
      destruct (stop_items its6 Behind e TCloseSquare r R5 (or_introl eq_refl) Q6 eq_refl) as [Sp _].
      destruct (Av fuel _ Sp ltac:(lia)) as [v' [Cv [Lv Bv]]]. rewrite (consolidate_layout _ L2 ts v' _ FL2 Tn Th Tc Tl Cv). cbn [bind].
      destruct (IH its6 e ltac:(lia) R5 Q6 Fo6 fuel k r ltac:(lia) ltac:(lia)) as [cs [E K]]. rewrite E. cbn [bind].
      exists (map layout_node (L ++ [TComma]) ++ map layout_node L2 ++ v' :: cs). split; [rewrite <- !app_assoc; reflexivity|].
      rewrite (kept_more _ n v' _ _ Kl (plain_all _ FL2) Lv Bv), K. reflexivity.
  - inversion Fo as [|? ? Fn Fo4]; subst. destruct Q as [_ Q4]. destruct Fn as [_ [[_ [Tn [Th _]]] [Tc [Tl Av]]]]. cbn [irun] in R4. rewrite itoks_cons in *. cbn [List.length] in *. rewrite app_length in Lf. rewrite <- app_assoc.
    destruct (stop_items its4 Behind e TCloseSquare r R4 (or_introl eq_refl) Q4 eq_refl) as [Sp _]. destruct (Av fuel _ Sp ltac:(lia)) as [v' [Cv [Lv Bv]]].
    assert (St : starter (hd TEnd ts)).
    { split; [exact Th|]. split; [exact Tc|]. split; [exact Tl|]. intro E. destruct ts as [|t ts]; [congruence|]. cbn [hd] in E. subst t.
      cbn [app] in Cv. unfold consolidate_values in Cv. rewrite (collect_solid TComma) in Cv by (reflexivity || discriminate). discriminate Cv. }
    cbn [array_loop check_element_separator]. assert (Ha : separator_conf false CONF LEnd (L ++ ts ++ itoks its4 ++ TCloseSquare :: r) = Ok (map layout_node L, true, ts ++ itoks its4 ++ TCloseSquare :: r)) by (destruct ts as [|t ts]; [congruence|]; apply A, St).
    rewrite Ha. cbn [bind negb]. rewrite Cv. cbn [bind app].
    destruct (IH its4 e ltac:(lia) R4 Q4 Fo4 fuel k r ltac:(lia) ltac:(lia)) as [cs [E K]]. rewrite E. cbn [bind].
    exists (map layout_node L ++ [] ++ v' :: cs). split; [rewrite <- !app_assoc; reflexivity|].
    rewrite (kept_more _ n v' [] _ (plain_all _ FL) eq_refl Lv Bv), K. reflexivity.
Qed.
Lemma array_from : forall its e, irun Before its = Some e -> e <> Remark -> chunks its -> elements_only its -> firm its ->
  exists u, let v := NArray (NTok TOpenSquare :: map inode its ++ [NTok TCloseSquare]) in
    render_tokens (TOpenSquare :: u) = render_node v /\ chunk (TOpenSquare :: u) /\
    forall fuel r, (List.length u < fuel)%nat -> exists v', parse_value fuel CONF LEnd TOpenSquare (u ++ r) = Ok (v', r) /\ is_value_node v' = true /\ is_layout v' = false /\ bones v' = bones v.
Proof.
  intros its e R E2 Ck Fo Fm. pose proof (inode_kept _ _ _ R Fm) as Ib. pose proof (inode_text _ Fm) as Rn.
  destruct (squeeze_ok its) as [Sq [Rs [Bs [Cs [_ Rr]]]]]. specialize (Rr _ _ R). specialize (Cs Ck).
  assert (Fs : elements_only (squeeze its)).
  { clear -Fo. induction its as [|i its IH]; [constructor|]. inversion Fo as [|? ? H F']; subst. specialize (IH F').
    destruct (is_blank_item i) eqn:B; [|assert (E : squeeze (i :: its) = i :: squeeze its) by (destruct i as [t|]; [destruct t; try discriminate B|]; reflexivity); rewrite E; constructor; assumption].
    destruct i as [t|]; [|discriminate]. destruct t; try discriminate B. destruct (squeeze_blank text its) as [[w2 [r2 [E ->]]]|[_ ->]]; [rewrite E in IH; inversion IH; subst; constructor; [exact I|assumption]|constructor; [exact I|exact IH]]. }
  set (its2 := squeeze its) in *. exists (itoks its2 ++ [TCloseSquare]). cbv zeta.
  assert (Sp : forall r, neutral r -> spelt false (itoks its2 ++ [TCloseSquare]) r).
  { intros r N. apply (lex_items its2 Before e [TCloseSquare] r Rr Sq Cs); [|reflexivity]. split; [intro k; apply sp_tok; [apply reads_fuel, reads_mark; cbn; auto 10|constructor]|]. split; [reflexivity|]. split; [split; reflexivity|]. intro; congruence. }
  split; [|split].
  - unfold render_node. cbn [node_tokens flat_map app]. rewrite !render_cons', flat_map_app, !render_app', Rs, <- Rn. reflexivity.
  - split; [intros k r N; apply sp_tok; [apply reads_fuel, reads_mark; cbn; auto 10|apply Sp, N]|]. split; [discriminate|]. split; [reflexivity|].
    change (TOpenSquare :: itoks its2 ++ [TCloseSquare]) with ((TOpenSquare :: itoks its2) ++ [TCloseSquare]). rewrite last_app by discriminate. split; reflexivity.
  - intros fuel r L. destruct fuel as [|fuel]; [lia|]. rewrite <- app_assoc. cbn [app]. rewrite app_length in L. cbn [List.length] in L.
    assert (Len : forall l, elements_only l -> (List.length l <= List.length (itoks l))%nat).
    { intros l F. induction F as [|i l H F IH]; [cbn; lia|]. rewrite itoks_cons, app_length. cbn [List.length]. destruct i as [t|n ts]; [cbn; lia|]. destruct H as [_ [[_ [H _]] _]]. destruct ts; [congruence|cbn; lia]. }
    cbn [parse_value]. unfold parse_array.
    destruct (collect_items _ _ _ Rr (or_introl eq_refl)) as [L2 [its5 [E5 [FL2 [En _]]]]]. clearbody its2. subst its2. rewrite itoks_app, itoks_layout in L |- *. rewrite <- app_assoc.
    rewrite app_length in L. apply squeezed_app in Sq. unfold elements_only in Fs. rewrite Forall_app in Fs. destruct Fs as [_ Fs]. rewrite ibones_app, ibones_layout in Bs. cbn [app] in Bs.
    assert (Fin : forall cs, kept cs = ibones its5 -> exists v', Ok (NArray (NTok TOpenSquare :: cs ++ [NTok TCloseSquare]), r) = Ok (v', r) /\ is_value_node v' = true /\ is_layout v' = false /\ bones v' = bones (NArray (NTok TOpenSquare :: map inode its ++ [NTok TCloseSquare]))).
    { intros cs K. eexists. split; [reflexivity|]. split; [reflexivity|]. split; [reflexivity|].
      change (NArray (kept (cs ++ [NTok TCloseSquare])) = NArray (kept (map inode its ++ [NTok TCloseSquare]))). rewrite !kept_app, K, Ib, Bs. reflexivity. }
    destruct En as [->|[[n [ts [its6 ->]]] R5]].
    + cbn [itoks flat_map app]. rewrite (consolidate_end _ L2 r FL2). cbn [bind]. rewrite (collect_solid TCloseSquare r) by (reflexivity || discriminate). cbn [bind app].
      apply Fin. apply plain_all, FL2.
    + inversion Fs as [|? ? Fn Fo6]; subst. destruct Sq as [_ Q6]. destruct Fn as [_ [[_ [Tn [Th _]]] [Tc [Tl Av]]]]. cbn [irun] in R5. rewrite itoks_cons in *. rewrite app_length in L. rewrite <- app_assoc.
      destruct (stop_items its6 Behind e TCloseSquare r R5 (or_introl eq_refl) Q6 eq_refl) as [St _].
      destruct (Av fuel _ St ltac:(lia)) as [v' [Cv [Lv Bv]]]. rewrite (consolidate_layout _ L2 ts v' _ FL2 Tn Th Tc Tl Cv). cbn [bind].
      specialize (Len its6 Fo6).
      destruct (elements_loop (List.length its6) its6 e (le_n _) R5 Q6 Fo6 fuel (S (List.length (itoks its6 ++ TCloseSquare :: r))) r ltac:(rewrite app_length; cbn [List.length]; lia) ltac:(lia)) as [cs [E K]].
      rewrite E. cbn [bind]. replace (map layout_node L2 ++ v' :: cs ++ [NTok TCloseSquare]) with ((map layout_node L2 ++ v' :: cs) ++ [NTok TCloseSquare]) by (rewrite <- app_assoc; reflexivity).
      apply Fin. change (map layout_node L2 ++ v' :: cs) with (map layout_node L2 ++ [] ++ v' :: cs). rewrite (kept_more _ n v' [] _ (plain_all _ FL2) eq_refl Lv Bv), K. reflexivity.
Qed.
Lemma array_value : forall its e, irun Before its = Some e -> e <> Remark -> chunks its -> elements_only its -> firm its ->
  exists ts, value_ok (NArray (NTok TOpenSquare :: map inode its ++ [NTok TCloseSquare])) ts.
Proof.
  intros its e R E2 Ck Fo Fm. destruct (array_from its e R E2 Ck Fo Fm) as [u [T [Ch A]]]. exists (TOpenSquare :: u). split; [exact T|]. split; [exact Ch|]. split; [reflexivity|]. split; [discriminate|].
  intros fuel r St L. cbn [List.length] in L. destruct (A fuel r ltac:(lia)) as [v' [P [V [Ly B]]]]. exists v'. split; [|split; assumption]. exact (consolidate_one _ TOpenSquare u r v' P V eq_refl eq_refl St).
Qed.
