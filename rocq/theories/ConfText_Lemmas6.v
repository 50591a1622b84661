(** Layout and fields: how a sequence of them is parsed. *)
From Verif Require Import Base BaseLemmas Util_Model Num_Model Path_Model Token_Model Token_Spec Token_Lemmas Token_Lemmas2 PathParser_Model Doc_Model Doc_Lemmas Doc_Lemmas2 Edit_Model Value_Model Json_Lemmas Json_Lemmas2 ConfEdit_Spec ConfText_Spec ConfText_Lemmas ConfText_Lemmas2 ConfText_Lemmas3 ConfText_Lemmas5.

(** A field or an include statement. *)
Definition one_item (p : token -> list token -> result (node * list token)) (keys : list str) (t : token) (r : list token) : result (node * list str * list token) :=
  if is_include_keyword t then '(inc, r2) <- parse_include CONF LEnd t r ;; Ok (inc, keys, r2) else parse_field p CONF LEnd keys t r.
(** The tokens of one, up to the text of its key. *)
Definition fieldly (n : node) (ts : list token) : Prop :=
  exists t u, ts = t :: u /\ keyish t = true /\ solid t = true /\
    forall fuel keys r, stop r -> (List.length ts <= fuel)%nat -> exists n' keys', one_item (parse_value fuel CONF LEnd) keys t (u ++ r) = Ok (n', keys', r) /\ is_layout n' = false /\ bones n' = bones n.
Definition fields_only (its : list item) : Prop := Forall (fun i => match i with IX n ts => fieldly n ts | IL _ => True end) its.

Definition layout_node (t : token) : node := match t with TComment _ _ => NComment t | _ => NTok t end.
Lemma kept_layout : forall L, Forall (fun t => match t with TIgnored _ | TNewline | TComment _ _ | TComma => true | _ => false end = true) L -> kept (map layout_node L) = [].
Proof. induction L as [|t L IH]; intro F; [reflexivity|]. inversion F as [|? ? H F']; subst. destruct t; try discriminate H; exact (IH F'). Qed.
Lemma kept_app : forall a b, kept (a ++ b) = kept a ++ kept b.
Proof. intros. unfold kept. apply flat_map_app. Qed.
Lemma itoks_app : forall a b, itoks (a ++ b) = itoks a ++ itoks b.
Proof. intros. unfold itoks. apply flat_map_app. Qed.
Lemma itoks_layout : forall L, itoks (map IL L) = L.
Proof. induction L as [|t L IH]; [reflexivity|]. cbn. rewrite <- IH at 2. reflexivity. Qed.
Lemma ibones_app : forall a b, ibones (a ++ b) = ibones a ++ ibones b.
Proof. intros. unfold ibones. apply flat_map_app. Qed.
Lemma ibones_layout : forall L, ibones (map IL L) = [].
Proof. induction L as [|t L IH]; [reflexivity|]. exact IH. Qed.
Lemma squeezed_app : forall a b, squeezed (a ++ b) -> squeezed b.
Proof. induction a as [|i a IH]; intros b H; [exact H|]. apply IH, (proj2 H). Qed.

Definition plain_layout (t : token) : bool := match t with TIgnored _ | TNewline | TComment _ _ => true | _ => false end.
(** Layout before a field. *)
Lemma collect_items : forall its p e, irun p its = Some e -> p = Before \/ p = Remark ->
  exists L its', its = map IL L ++ its' /\ Forall (fun t => plain_layout t = true) L /\ (its' = [] \/ (exists n ts its'', its' = IX n ts :: its'') /\ irun Before its' = Some e) /\
    forall t r, solid t = true -> is_comment t = false -> t <> TNewline -> collect CONF LEnd (L ++ t :: r) = Ok (map layout_node L, t, r).
Proof.
  induction its as [|i its IH]; intros p e R Pp.
  - exists [], []. split; [reflexivity|]. split; [constructor|]. split; [left; reflexivity|]. intros t r S C N. apply collect_solid; assumption.
  - destruct i as [t|n ts].
    + cbn [irun] in R. destruct (pass' p t) as [p'|] eqn:P; [|discriminate].
      assert (X : plain_layout t = true /\ (p' = Before \/ p' = Remark)).
      { unfold pass', pass in P. destruct Pp as [-> | ->]; destruct t; try discriminate P; try (destruct (blank_text _)); try (destruct (line_text _)); try discriminate P; injection P as <-; auto. }
      destruct X as [Pl Pp']. destruct (IH _ _ R Pp') as [L [its' [-> [F [En A]]]]]. exists (t :: L), its'. split; [reflexivity|]. split; [constructor; assumption|]. split; [exact En|].
      intros t0 r S C N. cbn [app collect map]. change (json_forbids CONF t) with false. cbv iota. rewrite (A t0 r S C N). destruct t; try discriminate Pl; reflexivity.
    + exists [], (IX n ts :: its). split; [reflexivity|]. split; [constructor|]. split; [right|intros t r S C N; apply collect_solid; assumption].
      split; [eauto|]. destruct p; try discriminate R. exact R.
Qed.
(** Layout behind a field. *)
Lemma sep_items : forall its p b e, irun p its = Some e -> p <> Closed -> (p = Before -> b = true) ->
  exists L its' b', its = map IL L ++ its' /\ Forall (fun t => plain_layout t = true) L /\
    ((its' = [] /\ forall t r, fin t = true -> t <> TComma -> is_comment t = false -> t <> TNewline -> separator_conf b CONF LEnd (L ++ t :: r) = Ok (map layout_node L, b', t :: r)) \/
     (exists its'', its' = IL TComma :: its'' /\ irun Before its'' = Some e /\ forall r, separator_conf b CONF LEnd (L ++ TComma :: r) = Ok (map layout_node (L ++ [TComma]), true, r)) \/
     (exists n ts its'', its' = IX n ts :: its'' /\ irun Before its' = Some e /\ forall t r, keyish t = true -> solid t = true -> separator_conf b CONF LEnd (L ++ t :: r) = Ok (map layout_node L, true, t :: r))).
Proof.
  induction its as [|i its IH]; intros p b e R Pc Pb.
  - exists [], [], b. split; [reflexivity|]. split; [constructor|]. left. split; [reflexivity|]. intros t r F Cm C N. cbn [app separator_conf]. change (json_forbids CONF t) with false. cbv iota. destruct t; try discriminate F; try congruence; try discriminate C; reflexivity.
  - destruct i as [t|n ts].
    + cbn [irun] in R. destruct (pass' p t) as [p'|] eqn:P; [|discriminate].
      assert (Cm : t = TComma \/ plain_layout t = true) by (unfold pass', pass in P; destruct t; auto; destruct p; discriminate P).
      destruct Cm as [->|Pl].
      * exists [], (IL TComma :: its), b. split; [reflexivity|]. split; [constructor|]. right. left. exists its. split; [reflexivity|]. split; [|reflexivity]. destruct p; try discriminate P; injection P as <-; exact R.
      * set (b1 := match t with TNewline => true | _ => b end).
        assert (X : p' <> Closed /\ (p' = Before -> b1 = true)).
        { unfold pass', pass in P. destruct p, t; try discriminate P; try discriminate Pl; try congruence; try (destruct double_slash); try discriminate P; try (destruct (blank_text _)); try (destruct (line_text _)); try discriminate P; injection P as <-; split; try discriminate; intros _; try reflexivity; apply Pb; reflexivity. }
        destruct X as [Pc' Pb']. destruct (IH _ b1 _ R Pc' Pb') as [L [its' [b' [-> [F En]]]]]. exists (t :: L), its', b'. split; [reflexivity|]. split; [constructor; assumption|].
        assert (One : forall x ns bb z, separator_conf b1 CONF LEnd (L ++ x) = Ok (ns, bb, z) -> separator_conf b CONF LEnd ((t :: L) ++ x) = Ok (layout_node t :: ns, bb, z)).
        { intros x ns bb z H. cbn [app separator_conf]. change (json_forbids CONF t) with false. cbv iota. unfold b1 in H. destruct t; try discriminate Pl; cbn [layout_node is_unquoted_whitespace]; rewrite H; reflexivity. }
        destruct En as [[E A]|[[its'' [E [R' A]]]|[n [ts [its'' [E [R' A]]]]]]].
        -- left. split; [exact E|]. intros x r Fx Cx Mx Nx. apply One, A; assumption.
        -- right. left. exists its''. split; [exact E|]. split; [exact R'|]. intro r. apply One, A.
        -- right. right. exists n, ts, its''. split; [exact E|]. split; [exact R'|]. intros x r Kx Sx. apply One, A; assumption.
    + exists [], (IX n ts :: its), b. split; [reflexivity|]. split; [constructor|]. right. right. exists n, ts, its. split; [reflexivity|]. destruct p; try discriminate R. rewrite (Pb eq_refl). split; [exact R|].
      intros t r K S. cbn [app separator_conf]. change (json_forbids CONF t) with false. cbv iota. destruct t; try discriminate K; [|reflexivity]. unfold solid in S. apply negb_true_iff in S. rewrite S. reflexivity.
Qed.
Lemma stop_items : forall its p e t r, irun p its = Some e -> p = Behind \/ p = Apart -> squeezed its -> fin t = true -> stop (itoks its ++ t :: r) /\ (match its with i :: _ => is_blank_item i = false | [] => True end -> match itoks its ++ t :: r with x :: _ => fin x = true | [] => False end).
Proof.
  intros [|i its] p e t r R Pp Q Ft; cbn [irun] in R.
  - split; [apply (stop_gap [] t r); [left; reflexivity|exact Ft]|]. intros _. exact Ft.
  - destruct i as [x|n ts]; [|destruct Pp as [-> | ->]; discriminate R]. destruct (pass' p x) as [p'|] eqn:P; [|discriminate].
    change (itoks (IL x :: its) ++ t :: r) with (x :: itoks its ++ t :: r).
    assert (Fx : is_blank_item (IL x) = false -> fin x = true) by (unfold pass', pass in P; destruct Pp as [-> | ->]; destruct x; try discriminate P; reflexivity || discriminate).
    split; [|exact Fx]. destruct (is_blank_item (IL x)) eqn:Bl; [|apply (stop_gap [] x); [left; reflexivity|apply Fx; reflexivity]]. destruct x; try discriminate Bl.
    assert (p' = Apart) as -> by (unfold pass', pass in P; destruct Pp as [-> | ->]; destruct (blank_text text); try discriminate P; injection P as <-; reflexivity).
    destruct Q as [Q1 Q2]. specialize (Q1 eq_refl). destruct its as [|j its]; [exact Ft|]. cbn [irun] in R. destruct j as [y|n ts]; [|discriminate]. cbn [itoks flat_map app stop].
    destruct y; try discriminate R; try discriminate Q1; reflexivity.
Qed.
Lemma object_field : forall p k hoc ac keys ts ws t r, collect CONF LEnd ts = Ok (ws, t, r) -> keyish t = true ->
  object_loop p CONF LEnd (S k) hoc ac keys ts =
    ('(item, keys', r2) <- one_item p keys t r ;; '(sn, separated, r3) <- separator_conf false CONF LEnd r2 ;;
     if separated then '(rest, r4) <- object_loop p CONF LEnd k hoc true keys' r3 ;; Ok (ws ++ item :: sn ++ rest, r4)
     else '(ws2, t2, r4) <- collect CONF LEnd r3 ;;
       match t2, hoc with TCloseCurly, true => Ok (ws ++ item :: sn ++ ws2 ++ [NTok t2], r4) | TEnd, false => Ok (ws ++ item :: sn ++ ws2, t2 :: r4) | _, _ => Throw EParse end).
Proof.
  intros p k hoc ac keys ts ws t r C K. cbn [object_loop]. rewrite C. cbn [bind is_json negb andb]. unfold one_item. destruct t; try discriminate K; reflexivity.
Qed.
Definition end_token (hoc : bool) : token := if hoc then TCloseCurly else TEnd.
Definition end_nodes (hoc : bool) : list node := if hoc then [NTok TCloseCurly] else [].
Definition end_rest (hoc : bool) (r : list token) : list token := if hoc then r else TEnd :: r.
Lemma object_stop : forall p k hoc keys ac ts ws r, collect CONF LEnd ts = Ok (ws, end_token hoc, r) -> object_loop p CONF LEnd (S k) hoc ac keys ts = Ok (ws ++ end_nodes hoc, end_rest hoc r).
Proof. intros p k hoc keys ac ts ws r C. cbn [object_loop]. rewrite C. destruct hoc; [reflexivity|]. cbn. rewrite app_nil_r. reflexivity. Qed.
Lemma plain_all : forall L, Forall (fun t => plain_layout t = true) L -> kept (map layout_node L) = [].
Proof. intros L F. apply kept_layout. eapply Forall_impl; [|exact F]. intros [] H; try discriminate H; reflexivity. Qed.
Lemma irun_layout : forall L its p e, irun p (map IL L ++ its) = Some e -> exists p', irun p' its = Some e.
Proof. induction L as [|t L IH]; intros its p e R; [eauto|]. cbn [map app irun] in R. destruct (pass' p t); [eauto|discriminate]. Qed.

Lemma loop_items : forall m its e hoc, (List.length its <= m)%nat -> irun Before its = Some e -> squeezed its -> fields_only its ->
  forall fuel k keys ac r, (List.length its < k)%nat -> (List.length (itoks its) <= fuel)%nat ->
  exists cs, object_loop (parse_value fuel CONF LEnd) CONF LEnd k hoc ac keys (itoks its ++ end_token hoc :: r) = Ok (cs ++ end_nodes hoc, end_rest hoc r) /\ kept cs = ibones its.
Proof.
  induction m as [|m IH]; intros its e hoc Lm R Q Fo fuel k keys ac r Lk Lf.
  { destruct its; [|cbn in Lm; lia]. destruct k as [|k]; [cbn in Lk; lia|]. exists []. split; [|reflexivity]. destruct hoc; reflexivity. }
  assert (Ez : forall z, z = end_token hoc -> solid z = true /\ is_comment z = false /\ z <> TNewline /\ fin z = true /\ z <> TComma) by (intros z ->; destruct hoc; repeat split; discriminate).
  destruct (Ez _ eq_refl) as [Z1 [Z2 [Z3 [Z4 Z5]]]].
  destruct (collect_items _ _ _ R (or_introl eq_refl)) as [L [its' [-> [FL [En A]]]]]. destruct k as [|k]; [lia|].
  rewrite itoks_app, itoks_layout in Lf |- *. rewrite <- app_assoc. rewrite ibones_app, ibones_layout. cbn [app]. rewrite !app_length, map_length in Lk, Lm. rewrite app_length in Lf.
  destruct En as [->|[[n [ts [its'' ->]]] R']].
  { cbn [itoks flat_map app]. rewrite (object_stop _ k hoc keys ac _ _ _ (A _ r Z1 Z2 Z3)). exists (map layout_node L). split; [reflexivity|]. rewrite plain_all by exact FL. reflexivity. }
  apply squeezed_app in Q. unfold fields_only in Fo. rewrite Forall_app in Fo. destruct Fo as [_ Fo]. inversion Fo as [|? ? Fn Fo']; subst. destruct Fn as [t [u [-> [Kt [St Pf]]]]]. destruct Q as [_ Q]. cbn [irun] in R'.
  change (itoks (IX n (t :: u) :: its'')) with (t :: u ++ itoks its'') in *. cbn [List.length] in Lk, Lm, Lf. rewrite app_length in Lf.
  cbn [app]. rewrite <- app_assoc. rewrite (object_field _ k hoc ac keys _ _ _ _ (A t _ St ltac:(destruct t; try discriminate Kt; reflexivity) ltac:(destruct t; try discriminate Kt; discriminate)) Kt).
  destruct (stop_items its'' Behind e (end_token hoc) r R' (or_introl eq_refl) Q Z4) as [Sp _].
  destruct (Pf fuel keys _ Sp ltac:(cbn [List.length]; lia)) as [n' [keys' [Pn [Ln Bn]]]]. rewrite Pn. cbn [bind]. clear Pf Pn.
  destruct (sep_items its'' Behind false e R' ltac:(discriminate) ltac:(discriminate)) as [L2 [its3 [b' [-> [FL2 Cs]]]]].
  rewrite itoks_app, itoks_layout in Lf |- *. rewrite app_length, map_length in Lk, Lm. rewrite app_length in Lf. pose proof (squeezed_app _ _ Q) as Q3. unfold fields_only in Fo'. rewrite Forall_app in Fo'. destruct Fo' as [_ Fo3]. rewrite <- app_assoc.
  change (ibones (IX n (t :: u) :: map IL L2 ++ its3)) with (bones n :: ibones (map IL L2 ++ its3)). rewrite ibones_app, ibones_layout. cbn [app].
  assert (Kn : forall a c x, kept a = [] -> kept c = [] -> kept (a ++ n' :: c ++ x) = bones n :: kept x).
  { intros a c x Ka Kc. rewrite kept_app, Ka. cbn [app]. change (kept (n' :: c ++ x)) with ((if is_layout n' then [] else [bones n']) ++ kept (c ++ x)). rewrite Ln, Bn, kept_app, Kc. reflexivity. }
  destruct Cs as [[-> A2]|[[its4 [-> [R4 A2]]]|[n4 [ts4 [its4 [-> [R4 A2]]]]]]].
  - cbn [itoks flat_map app]. rewrite (A2 _ r Z4 Z5 Z2 Z3). cbn [bind]. destruct b'.
    + destruct k as [|k]; [lia|]. rewrite (object_stop _ k hoc keys' true _ [] r (collect_solid _ r Z1 Z2 Z3)). cbn [bind]. exists (map layout_node L ++ n' :: map layout_node L2). split; [rewrite <- app_assoc; reflexivity|].
      specialize (Kn (map layout_node L) (map layout_node L2) [] (plain_all _ FL) (plain_all _ FL2)). rewrite app_nil_r in Kn. exact Kn.
    + rewrite (collect_solid _ r Z1 Z2 Z3). cbn [bind]. exists (map layout_node L ++ n' :: map layout_node L2). split; [destruct hoc; cbn [end_token end_nodes end_rest]; rewrite <- !app_assoc; cbn [app]; reflexivity|].
      specialize (Kn (map layout_node L) (map layout_node L2) [] (plain_all _ FL) (plain_all _ FL2)). rewrite app_nil_r in Kn. exact Kn.
  - change (itoks (IL TComma :: its4)) with (TComma :: itoks its4) in *. cbn [app List.length] in *. rewrite A2. cbn [bind]. inversion Fo3 as [|? ? _ Fo4]; subst.
    destruct (IH its4 e hoc ltac:(lia) R4 (proj2 Q3) Fo4 fuel k keys' true r ltac:(lia) ltac:(lia)) as [cs [E K]]. rewrite E. cbn [bind].
    exists (map layout_node L ++ n' :: map layout_node (L2 ++ [TComma]) ++ cs). split; [rewrite <- !app_assoc; cbn [app]; rewrite <- !app_assoc; reflexivity|]. rewrite Kn, K; [reflexivity|apply plain_all, FL|].
    rewrite map_app, kept_app, plain_all by exact FL2. reflexivity.
  - inversion Fo3 as [|? ? Fn4 _]; subst. destruct Fn4 as [t4 [u4 [-> [Kt4 [St4 _]]]]].
    destruct (IH (IX n4 (t4 :: u4) :: its4) e hoc ltac:(cbn [List.length] in *; lia) R4 Q3 Fo3 fuel k keys' true r ltac:(cbn [List.length] in *; lia) ltac:(lia)) as [cs [E K]].
    change (itoks (IX n4 (t4 :: u4) :: its4)) with (t4 :: u4 ++ itoks its4) in *. cbn [app] in *. rewrite (A2 _ _ Kt4 St4). cbn [bind]. rewrite E. cbn [bind].
    exists (map layout_node L ++ n' :: map layout_node L2 ++ cs). split; [rewrite <- !app_assoc; cbn [app]; rewrite <- !app_assoc; reflexivity|]. rewrite Kn, K; [reflexivity|apply plain_all, FL|apply plain_all, FL2].
Qed.
