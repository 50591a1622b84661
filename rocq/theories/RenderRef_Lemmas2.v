(** Concatenations as they are rendered are read back. *)
From Verif Require Import Base BaseLemmas Util_Model Num_Model Path_Model Path_Spec Path_Lemmas Token_Model Token_Spec Token_Lemmas Token_Lemmas2 PathParser_Model PathParser_Spec PathParser_Lemmas PathParser_Lemmas2 PathParser_Lemmas3 Doc_Model Doc_Lemmas Edit_Model Value_Model Value_Spec Value_Lemmas Concat_Model ConfigParser_Model Json_Lemmas2 Render_Model Render_Spec Render_Lemmas Render_Lemmas3 JsonEdit_Lemmas ConfEdit_Spec ConfText_Spec ConfText_Lemmas ConfText_Lemmas2 ConfText_Lemmas3 ConfText_Lemmas5 ConfText_Lemmas7 ConfText_Lemmas12 ConfText_Lemmas8 RenderConf_Lemmas RenderConf_Lemmas2 RenderRef_Spec RenderRef_Lemmas.

(** ** Pieces *)
Definition piece_ok (n : node) (ts : list token) : Prop :=
  render_tokens ts = render_node n /\ chunk ts /\ is_value_node n = true /\
  exists t u, ts = t :: u /\ is_value_start t = true /\
    forall fuel r, (List.length u < fuel)%nat -> exists v', Doc_Model.parse_value fuel CONF LEnd t (u ++ r) = Ok (v', r) /\ is_value_node v' = true /\ is_layout v' = false /\ bones v' = bones n.
Lemma piece_value : forall n ts, piece_ok n ts -> value_ok n ts.
Proof.
  intros n ts [R [C [Vn [t [u [-> [Vs A]]]]]]]. pose proof C as [_ [_ [Sd _]]]. cbn [hd] in Sd. split; [exact R|]. split; [exact C|]. split; [destruct t; try discriminate Vs; reflexivity|]. split; [destruct t; try discriminate Vs; discriminate|].
  intros fuel r St L. cbn [List.length] in L. destruct (A fuel r ltac:(lia)) as [v' [P [V [Ly B]]]]. exists v'. split; [|split; assumption]. exact (consolidate_one _ t u r v' P V Vs Sd St).
Qed.
Lemma token_piece : forall t, chunk [t] -> is_value_start t = true -> t <> TOpenCurly -> t <> TOpenSquare -> piece_ok (NSimple t) [t].
Proof.
  intros t C Vs X Y. split; [reflexivity|]. split; [exact C|]. split; [reflexivity|]. exists t, []. split; [reflexivity|]. split; [exact Vs|].
  intros fuel r L. destruct fuel as [|fuel]; [cbn in L; lia|]. exists (NSimple t). split; [|repeat split]. destruct t; try discriminate Vs; try congruence; reflexivity.
Qed.
Lemma object_piece : forall n ts, object_ok n ts -> is_value_node n = true -> piece_ok n ts.
Proof. intros n ts [R [C [u [-> A]]]] V. split; [exact R|]. split; [exact C|]. split; [exact V|]. exists TOpenCurly, u. split; [reflexivity|]. split; [reflexivity|exact A]. Qed.
Lemma scalar_piece : forall s t, scalar_token s t -> piece_ok (NSimple t) [t].
Proof.
  intros s t H. destruct (scalar_ok s t H) as [[_ [C _]] _]. apply token_piece; [exact C|..]; destruct H; try reflexivity; try discriminate.
Qed.
Lemma reference_reads : forall p o r, p <> [] -> Forall (Forall quotable) p -> word_key (hd [] p) -> reads' (reference_token p o) r.
Proof. intros p o r N Q W. apply subst_reads; [apply reference_spelt; assumption|apply path_toks_closed]. Qed.
Lemma reference_piece : forall p o, p <> [] -> Forall (Forall quotable) p -> word_key (hd [] p) -> piece_ok (NSimple (reference_token p o)) [reference_token p o].
Proof.
  intros p o N Q W. apply token_piece; try reflexivity; try discriminate. split; [|split; [discriminate|repeat split]]. intros k r _. apply sp_tok; [apply reference_reads; assumption|constructor].
Qed.

(** ** Several pieces *)
Definition ptoks (ps : list (node * list token)) : list token := concat (map snd ps).
Lemma kept_cons : forall v vs, is_layout v = false -> kept (v :: vs) = bones v :: kept vs.
Proof. intros v vs H. unfold kept. cbn [flat_map]. rewrite H. reflexivity. Qed.
Lemma pieces_loop : forall ps, Forall (fun p => piece_ok (fst p) (snd p)) ps -> forall fuel k g x r', ConfText_Lemmas3.gap g -> fin x = true -> (List.length (ptoks ps) <= fuel)%nat -> (List.length (ptoks ps ++ g) < k)%nat ->
  exists vs, loop_list (Doc_Model.parse_value fuel CONF LEnd) k (ptoks ps ++ g ++ x :: r') = Ok (vs ++ map NTok g, List.length ps, x, r') /\ kept vs = map bones (map fst ps) /\ Forall (fun v => is_value_node v = true) vs.
Proof.
  intros ps F. induction F as [|[n ts] ps H F IH]; intros fuel k g x r' G Fx Lf Lk.
  - exists []. split; [apply loop_base; assumption|]. split; [reflexivity|constructor].
  - cbn [fst snd] in H. destruct H as [_ [_ [_ [t [u [-> [Vs A]]]]]]]. unfold ptoks in *. cbn [map snd concat app] in *. fold (ptoks ps) in *. cbn [List.length] in Lf, Lk. rewrite !app_length in Lk. rewrite app_length in Lf.
    destruct k as [|k]; [lia|]. destruct (A fuel (ptoks ps ++ g ++ x :: r') ltac:(lia)) as [v' [P [V [Ly B]]]].
    destruct (IH fuel k g x r' G Fx ltac:(lia) ltac:(rewrite app_length; lia)) as [vs [E [K Fv]]].
    exists (v' :: vs). split; [|split; [rewrite kept_cons, K, B by exact Ly; reflexivity|constructor; assumption]].
    cbn [loop_list consolidate_loop]. rewrite <- !app_assoc.
    assert (Q : ('(v, r) <- Doc_Model.parse_value fuel CONF LEnd t (u ++ ptoks ps ++ g ++ x :: r') ;; '(t', r') <- next_token CONF LEnd r ;; '(vs, c, t'', r'') <- consolidate_loop (Doc_Model.parse_value fuel CONF LEnd) CONF LEnd k t' r' ;; Ok (v :: vs, S c, t'', r'')) = Ok ((v' :: vs) ++ map NTok g, S (List.length ps), x, r')).
    { rewrite P. cbn [bind]. unfold loop_list in E. destruct (ptoks ps ++ g ++ x :: r') as [|y z]; [discriminate|]. rewrite next_conf. cbn [bind]. rewrite E. reflexivity. }
    destruct t; try discriminate Vs; exact Q.
Qed.
Lemma ptoks_text : forall ps, Forall (fun p => piece_ok (fst p) (snd p)) ps -> render_tokens (ptoks ps) = render_nodes (map fst ps).
Proof.
  intros ps F. induction F as [|[n ts] ps [H _] F IH]; [reflexivity|]. unfold ptoks in *. cbn [map fst snd concat] in *. rewrite render_nodes_cons, render_app', IH, H. reflexivity.
Qed.
Lemma concat_value : forall ps, (2 <= List.length ps)%nat -> Forall (fun p => piece_ok (fst p) (snd p)) ps -> (forall k r, neutral r -> spelt k (ptoks ps) r) -> value_ok (NConcat (map fst ps)) (ptoks ps).
Proof.
  intros ps L F Sp. pose proof (ptoks_text ps F) as Tx. split; [rewrite Tx; unfold render_node at 1; cbn [node_tokens]; clear; induction (map fst ps) as [|n l IH]; [reflexivity|]; rewrite render_nodes_cons; cbn [flat_map]; rewrite render_app', IH; reflexivity|].
  destruct ps as [|[n0 ts0] ps]; [cbn in L; lia|]. inversion F as [|? ? H0 F']; subst. cbn [fst snd] in H0. pose proof H0 as [_ [C0 [_ [t [u [E0 [Vs A0]]]]]]]. pose proof C0 as [_ [_ [Sd _]]]. subst ts0. cbn [hd] in Sd.
  assert (La : solid (List.last (ptoks ((n0, t :: u) :: ps)) TEnd) = true /\ is_comment (List.last (ptoks ((n0, t :: u) :: ps)) TEnd) = false).
  { destruct (exists_last (l := (n0, t :: u) :: ps) ltac:(discriminate)) as [init [[nl' tl'] El]]. rewrite El in *. apply Forall_app in F. destruct F as [_ Fl]. inversion Fl as [|? ? Hl _]; subst. cbn [fst snd] in Hl. destruct Hl as [_ [[_ [Nn [_ [S2 C2]]]] _]].
    unfold ptoks. rewrite map_app, concat_app. cbn [map snd concat]. rewrite app_nil_r, last_app by exact Nn. split; assumption. }
  split; [|split; [|split]].
  - split; [exact Sp|]. split; [discriminate|]. split; [exact Sd|exact La].
  - destruct t; try discriminate Vs; reflexivity.
  - destruct t; try discriminate Vs; discriminate.
  - intros fuel r St Lf. destruct (stop_inv _ St) as [g [x [r' [-> [G Fx]]]]].
    set (all := (n0, t :: u) :: ps) in *.
    destruct (pieces_loop all F fuel (S (List.length ((u ++ ptoks ps) ++ g ++ x :: r'))) g x r' G Fx Lf ltac:(unfold all, ptoks; cbn [map snd concat]; rewrite !app_length; cbn [List.length]; rewrite ?app_length; fold (ptoks ps); lia)) as [vs [E [K Fv]]].
    exists (NConcat vs). split; [|split; [reflexivity|cbn [bones]; f_equal; change (kept vs = kept (map fst all)); rewrite K; clear -F; induction F as [|[n ts] l [_ [_ [V _]]] F IH]; [reflexivity|]; cbn [map fst] in *; rewrite kept_cons, IH by (apply value_layout, V); reflexivity]].
    assert (Ea : ptoks all ++ g ++ x :: r' = t :: (u ++ ptoks ps) ++ g ++ x :: r') by (unfold all, ptoks; cbn [map snd concat app]; rewrite <- !app_assoc; reflexivity).
    unfold consolidate_values. rewrite Ea in *. rewrite (collect_solid t) by (try exact Sd; destruct t; try discriminate Vs; reflexivity || discriminate). cbn [bind]. cbn [loop_list] in E. rewrite E. cbn [bind].
    assert (Lt : (List.length all <? 2)%nat = false) by (apply Nat.ltb_ge; exact L). rewrite Lt.
    destruct (exists_last (l := vs)) as [core [v Ev]]; [intros ->; unfold all in K; discriminate K|].
    rewrite Ev in *. apply Forall_app in Fv. destruct Fv as [_ Fv]. inversion Fv; subst. rewrite put_back_gap by assumption. reflexivity.
Qed.

(** Of two neighbours one is a reference, so that the first ends where the second begins. *)
Definition spelt_piece (v : value) (p : node * list token) : Prop :=
  chunk (snd p) /\ (is_reference v = true -> (forall k r, spelt k (snd p) r) /\ exists y, render_tokens (snd p) = "$"%char :: y).
Lemma pieces_spelt : forall vs ps, Forall2 spelt_piece vs ps -> apart vs -> forall k r, neutral r -> spelt k (ptoks ps) r.
Proof.
  intros vs ps F. induction F as [|v [n ts] vs ps [C Rf] F IH]; intros Ap k r N; [constructor|]. unfold ptoks. cbn [map snd concat]. fold (ptoks ps). cbn [snd] in C, Rf. pose proof C as [Sp [_ [_ [Sl _]]]].
  destruct F as [|v2 [n2 ts2] vs ps [C2 Rf2] F]; [unfold ptoks; cbn; rewrite app_nil_r; apply Sp, N|].
  cbn [apart] in Ap. destruct Ap as [Ap Ap']. eapply spelt_app; [|reflexivity|exact Sl|intro k'; apply IH; assumption].
  destruct (is_reference v) eqn:E; [apply (proj1 (Rf eq_refl))|]. destruct Ap as [Ap|Ap]; [discriminate|]. apply Sp. destruct (Rf2 Ap) as [_ [y Y]]. unfold ptoks. cbn [map snd concat]. cbn [snd] in Y. rewrite render_app', Y. reflexivity.
Qed.

(** ** Joining pieces that stay apart *)
Lemma alike_reference : forall v w, alike v w -> is_reference w = is_reference v /\ is_concat w = is_concatenation v /\ is_object w = is_object v.
Proof. intros v w H. destruct H; repeat split. Qed.
Lemma apart_alike : forall vs ws, Forall2 alike vs ws -> apart vs -> apart ws.
Proof.
  intros vs ws F. induction F as [|v w vs ws H F IH]; intro A; [exact I|]. destruct F as [|v2 w2 vs ws H2 F]; [exact I|]. cbn [apart] in *. destruct A as [A A']. split; [|apply IH, A'].
  rewrite (proj1 (alike_reference _ _ H)), (proj1 (alike_reference _ _ H2)). exact A.
Qed.
Lemma join_apart : forall a b, is_reference a = true \/ is_reference b = true -> is_concat a = false -> is_concat b = false -> join_values a b = Ok None.
Proof.
  intros a b R A B. destruct R as [R|R].
  - destruct a; try discriminate R. destruct b; try discriminate B; reflexivity.
  - destruct b; try discriminate R. destruct a; try discriminate A; reflexivity.
Qed.
Lemma join_all_apart : forall vs b, apart (match b with x :: _ => x :: vs | [] => vs end) -> Forall (fun v => is_concat v = false) (b ++ vs) -> join_all b vs = Ok (rev b ++ vs).
Proof.
  induction vs as [|v vs IH]; intros b A F; [cbn [join_all]; rewrite app_nil_r; reflexivity|]. cbn [join_all]. destruct b as [|x b].
  - rewrite (IH [v]); [reflexivity|exact A|exact F].
  - cbn [apart] in A. destruct A as [A A']. rewrite join_apart; [|exact A|inversion F; assumption|rewrite Forall_forall in F; apply F; apply in_app_iff; right; left; reflexivity].
    cbn [bind]. rewrite (IH (v :: x :: b)); [cbn [rev]; rewrite <- !app_assoc; reflexivity|exact A'|].
    apply Forall_app in F. destruct F as [F1 F2]. inversion F2; subst. cbn [app]. constructor; [assumption|]. change (x :: b ++ vs) with ((x :: b) ++ vs). apply Forall_app. split; assumption.
Qed.
Lemma concatenate_apart : forall vs, (2 <= List.length vs)%nat -> apart vs -> Forall (fun v => is_concat v = false) vs -> concatenate vs = Ok (Some (VConcat vs)).
Proof.
  intros vs L A F. unfold concatenate, consolidate. destruct vs as [|a [|b vs]]; [cbn in L; lia|cbn in L; lia|].
  assert (Fl : flattened (a :: b :: vs) = a :: b :: vs).
  { clear -F. unfold flattened. induction F as [|x l H F IH]; [reflexivity|]. cbn [flat_map]. rewrite IH. destruct x; try discriminate H; reflexivity. }
  rewrite Fl, (join_all_apart (a :: b :: vs) [] A F). cbn [rev app bind]. unfold new_concatenation.
  assert (E1 : existsb is_concat (a :: b :: vs) = false) by (clear -F; induction F as [|x l H F IH]; [reflexivity|]; cbn [existsb]; rewrite H, IH; reflexivity).
  assert (E2 : existsb is_unmergeable (a :: b :: vs) = true) by (cbn [apart] in A; destruct A as [[R|R] _]; [destruct a|destruct b]; try discriminate R; cbn; rewrite ?orb_true_r; reflexivity).
  rewrite E1, E2. reflexivity.
Qed.
