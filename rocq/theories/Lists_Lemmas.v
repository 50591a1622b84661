(** Lists that stand one behind the other are read as one list. *)
From Verif Require Import Base BaseLemmas Util_Model Num_Model Path_Model Path_Spec Path_Lemmas Token_Model Token_Spec Token_Lemmas Token_Lemmas2 PathParser_Model PathParser_Spec PathParser_Lemmas PathParser_Lemmas2 PathParser_Lemmas3 Doc_Model Doc_Lemmas Edit_Model
  Value_Model Value_Spec Value_Lemmas Concat_Model ConfigParser_Model Json_Lemmas2 Render_Lemmas3 JsonEdit_Lemmas JsonEdit_Lemmas2 JsonEdit_Lemmas7 JsonEdit_Spec ConfEdit_Spec ConfEdit_Lemmas6 ConfEdit_Lemmas7 ConfText_Spec ConfText_Lemmas ConfText_Lemmas2 ConfText_Lemmas3 ConfText_Lemmas4 ConfText_Lemmas5 ConfText_Lemmas6
  ConfText_Lemmas7 ConfText_Lemmas8 ConfText_Lemmas11 ConfText_Lemmas12 RenderConf_Lemmas RenderConf_Lemmas2 RenderConf_Lemmas3 Escape_Spec Round_Spec Rfc_Spec Rfc_Spec3 Rfc_Lemmas Rfc_Lemmas2 Rfc_Lemmas6 Rfc_Lemmas7 Rfc_Lemmas8 RenderRef_Lemmas2.

Definition opens (t : token) : Prop := t = TOpenSquare \/ t = TOpenCurly.
Definition row_ok (ns : list node) (ts : list token) (c : nat) : Prop :=
  render_tokens ts = render_nodes ns /\ chunk ts /\ (exists t u, ts = t :: u /\ opens t) /\
  forall fuel k g x r', ConfText_Lemmas3.gap g -> fin x = true -> (List.length ts <= fuel)%nat -> (List.length (ts ++ g) < k)%nat ->
    exists core v, loop_list (Doc_Model.parse_value fuel CONF LEnd) k (ts ++ g ++ x :: r') = Ok ((core ++ [v]) ++ map NTok g, c, x, r') /\ is_value_node v = true /\ kept (core ++ [v]) = kept ns.

Lemma loop_piece : forall n t u, piece_ok n (t :: u) -> forall fuel k y z, (List.length u < fuel)%nat ->
  exists v', is_value_node v' = true /\ is_layout v' = false /\ bones v' = bones n /\
    forall vs c t'' r'', consolidate_loop (Doc_Model.parse_value fuel CONF LEnd) CONF LEnd k y z = Ok (vs, c, t'', r'') ->
      loop_list (Doc_Model.parse_value fuel CONF LEnd) (S k) (t :: u ++ y :: z) = Ok (v' :: vs, S c, t'', r'').
Proof.
  intros n t u [_ [_ [_ [t0 [u0 [E [Vs A]]]]]]] fuel k y z L. injection E as <- <-. destruct (A fuel (y :: z) L) as [v' [P [V [Ly B]]]]. exists v'. split; [exact V|]. split; [exact Ly|]. split; [exact B|].
  intros vs c t'' r'' Q. cbn [loop_list consolidate_loop].
  assert (K : ('(v, r) <- Doc_Model.parse_value fuel CONF LEnd t (u ++ y :: z) ;; '(t', r') <- next_token CONF LEnd r ;; '(vs, c, t'', r'') <- consolidate_loop (Doc_Model.parse_value fuel CONF LEnd) CONF LEnd k t' r' ;; Ok (v :: vs, S c, t'', r'')) = Ok (v' :: vs, S c, t'', r'')).
  { rewrite P. cbn [bind]. rewrite next_conf. cbn [bind]. rewrite Q. reflexivity. }
  destruct t; try discriminate Vs; exact K.
Qed.
Lemma row_one : forall n t u, opens t -> piece_ok n (t :: u) -> row_ok [n] (t :: u) 1.
Proof.
  intros n t u O H. pose proof H as [T [C [Vn _]]]. split; [rewrite T, render_nodes_cons; symmetry; apply app_nil_r|]. split; [exact C|]. split; [eauto|].
  intros fuel k g x r' G F Lf Lk. cbn [List.length app] in Lf, Lk. rewrite app_length in Lk. destruct k as [|k]; [lia|].
  destruct (g ++ x :: r') as [|y z] eqn:E; [destruct g; discriminate E|].
  destruct (loop_piece n _ _ H fuel k y z ltac:(lia)) as [v' [V [Ly [B K]]]]. exists [], v'. cbn [app]. split; [|split; [exact V|rewrite !kept_cons, B by (assumption || apply value_layout, Vn); reflexivity]].
  apply K. pose proof (loop_base (Doc_Model.parse_value fuel CONF LEnd) k g x r' G F ltac:(lia)) as Lb. rewrite E in Lb. exact Lb.
Qed.
Lemma kept_gap : forall g ns, gapn g -> kept (map NTok g ++ ns) = kept ns.
Proof. intros g ns [->|[w [-> _]]]; reflexivity. Qed.
Lemma row_more : forall n t u g ns ts c, opens t -> piece_ok n (t :: u) -> gapn g -> row_ok ns ts c -> row_ok (n :: map NTok g ++ ns) ((t :: u) ++ g ++ ts) (S c).
Proof.
  intros n t u g ns ts c O H G [T' [C' [[t' [u' [-> O']]] A]]]. assert (Z : solid t' = true /\ is_simple_value t' = false /\ forall r, neutral (token_text t' ++ r)) by (destruct O' as [->| ->]; repeat split). destruct Z as [Z1 [Z2 Z3]]. pose proof H as [T [C [Vn _]]]. pose proof C as [Sp [_ [_ [Sl _]]]]. pose proof C' as [Sp' [_ [_ [Sl' Cm']]]].
  split; [|split; [|split; [cbn [app]; eauto|]]].
  - rewrite !render_app', T', T, render_nodes_cons. f_equal. unfold render_nodes. rewrite flat_map_app, render_app', node_gap. reflexivity.
  - split; [|split; [discriminate|]].
    + intros k r N. eapply spelt_app; [|reflexivity|exact Sl|].
      * apply Sp. apply gap_neutral; [exact G|]. rewrite render_cons', <- app_assoc. apply Z3.
      * intro k'. apply gap_spelt; [exact G|intro; apply Sp', N|discriminate|exact Z1|cbn [hd]; rewrite Z2; apply andb_false_r].
    + split; [destruct O as [->| ->]; reflexivity|]. rewrite app_assoc, last_app by discriminate. split; assumption.
  - intros fuel k g0 x r' G0 F Lf Lk. rewrite !app_length in Lf, Lk. cbn [List.length] in Lf, Lk. destruct k as [|k]; [lia|].
    rewrite <- !app_assoc. destruct G as [->|[w [-> W]]].
    + cbn [app map List.length] in *. destruct (A fuel k g0 x r' G0 F ltac:(cbn [List.length]; lia) ltac:(cbn [List.length]; rewrite app_length; lia)) as [core [v [E [V K]]]].
      destruct (loop_piece n _ _ H fuel k t' (u' ++ g0 ++ x :: r') ltac:(lia)) as [v' [V' [Ly [B L]]]]. exists (v' :: core), v. split; [exact (L _ _ _ _ E)|]. split; [exact V|].
      cbn [app]. rewrite !kept_cons, K, B by (assumption || apply value_layout, Vn). reflexivity.
    + cbn [app map List.length] in *. destruct k as [|k]; [lia|]. destruct (A fuel k g0 x r' G0 F ltac:(cbn [List.length]; lia) ltac:(cbn [List.length]; rewrite app_length; lia)) as [core [v [E [V K]]]].
      destruct (loop_piece n _ _ H fuel (S k) (TIgnored w) (t' :: u' ++ g0 ++ x :: r') ltac:(lia)) as [v' [V' [Ly [B L]]]]. exists (v' :: NTok (TIgnored w) :: core), v. split; [|split; [exact V|]].
      * apply (L (NTok (TIgnored w) :: (core ++ [v]) ++ map NTok g0)). cbn [consolidate_loop]. rewrite next_conf. cbn [bind]. cbn [loop_list] in E. rewrite E. reflexivity.
      * cbn [app]. rewrite kept_cons, B by exact Ly. rewrite (kept_cons n) by apply value_layout, Vn. f_equal. exact K.
Qed.
Lemma row_value : forall ns ts c, row_ok ns ts c -> (2 <= c)%nat -> value_ok (NConcat ns) ts.
Proof.
  intros ns ts c [T [C [[t [u [-> O]]] A]]] L. split; [rewrite T; unfold render_node; cbn [node_tokens]; clear; induction ns as [|n l IH]; [reflexivity|]; rewrite render_nodes_cons; cbn [flat_map]; rewrite render_app', IH; reflexivity|].
  split; [exact C|]. split; [destruct O as [->| ->]; reflexivity|]. split; [destruct O as [->| ->]; discriminate|]. intros fuel r St Lf. destruct (stop_inv _ St) as [g [x [r' [-> [G Fx]]]]].
  destruct (A fuel (S (List.length (u ++ g ++ x :: r'))) g x r' G Fx Lf ltac:(rewrite !app_length; cbn [List.length]; lia)) as [core [v [E [V K]]]].
  exists (NConcat (core ++ [v])). split; [|split; [reflexivity|cbn [bones]; f_equal; exact K]].
  unfold consolidate_values. cbn [app] in *. rewrite (collect_solid t) by (destruct O as [->| ->]; reflexivity || discriminate). cbn [bind]. cbn [loop_list] in E. rewrite E. cbn [bind].
  assert (Lt : (c <? 2)%nat = false) by (apply Nat.ltb_ge; exact L). rewrite Lt, put_back_gap by assumption. reflexivity.
Qed.

(** The lists become one. *)
Lemma lists_joined : forall vss vs, join_all [VList vs] (map VList vss) = Ok [VList (vs ++ concat vss)].
Proof.
  induction vss as [|us vss IH]; intro vs; cbn [map join_all concat]; [rewrite app_nil_r; reflexivity|]. change (join_values (VList vs) (VList us)) with (Ok (Some (VList (vs ++ us)))). cbn [bind]. rewrite IH, app_assoc. reflexivity.
Qed.
Lemma lists_concatenated : forall vs us vss, concatenate (map VList (vs :: us :: vss)) = Ok (Some (VList (concat (vs :: us :: vss)))).
Proof.
  intros vs us vss. unfold concatenate, consolidate. cbn [map].
  assert (F : flattened (map VList (vs :: us :: vss)) = map VList (vs :: us :: vss)) by (unfold flattened; induction (vs :: us :: vss) as [|a l IH]; [reflexivity|]; cbn [map flat_map]; rewrite IH; reflexivity).
  cbn [map] in F. rewrite F. cbn [join_all]. change (join_values (VList vs) (VList us)) with (Ok (Some (VList (vs ++ us)))). cbn [bind]. rewrite lists_joined. cbn [concat]. rewrite app_assoc. reflexivity.
Qed.
