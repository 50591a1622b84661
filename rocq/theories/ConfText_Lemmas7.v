(** Values, fields and objects that are read from their text wherever it stands. *)
From Verif Require Import Base BaseLemmas Util_Model Num_Model Path_Model Token_Model Token_Spec Token_Lemmas Token_Lemmas2 PathParser_Model Doc_Model Doc_Lemmas Doc_Lemmas2 Edit_Model Value_Model Json_Lemmas Json_Lemmas2 Render_Lemmas3 JsonEdit_Lemmas ConfEdit_Spec ConfText_Spec ConfText_Lemmas ConfText_Lemmas2 ConfText_Lemmas3 ConfText_Lemmas5 ConfText_Lemmas6.

Definition value_ok (v : node) (ts : list token) : Prop :=
  render_tokens ts = render_node v /\ chunk ts /\ is_comment (hd TEnd ts) = false /\ hd TEnd ts <> TNewline /\
  forall fuel r, stop r -> (List.length ts <= fuel)%nat -> exists v', consolidate_values (parse_value fuel CONF LEnd) CONF LEnd (ts ++ r) = Ok ([], Some v', r) /\ is_layout v' = false /\ bones v' = bones v.
Definition object_ok (v : node) (ts : list token) : Prop :=
  render_tokens ts = render_node v /\ chunk ts /\
  exists u, ts = TOpenCurly :: u /\ forall fuel r, (List.length u < fuel)%nat -> exists v', parse_value fuel CONF LEnd TOpenCurly (u ++ r) = Ok (v', r) /\ is_value_node v' = true /\ is_layout v' = false /\ bones v' = bones v.
Definition key_ok (pn : path_node) : Prop :=
  exists ks pn', render_tokens ks = render_tokens (snd pn) /\ chunk ks /\ Forall (fun t => keyish t = true) ks /\ is_include_keyword (hd TEnd ks) = false /\
    parse_path_expression false CONF ks LEnd = Ok pn' /\ fst pn' = fst pn /\ fst pn <> [].

Lemma consolidate_one : forall p t u r v, p t (u ++ r) = Ok (v, r) -> is_value_node v = true -> is_value_start t = true -> solid t = true -> stop r ->
  consolidate_values p CONF LEnd (t :: u ++ r) = Ok ([], Some v, r).
Proof.
  intros p t u r v P V Vs Sd St. unfold consolidate_values. rewrite (collect_solid t (u ++ r) Sd) by (destruct t; try discriminate Vs; reflexivity || discriminate). cbn [bind]. destruct (stop_inv _ St) as [g [x [r' [-> [G F]]]]].
  assert (L : consolidate_loop p CONF LEnd (S (List.length (u ++ g ++ x :: r'))) t (u ++ g ++ x :: r') = Ok (v :: map NTok g, 1%nat, x, r')).
  { cbn [consolidate_loop].
    assert (K : ('(v, r) <- p t (u ++ g ++ x :: r') ;; '(t', q) <- next_token CONF LEnd r ;; '(vs, c, t'', r'') <- consolidate_loop p CONF LEnd (List.length (u ++ g ++ x :: r')) t' q ;; Ok (v :: vs, S c, t'', r'')) = Ok (v :: map NTok g, 1%nat, x, r')).
    { rewrite P. cbn [bind]. assert (Ln : (List.length g < List.length (u ++ g ++ x :: r'))%nat) by (rewrite !app_length; cbn [List.length]; lia).
      pose proof (loop_base p (List.length (u ++ g ++ x :: r')) g x r' G F Ln) as B. generalize dependent (List.length (u ++ g ++ x :: r')). intros m _ B. unfold loop_list in B. destruct (g ++ x :: r') as [|y z] eqn:E; [destruct g; discriminate|]. rewrite next_conf. cbn [bind]. rewrite B. reflexivity. }
    destruct t; try discriminate Vs; exact K. }
  rewrite L. cbn [bind Nat.ltb Nat.leb]. rewrite (single_gap v (x :: r') g V G). reflexivity.
Qed.
Lemma object_value : forall v ts, object_ok v ts -> value_ok v ts.
Proof.
  intros v ts [R [C [u [-> A]]]]. split; [exact R|]. split; [exact C|]. split; [reflexivity|]. split; [discriminate|].
  intros fuel r St L. cbn [List.length] in L. destruct (A fuel r ltac:(lia)) as [v' [P [V [Ly B]]]]. exists v'. split; [|split; assumption]. exact (consolidate_one _ TOpenCurly u r v' P V eq_refl eq_refl St).
Qed.

(** ** Fields *)
Definition gapn (g : list token) : Prop := g = [] \/ exists w, g = [TIgnored w] /\ blank_text w = true.
Lemma after_gap_spec : forall l, exists g, gapn g /\ l = map NTok g ++ after_gap l.
Proof.
  intros [|c l]; [exists []; split; [left|]; reflexivity|].
  assert (D : after_gap (c :: l) = c :: l \/ exists w, c = NTok (TIgnored w) /\ blank_text w = true /\ after_gap (c :: l) = l).
  { destruct c; auto. destruct t; auto. cbn [after_gap]. destruct (blank_text text) eqn:E; [right; eauto|auto]. }
  destruct D as [->|[w [-> [W ->]]]]; [exists []; split; [left|]; reflexivity|]. exists [TIgnored w]. split; [right; eauto|reflexivity].
Qed.
Definition is_sep (t : token) : Prop := t = TColon \/ t = TEquals.
Lemma shape_parts : forall fc, field_shape fc = true -> exists pn g1, gapn g1 /\
  ((exists v, core_of fc = NPath pn :: map NTok g1 ++ [v] /\ field_object v = true) \/
   (exists sep g2 v, is_sep sep /\ gapn g2 /\ core_of fc = NPath pn :: map NTok g1 ++ NTok sep :: map NTok g2 ++ [v] /\ field_thing v = true)).
Proof.
  intros fc H. unfold field_shape in H. destruct (core_of fc) as [|c r]; [discriminate|]. destruct c; try discriminate H. destruct (after_gap_spec r) as [g1 [G1 E1]].
  exists p, g1. split; [exact G1|]. rewrite E1. clear E1. destruct (after_gap r) as [|x r2]; [discriminate|].
  assert (D : (r2 = [] /\ field_object x = true) \/ exists sep r3, x = NTok sep /\ is_sep sep /\ after_gap r2 = r3 /\ match r3 with [v] => field_thing v | _ => false end = true).
  { destruct r2 as [|y r2]; [|destruct x; try discriminate H; destruct t; try discriminate H; right; [exists TEquals|exists TColon]; eexists; (split; [reflexivity|]; split; [red; auto|]; split; [reflexivity|exact H])].
    destruct x; try discriminate H; [destruct t; discriminate H|]. left. split; [reflexivity|exact H]. }
  destruct D as [[-> O]|[sep [r3 [-> [S [E T]]]]]]; [left; exists x; auto|]. right. destruct (after_gap_spec r2) as [g2 [G2 E2]]. rewrite E2, E. destruct r3 as [|v [|]]; try discriminate T. exists sep, g2, v. auto.
Qed.
Lemma gapn_gap : forall g, gapn g -> gap g.
Proof. intros g [->|[w [-> _]]]; [left; reflexivity|right; eauto]. Qed.
Lemma gap_spelt : forall g X r ls, gapn g -> (forall k, spelt k X r) -> X <> [] -> solid (hd TEnd X) = true -> ls && is_simple_value (hd TEnd X) = false -> spelt ls (g ++ X) r.
Proof.
  intros g X r ls [->|[w [-> W]]] H N S Sm; [apply H|]. cbn [app]. destruct X as [|t X]; [congruence|]. eapply (spelt_gap ls ls); [apply blank_text_spec, W|apply H|exact S|exact Sm].
Qed.
Lemma gap_neutral : forall g X r, gapn g -> neutral (render_tokens X ++ r) -> neutral (render_tokens (g ++ X) ++ r).
Proof.
  intros g X r [->|[w [-> W]]] H; [exact H|]. cbn [app]. rewrite render_cons', <- app_assoc. apply blank_ender, blank_text_spec, W.
Qed.
Lemma reads_equals : forall r, reads' TEquals r.
Proof. intro r. split; [discriminate|]. split; [discriminate|]. intros [|n] ws ls L; reflexivity. Qed.
Lemma sep_reads : forall t r, is_sep t -> reads' t r /\ is_simple_value t = false /\ solid t = true /\ is_comment t = false /\ t <> TNewline /\ keyish t = false /\ neutral (token_text t ++ r) /\ is_key_value_separator CONF t = true.
Proof.
  intros t r [-> | ->]; (split; [|repeat split; discriminate]); [apply reads_fuel, reads_mark; cbn; auto|apply reads_equals].
Qed.
Lemma chunk_sep : forall sep g ts, is_sep sep -> gapn g -> chunk ts -> chunk (sep :: g ++ ts).
Proof.
  intros sep g ts S G [C1 [C2 [C3 [C4 C5]]]]. assert (Ln : List.last (sep :: g ++ ts) TEnd = List.last ts TEnd) by (change (sep :: g ++ ts) with ((sep :: g) ++ ts); apply last_app, C2).
  split; [|split; [discriminate|]; split; [destruct S as [-> | ->]; reflexivity|]; rewrite Ln; auto].
  intros k r N. destruct (sep_reads sep (render_tokens (g ++ ts) ++ r) S) as [R [Sm _]]. apply sp_tok; [exact R|]. rewrite Sm. apply gap_spelt; [exact G|intro; apply C1, N|exact C2|exact C3|reflexivity].
Qed.
Lemma chunk_key : forall ks g ts, chunk ks -> gapn g -> chunk ts -> is_simple_value (hd TEnd ts) = false -> (forall r, neutral (render_tokens ts ++ r)) -> chunk (ks ++ g ++ ts).
Proof.
  intros ks g ts [K1 [K2 [K3 [K4 K5]]]] G [C1 [C2 [C3 [C4 C5]]]] Sm Nt.
  assert (Ln : List.last (ks ++ g ++ ts) TEnd = List.last ts TEnd) by (rewrite app_assoc; apply last_app, C2).
  split; [|split; [destruct ks; [congruence|discriminate]|]; split; [destruct ks; [congruence|exact K3]|]; rewrite Ln; auto].
  intros k r N. apply (spelt_app k ks (render_tokens (g ++ ts) ++ r)); [apply K1, gap_neutral, Nt; exact G|reflexivity|exact K4|].
  intro k2. apply gap_spelt; [exact G|intro; apply C1, N|exact C2|exact C3|rewrite Sm; apply andb_false_r].
Qed.
Lemma collect_gap : forall g t r, gapn g -> solid t = true -> is_comment t = false -> t <> TNewline -> collect CONF LEnd (g ++ t :: r) = Ok (map NTok g, t, r).
Proof.
  intros g t r [->|[w [-> _]]] S C N; [apply collect_solid; assumption|]. change (collect CONF LEnd ([TIgnored w] ++ t :: r)) with ('(ns, t', r') <- collect CONF LEnd (t :: r) ;; Ok (NTok (TIgnored w) :: ns, t', r')). rewrite collect_solid by assumption. reflexivity.
Qed.
Lemma consolidate_gap : forall p g ts v r, gapn g -> ts <> [] -> solid (hd TEnd ts) = true -> is_comment (hd TEnd ts) = false -> hd TEnd ts <> TNewline ->
  consolidate_values p CONF LEnd (ts ++ r) = Ok ([], Some v, r) -> consolidate_values p CONF LEnd (g ++ ts ++ r) = Ok (map NTok g, Some v, r).
Proof.
  intros p g [|t ts] v r G N S C Nl H; [congruence|]. cbn [hd app] in *. unfold consolidate_values in *. rewrite (collect_gap g) by assumption. rewrite (collect_solid t) in H by assumption. cbn [bind] in *.
  step H as [[[vs c] t'] r'] L. rewrite L. cbn [bind]. destruct (c <? 2)%nat.
  - step H as [[before v'] r''] Sv. rewrite Sv. cbn [bind app] in *. injection H as -> -> ->. rewrite app_nil_r. reflexivity.
  - destruct (put_back_trailing (rev vs) (t' :: r')) as [vs' r'']. injection H as -> ->. reflexivity.
Qed.
Lemma key_read : forall ks pn t2 r2, Forall (fun t => keyish t = true) ks -> ks <> [] -> keyish t2 = false -> parse_path_expression false CONF ks LEnd = Ok pn ->
  parse_key CONF LEnd (hd TEnd ks) (tl ks ++ t2 :: r2) = Ok (pn, t2 :: r2).
Proof.
  intros [|k ks] pn t2 r2 F N K P; [congruence|]. pose proof (key_all _ _ r2 F K) as A. cbn [hd tl]. unfold key_list in A. cbn [app] in A. unfold parse_key. rewrite A. cbn [bind]. rewrite P. reflexivity.
Qed.
Lemma field_finish : forall (n : node) (pn : path_node) (keys : list str) (r : list token), fst pn <> [] ->
  exists keys', match fst pn with
  | [] => Stuck UNullDeref
  | [key] => if existsb (str_eqb key) keys then if is_json CONF then Throw EParse else Ok (n, keys, r) else Ok (n, key :: keys, r)
  | key :: _ => if is_json CONF then Throw EConfig else Ok (n, key :: keys, r)
  end = Ok (n, keys', r).
Proof. intros n pn keys r H. destruct (fst pn) as [|k [|k2 p]]; [congruence| |cbn; eauto]. destruct (existsb (str_eqb k) keys); cbn; eauto. Qed.
Lemma gapn_kept : forall g x, gapn g -> kept (map NTok g ++ x) = kept x.
Proof. intros g x [->|[w [-> _]]]; reflexivity. Qed.
Lemma field_sep_ok : forall pn g1 sep g2 v tv, key_ok pn -> gapn g1 -> is_sep sep -> gapn g2 -> value_ok v tv -> is_layout v = false ->
  exists ts, fieldly (NField (NPath pn :: map NTok g1 ++ NTok sep :: map NTok g2 ++ [v])) ts /\ chunk ts /\
    render_tokens ts = render_nodes (NPath pn :: map NTok g1 ++ NTok sep :: map NTok g2 ++ [v]).
Proof.
  intros pn g1 sep g2 v tv [ks [pn' [Rk [Ck [Fk [Ik [Pk [Ek Nk]]]]]]]] G1 S G2 [Rv [Cv [Hc [Hn Av]]]] Ly.
  pose proof Ck as [_ [Kn [Ks _]]]. pose proof Cv as [_ [Vn [Vs _]]]. destruct (sep_reads sep [] S) as [_ [Sm [Sd [Sc [Sn [Sk [_ Kv]]]]]]].
  exists (ks ++ g1 ++ sep :: g2 ++ tv). split; [|split].
  - exists (hd TEnd ks), (tl ks ++ g1 ++ sep :: g2 ++ tv). split; [destruct ks; [congruence|reflexivity]|].
    split; [destruct ks; [congruence|]; inversion Fk; assumption|]. split; [exact Ks|].
    intros fuel keys r St L. destruct (Av fuel r St ltac:(rewrite !app_length in L; cbn [List.length] in L; rewrite app_length in L; lia)) as [v' [Q [Lv Bv]]].
    assert (Nk' : fst pn' <> []) by (rewrite Ek; exact Nk).
    destruct (field_finish (NField (NPath pn' :: map NTok g1 ++ NTok sep :: map NTok g2 ++ [v'])) pn' keys r Nk') as [keys' Fi].
    exists (NField (NPath pn' :: map NTok g1 ++ NTok sep :: map NTok g2 ++ [v'])), keys'. split; [|split; [reflexivity|]].
    + unfold one_item. rewrite Ik. unfold parse_field. replace ((tl ks ++ g1 ++ sep :: g2 ++ tv) ++ r) with (tl ks ++ g1 ++ sep :: g2 ++ tv ++ r) by (rewrite <- !app_assoc; cbn [app]; rewrite <- !app_assoc; reflexivity).
      assert (Pk' : parse_key CONF LEnd (hd TEnd ks) (tl ks ++ g1 ++ sep :: g2 ++ tv ++ r) = Ok (pn', g1 ++ sep :: g2 ++ tv ++ r)).
      { destruct G1 as [->|[w [-> W]]]; cbn [app]; apply key_read; auto. }
      rewrite Pk'. cbn [bind]. rewrite (collect_gap g1) by assumption. cbn [bind]. rewrite Kv.
      assert (Nb : match sep with TOpenCurly => true | _ => false end = false) by (destruct S as [-> | ->]; reflexivity). rewrite Nb, andb_false_r. cbn [negb].
      rewrite (consolidate_gap _ g2 tv v' r G2 Vn Vs Hc Hn Q). cbn [bind]. exact Fi.
    + change (bones (NField (NPath pn' :: map NTok g1 ++ NTok sep :: map NTok g2 ++ [v']))) with (NField (NPath (fst pn', []) :: kept (map NTok g1 ++ NTok sep :: map NTok g2 ++ [v']))).
      change (bones (NField (NPath pn :: map NTok g1 ++ NTok sep :: map NTok g2 ++ [v]))) with (NField (NPath (fst pn, []) :: kept (map NTok g1 ++ NTok sep :: map NTok g2 ++ [v]))).
      rewrite !gapn_kept by exact G1.
      assert (Ke : forall x, is_layout x = false -> kept (NTok sep :: map NTok g2 ++ [x]) = [NTok sep; bones x]).
      { intros x Lx. change (NTok sep :: map NTok g2 ++ [x]) with ([NTok sep] ++ map NTok g2 ++ [x]). rewrite kept_app, gapn_kept by exact G2. unfold kept. cbn [flat_map]. rewrite Lx. destruct S as [-> | ->]; reflexivity. }
      rewrite !Ke by assumption. rewrite Ek, Bv. reflexivity.
  - apply chunk_key; [exact Ck|exact G1|apply chunk_sep; assumption|exact Sm|]. intro r. rewrite render_cons', <- app_assoc. apply sep_reads, S.
  - unfold render_nodes. cbn [flat_map node_tokens]. rewrite !flat_map_app. cbn [flat_map]. rewrite flat_map_app. cbn [flat_map]. rewrite app_nil_r.
    assert (Tg : forall g, flat_map node_tokens (map NTok g) = g) by (induction g as [|x g IHg]; [reflexivity|]; cbn; rewrite IHg; reflexivity).
    rewrite !Tg. destruct pn as [p tsn]. cbn [snd] in Rk. change (flat_map node_tokens (NTok sep :: map NTok g2 ++ [v])) with (sep :: flat_map node_tokens (map NTok g2 ++ [v])). rewrite ?flat_map_app, ?Tg. cbn [flat_map app]. rewrite ?app_nil_r.
    rewrite !render_app', !render_cons', !render_app', Rk, Rv. unfold render_node. change (render_tokens (node_tokens (NTok sep))) with (token_text sep ++ []). rewrite app_nil_r. reflexivity.
Qed.

Lemma node_gap : forall g, flat_map node_tokens (map NTok g) = g.
Proof. induction g as [|x g IHg]; [reflexivity|]. cbn. rewrite IHg. reflexivity. Qed.
Lemma field_object_ok : forall pn g1 v tv, key_ok pn -> gapn g1 -> object_ok v tv -> is_layout v = false ->
  exists ts, fieldly (NField (NPath pn :: map NTok g1 ++ [v])) ts /\ chunk ts /\ render_tokens ts = render_nodes (NPath pn :: map NTok g1 ++ [v]).
Proof.
  intros pn g1 v tv [ks [pn' [Rk [Ck [Fk [Ik [Pk [Ek Nk]]]]]]]] G1 [Rv [Cv [u [-> Av]]]] Ly.
  pose proof Ck as [_ [Kn [Ks _]]]. exists (ks ++ g1 ++ TOpenCurly :: u). split; [|split].
  - exists (hd TEnd ks), (tl ks ++ g1 ++ TOpenCurly :: u). split; [destruct ks; [congruence|reflexivity]|].
    split; [destruct ks; [congruence|]; inversion Fk; assumption|]. split; [exact Ks|].
    intros fuel keys r St L. destruct (Av fuel r ltac:(rewrite !app_length in L; cbn [List.length] in L; lia)) as [v' [Q [Vv [Lv Bv]]]].
    assert (Nk' : fst pn' <> []) by (rewrite Ek; exact Nk).
    destruct (field_finish (NField (NPath pn' :: map NTok g1 ++ [v'])) pn' keys r Nk') as [keys' Fi].
    exists (NField (NPath pn' :: map NTok g1 ++ [v'])), keys'. split; [|split; [reflexivity|]].
    + unfold one_item. rewrite Ik. unfold parse_field. replace ((tl ks ++ g1 ++ TOpenCurly :: u) ++ r) with (tl ks ++ g1 ++ TOpenCurly :: u ++ r) by (rewrite <- !app_assoc; reflexivity).
      assert (Pk' : parse_key CONF LEnd (hd TEnd ks) (tl ks ++ g1 ++ TOpenCurly :: u ++ r) = Ok (pn', g1 ++ TOpenCurly :: u ++ r)).
      { destruct G1 as [->|[w [-> W]]]; cbn [app]; apply key_read; auto. }
      rewrite Pk'. cbn [bind]. rewrite (collect_gap g1) by (assumption || reflexivity || discriminate). cbn [bind is_json negb andb]. rewrite Q. cbn [bind]. exact Fi.
    + change (bones (NField (NPath pn' :: map NTok g1 ++ [v']))) with (NField (NPath (fst pn', []) :: kept (map NTok g1 ++ [v']))).
      change (bones (NField (NPath pn :: map NTok g1 ++ [v]))) with (NField (NPath (fst pn, []) :: kept (map NTok g1 ++ [v]))).
      rewrite !gapn_kept by exact G1. unfold kept. cbn [flat_map]. rewrite Lv, Ly, Ek, Bv. reflexivity.
  - apply chunk_key; [exact Ck|exact G1|exact Cv|reflexivity|]. intro r. reflexivity.
  - unfold render_nodes. cbn [flat_map]. rewrite flat_map_app, node_gap. cbn [flat_map]. rewrite app_nil_r. destruct pn as [p tsn]. cbn [snd node_tokens] in *. rewrite !render_app', Rk, Rv. reflexivity.
Qed.

(** ** Objects *)
Fixpoint squeeze (its : list item) : list item :=
  match its with
  | IL (TIgnored w) :: r => match squeeze r with IL (TIgnored w2) :: r2 => IL (TIgnored (w ++ w2)) :: r2 | r' => IL (TIgnored w) :: r' end
  | i :: r => i :: squeeze r
  | [] => []
  end.
Lemma blank_text_app : forall a b, blank_text a = true -> blank_text b = true -> blank_text (a ++ b) = true.
Proof. intros [|c a] b A B; [discriminate|]. unfold blank_text in *. cbn [app]. destruct b as [|d b]; [discriminate|]. rewrite app_comm_cons, forallb_app, A. exact B. Qed.
Lemma squeeze_blank : forall w r, (exists w2 r2, squeeze r = IL (TIgnored w2) :: r2 /\ squeeze (IL (TIgnored w) :: r) = IL (TIgnored (w ++ w2)) :: r2) \/
  (match squeeze r with i :: _ => is_blank_item i = false | [] => True end /\ squeeze (IL (TIgnored w) :: r) = IL (TIgnored w) :: squeeze r).
Proof.
  intros w r. cbn [squeeze]. destruct (squeeze r) as [|[t|n ts] r2]; [right; split; reflexivity| |right; split; reflexivity]. destruct t; try (right; split; reflexivity). left. eauto.
Qed.
Lemma squeeze_ok : forall its, squeezed (squeeze its) /\ render_tokens (itoks (squeeze its)) = render_tokens (itoks its) /\ ibones (squeeze its) = ibones its /\
  (chunks its -> chunks (squeeze its)) /\ (fields_only its -> fields_only (squeeze its)) /\ forall p e, irun p its = Some e -> irun p (squeeze its) = Some e.
Proof.
  induction its as [|i its IH]; [repeat split; auto|]. destruct IH as [I1 [I2 [I3 [I4 [I5 I6]]]]].
  destruct (is_blank_item i) eqn:B.
  - destruct i as [t|]; [|discriminate]. destruct t; try discriminate B. rename text into w. change (itoks (IL (TIgnored w) :: its)) with (TIgnored w :: itoks its). change (ibones (IL (TIgnored w) :: its)) with (ibones its). rewrite render_cons'.
    destruct (squeeze_blank w its) as [[w2 [r2 [E ->]]]|[H ->]].
    + rewrite E in *. change (itoks (IL (TIgnored w2) :: r2)) with (TIgnored w2 :: itoks r2) in I2. change (itoks (IL (TIgnored (w ++ w2)) :: r2)) with (TIgnored (w ++ w2) :: itoks r2). rewrite render_cons' in I2 |- *.
      split; [exact I1|]. split; [rewrite <- I2; cbn [token_text]; rewrite <- app_assoc; reflexivity|]. split; [exact I3|].
      split; [intro F; inversion F as [|? ? _ F']; subst; specialize (I4 F'); inversion I4; subst; constructor; [exact I|assumption]|].
      split; [intro F; inversion F as [|? ? _ F']; subst; specialize (I5 F'); inversion I5; subst; constructor; [exact I|assumption]|].
      intros p e R. cbn [irun] in R |- *. destruct (pass' p (TIgnored w)) as [p1|] eqn:P1; [|discriminate]. specialize (I6 _ _ R). cbn [irun] in I6. destruct (pass' p1 (TIgnored w2)) as [p2|] eqn:P2; [|discriminate].
      assert (X : pass' p (TIgnored (w ++ w2)) = Some p2).
      { unfold pass', pass in *. destruct p; try discriminate P1; destruct (blank_text w) eqn:B1; try discriminate P1; injection P1 as <-; destruct (blank_text w2) eqn:B2; try discriminate P2; rewrite (blank_text_app _ _ B1 B2); exact P2. }
      rewrite X. exact I6.
    + change (itoks (IL (TIgnored w) :: squeeze its)) with (TIgnored w :: itoks (squeeze its)). rewrite render_cons'. split; [split; [intros _; exact H|exact I1]|]. split; [rewrite I2; reflexivity|]. split; [exact I3|].
      split; [intro F; inversion F; subst; constructor; [assumption || exact I|(apply I4 || apply I5); assumption]|]. split; [intro F; inversion F; subst; constructor; [assumption || exact I|(apply I4 || apply I5); assumption]|].
      intros p e R. cbn [irun] in *. destruct (pass' p (TIgnored w)); [apply I6, R|discriminate].
  - assert (E : squeeze (i :: its) = i :: squeeze its) by (destruct i as [t|]; [destruct t; try discriminate B|]; reflexivity). rewrite E.
    split; [split; [rewrite B; discriminate|exact I1]|]. change (itoks (i :: squeeze its)) with ((match i with IL t => [t] | IX _ ts => ts end) ++ itoks (squeeze its)). change (itoks (i :: its)) with ((match i with IL t => [t] | IX _ ts => ts end) ++ itoks its).
    rewrite !render_app', I2. split; [reflexivity|]. split; [unfold ibones in *; cbn [flat_map]; rewrite I3; reflexivity|]. split; [intro F; inversion F; subst; constructor; [assumption || exact I|(apply I4 || apply I5); assumption]|]. split; [intro F; inversion F; subst; constructor; [assumption || exact I|(apply I4 || apply I5); assumption]|].
    intros p e R. destruct i as [t|n ts]; cbn [irun] in *; [destruct (pass' p t); [apply I6, R|discriminate]|destruct p; try discriminate R; apply I6, R].
Qed.

Definition low (s : place * bool) : place := if snd s then Behind else fst s.
Definition field_good (fc : list node) : Prop := exists ts, fieldly (NField (core_of fc)) ts /\ chunk ts /\ render_tokens ts = render_nodes (core_of fc).
Lemma field_split : forall fc, fc = lead_of fc ++ core_of fc.
Proof. induction fc as [|c fc IH]; [reflexivity|]. destruct c; cbn [lead_of core_of app]; try (f_equal; exact IH). Qed.
Lemma lead_bones : forall fc, inline_lead (lead_of fc) = true \/ line_lead (lead_of fc) = true -> bones (NField fc) = bones (NField (core_of fc)).
Proof.
  intros fc H. change (NField (kept fc) = NField (kept (core_of fc))). f_equal. rewrite (field_split fc) at 1. rewrite kept_app.
  assert (F : Forall (fun c => is_layout c = true) (lead_of fc)).
  { unfold inline_lead, line_lead in H. assert (G : forall l, forallb (fun c => is_newline c || is_gap c) l = true -> Forall (fun c => is_layout c = true) l).
    { intros l Hl. rewrite forallb_forall in Hl. apply Forall_forall. intros c Ic. specialize (Hl _ Ic). destruct c; try discriminate Hl. destruct t; try discriminate Hl; reflexivity. }
    destruct H as [H|H]; [apply G; rewrite forallb_forall in H |- *; intros c Ic; rewrite (H c Ic); apply orb_true_r|].
    destruct (lead_of fc) as [|c l]; [discriminate|]. destruct c; try discriminate H. destruct t; try discriminate H. constructor; [reflexivity|apply G, H]. }
  assert (K : kept (lead_of fc) = []); [|rewrite K; reflexivity]. clear H. induction F as [|c l Hc F IH]; [reflexivity|]. unfold kept in *. cbn [flat_map]. rewrite Hc. exact IH.
Qed.
Lemma lead_items : forall l p, forallb (fun c => is_newline c || is_gap c) l = true -> p = Before ->
  exists L, l = map NTok L /\ forall its, irun p (map IL L ++ its) = irun Before its.
Proof.
  induction l as [|c l IH]; intros p H ->; [exists []; split; reflexivity|]. cbn [forallb] in H. apply andb_true_iff in H. destruct H as [Hc H]. destruct (IH Before H eq_refl) as [L [-> A]].
  destruct c; try discriminate Hc. exists (t :: L). split; [reflexivity|]. intro its. cbn [map app irun]. destruct t; try discriminate Hc; [exact (A its)|]. unfold is_gap in Hc. cbn [is_newline orb] in Hc. unfold pass', pass. rewrite Hc. apply A.
Qed.
