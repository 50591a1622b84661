(** Removing an absent path from a parsed JSON document. *)
From Verif Require Import Base BaseLemmas Util_Model Num_Model Path_Model Path_Spec Path_Lemmas Token_Model PathParser_Model
  PathParser_Lemmas PathParser_Lemmas3 Doc_Model Doc_Spec Doc_Lemmas Doc_Lemmas2 Doc_Lemmas3 Edit_Model Edit_Spec Edit_Lemmas Edit_Lemmas2 Edit_Lemmas3
  Edit_Lemmas4 Edit_Lemmas5.

(** Every comma of an object is followed by a field. *)
Fixpoint tidy (cs : list node) : bool :=
  match cs with
  | [] => true
  | c :: cs' => (negb (is_comma c) || existsb is_field cs') && tidy cs'
  end.
Fixpoint tidy_node (n : node) : bool :=
  match n with
  | NObject cs => tidy cs && forallb tidy_node cs
  | NField cs | NInclude cs _ | NConcat cs | NArray cs => forallb tidy_node cs
  | _ => true
  end.

Lemma tidy_app : forall a b, existsb is_comma a = false -> tidy (a ++ b) = tidy b.
Proof.
  induction a as [|c a IH]; intros b H; [reflexivity|]. cbn in H. apply orb_false_iff in H. destruct H as [H1 H2]. cbn [app tidy].
  rewrite H1. apply IH. exact H2.
Qed.
Lemma collect_no_comma : forall f e ts ns t r, collect f e ts = Ok (ns, t, r) -> existsb is_comma ns = false /\ forallb tidy_node ns = true.
Proof.
  intros f e. induction ts as [|t0 ts IH]; intros ns t r H; cbn [collect] in H; [destruct e; discriminate|].
  destruct (json_forbids f t0); [discriminate|].
  destruct (match t0 with TIgnored _ | TNewline => true | _ => is_unquoted_whitespace t0 end) eqn:E.
  - inv_bind H. destruct a as [[ns' t'] r']. injection Hk as <- <- <-. destruct (IH _ _ _ Hb) as [I1 I2]. cbn. rewrite I1, I2.
    destruct t0; try discriminate; split; reflexivity.
  - destruct t0; try (injection H as <- <- <-; split; reflexivity). inv_bind H. destruct a as [[ns' t'] r']. injection Hk as <- <- <-.
    destruct (IH _ _ _ Hb) as [I1 I2]. cbn. rewrite I1, I2. split; reflexivity.
Qed.

Definition tidies (pv : token -> list token -> result (node * list token)) : Prop :=
  forall t ts v r, pv t ts = Ok (v, r) -> tidy_node v = true /\ is_field v = false.

Lemma parse_field_tidy : forall pv e keys t ts n keys' r, tidies pv -> parse_field pv JSON e keys t ts = Ok (n, keys', r) ->
  tidy_node n = true /\ is_field n = true.
Proof.
  intros pv e keys t ts n keys' r Hpv H. unfold parse_field in H. inv_bind H. destruct a as [pn r1]. inv_bind Hk. destruct a as [[ws ak] r2].
  apply collect_no_comma in Hb0. destruct Hb0 as [_ W]. inv_bind Hk0. destruct a as [nodes r3]. cbn [is_json negb andb] in Hb0.
  destruct (negb (is_key_value_separator JSON ak)); [discriminate|]. cbn [consolidate_values bind] in Hb0.
  inv_bind Hb0. destruct a as [[ws' t'] r5]. inv_bind Hk0. destruct a as [v r6]. injection Hk1 as <- <-.
  apply collect_no_comma in Hb1. destruct Hb1 as [_ W']. apply Hpv in Hb0. destruct Hb0 as [V _].
  assert (Hf : tidy_node (NField (NPath pn :: ws ++ NTok ak :: [] ++ ws' ++ [v])) = true).
  { cbn. rewrite forallb_app, W. cbn. rewrite forallb_app, W'. cbn. rewrite V. reflexivity. }
  cbn [is_json] in Hk. destruct (fst pn) as [|key [|]]; [discriminate| |discriminate].
  destruct (existsb (str_eqb key) keys); [discriminate|]. injection Hk as <- <- <-. auto.
Qed.

Lemma separator_tidy : forall e ts sn sep r, check_element_separator JSON e ts = Ok (sn, sep, r) ->
  forallb tidy_node sn = true /\ (sep = false -> existsb is_comma sn = false) /\
  (forall b, existsb is_field b = true -> tidy (sn ++ b) = tidy b).
Proof.
  intros e ts sn sep r H. cbn [check_element_separator] in H. inv_bind H. destruct a as [[ws t] r'].
  apply collect_no_comma in Hb. destruct Hb as [C W]. destruct t; injection Hk as <- <- _;
    try (split; [exact W|split; [auto|intros b _; apply tidy_app; exact C]]).
  split; [rewrite forallb_app, W; reflexivity|]. split; [discriminate|]. intros b Hb. rewrite <- app_assoc, tidy_app by exact C.
  cbn [app tidy]. rewrite Hb. reflexivity.
Qed.

Lemma tidy_cons_field : forall c cs, is_field c = true -> tidy (c :: cs) = tidy cs.
Proof. intros c cs H. destruct c; try discriminate. reflexivity. Qed.

Lemma object_loop_tidy : forall pv e k after keys ts ns r, tidies pv -> object_loop pv JSON e k true after keys ts = Ok (ns, r) ->
  tidy ns = true /\ forallb tidy_node ns = true /\ (after = true -> existsb is_field ns = true).
Proof.
  intros pv e. induction k as [|k IH]; intros after keys ts ns r Hpv H; cbn [object_loop] in H; [discriminate|].
  inv_bind H. destruct a as [[ws t] r0]. apply collect_no_comma in Hb. destruct Hb as [C W].
  assert (Hitem :
    ('(item, keys', r2) <- parse_field pv JSON e keys t r0 ;;
      '(sn, separated, r3) <- check_element_separator JSON e r2 ;;
      if separated then
        '(rest, r4) <- object_loop pv JSON e k true true keys' r3 ;;
        Ok (ws ++ item :: sn ++ rest, r4)
      else
        '(ws2, t2, r4) <- collect JSON e r3 ;;
        match t2, true with
        | TCloseCurly, true => Ok (ws ++ item :: sn ++ ws2 ++ [NTok t2], r4)
        | TEnd, false => Ok (ws ++ item :: sn ++ ws2, t2 :: r4)
        | _, _ => Throw EParse
        end) = Ok (ns, r) -> tidy ns = true /\ forallb tidy_node ns = true /\ (after = true -> existsb is_field ns = true)).
  { intro E. inv_bind E. destruct a as [[item keys'] r2]. apply parse_field_tidy in Hb; [|exact Hpv]. destruct Hb as [I1 I2].
    inv_bind Hk0. destruct a as [[sn sep] r3]. apply separator_tidy in Hb. destruct Hb as [S1 [S2 S3]]. destruct sep.
    - inv_bind Hk1. destruct a as [rest r4]. injection Hk0 as <- <-. apply IH in Hb; [|exact Hpv]. destruct Hb as [R1 [R2 R3]].
      specialize (R3 eq_refl). rewrite tidy_app by exact C. rewrite tidy_cons_field by exact I2. rewrite S3 by exact R3.
      split; [exact R1|]. rewrite forallb_app, W. cbn [forallb]. rewrite I1, forallb_app, S1, R2. split; [reflexivity|].
      intros _. rewrite existsb_app. cbn [existsb]. rewrite I2. apply orb_true_r.
    - inv_bind Hk1. destruct a as [[ws2 t2] r4]. apply collect_no_comma in Hb. destruct Hb as [C2 W2].
      destruct t2; try discriminate. injection Hk0 as <- <-. specialize (S2 eq_refl).
      rewrite tidy_app by exact C. rewrite tidy_cons_field by exact I2. rewrite !tidy_app by assumption. split; [reflexivity|].
      rewrite forallb_app, W. cbn [forallb]. rewrite I1, !forallb_app, S1, W2. split; [reflexivity|].
      intros _. rewrite existsb_app. cbn [existsb]. rewrite I2. apply orb_true_r. }
  cbn [is_json negb andb] in Hk. destruct t; try exact (Hitem Hk).
  destruct after; [discriminate|]. injection Hk as <- <-. rewrite tidy_app by exact C. split; [reflexivity|].
  rewrite forallb_app, W. split; [reflexivity|discriminate].
Qed.

Lemma array_loop_tidy : forall pv e k ts ns r, tidies pv -> array_loop pv JSON e k ts = Ok (ns, r) -> forallb tidy_node ns = true.
Proof.
  intros pv e. induction k as [|k IH]; intros ts ns r Hpv H; cbn [array_loop] in H; [discriminate|].
  inv_bind H. destruct a as [[sn sep] r0]. apply separator_tidy in Hb. destruct Hb as [S1 _].
  destruct sep; cbn [negb] in Hk.
  - cbn [consolidate_values bind] in Hk. inv_bind Hk. destruct a as [[ws t] r2]. apply collect_no_comma in Hb. destruct Hb as [_ W].
    destruct (is_value_start t); [|cbn [is_json negb andb] in Hk0; discriminate].
    inv_bind Hk0. destruct a as [v r3]. inv_bind Hk. destruct a as [rest r4]. injection Hk0 as <- <-.
    apply Hpv in Hb. apply IH in Hb0; [|exact Hpv]. rewrite forallb_app, S1. cbn [app]. rewrite forallb_app, W. cbn [forallb].
    rewrite (proj1 Hb), Hb0. reflexivity.
  - inv_bind Hk. destruct a as [[ws t] r1]. apply collect_no_comma in Hb. destruct Hb as [_ W].
    destruct t; try discriminate. injection Hk0 as <- <-. rewrite !forallb_app, S1, W. reflexivity.
Qed.

Lemma parse_value_tidy : forall n e, tidies (parse_value n JSON e).
Proof.
  induction n as [|n IH]; intros e t ts v r H; cbn [parse_value] in H; [discriminate|].
  destruct t; try discriminate; try (injection H as <- <-; split; reflexivity).
  - unfold parse_object in H. inv_bind H. destruct a as [ns r0]. injection Hk as <- <-. apply object_loop_tidy in Hb; [|apply IH].
    destruct Hb as [H1 [H2 _]]. split; [|reflexivity]. cbn. rewrite H1, H2. reflexivity.
  - unfold parse_array in H. cbn [consolidate_values bind] in H. inv_bind H. destruct a as [cs r1]. injection Hk as <- <-. split; [|reflexivity].
    inv_bind Hb. destruct a as [[ws t] r2]. apply collect_no_comma in Hb0. destruct Hb0 as [_ W]. cbn [tidy_node forallb].
    assert (Hv : ('(v, r3) <- parse_value n JSON e t r2 ;; '(rest, r4) <- array_loop (parse_value n JSON e) JSON e (S (List.length r3)) r3 ;; Ok (ws ++ v :: rest, r4)) = Ok (cs, r1) ->
      forallb tidy_node cs = true).
    { intro E. inv_bind E. destruct a as [v r3]. inv_bind Hk0. destruct a as [rest r4]. injection Hk1 as <- <-.
      apply IH in Hb. apply array_loop_tidy in Hb0; [|apply IH]. rewrite forallb_app, W. cbn [forallb]. rewrite (proj1 Hb), Hb0. reflexivity. }
    destruct t; try discriminate; try exact (Hv Hk). injection Hk as <- <-. cbn [app]. rewrite forallb_app, W. reflexivity.
Qed.

Lemma parse_document_tidy : forall s root, parse_document JSON s = Ok root -> forallb tidy_node root = true.
Proof.
  intros s root H. unfold parse_document, after_start in H. destruct (delivered _) as [[|t0 ts] e]; [destruct e; discriminate|].
  unfold parse_root in H. cbn [is_json] in H. inv_bind H. destruct a as [[ws t] r].
  inv_bind Hk. destruct a as [[mc children] r1]. inv_bind Hk0. destruct a as [[ws2 t2] r2].
  apply collect_no_comma in Hb. apply collect_no_comma in Hb1. destruct Hb as [_ W], Hb1 as [_ W2].
  assert (Hc : mc = false /\ forallb tidy_node children = true).
  { destruct t; try discriminate;
      (inv_bind Hb0; destruct a as [v r3]; injection Hk0 as <- <- <-; apply parse_value_tidy in Hb; rewrite forallb_app, W; cbn [forallb];
       rewrite (proj1 Hb); auto). }
  destruct Hc as [-> Hc]. destruct t2; try discriminate. injection Hk as <-. rewrite forallb_app, Hc, W2. reflexivity.
Qed.

Lemma value_tidy : forall fc v, value_of fc = Some v -> forallb tidy_node fc = true -> tidy_node v = true.
Proof.
  induction fc as [|c fc IH]; intros v H Hw; [discriminate|]. cbn [forallb] in Hw. apply andb_true_iff in Hw.
  destruct Hw as [Hc Hw]. destruct c; cbn in H; try (eapply IH; eassumption); injection H as <-; exact Hc.
Qed.

Lemma change_absent_json : forall n cs p cs', p <> [] -> wfs cs = true -> tidy cs = true -> forallb tidy_node cs = true ->
  (forall m, hasb m p cs = false) -> change_value_n n JSON cs p None = Ok cs' -> cs' = cs.
Proof.
  induction n as [|n IH]; intros cs p cs' Hp Hw Ht Htn Hh H; [discriminate|]. cbn [change_value_n] in H. inv_bind H.
  destruct a as [[after seen] vc]. injection Hk as <-.
  assert (G : forall cs i prev after seen vc, wfs cs = true -> tidy cs = true -> forallb tidy_node cs = true -> (forall m, hasb m p cs = false) ->
     change_children (change_value_n n JSON) JSON p None i prev cs = Ok (after, seen, vc) -> after = cs /\ vc = None /\ seen = existsb is_field cs).
  { clear - IH Hp. induction cs as [|c cs IHcs]; intros i prev after seen vc Hw Ht Htn Hh H; cbn [change_children] in H.
    { injection H as <- <- <-. auto. }
    rewrite wfs_cons in Hw. apply andb_true_iff in Hw. destruct Hw as [Hc Hw].
    cbn [tidy] in Ht. apply andb_true_iff in Ht. destruct Ht as [Ht1 Ht2]. cbn [forallb] in Htn. apply andb_true_iff in Htn. destruct Htn as [Htn1 Htn2].
    assert (Hh1 : forall m, hasb m p [c] = false).
    { intro m. specialize (Hh m). rewrite hasb_cons in Hh. apply orb_false_iff in Hh. apply Hh. }
    assert (Hh2 : forall m, hasb m p cs = false).
    { intro m. specialize (Hh m). rewrite hasb_cons in Hh. apply orb_false_iff in Hh. apply Hh. }
    inv_bind H. destruct a as [[after0 seen0] vc0]. destruct (IHcs _ _ _ _ _ Hw Ht2 Htn2 Hh2 Hb) as [-> [-> ->]].
    cbn [existsb].
    destruct c; try (injection Hk as <- <- <-; auto).
    - cbn [is_json andb] in Hk. assert (E : negb (existsb is_field cs) && is_comma (NTok t) = false).
      { destruct (is_comma (NTok t)); [|apply andb_false_r]. cbn in Ht1. rewrite Ht1. reflexivity. }
      rewrite E in Hk. injection Hk as <- <- <-. auto.
    - rewrite andb_false_r in Hk. injection Hk as <- <- <-. auto.
    - cbn [wf_node] in Hc. apply andb_true_iff in Hc. destruct Hc as [Hf Hcs]. cbn [is_field orb].
      destruct (field_parts _ Hf) as [toks [ov [E1 [Hne [E2 [E3 E4]]]]]]. rewrite E1 in Hk. cbn [bind] in Hk.
      destruct (relate_ops (key_of children) p Hne Hp) as [O1 [O2 [O3 O4]]]. rewrite O1, O2, O3 in Hk.
      pose proof (Hh1 1%nat) as Hh'. rewrite hasb_field in Hh'. destruct (relate (key_of children) p) as [| |r|] eqn:Er; try discriminate.
      + destruct (O4 r eq_refl) as [O5 [O6 O7]]. cbn [bind andb negb] in Hk. rewrite E2, O5 in Hk. cbn [bind] in Hk.
        destruct ov; try (injection Hk as <- <- <-; auto).
        inv_bind Hk. inv_bind Hk0. injection Hk as <- <- <-. split; [|auto].
        pose proof (value_wf _ _ E3 Hcs) as Hvw. cbn [wf_node] in Hvw. apply andb_true_iff in Hvw. destruct Hvw as [_ Hvw].
        cbn [tidy_node] in Htn1. pose proof (value_tidy _ _ E3 Htn1) as Hvt. cbn [tidy_node] in Hvt. apply andb_true_iff in Hvt. destruct Hvt as [Hvt1 Hvt2].
        apply IH in Hb0; [|exact O6|exact Hvw|exact Hvt1|exact Hvt2|].
        * subst a. rewrite (replace_same _ _ _ Hb1 E3). reflexivity.
        * intro m. specialize (Hh1 (S m)). rewrite hasb_field, Er, E3 in Hh1. exact Hh1.
      + cbn [bind andb negb] in Hk. injection Hk as <- <- <-. auto. }
  exact (proj1 (G _ _ _ _ _ _ Hw Ht Htn Hh Hb)).
Qed.

Lemma remove_absent_json : forall s root ps root', parse_document JSON s = Ok root -> has_path root ps = Ok false ->
  without_path JSON root ps = Ok root' -> root' = root.
Proof.
  intros s root ps root' Hs Hh H. pose proof (parse_document_sound _ _ _ Hs) as W. pose proof (parse_document_tidy _ _ Hs) as T.
  apply root_set_split in H. destruct H as [pre [ocs [post [ocs' [pn [E1 [E0 [F [E2 E3]]]]]]]]].
  assert (R : rooted root ocs) by (exists pre, post; auto). destruct (root_wf _ _ R W) as [W1 W2].
  pose proof (path_node_nonempty _ _ _ E2) as Hne. destruct (has_path_rooted _ _ _ Hh) as [p [ocs0 [Hp _]]].
  pose proof (path_node_agrees _ _ _ _ Hp E2) as Ep. destruct pn as [p0 tk]. cbn [fst] in *. subst p0.
  rewrite (rooted_has root ocs p ps) in Hh by assumption. injection Hh as Hh.
  rewrite E1, forallb_app in T. cbn [forallb tidy_node] in T. apply andb_true_iff in T. destruct T as [_ T].
  apply andb_true_iff in T. destruct T as [T _]. apply andb_true_iff in T. destruct T as [T1 T2].
  unfold change_value_on_path in E3. apply change_absent_json in E3; try assumption; [congruence|].
  intro m. destruct (Nat.le_gt_cases (List.length p) m) as [Hm|Hm].
  - rewrite (hasb_fuel m (List.length p)) by (assumption || lia). exact Hh.
  - destruct (hasb m p ocs) eqn:E; [|reflexivity]. apply (hasb_mono m (List.length p)) in E; [|lia]. congruence.
Qed.

(** In HOCON the path text of an accepted edit is a path. *)
Lemma edit_path_conf : forall root ps root',
  (exists text, with_value_text CONF root ps text = Ok root') \/ without_path CONF root ps = Ok root' ->
  exists p, new_path ps = Ok p.
Proof.
  intros root ps root' [[text H]|H].
  - unfold with_value_text in H. destruct text; [discriminate|]. inv_bind H.
    apply root_set_split in Hk. destruct Hk as [? [? [? [? [pn [_ [_ [_ [E _]]]]]]]]]. eexists. apply path_node_conf, E.
  - apply root_set_split in H. destruct H as [? [? [? [? [pn [_ [_ [_ [E _]]]]]]]]]. eexists. apply path_node_conf, E.
Qed.

Lemma set_has : forall f root ps text root', document f root -> f = CONF \/ (exists p, new_path ps = Ok p) ->
  with_value_text f root ps text = Ok root' -> has_path root' ps = Ok true.
Proof.
  intros f root ps text root' D Hp H. assert (exists p, new_path ps = Ok p) as [p Hp'].
  { destruct Hp as [-> |Hp]; [|exact Hp]. eapply edit_path_conf. eauto. }
  eapply set_then_has; eassumption.
Qed.

Lemma removed_not : forall f root ps root', document f root -> f = CONF \/ (exists p, new_path ps = Ok p) ->
  without_path f root ps = Ok root' -> has_path root' ps = Ok false.
Proof.
  intros f root ps root' D Hp H. assert (exists p, new_path ps = Ok p) as [p Hp'].
  { destruct Hp as [-> |Hp]; [|exact Hp]. eapply edit_path_conf. eauto. }
  eapply removed_then_not; eassumption.
Qed.

Lemma set_path_bad : exists s root root', parse_document JSON s = Ok root /\ with_value_text JSON root (lit "a//b") (lit "1") = Ok root' /\
  has_path root' (lit "a//b") = Throw EBadPath.
Proof. exists (lit "{}"). eexists. eexists. repeat (split; [vm_compute; reflexivity|]). vm_compute. reflexivity. Qed.

Lemma edit_endless_bad : exists s root, parse_document CONF s = Ok root /\
  is_ok (parse_value_text CONF (lit "{" ++ [nl] ++ lit "x:1}")) = true /\
  with_value_text CONF root (lit "c") (lit "{" ++ [nl] ++ lit "x:1}") = Stuck UNoTermination.
Proof. exists (lit "a=1" ++ [nl] ++ lit "b=2"). eexists. repeat (split; [vm_compute; reflexivity|]). vm_compute. reflexivity. Qed.

Lemma edit_reparse_bad : exists s root root', parse_document CONF s = Ok root /\
  with_value_text CONF root (lit "c") (lit "3") = Ok root' /\ parse_document CONF (render_document root') = Throw EParse.
Proof. exists (lit "{a:1 , b:2,}"). eexists. eexists. repeat (split; [vm_compute; reflexivity|]). vm_compute. reflexivity. Qed.
