(** Edits of JSON documents leave every comma followed by a field, so removing an absent path from an edited
    JSON document changes nothing. *)
From Verif Require Import Base BaseLemmas Util_Model Num_Model Path_Model Path_Spec Path_Lemmas Token_Model PathParser_Model
  PathParser_Lemmas PathParser_Lemmas3 Doc_Model Doc_Spec Doc_Lemmas Doc_Lemmas2 Doc_Lemmas3 Edit_Model Edit_Spec Edit_Lemmas Edit_Lemmas2 Edit_Lemmas3
  Edit_Lemmas4 Edit_Lemmas5 Edit_Lemmas6.

Lemma tidy_insert : forall x a b, is_comma x = false -> tidy (a ++ b) = true -> tidy (a ++ x :: b) = true.
Proof.
  intros x a b Hx. induction a as [|c a IH]; cbn [app tidy]; intro H.
  - rewrite Hx, H. reflexivity.
  - apply andb_true_iff in H. destruct H as [H1 H2]. rewrite (IH H2), andb_true_r. rewrite existsb_app in *. cbn [existsb].
    destruct (negb (is_comma c)); [reflexivity|]. cbn [orb] in *. apply orb_true_iff in H1. destruct H1 as [-> | ->]; [reflexivity|]. rewrite !orb_true_r. reflexivity.
Qed.
Lemma tidy_insert_comma : forall a b, existsb is_field b = true -> tidy (a ++ b) = true -> tidy (a ++ NTok TComma :: b) = true.
Proof.
  intros a b Hb. induction a as [|c a IH]; cbn [app tidy]; intro H.
  - rewrite Hb, H. reflexivity.
  - apply andb_true_iff in H. destruct H as [H1 H2]. rewrite (IH H2), andb_true_r. rewrite existsb_app in *. cbn [existsb].
    destruct (negb (is_comma c)); [reflexivity|]. cbn [orb] in *. exact H1.
Qed.
Lemma tidy_same_shape : forall a b x y, tidy (a ++ NField x :: b) = true -> tidy (a ++ NField y :: b) = true.
Proof.
  intros a b x y. induction a as [|c a IH]; [exact (fun H => H)|]. cbn [app tidy]. intro H. apply andb_true_iff in H. destruct H as [H1 H2].
  rewrite (IH H2), andb_true_r. rewrite existsb_app in *. exact H1.
Qed.
Lemma drop_tidy : forall cs, tidy cs = true -> tidy (drop_separators cs) = true /\ existsb is_field (drop_separators cs) = existsb is_field cs.
Proof.
  induction cs as [|c cs IH]; [auto|]. cbn [drop_separators tidy]. intro H. apply andb_true_iff in H. destruct H as [H1 H2].
  destruct (is_blank_node c || is_comma c) eqn:E; [|cbn [tidy]; rewrite H1, H2; auto]. destruct (IH H2) as [I1 I2]. split; [exact I1|].
  rewrite I2. cbn [existsb]. destruct c; try discriminate; reflexivity.
Qed.
Lemma drop_tidy_nodes : forall cs, forallb tidy_node cs = true -> forallb tidy_node (drop_separators cs) = true.
Proof. induction cs as [|c cs IH]; [auto|]. cbn. intro H. apply andb_true_iff in H. destruct H as [H1 H2]. destruct (_ || _); [auto|]. cbn. rewrite H1. exact H2. Qed.

Lemma replace_tidy : forall fc v fc', replace_value fc v = Ok fc' -> tidy_node v = true -> forallb tidy_node fc = true -> forallb tidy_node fc' = true.
Proof.
  induction fc as [|c fc IH]; intros v fc' H Hv Hw; [discriminate|]. cbn [forallb] in Hw. apply andb_true_iff in Hw. destruct Hw as [Hc Hw].
  cbn [replace_value] in H. destruct (is_value_node c).
  - injection H as <-. cbn. rewrite Hv. exact Hw.
  - inv_bind H. injection Hk as <-. cbn. rewrite Hc. eapply IH; eauto.
Qed.

(** ** Indenting *)
Definition indents_tidy (ind n : node) : Prop := forall n', tidy_node n = true -> indent_text ind n = Ok n' ->
  tidy_node n' = true /\ is_field n' = is_field n /\ is_comma n' = is_comma n.

Lemma indent_field_tidy : forall ind fc fc', Forall (indents_tidy ind) fc -> forallb tidy_node fc = true ->
  indent_field (indent_text ind) fc = Ok fc' -> forallb tidy_node fc' = true.
Proof.
  intros ind. induction fc as [|x fc IH]; intros fc' HF Hw H; [discriminate|]. inversion HF as [|? ? Hx HF']; subst.
  cbn [forallb] in Hw. apply andb_true_iff in Hw. destruct Hw as [Hwx Hw]. cbn [indent_field] in H. destruct (is_value_node x).
  - destruct (is_complex x); [|injection H as <-; cbn; rewrite Hwx; exact Hw]. inv_bind H. injection Hk as <-. cbn. rewrite (proj1 (Hx _ Hwx Hb)). exact Hw.
  - inv_bind H. injection Hk as <-. cbn. rewrite Hwx. eapply IH; eauto.
Qed.
Lemma indent_children_tidy : forall ind cs cs', is_newline ind || is_blank_node ind = true ->
  Forall (fun c => indents_tidy ind c /\ forall fc, c = NField fc -> Forall (indents_tidy ind) fc) cs ->
  forallb tidy_node cs = true -> indent_children (indent_text ind) ind cs = Ok cs' ->
  forallb tidy_node cs' = true /\ existsb is_field cs' = existsb is_field cs /\ (tidy cs = true -> tidy cs' = true).
Proof.
  intros ind. induction cs as [|c cs IH]; intros cs' Hi HF Hw H; [injection H as <-; auto|].
  inversion HF as [|? ? [Hc Hcf] HF']; subst. cbn [forallb] in Hw. apply andb_true_iff in Hw. destruct Hw as [Hwc Hw].
  assert (Hi' : is_comma ind = false /\ is_field ind = false /\ tidy_node ind = true).
  { destruct ind; try discriminate. destruct t; try discriminate; auto. }
  destruct Hi' as (Hi1 & Hi2 & Hi3).
  assert (Hkeep : forall c' pre, tidy_node c' = true -> is_field c' = is_field c -> is_comma c' = is_comma c ->
    (pre = [] \/ pre = [ind] /\ is_comma c = false) ->
    (r <- indent_children (indent_text ind) ind cs ;; Ok (c' :: pre ++ r)) = Ok cs' ->
    forallb tidy_node cs' = true /\ existsb is_field cs' = existsb is_field (c :: cs) /\ (tidy (c :: cs) = true -> tidy cs' = true)).
  { intros c' pre K1 K2 K3 K4 E. inv_bind E. injection Hk as <-. destruct (IH _ Hi HF' Hw Hb) as (B1 & B2 & B3). cbn [forallb existsb tidy]. rewrite K1, K2, K3.
    destruct K4 as [-> |[-> K4]]; cbn [app forallb existsb tidy].
    - rewrite B1, B2. split; [reflexivity|]. split; [reflexivity|]. intro T. apply andb_true_iff in T. destruct T as [-> T]. rewrite (B3 T). reflexivity.
    - rewrite B1, B2, Hi1, Hi2, Hi3, K4. split; [reflexivity|]. split; [reflexivity|]. cbn. intro T. apply (B3 T). }
  cbn [indent_children] in H.
  destruct c; try (refine (Hkeep _ [] Hwc eq_refl eq_refl (or_introl eq_refl) H)).
  - destruct t; try (refine (Hkeep _ [] Hwc eq_refl eq_refl (or_introl eq_refl) H)).
    destruct (is_newline ind); [discriminate|]. refine (Hkeep _ [ind] Hwc eq_refl eq_refl (or_intror (conj eq_refl eq_refl)) H).
  - inv_bind H. apply indent_field_tidy in Hb; [|apply Hcf; reflexivity|exact Hwc]. refine (Hkeep (NField a) [] Hb eq_refl eq_refl (or_introl eq_refl) Hk).
  - inv_bind H. destruct (Hc _ Hwc Hb) as (K1 & K2 & K3). refine (Hkeep _ [] K1 K2 K3 (or_introl eq_refl) Hk).
  - inv_bind H. destruct (Hc _ Hwc Hb) as (K1 & K2 & K3). refine (Hkeep _ [] K1 K2 K3 (or_introl eq_refl) Hk).
  - inv_bind H. destruct (Hc _ Hwc Hb) as (K1 & K2 & K3). refine (Hkeep _ [] K1 K2 K3 (or_introl eq_refl) Hk).
Qed.
Lemma indent_text_tidy : forall ind, is_newline ind || is_blank_node ind = true -> forall n, indents_tidy ind n.
Proof.
  intros ind Hi n.
  assert (G : indents_tidy ind n /\ forall fc, n = NField fc -> Forall (indents_tidy ind) fc); [|apply G].
  induction n as [t|t|p|t|cs IH|cs k IH|cs IH|cs IH|cs IH] using node_ind';
    try (split; [intros n' Hw H; injection H as <-; auto|discriminate]).
  - split; [intros n' Hw H; injection H as <-; auto|]. intros fc E. injection E as <-. eapply Forall_impl; [|exact IH]. intros a Ha. apply Ha.
  - split; [|discriminate]. intros n' Hw H. cbn [indent_text] in H. unfold rmap in H. inv_bind H. injection Hk as <-.
    eapply indent_children_tidy in Hb; try eassumption. cbn. repeat split. apply Hb.
  - split; [|discriminate]. intros n' Hw H. cbn [indent_text] in H. unfold rmap in H. inv_bind H. injection Hk as <-.
    eapply indent_children_tidy in Hb; try eassumption. cbn. repeat split. apply Hb.
  - split; [|discriminate]. intros n' Hw H. cbn [indent_text] in H. unfold rmap in H. inv_bind H. injection Hk as <-.
    cbn [tidy_node] in Hw. apply andb_true_iff in Hw. destruct Hw as [Hw1 Hw]. eapply indent_children_tidy in Hb; try eassumption.
    destruct Hb as (B1 & _ & B3). cbn. rewrite (B3 Hw1), B1. auto.
Qed.

(** ** Changing *)
Definition tidy_value (v : option node) : Prop := match v with Some x => tidy_node x = true | None => True end.

Lemma change_children_tidy : forall rec p v cs i prev after seen vc, forallb tidy_node cs = true -> tidy_value v ->
  (forall ocs q w ocs', forallb tidy_node ocs = true -> tidy_value w -> rec ocs q w = Ok ocs' -> tidy ocs' = true /\ forallb tidy_node ocs' = true) ->
  change_children rec JSON p v i prev cs = Ok (after, seen, vc) ->
  tidy after = true /\ forallb tidy_node after = true /\ seen = existsb is_field after /\ tidy_value vc.
Proof.
  intros rec p v. induction cs as [|c cs IH]; intros i prev after seen vc Hw Hv Hrec H; cbn [change_children] in H.
  { injection H as <- <- <-. auto. }
  cbn [forallb] in Hw. apply andb_true_iff in Hw. destruct Hw as [Hc Hw]. inv_bind H. destruct a as [[after0 seen0] vc0].
  destruct (IH _ _ _ _ _ Hw Hv Hrec Hb) as (T1 & T2 & T3 & T4).
  assert (Keep : is_comma c = false -> is_field c = false -> tidy (c :: after0) = true /\ forallb tidy_node (c :: after0) = true /\ seen0 = existsb is_field (c :: after0) /\ tidy_value vc0).
  { intros K1 K2. cbn. rewrite K1, K2, T1, T2, Hc. auto. }
  assert (KeepF : forall fc, forallb tidy_node fc = true -> tidy (NField fc :: after0) = true /\ forallb tidy_node (NField fc :: after0) = true /\ true = existsb is_field (NField fc :: after0)).
  { intros fc K. cbn. rewrite K, T1, T2. auto. }
  destruct c; try (injection Hk as <- <- <-; apply Keep; reflexivity).
  - cbn [is_json andb] in Hk. destruct (negb seen0 && is_comma (NTok t)) eqn:E.
    + injection Hk as <- <- <-. auto.
    + injection Hk as <- <- <-. destruct (is_comma (NTok t)) eqn:Ec; [|apply Keep; reflexivity]. rewrite andb_true_r in E. apply negb_false_iff in E.
      cbn [tidy forallb existsb is_field orb]. rewrite Ec, <- T3, E, T1, T2, Hc. auto.
  - rewrite andb_false_r in Hk. injection Hk as <- <- <-. apply Keep; reflexivity.
  - inv_bind Hk. destruct a as [key toks]. inv_bind Hk0. destruct a.
    + injection Hk as <- <- <-. destruct (drop_tidy _ T1) as [D1 D2]. rewrite D2. split; [exact D1|]. split; [apply drop_tidy_nodes; exact T2|auto].
    + assert (Rest : (below <- starts_with p key ;;
                if below then
                  old <- field_value children ;;
                  match old with
                  | NObject ocs =>
                      ocs' <- rec ocs (sub_path p (length key)) vc0 ;;
                      fc' <- replace_value children (NObject ocs') ;;
                      Ok (NField fc' :: after0, true, vc0)
                  | _ => Ok (NField children :: after0, true, vc0)
                  end
                else Ok (NField children :: after0, true, vc0)) = Ok (after, seen, vc) -> tidy after = true /\ forallb tidy_node after = true /\ seen = existsb is_field after /\ tidy_value vc).
      { intro R. inv_bind R. destruct a; [|injection Hk0 as <- <- <-; destruct (KeepF _ Hc) as (? & ? & ?); auto]. inv_bind Hk0.
        destruct a; try (injection Hk1 as <- <- <-; destruct (KeepF _ Hc) as (? & ? & ?); auto). inv_bind Hk1. inv_bind Hk0. injection Hk1 as <- <- <-.
        assert (Ho : forallb tidy_node children0 = true).
        { cbn [tidy_node] in Hc. clear -Hb3 Hc. revert Hb3 Hc. induction children as [|x children IHc]; [discriminate|]. cbn [field_value forallb]. intros F W. apply andb_true_iff in W. destruct W as [W1 W2].
          destruct (is_value_node x); [|apply IHc; assumption]. injection F as ->. cbn in W1. apply andb_true_iff in W1. apply W1. }
        destruct (Hrec _ _ _ _ Ho T4 Hb4) as [R1 R2]. destruct (KeepF a0) as (? & ? & ?); [|auto]. eapply replace_tidy; [exact Hb5| |exact Hc]. cbn. rewrite R1, R2. reflexivity. }
      destruct (path_eq key p); [|exact (Rest Hk)]. destruct vc0 as [v0|]; [|exact (Rest Hk)].
      inv_bind Hk. inv_bind Hk0. injection Hk as <- <- <-.
      assert (Hv0 : tidy_node a = true).
      { unfold indent_like in Hb2. destruct (if (2 <=? i)%nat then prev else None) as [b|]; [|injection Hb2 as <-; exact T4]. destruct (is_complex v0 && is_blank_node b) eqn:Eb; [|injection Hb2 as <-; exact T4].
        apply andb_true_iff in Eb. destruct Eb as [_ Eb]. apply indent_text_tidy in Hb2; [apply Hb2|rewrite Eb; apply orb_true_r|exact T4]. }
      destruct (KeepF a0) as (? & ? & ?); [|repeat split; auto]. eapply replace_tidy; eauto.
Qed.

Lemma change_tidy : forall n cs p v cs', forallb tidy_node cs = true -> tidy_value v -> change_value_n n JSON cs p v = Ok cs' ->
  tidy cs' = true /\ forallb tidy_node cs' = true.
Proof.
  induction n as [|n IH]; intros cs p v cs' Hw Hv H; [discriminate|]. cbn [change_value_n] in H. inv_bind H. destruct a as [[after seen] vc]. injection Hk as <-.
  assert (R : forall ocs q w ocs', forallb tidy_node ocs = true -> tidy_value w -> change_value_n n JSON ocs q w = Ok ocs' -> tidy ocs' = true /\ forallb tidy_node ocs' = true)
    by (intros; eapply IH; eassumption).
  destruct (change_children_tidy _ _ _ _ _ _ _ _ _ Hw Hv R Hb) as (A & B & _). auto.
Qed.

(** ** Adding *)
Lemma insert_split : forall i (x : node) cs, insert_at i x cs = firstn i cs ++ x :: skipn i cs. Proof. reflexivity. Qed.

Lemma place_loop_tidy : forall brace same new tail i1 cs cs', is_field new = true -> tidy_node new = true ->
  place_loop true brace same new i1 cs = Ok cs' -> tidy (cs ++ tail) = true ->
  existsb is_field (skipn i1 cs ++ tail) = true \/ (i1 = List.length cs /\ brace = true /\ ends_close cs = true) ->
  tidy (cs' ++ tail) = true.
Proof.
  intros brace same new tail i1. induction i1 as [i1 IH] using lt_wf_ind. intros cs cs' Nf Nt H T K. destruct i1 as [|i]; cbn [place_loop] in H.
  { injection H as <-. exact T. }
  destruct (nth_error cs i) as [child|] eqn:Ec; [|discriminate]. pose proof (nth_error_lt _ _ _ Ec) as Li.
  assert (Nc : is_comma new = false) by (destruct new; try discriminate; reflexivity).
  assert (Last : S i = List.length cs -> ends_close cs = true -> is_close_curly child = true).
  { intros L E. destruct (ends_close_split _ E) as (pre & c & -> & C). rewrite app_length in L. cbn in L. rewrite Nat.add_1_r in L. injection L as ->.
    rewrite nth_error_app2, Nat.sub_diag in Ec by lia. injection Ec as <-. exact C. }
  assert (Hnext : forall j, (j <= i)%nat -> place_loop true brace same new j (insert_at j new cs) = Ok cs' -> tidy (cs' ++ tail) = true).
  { intros j Hj P. apply IH in P; [exact P|lia|exact Nf|exact Nt| |].
    - rewrite insert_split, <- app_assoc. cbn [app]. apply tidy_insert; [exact Nc|]. rewrite app_assoc, firstn_skipn. exact T.
    - left. rewrite skipn_insert by lia. cbn [app existsb]. rewrite Nf. reflexivity. }
  destruct (_ && _ && _) eqn:E1 in H; [|destruct (brace && is_close_curly child) eqn:Eb].
  - injection H as <-. rewrite insert_split, <- app_assoc. cbn [app]. apply tidy_insert_comma; [|rewrite app_assoc, firstn_skipn; exact T].
    destruct K as [K|(K1 & K2 & K3)]; [exact K|]. specialize (Last K1 K3). destruct child; discriminate.
  - destruct i as [|p]; [discriminate|]. destruct (nth_error cs p) as [previous|] eqn:Ep; [|discriminate].
    destruct (is_newline previous); [exact (Hnext p ltac:(lia) H)|]. destruct (is_blank_node previous); [|exact (Hnext (S p) ltac:(lia) H)].
    destruct p as [|q]; [discriminate|]. destruct (nth_error cs q) as [bp|] eqn:Eq; [|discriminate].
    destruct same; [exact (Hnext (S q) ltac:(lia) H)|]. destruct (is_newline bp); [exact (Hnext q ltac:(lia) H)|exact (Hnext (S (S q)) ltac:(lia) H)].
  - apply IH in H; [exact H|lia|exact Nf|exact Nt|exact T|]. left. rewrite (nth_skipn _ _ _ Ec). cbn [app existsb].
    destruct K as [K|(K1 & K2 & K3)]; [rewrite K; apply orb_true_r|]. specialize (Last K1 K3). rewrite K2, Last in Eb. discriminate.
Qed.

Lemma inserted_tidy_nodes : forall new cs cs', inserted new cs cs' -> tidy_node new = true -> forallb tidy_node cs = true -> forallb tidy_node cs' = true.
Proof.
  intros new cs cs' H Hn. induction H; intro W; cbn in *; auto.
  - apply andb_true_iff in W. destruct W as [-> W]. auto.
  - rewrite Hn. auto.
Qed.
Lemma toks_tidy : forall cs, only_toks cs -> forallb tidy_node cs = true.
Proof. intros cs H. apply forallb_forall. unfold only_toks in H. rewrite Forall_forall in H. intros x Hx. specialize (H x Hx). destruct x; try contradiction. reflexivity. Qed.
Lemma blankish_no_comma : forall cs, Forall (fun c => blankish c = true) cs -> existsb is_comma cs = false.
Proof. intros cs H. induction H as [|c cs Hc H IH]; [reflexivity|]. cbn. rewrite IH. destruct c; try discriminate. destruct t; try discriminate; reflexivity. Qed.
Lemma no_comma_tidy : forall cs, existsb is_comma cs = false -> tidy cs = true.
Proof. intros cs H. rewrite <- (app_nil_r cs), tidy_app by exact H. reflexivity. Qed.

Lemma add_value_tidy : forall n cs d v cs', braces cs = true -> wfs cs = true -> tidy cs = true -> forallb tidy_node cs = true -> tidy_node v = true ->
  add_value_n n JSON cs d v = Ok cs' -> tidy cs' = true /\ forallb tidy_node cs' = true.
Proof.
  induction n as [|n IH]; intros cs d v cs' Hbr Hwf Ht Hn Hv H; [discriminate|]. cbn [add_value_n] in H.
  inv_bind H. rename a into ind. rename Hb into Hind. apply indentation_blank in Hind.
  inv_bind Hk. rename a into v'. rename Hb into Hv'. rename Hk0 into H.
  assert (Hvt : tidy_node v' = true).
  { destruct (rev ind) as [|back r] eqn:Er; [injection Hv' as <-; auto|]. destruct (is_complex v); [|injection Hv' as <-; auto].
    assert (Hbk : blankish back = true). { rewrite Forall_forall in Hind. apply Hind. rewrite in_rev, Er. left. reflexivity. }
    apply indent_text_tidy in Hv'; [apply Hv'|exact Hbk|exact Hv]. }
  inv_bind H. rename Hb into Hbelow. rename Hk into H. destruct a as [cs0|].
  { injection H as <-. match type of Hbelow with (if ?b then _ else _) = _ => destruct b end; [|discriminate]. apply add_below_split in Hbelow.
    destruct Hbelow as [pre [fc [post [fc' [key [toks [ocs [rest [ocs' [-> [-> [E1 [E2 [E3 [E4 [E5 E6]]]]]]]]]]]]]]]].
    rewrite forallb_app in Hn. cbn [forallb] in Hn. apply andb_true_iff in Hn. destruct Hn as [Hn1 Hn]. apply andb_true_iff in Hn. destruct Hn as [Hn2 Hn3]. cbn [tidy_node] in Hn2.
    unfold wfs in Hwf. rewrite forallb_app in Hwf. cbn [forallb] in Hwf. apply andb_true_iff in Hwf. destruct Hwf as [_ Hwf]. apply andb_true_iff in Hwf. destruct Hwf as [Hwf _].
    cbn [wf_node] in Hwf. apply andb_true_iff in Hwf. destruct Hwf as [Hf Hcs]. destruct (field_parts _ Hf) as [toks' [ov [F1 [Hne [F2 [F3 _]]]]]].
    rewrite F2 in E3. injection E3 as ->. pose proof (value_tidy _ _ F3 Hn2) as Vt. cbn [tidy_node] in Vt. apply andb_true_iff in Vt. destruct Vt as [V1 V2].
    pose proof (value_wf _ _ F3 Hcs) as Vw. cbn [wf_node] in Vw. apply andb_true_iff in Vw. destruct Vw as [V3 V4].
    destruct (IH _ _ _ _ (proj1 (andb_prop _ _ V3)) V4 V1 V2 Hv E5) as [R1 R2]. split; [eapply tidy_same_shape; exact Ht|]. rewrite forallb_app. cbn [forallb tidy_node]. rewrite Hn1, Hn3.
    rewrite (replace_tidy _ _ _ E6); [reflexivity| |exact Hn2]. cbn. rewrite R1, R2. reflexivity. }
  clear Hbelow. inv_bind H. destruct a as [fp ft]. rename Hk into H. clear Hb. inv_bind H. rename a into nv. rename Hb into Hnv. rename Hk into H.
  assert (Htoks : only_toks ind).
  { eapply Forall_impl; [|exact Hind]. intros c Hc. apply blankish_tok in Hc. destruct Hc as [t [-> _]]. exact I. }
  assert (Hnt : tidy_node nv = true).
  { destruct (length (fst d) =? 1); [injection Hnv as <-; exact Hvt|]. inv_bind Hnv. inv_bind Hk. injection Hk0 as <-.
    set (base := NTok TOpenCurly :: match ind with [] => [NTok TNewline] | _ :: _ => [] end ++ ind ++ [NTok TCloseCurly]) in *.
    assert (Hbase : only_toks base).
    { constructor; [exact I|]. apply Forall_app. split; [destruct ind; repeat constructor|]. apply Forall_app. split; [exact Htoks|repeat constructor]. }
    assert (Hbb : braces base = true). { unfold base. rewrite app_assoc. apply braces_enclosed. }
    assert (Hbt : tidy base = true).
    { apply no_comma_tidy. unfold base. cbn [existsb]. rewrite !existsb_app, (blankish_no_comma _ Hind). destruct ind; reflexivity. }
    destruct (IH _ _ _ _ Hbb (toks_wf _ Hbase) Hbt (toks_tidy _ Hbase) Hvt Hb0) as [R1 R2]. cbn. rewrite R1, R2. reflexivity. }
  set (fc := ind ++ [NPath (fp, ft); blank_node (lit " "); NTok TColon; blank_node (lit " "); nv]) in *.
  assert (Hfc : tidy_node (NField fc) = true).
  { cbn [tidy_node]. unfold fc. rewrite forallb_app, (toks_tidy _ Htoks). cbn. rewrite Hnt. reflexivity. }
  cbn [is_json orb] in H. inv_bind H. rename a into cs1. rename Hb into Hpl. rename Hk into H.
  change (match cs with c :: _ => is_open_curly c | [] => false end) with (starts_open cs) in *.
  pose proof (place_loop_inserted _ _ _ _ _ _ _ Hpl) as [Ins _]. pose proof (inserted_tidy_nodes _ _ _ Ins Hfc Hn) as N1.
  destruct (starts_open cs) eqn:Eo.
  - injection H as <-. split; [|exact N1]. rewrite <- (app_nil_r cs1). eapply place_loop_tidy with (new := NField fc); [reflexivity|exact Hfc|exact Hpl|rewrite app_nil_r; exact Ht|].
    right. split; [reflexivity|]. split; [reflexivity|apply starts_open_braces; assumption].
  - assert (T1 : tidy (cs1 ++ [NField fc]) = true).
    { eapply place_loop_tidy with (new := NField fc); [reflexivity|exact Hfc|exact Hpl|apply tidy_insert; [reflexivity|rewrite app_nil_r; exact Ht]|].
      left. rewrite existsb_app. cbn. apply orb_true_r. }
    destruct (rev cs1) as [|last before] eqn:Er.
    + injection H as <-. cbn [forallb]. rewrite Hfc. split; reflexivity.
    + apply (f_equal (@rev node)) in Er. rewrite rev_involutive in Er. cbn [rev] in Er. subst cs1. destruct (is_newline last) eqn:En.
      * injection H as <-. rewrite forallb_app in *. cbn [forallb] in *. apply andb_true_iff in N1. destruct N1 as [-> N1]. rewrite Hfc. cbn [andb]. split; [|exact N1].
        assert (T2 : tidy ((rev before ++ [NField fc]) ++ []) = true).
        { rewrite app_nil_r. rewrite <- app_assoc in T1. cbn [app] in T1. clear -T1 En. induction (rev before) as [|c l IHl]; [reflexivity|]. cbn [app tidy] in *. apply andb_true_iff in T1. destruct T1 as [A B].
          rewrite (IHl B), andb_true_r. rewrite existsb_app in *. cbn [existsb is_field] in *. destruct last; try discriminate. exact A. }
        rewrite app_nil_r in T2. replace (rev before ++ [NField fc; last]) with ((rev before ++ [NField fc]) ++ [last]) by (rewrite <- app_assoc; reflexivity).
        apply tidy_insert; [destruct last; try discriminate; destruct t; try discriminate; reflexivity|rewrite app_nil_r; exact T2].
      * injection H as <-. split; [exact T1|]. rewrite forallb_app, N1. cbn [forallb]. rewrite Hfc. reflexivity.
Qed.

(** ** Documents *)
Lemma parse_value_text_tidy : forall s v, parse_value_text JSON s = Ok v -> tidy_value v.
Proof.
  intros s v H. unfold parse_value_text, after_start in H. destruct (delivered _) as [[|t0 ts] e]; [destruct e; discriminate|].
  unfold parse_single_value in H. inv_bind H. destruct a as [t r]. cbn [is_json] in Hk.
  assert (G : ('(v, r1) <- parse_value (S (List.length ts)) JSON e t r ;; '(t1, _) <- next_token JSON e r1 ;; match t1 with TEnd => Ok (Some v) | _ => Throw EParse end) = Ok v -> tidy_value v).
  { intro E. inv_bind E. destruct a as [n r1]. inv_bind Hk0. destruct a as [t1 r2]. destruct t1; try discriminate. injection Hk1 as <-. exact (proj1 (parse_value_tidy _ _ _ _ _ _ Hb0)). }
  destruct t; try discriminate; try exact (G Hk); (destruct (is_unquoted_whitespace _); [discriminate|exact (G Hk)]).
Qed.

Lemma document_tidy : forall root, document JSON root -> forallb tidy_node root = true.
Proof.
  intros root H. induction H as [s root H|root p text root' D IH H|root p root' D IH H].
  - eapply parse_document_tidy, H.
  - pose proof (document_wf _ _ D) as W. unfold with_value_text in H. destruct text; [discriminate|]. inv_bind H. pose proof (parse_value_text_tidy _ _ Hb) as V. apply parse_value_text_sound in Hb.
    destruct Hb as [v [-> [V1 V2]]]. apply root_set_split in Hk. destruct Hk as [pre [ocs [post [ocs' [pn [-> [-> [F [E2 E3]]]]]]]]].
    assert (R : rooted (pre ++ NObject ocs :: post) ocs) by (exists pre, post; auto). destruct (root_wf _ _ R W) as [W1 W2].
    rewrite forallb_app in *. cbn [forallb tidy_node] in *. apply andb_true_iff in IH. destruct IH as [-> IH]. apply andb_true_iff in IH. destruct IH as [IH1 ->]. apply andb_true_iff in IH1. destruct IH1 as [I1 I2].
    pose proof (path_node_nonempty _ _ _ E2) as Hp. unfold set_value_on_path in E3. inv_bind E3. inv_bind Hk. unfold change_value_on_path in Hb.
    destruct (change_tidy _ _ _ _ _ I2 V Hb) as [C1 C2]. apply change_value_changed in Hb; [|exact Hp|exact W1|split; assumption].
    destruct (changed_edit _ _ _ _ W1 W2 Hb) as [D1 [D2 _]].
    destruct a1; [injection Hk0 as <-; rewrite C1, C2; reflexivity|]. unfold add_value_on_path in Hk0. destruct (add_value_tidy _ _ _ _ _ D2 D1 C1 C2 V Hk0) as [-> ->]. reflexivity.
  - unfold without_path in H. apply root_set_split in H. destruct H as [pre [ocs [post [ocs' [pn [-> [-> [F [E2 E3]]]]]]]]].
    rewrite forallb_app in *. cbn [forallb tidy_node] in *. apply andb_true_iff in IH. destruct IH as [-> IH]. apply andb_true_iff in IH. destruct IH as [IH1 ->]. apply andb_true_iff in IH1. destruct IH1 as [I1 I2].
    unfold change_value_on_path in E3. destruct (change_tidy _ _ _ None _ I2 I E3) as [-> ->]. reflexivity.
Qed.

Lemma remove_absent_edited : forall root ps root', document JSON root -> has_path root ps = Ok false ->
  without_path JSON root ps = Ok root' -> root' = root.
Proof.
  intros root ps root' D Hh H. pose proof (document_wf _ _ D) as W. pose proof (document_tidy _ D) as T.
  apply root_set_split in H. destruct H as [pre [ocs [post [ocs' [pn [E1 [E0 [F [E2 E3]]]]]]]]].
  assert (R : rooted root ocs) by (exists pre, post; auto). destruct (root_wf _ _ R W) as [W1 W2].
  pose proof (path_node_nonempty _ _ _ E2) as Hne. destruct (has_path_rooted _ _ _ Hh) as [p [ocs0 [Hp _]]].
  pose proof (path_node_agrees _ _ _ _ Hp E2) as Ep. destruct pn as [p0 tk]. cbn [fst] in *. subst p0.
  rewrite (rooted_has root ocs p ps) in Hh by assumption. injection Hh as Hh.
  rewrite E1, forallb_app in T. cbn [forallb tidy_node] in T. apply andb_true_iff in T. destruct T as [_ T].
  apply andb_true_iff in T. destruct T as [T _]. apply andb_true_iff in T. destruct T as [T1 T2].
  unfold change_value_on_path in E3. apply change_absent_json in E3; try assumption; [congruence|].
  intro m. destruct (Nat.le_gt_cases (List.length p) m) as [Hm|Hm].
  - rewrite (hasb_fuel m (List.length p)) by (assumption || lia). exact Hh.
  - destruct (hasb m p ocs) eqn:E; [|reflexivity]. apply (hasb_mono m (List.length p)) in E; [|lia]. congruence.
Qed.

Lemma remove_absent_any : forall f root ps root', document f root -> has_path root ps = Ok false -> without_path f root ps = Ok root' -> root' = root.
Proof. intros [|] root ps root' D Hh H; [eapply remove_absent|eapply remove_absent_edited]; eassumption. Qed.
