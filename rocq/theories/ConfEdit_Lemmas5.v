(** The edits the code makes, as [edit]. *)
From Verif Require Import Base BaseLemmas Util_Model Num_Model Path_Model Path_Spec Path_Lemmas PathParser_Model Token_Model Doc_Model Edit_Model Edit_Spec Edit_Lemmas Edit_Lemmas2 Edit_Lemmas3 Edit_Lemmas4 Edit_Lemmas5 Value_Model Value_Spec Value_Lemmas Value_Lemmas2 Concat_Model ConfigParser_Model ConfigParser_Spec ConfigParser_Lemmas ConfEdit_Spec ConfEdit_Lemmas ConfEdit_Lemmas2 ConfEdit_Lemmas3 ConfEdit_Lemmas4.

Section Edits.
Variable P : node -> Prop.
Hypothesis Pind : forall t n n', P n -> indent_text (NTok t) n = Ok n' -> P n'.

Lemma edit_drop_separators : forall p cs cs', edit P p cs cs' -> edit P p cs (drop_separators cs').
Proof.
  intros p cs cs' H. induction H; cbn [drop_separators].
  - constructor.
  - destruct (is_blank_node c || is_comma c); [apply ed_drop; assumption|apply ed_keep; assumption].
  - apply ed_drop; assumption.
  - destruct (is_blank_node (NTok t) || is_comma (NTok t)); [assumption|apply ed_token; assumption].
  - apply ed_delete; assumption.
  - cbn [is_blank_node is_comma orb]. eapply ed_replace; eassumption.
  - cbn [is_blank_node is_comma orb]. exact (ed_below P _ _ _ _ _ _ _ _ H H0 H1 H2 H3).
  - cbn [is_blank_node is_comma orb]. apply ed_other; assumption.
  - cbn [is_blank_node is_comma orb]. eapply ed_new; eassumption.
  - cbn [is_blank_node is_comma orb]. exact (ed_nested P _ _ _ _ _ _ H H0 H1 H2 H3 H4 H5).
Qed.

Definition good (v : option node) : Prop := match v with Some n => P n /\ is_value_node n = true | None => True end.

Lemma change_children_edit : forall rec f p v cs i prev after seen vc, p <> [] -> wfs cs = true -> good v ->
  (forall ocs r vc0 ocs', wfs ocs = true -> r <> [] -> good vc0 -> rec ocs r vc0 = Ok ocs' -> edit P r ocs ocs') ->
  change_children rec f p v i prev cs = Ok (after, seen, vc) -> edit P p cs after /\ (vc = v \/ vc = None).
Proof.
  intros rec f p v. induction cs as [|c cs IH]; intros i prev after seen vc Hp Hw Hv Hrec H; cbn [change_children] in H.
  { injection H as <- <- <-. split; [constructor|auto]. }
  apply wfs_cons in Hw. destruct Hw as [Hc Hw].
  inv_bind H. destruct a as [[after0 seen0] vc0]. apply IH in Hb; try assumption. destruct Hb as [Hch Hvc].
  assert (Hvc' : good vc0) by (destruct Hvc as [-> | ->]; [exact Hv|exact I]).
  destruct c; try (injection Hk as <- <- <-; split; [apply ed_keep; [reflexivity|exact Hch]|exact Hvc]).
  - destruct (is_json f && negb seen0 && is_comma (NTok t)) eqn:Ej; injection Hk as <- <- <-; (split; [|exact Hvc]).
    + apply ed_drop; [reflexivity|exact Hch].
    + apply ed_keep; [reflexivity|exact Hch].
  - rewrite andb_false_r in Hk. injection Hk as <- <- <-. split; [apply ed_keep; [reflexivity|exact Hch]|exact Hvc].
  - cbn [wf_node] in Hc. apply andb_true_iff in Hc. destruct Hc as [Hf Hcs].
    destruct (field_parts _ Hf) as [toks [ov [E1 [Hne [E2 [E3 E4]]]]]]. rewrite E1 in Hk. cbn [bind] in Hk.
    destruct (relate_ops (key_of children) p Hne Hp) as [O1 [O2 [O3 O4]]]. rewrite O1, O2, O3 in Hk.
    destruct (relate (key_of children) p) as [| |r|] eqn:Er.
    + destruct vc0 as [v0|].
      * cbn [bind andb negb] in Hk. inv_bind Hk. inv_bind Hk0. injection Hk as <- <- <-.
        destruct Hvc as [<- |Hvc]; [|discriminate]. split; [|auto].
        assert (Hw' : P a /\ is_value_node a = true).
        { destruct Hv as [Hv1 Hv2]. unfold indent_like in Hb. destruct (if (2 <=? i)%nat then prev else None) as [b|].
          - destruct (is_complex v0 && is_blank_node b) eqn:Eb; [|injection Hb as <-; auto].
            apply andb_true_iff in Eb. destruct Eb as [Ec Eb]. destruct b as [t| | | | | | | |]; try discriminate Eb. split; [exact (Pind _ _ _ Hv1 Hb)|].
            destruct v0; try discriminate Ec; cbn [indent_text] in Hb; inv_bind Hb; injection Hk as <-; reflexivity.
          - injection Hb as <-. auto. }
        destruct Hw' as [W1 W2]. eapply ed_replace; eassumption.
      * cbn [bind] in Hk. injection Hk as <- <- <-. split; [|exact Hvc]. apply ed_delete; [auto|].
        apply edit_drop_separators. exact Hch.
    + assert (Hd : Ok (drop_separators after0, seen0, vc0) = Ok (after, seen, vc)).
      { destruct vc0; cbn [bind andb negb] in Hk; exact Hk. }
      injection Hd as <- <- <-. split; [|exact Hvc]. apply ed_delete; [auto|]. apply edit_drop_separators. exact Hch.
    + destruct (O4 r eq_refl) as [O5 [O6 O7]]. rewrite E2, O5 in Hk.
      assert (Hk' : match ov with
         | NObject ocs => ocs' <- rec ocs r vc0 ;; fc' <- replace_value children (NObject ocs') ;; Ok (NField fc' :: after0, true, vc0)
         | _ => Ok (NField children :: after0, true, vc0) end = Ok (after, seen, vc)).
      { destruct vc0; cbn [bind andb negb] in Hk; destruct ov; exact Hk. }
      destruct ov; try (injection Hk' as <- <- <-; split; [|exact Hvc]; apply ed_other; [rewrite Er, E3; exact I|exact Hch]).
      inv_bind Hk'. inv_bind Hk0. injection Hk1 as <- <- <-. split; [|exact Hvc].
      apply Hrec in Hb; try assumption; [|exact (wf_object _ (value_wf _ _ E3 Hcs))].
      eapply ed_below; eassumption.
    + assert (Hd : Ok (NField children :: after0, true, vc0) = Ok (after, seen, vc)).
      { destruct vc0; cbn [bind andb negb] in Hk; exact Hk. }
      injection Hd as <- <- <-. split; [|exact Hvc]. apply ed_other; [rewrite Er; exact I|exact Hch].
Qed.

Lemma change_value_edit : forall n f cs p v cs', p <> [] -> wfs cs = true -> good v -> change_value_n n f cs p v = Ok cs' -> edit P p cs cs'.
Proof.
  induction n as [|n IH]; intros f cs p v cs' Hp Hw Hv H; [discriminate|]. cbn [change_value_n] in H. inv_bind H.
  destruct a as [[after seen] vc]. injection Hk as <-. eapply change_children_edit in Hb; try eassumption; [apply Hb|].
  intros ocs r vc0 ocs' H1 H2 H3 H4. eapply IH; eassumption.
Qed.

(** ** Nothing to change *)
Lemma replace_self : forall fc v, value_of fc = Some v -> replace_value fc v = Ok fc.
Proof.
  induction fc as [|c fc IH]; intros v H; [discriminate|]. cbn [value_of replace_value] in *.
  destruct c; cbn [is_value_node]; try (injection H as <-; reflexivity); rewrite (IH v H); reflexivity.
Qed.
Lemma edit_same : forall m p cs, (List.length p <= m)%nat -> p <> [] -> wfs cs = true -> (forall n, hasb n p cs = false) -> edit P p cs cs.
Proof.
  induction m as [|m IHm]; intros p cs Hm Hp; [destruct p; [congruence|cbn in Hm; lia]|].
  induction cs as [|c cs IH]; intros Hw Hh; [constructor|]. apply wfs_cons in Hw. destruct Hw as [Hc Hw].
  assert (Hh1 : forall n, hasb n p [c] = false) by (intro n; specialize (Hh n); rewrite hasb_cons in Hh; apply orb_false_iff in Hh; apply Hh).
  assert (Hh2 : forall n, hasb n p cs = false) by (intro n; specialize (Hh n); rewrite hasb_cons in Hh; apply orb_false_iff in Hh; apply Hh).
  specialize (IH Hw Hh2). destruct c; try (apply ed_keep; [reflexivity|exact IH]).
  destruct (wf_field_node _ Hc) as [Wf Wc]. destruct (field_parts _ Wf) as [_ [ov [_ [Hne [_ [E3 E4]]]]]].
  pose proof (Hh1 1%nat) as H1. rewrite hasb_field in H1. destruct (relate (key_of children) p) as [| |r|] eqn:Er; try discriminate.
  - assert (D : (exists ocs, ov = NObject ocs) \/ match ov with NObject _ => False | _ => True end) by (destruct ov; eauto).
    destruct D as [[ocs ->]|D]; [|apply ed_other; [rewrite Er, E3; exact D|exact IH]].
    eapply ed_below; [exact Er|exact E3| |exact (replace_self _ _ E3)|exact IH]. apply IHm.
    + pose proof (above_shorter _ _ _ Hne Er). lia.
    + pose proof (relate_spec (key_of children) p) as Rs. rewrite Er in Rs. apply Rs.
    + exact (wf_object _ (value_wf _ _ E3 Wc)).
    + intro n. specialize (Hh1 (S n)). rewrite hasb_field, Er, E3 in Hh1. exact Hh1.
  - apply ed_other; [rewrite Er; exact I|exact IH].
Qed.

Lemma edit_app : forall p a a' b b', edit P p a a' -> edit P p b b' -> edit P p (a ++ b) (a' ++ b').
Proof.
  intros p a a' b b' H. induction H; intro Hb; cbn [app]; [exact Hb|..].
  - apply ed_keep; auto.
  - apply ed_drop; auto.
  - apply ed_token; auto.
  - apply ed_delete; auto.
  - eapply ed_replace; eauto.
  - eapply ed_below; eauto.
  - apply ed_other; auto.
  - eapply ed_new; eauto.
  - eapply ed_nested; eauto.
Qed.

Lemma edit_inserted : forall p fc cs cs', (forall a b, edit P p a b -> edit P p a (NField fc :: b)) -> p <> [] -> wfs cs = true -> (forall n, hasb n p cs = false) ->
  inserted (NField fc) cs cs' -> edit P p cs cs'.
Proof.
  intros p fc cs cs' Hn Hp Hw Hh H. induction H as [|c cs cs' H IH|cs cs' H IH|cs cs' H IH].
  - constructor.
  - apply wfs_cons in Hw. destruct Hw as [Hc Hw].
    assert (Hh1 : forall n, hasb n p [c] = false) by (intro n; specialize (Hh n); rewrite hasb_cons in Hh; apply orb_false_iff in Hh; apply Hh).
    assert (Hh2 : forall n, hasb n p cs = false) by (intro n; specialize (Hh n); rewrite hasb_cons in Hh; apply orb_false_iff in Hh; apply Hh).
    apply (edit_app p [c] [c] cs cs'); [|auto]. apply (edit_same (List.length p)); auto. unfold wfs. cbn [forallb]. rewrite Hc. reflexivity.
  - apply ed_token. auto.
  - apply Hn. auto.
Qed.

(** ** Tokens only *)
Lemma edit_toks : forall p base cs, only_toks base -> edit P p base cs -> edit P p [] cs.
Proof.
  intros p base cs T H. induction H; try (inversion T; subst; contradiction).
  - constructor.
  - inversion T; subst. destruct c; try contradiction. apply ed_token. auto.
  - inversion T; subst. auto.
  - apply ed_token. auto.
  - eapply ed_new; eauto.
  - eapply ed_nested; eauto.
Qed.

Lemma plus_app : forall a b, Forall (fun c => blankish c = true) a -> is_plus_equals (a ++ b) = is_plus_equals b.
Proof. intros a b H. induction H as [|c a Hc H IH]; [reflexivity|]. destruct c as [[]| | | | | | | |]; try discriminate Hc; exact IH. Qed.

(** ** add_value_on_path *)
Lemma add_below_edit : forall rec d v cs cs', fst d <> [] -> wfs cs = true -> (forall n, hasb n (fst d) cs = false) ->
  (forall ocs d' ocs', fst d' <> [] -> wfs ocs = true -> (forall n, hasb n (fst d') ocs = false) -> rec ocs d' v = Ok ocs' -> edit P (fst d') ocs ocs') ->
  add_below rec d v cs = Ok (Some cs') -> edit P (fst d) cs cs'.
Proof.
  intros rec d v cs cs' Hd Hw Hh Hrec H. apply add_below_split in H.
  destruct H as [pre [fc [post [fc' [key [toks [ocs [rest [ocs' [-> [-> [E1 [E2 [E3 [E4 [E5 E6]]]]]]]]]]]]]]]].
  destruct d as [dp dt], rest as [rp rt]. cbn [fst snd] in *. specialize (Hrec ocs (rp, rt) ocs'). cbn [fst] in Hrec.
  unfold wfs in Hw. rewrite forallb_app in Hw. cbn [forallb] in Hw. apply andb_true_iff in Hw. destruct Hw as [Hw1 Hw].
  apply andb_true_iff in Hw. destruct Hw as [Hf Hw2]. cbn [wf_node] in Hf. apply andb_true_iff in Hf. destruct Hf as [Hf Hcs].
  destruct (field_parts _ Hf) as [toks' [ov [F1 [Hne [F2 [F3 _]]]]]]. rewrite F1 in E1. injection E1 as <- <-.
  rewrite F2 in E3. injection E3 as ->.
  destruct (relate_ops _ _ Hne Hd) as [_ [_ [O3 O4]]].
  match type of O3 with _ = Ok ?b => assert (Ht : b = true) by (apply Ok_inj; rewrite <- O3; exact E2) end.
  assert (Hpre : forall n, hasb n dp pre = false /\ hasb n dp [NField fc] = false /\ hasb n dp post = false).
  { intro n. specialize (Hh n). rewrite hasb_app, hasb_cons in Hh. apply orb_false_iff in Hh. destruct Hh as [A Hh].
    apply orb_false_iff in Hh. destruct Hh as [B C]. auto. }
  pose proof (proj1 (proj2 (Hpre 1%nat))) as Hhf'. rewrite hasb_field in Hhf'.
  destruct (relate (key_of fc) dp) as [| |r|] eqn:Er; try discriminate.
  destruct (O4 r eq_refl) as [O5 [O6 O7]].
  assert (Hr : rp = r).
  { unfold path_node_sub_path in E4. cbn [fst snd] in E4.
    match type of E4 with context [skip_periods ?a ?b ?c] => destruct (skip_periods a b c) end; [|discriminate].
    injection E4 as <- _. exact O5. }
  subst rp. apply Hrec in E5; [|exact O6|exact (wf_object _ (value_wf _ _ F3 Hcs))|].
  - apply edit_app; [apply (edit_same (List.length dp)); [lia|exact Hd|exact Hw1|intro n; apply Hpre]|].
    eapply ed_below; try eassumption. apply (edit_same (List.length dp)); [lia|exact Hd|exact Hw2|intro n; apply Hpre].
  - intro n. pose proof (proj1 (proj2 (Hpre (S n)))) as X. rewrite hasb_field, Er, F3 in X. exact X.
Qed.

Lemma add_value_edit : forall n f cs d v cs', fst d <> [] -> wfs cs = true -> P v -> is_value_node v = true -> (forall m, hasb m (fst d) cs = false) ->
  add_value_n n f cs d v = Ok cs' -> edit P (fst d) cs cs'.
Proof.
  induction n as [|n IH]; intros f cs d v cs' Hd Hw Hv1 Hv2 Hh H; [discriminate|]. cbn [add_value_n] in H.
  destruct d as [dp dt]. cbn [fst snd] in *.
  inv_bind H. rename a into ind. rename Hb into Hind. apply indentation_blank in Hind.
  inv_bind Hk. rename a into v'. rename Hb into Hv'. rename Hk0 into H.
  assert (Hvw : P v' /\ is_value_node v' = true).
  { destruct (rev ind) as [|back r] eqn:Er; [injection Hv' as <-; auto|]. destruct (is_complex v) eqn:Ec; [|injection Hv' as <-; auto].
    assert (Hbk : blankish back = true).
    { rewrite Forall_forall in Hind. apply Hind. rewrite in_rev, Er. left. reflexivity. }
    destruct (blankish_tok _ Hbk) as [t [-> _]]. split; [exact (Pind _ _ _ Hv1 Hv')|].
    destruct v; try discriminate Ec; cbn [indent_text] in Hv'; inv_bind Hv'; injection Hk as <-; reflexivity. }
  destruct Hvw as [W1 W2]. inv_bind H. rename Hb into Hbelow. rename Hk into H. destruct a as [cs0|].
  { injection H as <-. match type of Hbelow with (if ?b then _ else _) = _ => destruct b end; [|discriminate].
    apply (add_below_edit (add_value_n n f) (dp, dt) v cs cs0 Hd Hw Hh); [|exact Hbelow].
    intros ocs d' ocs' X1 X2 X3 X4. exact (IH f ocs d' v ocs' X1 X2 Hv1 Hv2 X3 X4). }
  clear Hbelow. inv_bind H. destruct a as [fp ft]. rename Hb into Hfp. rename Hk into H. inv_bind H. rename a into nv. rename Hb into Hnv. rename Hk into H.
  set (fc := ind ++ [NPath (fp, ft); blank_node (lit " "); NTok TColon; blank_node (lit " "); nv]) in *.
  assert (Htoks : only_toks ind).
  { eapply Forall_impl; [|exact Hind]. intros c Hc. apply blankish_tok in Hc. destruct Hc as [t [-> _]]. exact I. }
  assert (Hfc1 : key_of fc = fp) by (apply (key_of_app ind); exact Htoks).
  assert (Hfc2 : is_value_node nv = true -> value_of fc = Some nv).
  { intro Hn. unfold fc. destruct (key_of_app ind [NPath (fp, ft); blank_node (lit " "); NTok TColon; blank_node (lit " "); nv] Htoks) as [_ ->].
    cbn. destruct nv; try discriminate; reflexivity. }
  assert (Hfc3 : is_value_node nv = true -> is_plus_equals fc = false).
  { intro Hn. unfold fc. rewrite plus_app by exact Hind. cbn. destruct nv; try discriminate; reflexivity. }
  assert (Hnew : is_value_node nv = true /\ fp <> [] /\ forall a b, edit P dp a b -> edit P dp a (NField fc :: b)).
  { destruct (length dp =? 1) eqn:El.
    - injection Hnv as <-. specialize (Hfc2 W2). specialize (Hfc3 W2). split; [exact W2|].
      assert (Hone : exists k, dp = [k]).
      { apply Z.eqb_eq in El. rewrite length_spec in El by exact Hd. destruct dp as [|k [|k2 r]]; [congruence|eexists; reflexivity|cbn in El; lia]. }
      destruct Hone as [k Hone]. unfold path_node_first in Hfp; cbn [fst snd] in Hfp. destruct (before_period dt).
      + rewrite Hone in Hfp. inv_bind Hfp. discriminate.
      + injection Hfp as <- <-. split; [exact Hd|]. intros a b E. eapply ed_new; try eassumption. unfold wf_field. rewrite Hfc1, Hfc2, Hone. reflexivity.
    - inv_bind Hnv. destruct a as [rest rt]. inv_bind Hk. rename a into ocs. injection Hk0 as <-. specialize (Hfc2 eq_refl). specialize (Hfc3 eq_refl).
      destruct dp as [|k r]; [congruence|]. destruct r as [|k2 r]; [discriminate|].
      assert (Hrest : rest = k2 :: r).
      { unfold path_node_sub_path in Hb; cbn [fst snd] in Hb. destruct (skip_periods 0 1 dt) as [ts|]; [|discriminate]. apply Ok_inj in Hb.
        apply (f_equal fst) in Hb. transitivity (sub_path (k :: k2 :: r) 1); [symmetry; exact Hb|]. apply sub_path_one. discriminate. }
      assert (Hf : fp = [k]).
      { unfold path_node_sub_path in Hb; cbn [fst snd] in Hb. destruct (skip_periods 0 1 dt) as [ts|] eqn:Es; [|discriminate].
        destruct (skip_before _ _ Es) as [ts' Ets]. unfold path_node_first in Hfp; cbn [fst snd] in Hfp. rewrite Ets, sub_path2_one in Hfp by discriminate.
        injection Hfp as <- _. reflexivity. }
      set (base := NTok TOpenCurly :: match ind with [] => [NTok TNewline] | _ :: _ => [] end ++ ind ++ [NTok TCloseCurly]) in *.
      assert (Hbase : only_toks base).
      { constructor; [exact I|]. apply Forall_app. split; [destruct ind; repeat constructor|]. apply Forall_app. split; [exact Htoks|repeat constructor]. }
      apply IH in Hb0; [|rewrite Hrest; discriminate|apply toks_wf; exact Hbase|exact W1|exact W2|intro m; apply hasb_toks; exact Hbase].
      rewrite Hrest in Hb0. cbn [fst] in Hb0. split; [reflexivity|]. rewrite Hf. split; [discriminate|]. intros a b E.
      eapply ed_nested; try eassumption.
      + unfold wf_field. rewrite Hfc1, Hfc2, Hf. reflexivity.
      + rewrite Hfc1. exact Hf.
      + discriminate.
      + exact (edit_toks _ _ _ Hbase Hb0). }
  destruct Hnew as [N1 [N2 N3]].
  inv_bind H. rename a into cs1. rename Hb into Hpl. rename Hk into H.
  apply (edit_inserted dp fc cs cs' N3 Hd Hw Hh).
  match type of Hpl with (if ?b then _ else _) = _ => assert (Hins : inserted (NField fc) cs cs1) by (destruct b; [apply place_loop_inserted in Hpl; apply Hpl|injection Hpl as <-; apply inserted_refl]) end.
  match type of H with (if ?b then _ else _) = _ => destruct b end; [injection H as <-; exact Hins|].
  destruct (rev cs1) as [|last before] eqn:Er.
  - apply (f_equal (@rev _)) in Er. rewrite rev_involutive in Er. cbn in Er. subst cs1. injection H as <-. apply I_new. exact Hins.
  - apply (f_equal (@rev _)) in Er. rewrite rev_involutive in Er. cbn in Er. subst cs1. destruct (is_newline last); injection H as <-.
    + eapply inserted_trans; [|exact Hins]. apply inserted_app; [apply inserted_refl|]. apply I_new, inserted_refl.
    + apply inserted_snoc. exact Hins.
Qed.
End Edits.
