(** Facts about document editing. *)
From Verif Require Import Base BaseLemmas Util_Model Num_Model Path_Model Path_Spec Path_Lemmas Token_Model PathParser_Model
  PathParser_Lemmas3 Doc_Model Doc_Spec Doc_Lemmas Doc_Lemmas2 Doc_Lemmas3 Edit_Model Edit_Spec.

(** ** Paths *)

Lemma relate_spec : forall key p,
  match relate key p with
  | Same => key = p
  | Longer => exists x, x <> [] /\ key = p ++ x
  | Above r => r <> [] /\ p = key ++ r
  | Apart => ~ is_prefix key p /\ ~ is_prefix p key
  end.
Proof.
  induction key as [|a key IH]; intros [|b p]; cbn [relate].
  - reflexivity.
  - split; [discriminate|reflexivity].
  - exists (a :: key). split; [discriminate|reflexivity].
  - destruct (str_eqb a b) eqn:E.
    + apply str_eqb_eq in E. subst b. specialize (IH p). destruct (relate key p).
      * congruence.
      * destruct IH as [x [H1 ->]]. exists x. auto.
      * destruct IH as [H1 ->]. auto.
      * destruct IH as [H1 H2]. split; intros [r Hr]; injection Hr as Hr; [apply H1|apply H2]; exists r; exact Hr.
    + split; intros [r Hr]; injection Hr as Hr _; subst b; rewrite str_eqb_refl in E; discriminate.
Qed.

Lemma prefix_self : forall (p : path), is_prefix p p.
Proof. intro p. exists []. symmetry. apply app_nil_r. Qed.
Lemma prefix_app : forall (p r : path), is_prefix p (p ++ r).
Proof. intros p r. exists r. reflexivity. Qed.

Lemma not_longer_prefix : forall (p x : path), x <> [] -> ~ is_prefix (p ++ x) p.
Proof.
  intros p x Hx [r Hr]. apply (f_equal (@List.length _)) in Hr. rewrite !app_length in Hr. destruct x; [congruence|cbn in Hr; lia].
Qed.

(** What the operations of path.cc say, in terms of [relate]. *)
Lemma relate_ops : forall key p, key <> [] -> p <> [] ->
  path_eq key p = match relate key p with Same => true | _ => false end /\
  starts_with key p = Ok match relate key p with Same | Longer => true | _ => false end /\
  starts_with p key = Ok match relate key p with Same | Above _ => true | _ => false end /\
  (forall r, relate key p = Above r -> sub_path p (length key) = r /\ r <> [] /\ p = key ++ r).
Proof.
  intros key p Hk Hp. pose proof (relate_spec key p) as R.
  destruct (starts_with_spec key p Hk) as [b1 [E1 I1]]. destruct (starts_with_spec p key Hp) as [b2 [E2 I2]].
  rewrite E1, E2. destruct (relate key p) as [| |r|].
  - subst p. assert (b1 = true) as -> by (apply I1, prefix_self). assert (b2 = true) as -> by (apply I2, prefix_self).
    split; [apply path_eq_spec; reflexivity|]. split; [reflexivity|]. split; [reflexivity|discriminate].
  - destruct R as [x [Hx ->]]. assert (b1 = true) as -> by (apply I1, prefix_app).
    destruct b2. { exfalso. apply (not_longer_prefix p x Hx). apply I2. reflexivity. }
    split; [|split; [reflexivity|split; [reflexivity|discriminate]]].
    destruct (path_eq (p ++ x) p) eqn:E; [|reflexivity]. apply path_eq_spec in E. exfalso.
    apply (f_equal (@List.length _)) in E. rewrite app_length in E. destruct x; [congruence|cbn in E; lia].
  - destruct R as [Hr ->]. assert (b2 = true) as -> by (apply I2, prefix_app).
    destruct b1. { exfalso. apply (not_longer_prefix key r Hr). apply I1. reflexivity. }
    split.
    { destruct (path_eq key (key ++ r)) eqn:E; [|reflexivity]. apply path_eq_spec in E. exfalso.
      apply (f_equal (@List.length _)) in E. rewrite app_length in E. destruct r; [congruence|cbn in E; lia]. }
    split; [reflexivity|]. split; [reflexivity|]. intros r' E'. injection E' as <-.
    split; [|auto]. rewrite length_spec by exact Hk. rewrite sub_path_spec.
    + rewrite skipn_app, skipn_all, Nat.sub_diag. reflexivity.
    + rewrite app_length. destruct r; [congruence|cbn; lia].
  - destruct R as [H1 H2]. destruct b1; [exfalso; apply H2, I1; reflexivity|].
    destruct b2; [exfalso; apply H1, I2; reflexivity|].
    split; [|split; [reflexivity|split; [reflexivity|discriminate]]].
    destruct (path_eq key p) eqn:E; [|reflexivity]. apply path_eq_spec in E. subst p. exfalso. apply H1, prefix_self.
Qed.

(** ** Well-formed nodes *)

Definition starts_open (cs : list node) : bool := match cs with c :: _ => is_open_curly c | [] => false end.
Fixpoint ends_close (cs : list node) : bool :=
  match cs with [] => false | [c] => is_close_curly c | _ :: cs' => ends_close cs' end.
Definition braces (cs : list node) : bool :=
  if existsb is_open_curly cs then starts_open cs && ends_close cs else true.
Definition wf_field (fc : list node) : bool :=
  match key_of fc with [] => false | _ => match value_of fc with None => false | Some _ => true end end.

Fixpoint wf_node (n : node) : bool :=
  match n with
  | NField cs => wf_field cs && forallb wf_node cs
  | NObject cs => braces cs && starts_open cs && forallb wf_node cs
  | NInclude cs _ | NConcat cs | NArray cs => forallb wf_node cs
  | _ => true
  end.
Definition wfs (ns : list node) : bool := forallb wf_node ns.
(** The children of a root: its object needs no braces. *)
Definition wf_top (n : node) : bool := match n with NObject cs => braces cs && wfs cs | _ => wf_node n end.
Definition wfr (root : list node) : bool := forallb wf_top root.

Lemma field_parts : forall fc, wf_field fc = true ->
  exists toks v, field_path fc = Ok (key_of fc, toks) /\ key_of fc <> [] /\
    field_value fc = Ok v /\ value_of fc = Some v /\ is_value_node v = true.
Proof.
  intros fc H. unfold wf_field in H.
  assert (Hp : key_of fc <> [] -> exists toks, field_path fc = Ok (key_of fc, toks)).
  { clear H. induction fc as [|c fc IH]; cbn; [congruence|]. destruct c; try exact IH. intros _. exists (snd p).
    destruct p; reflexivity. }
  assert (Hv : forall v, value_of fc = Some v -> field_value fc = Ok v /\ is_value_node v = true).
  { clear. induction fc as [|c fc IH]; cbn; [discriminate|]. destruct c; cbn; try exact IH; intros v E; injection E as <-; auto. }
  destruct (key_of fc) as [|k ks] eqn:Ek; [discriminate|]. destruct (value_of fc) as [v|] eqn:Ev; [|discriminate].
  destruct Hp as [toks Hp]; [discriminate|]. destruct (Hv v eq_refl) as [H1 H2].
  exists toks, v. repeat split; auto. discriminate.
Qed.

Lemma replace_parts : forall fc v fc', replace_value fc v = Ok fc' -> is_value_node v = true ->
  key_of fc' = key_of fc /\ value_of fc' = Some v /\
  (forall f, forallb f fc = true -> f v = true -> forallb f fc' = true).
Proof.
  induction fc as [|c fc IH]; intros v fc' H Hv; [discriminate|]. cbn [replace_value] in H.
  destruct (is_value_node c) eqn:Ec.
  - injection H as <-. split; [|split].
    + destruct c, v; try discriminate; reflexivity.
    + destruct v; try discriminate; reflexivity.
    + intros f H Hf. cbn in *. apply andb_true_iff in H. destruct H as [_ H]. rewrite Hf, H. reflexivity.
  - inv_bind H. injection Hk as <-. apply IH in Hb; [|exact Hv]. destruct Hb as [H1 [H2 H3]]. split; [|split].
    + destruct c; try discriminate; cbn; auto.
    + destruct c; try discriminate; cbn; auto.
    + intros f H Hf. cbn in *. apply andb_true_iff in H. destruct H as [Hc H]. rewrite Hc. cbn. apply H3; assumption.
Qed.

Lemma replace_same : forall fc v fc', replace_value fc v = Ok fc' -> value_of fc = Some v -> fc' = fc.
Proof.
  induction fc as [|c fc IH]; intros v fc' H Hv; [discriminate|]. cbn [replace_value] in H.
  destruct (is_value_node c) eqn:Ec.
  - injection H as <-. destruct c; try discriminate; cbn in Hv; congruence.
  - inv_bind H. injection Hk as <-. f_equal. eapply IH; [exact Hb|]. destruct c; try discriminate; exact Hv.
Qed.

Lemma value_wf : forall fc v, value_of fc = Some v -> wfs fc = true -> wf_node v = true.
Proof.
  induction fc as [|c fc IH]; intros v H Hw; [discriminate|]. unfold wfs in Hw. cbn [forallb] in Hw. apply andb_true_iff in Hw.
  destruct Hw as [Hc Hw]. destruct c; cbn in H; try (eapply IH; eassumption); injection H as <-; exact Hc.
Qed.

(** ** has_value *)

Fixpoint hasb (n : nat) (p : path) (cs : list node) : bool :=
  match n with
  | O => false
  | S k =>
      existsb (fun c =>
        match c with
        | NField fc =>
            match relate (key_of fc) p with
            | Same | Longer => true
            | Above r => match value_of fc with Some (NObject ocs) => hasb k r ocs | _ => false end
            | Apart => false
            end
        | _ => false
        end) cs
  end.

Lemma above_shorter : forall key p r, key <> [] -> relate key p = Above r -> (List.length r < List.length p)%nat.
Proof.
  intros key p r Hk E. pose proof (relate_spec key p) as R. rewrite E in R. destruct R as [_ ->]. rewrite app_length.
  destruct key; [congruence|cbn; lia].
Qed.

Lemma has_value_n_spec : forall n cs p, p <> [] -> (List.length p <= n)%nat -> wfs cs = true ->
  has_value_n n cs p = Ok (hasb n p cs).
Proof.
  induction n as [|n IH]; intros cs p Hp Hl Hw; [destruct p; [congruence|cbn in Hl; lia]|].
  cbn [has_value_n hasb]. induction cs as [|c cs IHcs]; [reflexivity|].
  unfold wfs in Hw. cbn [forallb] in Hw. apply andb_true_iff in Hw. destruct Hw as [Hc Hw]. specialize (IHcs Hw).
  cbn [has_children existsb]. destruct c; try exact IHcs. cbn [wf_node] in Hc. apply andb_true_iff in Hc.
  destruct Hc as [Hf Hcs]. destruct (field_parts _ Hf) as [toks [v [E1 [Hk [E2 [E3 _]]]]]]. rewrite E1. cbn [bind].
  destruct (relate_ops (key_of children) p Hk Hp) as [O1 [O2 [O3 O4]]]. rewrite O1, O2, O3.
  destruct (relate (key_of children) p) as [| |r|] eqn:Er; cbn [bind orb]; try reflexivity.
  - rewrite E2, E3. cbn [bind]. destruct (O4 r eq_refl) as [O5 [O6 O7]].
    destruct v; cbn [bind]; try exact IHcs. rewrite O5. rewrite IH; [|exact O6| |].
    + cbn [bind]. destruct (hasb n r children0); [reflexivity|exact IHcs].
    + pose proof (above_shorter _ _ _ Hk Er). lia.
    + pose proof (value_wf _ _ E3 Hcs) as Hv. cbn in Hv. apply andb_true_iff in Hv. apply Hv.
  - exact IHcs.
Qed.

Lemma hasb_fuel : forall n m p cs, p <> [] -> (List.length p <= n)%nat -> (List.length p <= m)%nat -> wfs cs = true ->
  hasb n p cs = hasb m p cs.
Proof.
  induction n as [|n IH]; intros m p cs Hp Hn Hm Hw; [destruct p; [congruence|cbn in Hn; lia]|].
  destruct m as [|m]; [destruct p; [congruence|cbn in Hm; lia]|]. cbn [hasb].
  induction cs as [|c cs IHcs]; [reflexivity|]. unfold wfs in Hw. cbn [forallb] in Hw. apply andb_true_iff in Hw.
  destruct Hw as [Hc Hw]. cbn [existsb]. rewrite IHcs by exact Hw. f_equal. destruct c; try reflexivity.
  cbn [wf_node] in Hc. apply andb_true_iff in Hc. destruct Hc as [Hf Hcs].
  destruct (field_parts _ Hf) as [toks [v [_ [Hk [_ [E3 _]]]]]].
  destruct (relate (key_of children) p) as [| |r|] eqn:Er; try reflexivity. rewrite E3. destruct v; try reflexivity.
  pose proof (above_shorter _ _ _ Hk Er). pose proof (relate_spec (key_of children) p) as R. rewrite Er in R.
  apply IH; try tauto; try lia. pose proof (value_wf _ _ E3 Hcs) as Hv. cbn in Hv. apply andb_true_iff in Hv. apply Hv.
Qed.

(** ** What change_value_on_path does *)

Inductive changed (set : bool) : path -> list node -> list node -> Prop :=
| C_nil : forall p, changed set p [] []
| C_keep : forall p c cs cs', is_field c = false -> changed set p cs cs' -> changed set p (c :: cs) (c :: cs')
| C_drop : forall p c cs cs', is_blank_node c || is_comma c = true -> changed set p cs cs' -> changed set p (c :: cs) cs'
| C_delete : forall p fc cs cs', relate (key_of fc) p = Same \/ relate (key_of fc) p = Longer ->
    changed set p cs cs' -> changed set p (NField fc :: cs) cs'
| C_replace : forall p fc fc' v cs cs', set = true -> relate (key_of fc) p = Same -> replace_value fc v = Ok fc' ->
    is_value_node v = true -> wf_node v = true -> changed set p cs cs' -> changed set p (NField fc :: cs) (NField fc' :: cs')
| C_below : forall p r fc fc' ocs ocs' cs cs', relate (key_of fc) p = Above r -> value_of fc = Some (NObject ocs) ->
    changed set r ocs ocs' -> replace_value fc (NObject ocs') = Ok fc' ->
    changed set p cs cs' -> changed set p (NField fc :: cs) (NField fc' :: cs')
| C_other : forall p fc cs cs',
    match relate (key_of fc) p with
    | Apart => True
    | Above _ => match value_of fc with Some (NObject _) => False | _ => True end
    | _ => False
    end -> changed set p cs cs' -> changed set p (NField fc :: cs) (NField fc :: cs').

Lemma changed_drop_separators : forall set p cs cs', changed set p cs cs' -> changed set p cs (drop_separators cs').
Proof.
  intros set p cs cs' H. induction H.
  - constructor.
  - cbn [drop_separators]. destruct (is_blank_node c || is_comma c) eqn:E; [apply C_drop; assumption|apply C_keep; assumption].
  - apply C_drop; assumption.
  - apply C_delete; assumption.
  - eapply C_replace; eassumption.
  - apply (C_below _ _ r _ _ ocs ocs'); assumption.
  - apply C_other; assumption.
Qed.

(** indent_text keeps nodes well-formed. *)
Definition indents_wf (ind n : node) : Prop := forall n', wf_node n = true -> indent_text ind n = Ok n' ->
  wf_node n' = true /\ is_value_node n' = is_value_node n.

Lemma indent_field_wf : forall ind fc fc', Forall (indents_wf ind) fc -> wf_node (NField fc) = true ->
  indent_field (indent_text ind) fc = Ok fc' -> wf_node (NField fc') = true.
Proof.
  intros ind fc fc' HF Hw H. cbn [wf_node] in *. apply andb_true_iff in Hw. destruct Hw as [Hf Hw].
  assert (G : (key_of fc' = key_of fc /\ (value_of fc = None <-> value_of fc' = None)) /\ forallb wf_node fc' = true).
  { clear Hf. revert fc' H. induction fc as [|x fc IH]; intros fc' H; [discriminate|].
    inversion HF as [|? ? Hx HF']; subst. cbn [forallb] in Hw. apply andb_true_iff in Hw. destruct Hw as [Hwx Hw].
    cbn [indent_field] in H. destruct (is_value_node x) eqn:Ev.
    - destruct (is_complex x) eqn:Ec.
      + inv_bind H. injection Hk as <-. destruct (Hx _ Hwx Hb) as [H1 H2]. cbn [forallb]. rewrite H1, Hw.
        rewrite Ev in H2. split; [|reflexivity].
        destruct x; try discriminate; destruct a; try discriminate; cbn; split; try reflexivity; split; congruence.
      + injection H as <-. cbn [forallb]. rewrite Hwx, Hw. split; [|reflexivity]. tauto.
    - inv_bind H. injection Hk as <-. destruct (IH HF' Hw _ Hb) as [[H1 H2] H3]. cbn [forallb]. rewrite Hwx, H3.
      split; [|reflexivity]. destruct x; try discriminate; cbn; tauto. }
  destruct G as [[G1 G2] G3]. rewrite G3, andb_true_r. unfold wf_field in *. rewrite G1.
  destruct (key_of fc); [discriminate|]. destruct (value_of fc); [|discriminate]. destruct (value_of fc'); [reflexivity|].
  destruct G2 as [_ G2]. discriminate (G2 eq_refl).
Qed.

Lemma indent_children_wf : forall ind cs cs', is_newline ind || is_blank_node ind = true ->
  Forall (fun c => indents_wf ind c /\ forall fc, c = NField fc -> Forall (indents_wf ind) fc) cs ->
  wfs cs = true -> indent_children (indent_text ind) ind cs = Ok cs' ->
  wfs cs' = true /\ existsb is_open_curly cs' = existsb is_open_curly cs /\
  ends_close cs' = ends_close cs /\ starts_open cs' = starts_open cs /\ (cs' = [] <-> cs = []).
Proof.
  intros ind. induction cs as [|c cs IH]; intros cs' Hi HF Hw H; [injection H as <-; tauto|].
  inversion HF as [|? ? [Hc Hcf] HF']; subst. unfold wfs in *. cbn [forallb] in Hw. apply andb_true_iff in Hw.
  destruct Hw as [Hwc Hw].
  assert (Hi' : is_open_curly ind = false /\ is_close_curly ind = false /\ wf_node ind = true).
  { destruct ind; try discriminate. destruct t; try discriminate; auto. }
  destruct Hi' as [Hi1 [Hi2 Hi3]].
  assert (Hkeep : forall c' pre, wf_node c' = true -> is_open_curly c' = is_open_curly c -> is_close_curly c' = is_close_curly c ->
    forallb wf_node pre = true -> existsb is_open_curly pre = false -> existsb is_close_curly pre = false ->
    (pre = [] \/ is_close_curly c = false) ->
    (r <- indent_children (indent_text ind) ind cs ;; Ok (c' :: pre ++ r)) = Ok cs' ->
    forallb wf_node cs' = true /\ existsb is_open_curly cs' = existsb is_open_curly (c :: cs) /\
    ends_close cs' = ends_close (c :: cs) /\ starts_open cs' = starts_open (c :: cs) /\ (cs' = [] <-> c :: cs = [])).
  { intros c' pre K1 K2 K3 K4 K5 K6 K7 E. inv_bind E. injection Hk as <-. apply IH in Hb; try assumption.
    destruct Hb as [B1 [B2 [B3 [_ B4]]]]. cbn [forallb existsb starts_open].
    rewrite forallb_app, !existsb_app, K1, K2, K4, K5, B1, B2.
    split; [reflexivity|]. split; [reflexivity|]. split; [|split; [reflexivity|split; discriminate]].
    assert (Hec : forall x l, ends_close (x :: l) = match l with [] => is_close_curly x | _ => ends_close l end) by (intros x [|]; reflexivity).
    rewrite !Hec. destruct pre as [|y pre].
    - cbn [app]. destruct a as [|y a].
      + rewrite (proj1 B4 eq_refl). exact K3.
      + destruct cs as [|z cs]; [destruct B4 as [_ B4]; discriminate (B4 eq_refl)|]. exact B3.
    - destruct K7 as [K7|K7]; [discriminate|]. cbn [app].
      assert (Hpre : forall l, existsb is_close_curly (y :: l) = false -> ends_close (y :: l ++ a) = match a with [] => false | _ => ends_close a end).
      { clear. intro l. revert y. induction l as [|z l IHl]; intros y Hl.
        - cbn [app]. cbn in Hl. rewrite orb_false_r in Hl. destruct a; [exact Hl|reflexivity].
        - cbn [app]. change (ends_close (y :: z :: l ++ a)) with (ends_close (z :: l ++ a)). apply IHl.
          cbn [existsb] in Hl |- *. destruct (is_close_curly y); [discriminate|exact Hl]. }
      rewrite Hpre by exact K6. destruct a as [|z a].
      + rewrite (proj1 B4 eq_refl), K7. reflexivity.
      + destruct cs as [|z' cs]; [destruct B4 as [_ B4]; discriminate (B4 eq_refl)|]. exact B3. }
  cbn [indent_children] in H.
  destruct c; try (refine (Hkeep _ [] Hwc eq_refl eq_refl eq_refl eq_refl eq_refl (or_introl eq_refl) H)).
  - destruct t; try (refine (Hkeep _ [] Hwc eq_refl eq_refl eq_refl eq_refl eq_refl (or_introl eq_refl) H)).
    destruct (is_newline ind); [discriminate|]. refine (Hkeep _ [ind] Hwc eq_refl eq_refl _ _ _ (or_intror eq_refl) H); cbn; rewrite ?Hi1, ?Hi2, ?Hi3; reflexivity.
  - inv_bind H. apply indent_field_wf in Hb; [|apply Hcf; reflexivity|exact Hwc].
    refine (Hkeep _ [] Hb eq_refl eq_refl eq_refl eq_refl eq_refl (or_introl eq_refl) Hk).
  - inv_bind H. destruct (Hc _ Hwc Hb) as [K1 K2].
    refine (Hkeep _ [] K1 _ _ eq_refl eq_refl eq_refl (or_introl eq_refl) Hk); destruct a; try discriminate; reflexivity.
  - inv_bind H. destruct (Hc _ Hwc Hb) as [K1 K2].
    refine (Hkeep _ [] K1 _ _ eq_refl eq_refl eq_refl (or_introl eq_refl) Hk); destruct a; try discriminate; reflexivity.
  - inv_bind H. destruct (Hc _ Hwc Hb) as [K1 K2].
    refine (Hkeep _ [] K1 _ _ eq_refl eq_refl eq_refl (or_introl eq_refl) Hk); destruct a; try discriminate; reflexivity.
Qed.

Lemma indent_text_wf : forall ind, is_newline ind || is_blank_node ind = true -> forall n, indents_wf ind n.
Proof.
  intros ind Hi n.
  assert (G : indents_wf ind n /\ forall fc, n = NField fc -> Forall (indents_wf ind) fc); [|apply G].
  induction n as [t|t|p|t|cs IH|cs k IH|cs IH|cs IH|cs IH] using node_ind';
    try (split; [intros n' Hw H; injection H as <-; split; [exact Hw|reflexivity]|discriminate]).
  - split; [intros n' Hw H; injection H as <-; split; [exact Hw|reflexivity]|].
    intros fc E. injection E as <-. eapply Forall_impl; [|exact IH]. intros a Ha. apply Ha.
  - split; [|discriminate]. intros n' Hw H. cbn [indent_text] in H. unfold rmap in H. inv_bind H. injection Hk as <-.
    eapply indent_children_wf in Hb; try eassumption. split; [apply Hb|reflexivity].
  - split; [|discriminate]. intros n' Hw H. cbn [indent_text] in H. unfold rmap in H. inv_bind H. injection Hk as <-.
    eapply indent_children_wf in Hb; try eassumption. split; [apply Hb|reflexivity].
  - split; [|discriminate]. intros n' Hw H. cbn [indent_text] in H. unfold rmap in H. inv_bind H. injection Hk as <-.
    cbn [wf_node] in Hw. apply andb_true_iff in Hw. destruct Hw as [Hb1 Hw].
    eapply indent_children_wf in Hb; try eassumption. destruct Hb as [B1 [B2 [B3 [B4 _]]]]. split; [|reflexivity].
    cbn [wf_node]. unfold wfs in B1. rewrite B1. unfold braces in *. rewrite B2, B3, B4, Hb1. reflexivity.
Qed.

Lemma changed_mono : forall p cs cs', changed false p cs cs' -> changed true p cs cs'.
Proof.
  intros p cs cs' H. induction H; try (econstructor; eassumption). discriminate.
Qed.

Definition ok_value (v : option node) : Prop :=
  match v with Some n => wf_node n = true /\ is_value_node n = true | None => True end.

Lemma change_children_changed : forall rec f p v cs i prev after seen vc, p <> [] -> wfs cs = true -> ok_value v ->
  (forall ocs r vc0 ocs', wfs ocs = true -> r <> [] -> (List.length r < List.length p)%nat -> ok_value vc0 -> rec ocs r vc0 = Ok ocs' ->
     changed (match vc0 with Some _ => true | None => false end) r ocs ocs') ->
  change_children rec f p v i prev cs = Ok (after, seen, vc) ->
  changed (match v with Some _ => true | None => false end) p cs after /\ (vc = v \/ vc = None).
Proof.
  intros rec f p v. induction cs as [|c cs IH]; intros i prev after seen vc Hp Hw Hv Hrec H; cbn [change_children] in H.
  { injection H as <- <- <-. split; [constructor|auto]. }
  unfold wfs in Hw. cbn [forallb] in Hw. apply andb_true_iff in Hw. destruct Hw as [Hc Hw].
  inv_bind H. destruct a as [[after0 seen0] vc0]. apply IH in Hb; try assumption. destruct Hb as [Hch Hvc].
  assert (Hvc' : ok_value vc0) by (destruct Hvc as [-> | ->]; [exact Hv|exact I]).
  destruct c; try (injection Hk as <- <- <-; split; [apply C_keep; [reflexivity|exact Hch]|exact Hvc]).
  - destruct (is_json f && negb seen0 && is_comma (NTok t)) eqn:Ej; injection Hk as <- <- <-; (split; [|exact Hvc]).
    + apply C_drop; [|exact Hch]. apply andb_true_iff in Ej. destruct Ej as [_ ->]. apply orb_true_r.
    + apply C_keep; [reflexivity|exact Hch].
  - rewrite andb_false_r in Hk. injection Hk as <- <- <-. split; [apply C_keep; [reflexivity|exact Hch]|exact Hvc].
  - cbn [wf_node] in Hc. apply andb_true_iff in Hc. destruct Hc as [Hf Hcs].
    destruct (field_parts _ Hf) as [toks [ov [E1 [Hne [E2 [E3 E4]]]]]]. rewrite E1 in Hk. cbn [bind] in Hk.
    destruct (relate_ops (key_of children) p Hne Hp) as [O1 [O2 [O3 O4]]]. rewrite O1, O2, O3 in Hk.
    destruct (relate (key_of children) p) as [| |r|] eqn:Er.
    + destruct vc0 as [v0|].
      * cbn [bind andb negb] in Hk. inv_bind Hk. inv_bind Hk0. injection Hk as <- <- <-.
        destruct Hvc as [<- |Hvc]; [|discriminate]. split; [|auto].
        assert (Hw' : wf_node a = true /\ is_value_node a = true).
        { destruct Hv as [Hv1 Hv2]. unfold indent_like in Hb. destruct (if (2 <=? i)%nat then prev else None) as [b|].
          - destruct (is_complex v0 && is_blank_node b) eqn:Eb; [|injection Hb as <-; auto].
            apply andb_true_iff in Eb. destruct Eb as [_ Eb]. eapply indent_text_wf in Hb; [|rewrite Eb; apply orb_true_r|exact Hv1].
            destruct Hb as [B1 B2]. rewrite B2. auto.
          - injection Hb as <-. auto. }
        destruct Hw' as [W1 W2]. eapply C_replace; try eassumption. reflexivity.
      * cbn [bind] in Hk. injection Hk as <- <- <-. split; [|exact Hvc]. apply C_delete; [auto|].
        apply changed_drop_separators. exact Hch.
    + assert (Hd : Ok (drop_separators after0, seen0, vc0) = Ok (after, seen, vc)).
      { destruct vc0; cbn [bind andb negb] in Hk; exact Hk. }
      injection Hd as <- <- <-. split; [|exact Hvc]. apply C_delete; [auto|]. apply changed_drop_separators. exact Hch.
    + destruct (O4 r eq_refl) as [O5 [O6 O7]]. rewrite E2, O5 in Hk.
      assert (Hk' : match ov with
         | NObject ocs => ocs' <- rec ocs r vc0 ;; fc' <- replace_value children (NObject ocs') ;; Ok (NField fc' :: after0, true, vc0)
         | _ => Ok (NField children :: after0, true, vc0) end = Ok (after, seen, vc)).
      { destruct vc0; cbn [bind andb negb] in Hk; destruct ov; exact Hk. }
      destruct ov; try (injection Hk' as <- <- <-; split; [|exact Hvc]; apply C_other; [rewrite Er, E3; exact I|exact Hch]).
      inv_bind Hk'. inv_bind Hk0. injection Hk1 as <- <- <-. split; [|exact Hvc].
      pose proof (value_wf _ _ E3 Hcs) as Hvw. cbn in Hvw. apply andb_true_iff in Hvw. destruct Hvw as [_ Hvw].
      apply Hrec in Hb; try assumption; [|exact (above_shorter _ _ _ Hne Er)].
      eapply C_below; try eassumption. destruct Hvc as [-> | ->]; [exact Hb|]. destruct v; [apply changed_mono|]; exact Hb.
    + assert (Hd : Ok (NField children :: after0, true, vc0) = Ok (after, seen, vc)).
      { destruct vc0; cbn [bind andb negb] in Hk; exact Hk. }
      injection Hd as <- <- <-. split; [|exact Hvc]. apply C_other; [rewrite Er; exact I|exact Hch].
Qed.

Lemma change_value_changed : forall n f cs p v cs', p <> [] -> wfs cs = true -> ok_value v ->
  change_value_n n f cs p v = Ok cs' -> changed (match v with Some _ => true | None => false end) p cs cs'.
Proof.
  induction n as [|n IH]; intros f cs p v cs' Hp Hw Hv H; [discriminate|]. cbn [change_value_n] in H. inv_bind H.
  destruct a as [[after seen] vc]. injection Hk as <-. eapply change_children_changed in Hb; try eassumption; [apply Hb|].
  intros ocs r vc0 ocs' H1 H2 H3 H4 H5. eapply IH; eassumption.
Qed.
