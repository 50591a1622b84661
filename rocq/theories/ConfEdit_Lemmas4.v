(** What is at the path of an edit. *)
From Verif Require Import Base BaseLemmas Util_Model Num_Model Path_Model Path_Spec Path_Lemmas Token_Model PathParser_Model Doc_Model Doc_Spec Doc_Lemmas Edit_Model Edit_Spec Edit_Lemmas Edit_Lemmas2 Edit_Lemmas3 Value_Model Value_Spec Value_Lemmas Value_Lemmas2 Concat_Model ConfigParser_Model ConfigParser_Spec ConfigParser_Lemmas ConfigParser_Lemmas2 ConfEdit_Spec ConfEdit_Lemmas ConfEdit_Lemmas2 ConfEdit_Lemmas3.

Lemma twins_look : forall p a b, p <> [] -> twins a b -> look p a = look p b /\ (free p a <-> free p b).
Proof. intros [|k p] a b N [H1 H2]; [congruence|]. cbn [look free]. rewrite H1, H2. tauto. Qed.
Lemma free_obj : forall p, free p (obj []).
Proof. intros [|k p]; cbn; [exact I|]. split; [reflexivity|apply free_none]. Qed.
Lemma look_obj : forall p, p <> [] -> look p (obj []) = None.
Proof. intros [|k p] N; [congruence|]. apply look_none. Qed.
Lemma plain_nil : plain_fields [].
Proof. split; constructor. Qed.
Lemma free_above : forall p x v, free p (Some (under (p ++ x) v)).
Proof.
  induction p as [|k p IH]; intros x v; [exact I|]. cbn [app]. pose proof (under_sub k (p ++ x) v) as U. set (y := Some (under (k :: p ++ x) v)) in *. split; [reflexivity|].
  rewrite U, str_eqb_refl. apply IH.
Qed.
Lemma look_below : forall p x v, look p (Some (under (p ++ x) v)) = Some (under x v).
Proof.
  induction p as [|k p IH]; intros x v; [reflexivity|]. cbn [app look]. rewrite under_sub, str_eqb_refl. apply IH.
Qed.

(** ** After setting *)
Section Settled.
Variable P : node -> Prop.
Inductive settled : path -> list node -> Prop :=
| st_nil : forall p, settled p []
| st_skip : forall p c cs, is_field c = false -> settled p cs -> settled p (c :: cs)
| st_apart : forall p fc cs, relate (key_of fc) p = Apart -> settled p cs -> settled p (NField fc :: cs)
| st_same : forall p fc v cs, relate (key_of fc) p = Same -> value_of fc = Some v -> P v -> settled p cs -> settled p (NField fc :: cs)
| st_above : forall p r fc ocs cs, relate (key_of fc) p = Above r -> value_of fc = Some (NObject ocs) -> settled r ocs -> settled p cs -> settled p (NField fc :: cs).

Lemma settled_way : forall p cs, settled p cs -> forall v, on_way p cs v -> exists ocs, v = NObject ocs.
Proof.
  intros p cs H. induction H as [p|p c cs N H IH|p fc cs R H IH|p fc v cs R V Pv H IH|p r fc ocs cs R V H1 IH1 H IH]; intros u U.
  - inversion U as [? ? ? ? ? Hi|? ? ? ? ? ? Hi]; subst; contradiction Hi.
  - apply IH. inversion U as [? ? ? ? ? Hi|? ? ? ? ? ? Hi]; subst; (destruct Hi as [->|Hi]; [discriminate N|]); [eapply way_here|eapply way_below]; eassumption.
  - inversion U as [? ? ? ? ? Hi R'|? ? ? ? ? ? Hi R']; subst; (destruct Hi as [E|Hi]; [injection E as ->; congruence|]); apply IH; [eapply way_here|eapply way_below]; eassumption.
  - inversion U as [? ? ? ? ? Hi R'|? ? ? ? ? ? Hi R']; subst; (destruct Hi as [E|Hi]; [injection E as ->; congruence|]); apply IH; [eapply way_here|eapply way_below]; eassumption.
  - inversion U as [? ? ? r' ? Hi R' V'|? ? ? r' ? ? Hi R' V' U']; subst; destruct Hi as [E|Hi].
    + injection E as ->. rewrite V in V'. injection V' as <-. eauto.
    + apply IH. eapply way_here; eassumption.
    + injection E as ->. rewrite V in V'. injection V' as <-. rewrite R in R'. injection R' as <-. apply IH1, U'.
    + apply IH. eapply way_below; eassumption.
Qed.

Lemma edit_settled : forall p cs cs', edit P p cs cs' -> wfs cs = true -> (forall v, on_way p cs v -> exists ocs, v = NObject ocs) -> settled p cs'.
Proof.
  intros p cs cs' H. induction H as [p|p c cs cs' N H IH|p c cs cs' N H IH|p t cs cs' H IH|p fc cs cs' R H IH|p fc fc' v cs cs' R E V Pv H IH
    |p r fc fc' ocs ocs' cs cs' R V H1 IH1 E H IH|p fc cs cs' R H IH|p fc v cs cs' W K Pl V Pv H IH|k r fc ocs cs cs' W K Pl Nr V H1 IH1 H IH]; intros Hw Y;
    try (apply wfs_cons in Hw; destruct Hw as [Hc Hw]); try (assert (Y' : forall v, on_way p cs v -> exists ocs, v = NObject ocs)
           by (intros u U; apply Y; inversion U; subst; [eapply way_here; [right|..]|eapply way_below; [right|..]]; eassumption)).
  - constructor.
  - apply st_skip; auto.
  - auto.
  - apply st_skip; auto.
  - auto.
  - destruct (replace_parts _ _ _ E V) as [K1 [K2 _]]. eapply st_same; try eassumption; [congruence|auto].
  - destruct (replace_parts _ _ _ E eq_refl) as [K1 [K2 _]]. eapply st_above; try eassumption; [rewrite K1; exact R| |auto].
    apply IH1; [exact (wf_object _ (value_wf _ _ V (proj2 (wf_field_node _ Hc))))|]. intros u U. apply Y. eapply way_below; try eassumption. left. reflexivity.
  - destruct (relate (key_of fc) p) as [| |r|] eqn:Er; try contradiction; [|apply st_apart; auto].
    exfalso. destruct (value_of fc) as [u|] eqn:Ev.
    + destruct (Y u) as [ocs ->]; [eapply way_here; [left; reflexivity|exact Er|exact Ev]|exact R].
    + destruct (field_parts _ (proj1 (wf_field_node _ Hc))) as [_ [u [_ [_ [_ [Eu _]]]]]]. congruence.
  - eapply st_same; try eassumption; [rewrite K; apply relate_same|auto].
  - eapply st_above; try eassumption; [rewrite K; apply relate_head; assumption| |auto]. apply IH1; [reflexivity|]. intros u U. inversion U as [? ? ? ? ? Hi|? ? ? ? ? ? Hi]; subst; contradiction Hi.
Qed.

Lemma has_cons : forall n p c cs, hasb (S n) p (c :: cs) = hasb (S n) p [c] || hasb (S n) p cs.
Proof. intros. apply hasb_cons. Qed.

Lemma settled_runs : forall w, plain w -> (forall n, P n -> stands_for n w) -> forall p cs, settled p cs -> p <> [] -> wfs cs = true ->
  forall F0 F, plain_fields F0 -> free p (obj F0) -> at_most w (look p (obj F0)) -> runs cs F0 F ->
  free p (obj F) /\ at_most w (look p (obj F)) /\ (look p (obj F0) = Some w \/ (exists n, hasb n p cs = true) -> look p (obj F) = Some w).
Proof.
  intros w Pw HP p cs H. induction H as [p|p c cs N H IH|p fc cs R H IH|p fc v cs R V Pv H IH|p r fc ocs cs R V H1 IH1 H IH]; intros Np Hw F0 F P0 Fr At X;
    try (apply wfs_cons in Hw; destruct Hw as [Hc Hw]).
  - inversion X; subst. repeat split; try assumption. intros [E|[n E]]; [exact E|]. destruct n; discriminate.
  - inversion X as [|? ? ? ? _ Hi X'|]; subst; [|discriminate N]. destruct (IH Np Hw F0 F P0 Fr At X') as [A [B C]]. repeat split; try assumption.
    intros [E|[n E]]; apply C; [auto|]. right. exists n. destruct n; [discriminate|]. rewrite hasb_cons in E. rewrite hasb_nonfield in E by exact N. exact E.
  - inversion X as [|? ? ? ? Hf|? ? q u ? F1 ? S Ad X']; subst; [discriminate Hf|]. destruct (wf_field_node _ Hc) as [Wf Wc].
    destruct (says_parts _ _ _ S Wf) as [-> [Pu _]]. destruct (field_parts _ Wf) as [_ [_ [_ [Hk _]]]].
    destruct (add_field_over F0 (key_of fc) u P0 Pu Hk) as [F2 [E [P1 T]]]. rewrite Ad in E. injection E as <-.
    pose proof (relate_spec (key_of fc) p) as Rs. rewrite R in Rs. destruct Rs as [R1 R2]. destruct (apart_under (key_of fc) p u R1 R2) as [L Fn].
    destruct (twins_look p _ _ Np T) as [Tl Tf]. pose proof (under_plain (key_of fc) u Pu) as Pn. pose proof (obj_plain F0 P0) as Po.
    rewrite (look_over p w) in Tl by (try assumption; left; exact L). rewrite L in Tl.
    destruct (IH Np Hw F1 F P1) as [A [B C]]; [apply Tf, free_over; assumption|rewrite Tl; exact At|exact X'|]. repeat split; try assumption.
    intros [E|[n E]]; apply C; [left; congruence|]. right. exists n. destruct n; [discriminate|]. rewrite hasb_cons, hasb_field, R in E. exact E.
  - inversion X as [|? ? ? ? Hf|? ? q u ? F1 ? S Ad X']; subst; [discriminate Hf|]. destruct (wf_field_node _ Hc) as [Wf Wc].
    destruct (says_parts _ _ _ S Wf) as [-> [Pu [_ [n [Vn Sn]]]]]. destruct (field_parts _ Wf) as [_ [_ [_ [Hk _]]]].
    rewrite V in Vn. injection Vn as <-. assert (u = w) by (pose proof (Sn no_includes [] 0 0%nat) as A; rewrite (HP _ Pv) in A; congruence). subst u.
    destruct (add_field_over F0 (key_of fc) w P0 Pu Hk) as [F2 [E [P1 T]]]. rewrite Ad in E. injection E as <-.
    pose proof (relate_spec (key_of fc) p) as Rs. rewrite R in Rs. rewrite Rs in *.
    pose proof (look_below p [] w) as L. rewrite app_nil_r in L. pose proof (free_above p [] w) as Fn. rewrite app_nil_r in Fn.
    destruct (twins_look p _ _ Np T) as [Tl Tf]. pose proof (under_plain p w Pu) as Pn. pose proof (obj_plain F0 P0) as Po.
    rewrite (look_over p w) in Tl by (try assumption; right; exact L). rewrite L in Tl.
    destruct (IH Np Hw F1 F P1) as [A [B C]]; [apply Tf, free_over; assumption|right; exact Tl|exact X'|]. repeat split; try assumption. intros _. apply C. auto.
  - inversion X as [|? ? ? ? Hf|? ? q u ? F1 ? S Ad X']; subst; [discriminate Hf|]. destruct (wf_field_node _ Hc) as [Wf Wc].
    destruct (says_parts _ _ _ S Wf) as [-> [Pu [_ [n [Vn Sn]]]]]. destruct (field_parts _ Wf) as [_ [_ [_ [Hk _]]]].
    rewrite V in Vn. injection Vn as <-. destruct (stands_runs _ _ Sn) as [G [-> Rg]].
    pose proof (relate_spec (key_of fc) p) as Rs. rewrite R in Rs. destruct Rs as [Nr Rs].
    destruct (IH1 Nr (wf_object _ (value_wf _ _ V Wc)) [] G plain_nil (free_obj r)) as [A1 [B1 C1]]; [left; apply look_obj, Nr|exact Rg|].
    destruct (add_field_over F0 (key_of fc) _ P0 Pu Hk) as [F2 [E [P1 T]]]. rewrite Ad in E. injection E as <-.
    assert (L : look p (Some (under (key_of fc) (new_object G))) = look r (obj G)) by (rewrite Rs at 1; apply look_under).
    assert (Fn : free p (Some (under (key_of fc) (new_object G)))) by (rewrite Rs at 1; apply free_under, A1).
    destruct (twins_look p _ _ Np T) as [Tl Tf]. pose proof (under_plain (key_of fc) _ Pu) as Pn. pose proof (obj_plain F0 P0) as Po.
    rewrite (look_over p w) in Tl by (try assumption; rewrite L; exact B1). rewrite L in Tl.
    destruct (IH Np Hw F1 F P1) as [A [B C]]; [apply Tf, free_over; assumption| |exact X'|].
    { rewrite Tl. destruct (look r (obj G)); [right; reflexivity|exact At]. }
    repeat split; try assumption. intros [E|[m E]].
    + apply C. left. rewrite Tl, E. destruct (look r (obj G)); reflexivity.
    + destruct m; [discriminate|]. rewrite hasb_cons, hasb_field, R, V in E. apply orb_true_iff in E. destruct E as [E|E]; apply C; [|eauto].
      left. rewrite Tl. rewrite C1 by eauto. reflexivity.
Qed.
End Settled.

(** ** After removing *)
Inductive cleared : path -> list node -> Prop :=
| cl_nil : forall p, cleared p []
| cl_skip : forall p c cs, is_field c = false -> cleared p cs -> cleared p (c :: cs)
| cl_apart : forall p fc cs, relate (key_of fc) p = Apart -> cleared p cs -> cleared p (NField fc :: cs)
| cl_flat : forall p r fc v cs, relate (key_of fc) p = Above r -> value_of fc = Some v -> match v with NObject _ | NConcat _ => False | _ => True end -> cleared p cs -> cleared p (NField fc :: cs)
| cl_above : forall p r fc ocs cs, relate (key_of fc) p = Above r -> value_of fc = Some (NObject ocs) -> cleared r ocs -> cleared p cs -> cleared p (NField fc :: cs).

Lemma edit_cleared : forall p cs cs', edit (fun _ => False) p cs cs' -> wfs cs = true -> (forall v, on_way p cs v -> forall ncs, v <> NConcat ncs) -> cleared p cs'.
Proof.
  intros p cs cs' H. induction H as [p|p c cs cs' N H IH|p c cs cs' N H IH|p t cs cs' H IH|p fc cs cs' R H IH|p fc fc' v cs cs' R E V Pv H IH
    |p r fc fc' ocs ocs' cs cs' R V H1 IH1 E H IH|p fc cs cs' R H IH|p fc v cs cs' W K Pl V Pv H IH|k r fc ocs cs cs' W K Pl Nr V H1 IH1 H IH]; intros Hw Y; try contradiction Pv;
    try (apply wfs_cons in Hw; destruct Hw as [Hc Hw]); try (assert (Y' : forall v, on_way p cs v -> forall ncs, v <> NConcat ncs)
           by (intros u U; apply Y; inversion U; subst; [eapply way_here; [right|..]|eapply way_below; [right|..]]; eassumption)).
  - constructor.
  - apply cl_skip; auto.
  - auto.
  - apply cl_skip; auto.
  - auto.
  - destruct (replace_parts _ _ _ E eq_refl) as [K1 [K2 _]]. eapply cl_above; try eassumption; [rewrite K1; exact R| |auto].
    apply IH1; [exact (wf_object _ (value_wf _ _ V (proj2 (wf_field_node _ Hc))))|]. intros u U. apply Y. eapply way_below; try eassumption. left. reflexivity.
  - destruct (relate (key_of fc) p) as [| |r|] eqn:Er; try contradiction; [|apply cl_apart; auto].
    destruct (field_parts _ (proj1 (wf_field_node _ Hc))) as [_ [u [_ [_ [_ [Eu _]]]]]]. eapply cl_flat; try eassumption; [|auto].
    rewrite Eu in R. destruct u; try exact R; try exact I. eapply Y; [eapply way_here; [left; reflexivity|exact Er|exact Eu]|reflexivity].
  - eapply cl_above; try eassumption; [rewrite K; apply relate_head; assumption| |auto]. apply IH1; [reflexivity|]. intros u U. inversion U as [? ? ? ? ? Hi|? ? ? ? ? ? Hi]; subst; contradiction Hi.
Qed.

Lemma flat_look : forall n v r, match n with NObject _ | NConcat _ => False | _ => True end -> stands_for n v -> r <> [] -> look r (Some v) = None.
Proof.
  intros n v [|k r] N S Hr; [congruence|]. specialize (S no_includes [] 0 0%nat). cbn [look]. destruct n as [t|t|p|t|cs|cs kk|cs|cs|cs]; try contradiction N; try discriminate S.
  - cbn [parse_value] in S. destruct t; cbn [token_value] in S; try discriminate S; try (injection S as <-; apply look_none).
    inv_bind S. destruct a. discriminate Hk.
  - cbn [parse_value] in S. inv_bind S. destruct a. injection Hk as <- _. apply look_none.
Qed.

Lemma cleared_runs : forall p cs, cleared p cs -> p <> [] -> wfs cs = true -> forall F0 F, plain_fields F0 -> look p (obj F0) = None -> runs cs F0 F -> look p (obj F) = None.
Proof.
  intros p cs H. induction H as [p|p c cs N H IH|p fc cs R H IH|p r fc v cs R V Fl H IH|p r fc ocs cs R V H1 IH1 H IH]; intros Np Hw F0 F P0 L0 X;
    try (apply wfs_cons in Hw; destruct Hw as [Hc Hw]).
  - inversion X; subst. exact L0.
  - inversion X as [|? ? ? ? _ Hi X'|]; subst; [|discriminate N]. eauto.
  - inversion X as [|? ? ? ? Hf|? ? q u ? F1 ? S Ad X']; subst; [discriminate Hf|]. destruct (wf_field_node _ Hc) as [Wf Wc].
    destruct (says_parts _ _ _ S Wf) as [-> [Pu _]]. destruct (field_parts _ Wf) as [_ [_ [_ [Hk _]]]].
    destruct (add_field_over F0 (key_of fc) u P0 Pu Hk) as [F2 [E [P1 T]]]. rewrite Ad in E. injection E as <-.
    pose proof (relate_spec (key_of fc) p) as Rs. rewrite R in Rs. destruct Rs as [R1 R2]. destruct (apart_under (key_of fc) p u R1 R2) as [L Fn].
    destruct (twins_look p _ _ Np T) as [Tl _]. apply (IH Np Hw F1 F P1); [|exact X']. rewrite Tl.
    apply look_over_none; [exact (under_plain (key_of fc) u Pu)|exact (obj_plain F0 P0)|exact L|exact L0].
  - inversion X as [|? ? ? ? Hf|? ? q u ? F1 ? S Ad X']; subst; [discriminate Hf|]. destruct (wf_field_node _ Hc) as [Wf Wc].
    destruct (says_parts _ _ _ S Wf) as [-> [Pu [_ [n [Vn Sn]]]]]. destruct (field_parts _ Wf) as [_ [_ [_ [Hk _]]]]. rewrite V in Vn. injection Vn as <-.
    destruct (add_field_over F0 (key_of fc) u P0 Pu Hk) as [F2 [E [P1 T]]]. rewrite Ad in E. injection E as <-.
    pose proof (relate_spec (key_of fc) p) as Rs. rewrite R in Rs. destruct Rs as [Nr Rs].
    destruct (twins_look p _ _ Np T) as [Tl _]. apply (IH Np Hw F1 F P1); [|exact X']. rewrite Tl.
    apply look_over_none; [exact (under_plain (key_of fc) u Pu)|exact (obj_plain F0 P0)| |exact L0].
    rewrite Rs at 1. rewrite look_under. eapply flat_look; eassumption.
  - inversion X as [|? ? ? ? Hf|? ? q u ? F1 ? S Ad X']; subst; [discriminate Hf|]. destruct (wf_field_node _ Hc) as [Wf Wc].
    destruct (says_parts _ _ _ S Wf) as [-> [Pu [_ [n [Vn Sn]]]]]. destruct (field_parts _ Wf) as [_ [_ [_ [Hk _]]]]. rewrite V in Vn. injection Vn as <-.
    destruct (stands_runs _ _ Sn) as [G [-> Rg]].
    destruct (add_field_over F0 (key_of fc) _ P0 Pu Hk) as [F2 [E [P1 T]]]. rewrite Ad in E. injection E as <-.
    pose proof (relate_spec (key_of fc) p) as Rs. rewrite R in Rs. destruct Rs as [Nr Rs].
    destruct (twins_look p _ _ Np T) as [Tl _]. apply (IH Np Hw F1 F P1); [|exact X']. rewrite Tl.
    apply look_over_none; [exact (under_plain (key_of fc) _ Pu)|exact (obj_plain F0 P0)| |exact L0].
    rewrite Rs at 1. rewrite look_under. apply (IH1 Nr (wf_object _ (value_wf _ _ V Wc)) [] G plain_nil); [apply look_obj, Nr|exact Rg].
Qed.

(** ** has_value *)
Lemma look_over_iff : forall p n o, plain_opt n -> plain_opt o -> free p n -> (look p (over n o) = None <-> look p n = None /\ look p o = None).
Proof.
  induction p as [|k p IH]; intros n o Hn Ho Fr.
  - cbn [look]. destruct n as [a|]; [|cbn [over]; tauto]. destruct (over_some a o Hn Ho) as [c [-> _]]. split; [discriminate|intros [X _]; discriminate X].
  - cbn [look]. destruct Fr as [Fb Fr]. rewrite over_sub by assumption. rewrite Fb. apply IH; [apply sub_plain, Hn|apply sub_plain, Ho|exact Fr].
Qed.

Lemma has_runs : forall m cs p, p <> [] -> (List.length p <= m)%nat -> wfs cs = true -> (forall v, on_way p cs v -> exists ocs, v = NObject ocs) -> forall F0 F, plain_fields F0 -> free p (obj F0) -> runs cs F0 F ->
  free p (obj F) /\ (look p (obj F) = None <-> look p (obj F0) = None /\ hasb m p cs = false).
Proof.
  induction m as [|m IHm]; intros cs p Np Hm; [destruct p; [congruence|cbn in Hm; lia]|].
  induction cs as [|c cs IH]; intros Hw Y F0 F P0 Fr X; [inversion X; subst; split; [exact Fr|]; cbn [hasb existsb]; tauto|].
  apply wfs_cons in Hw. destruct Hw as [Hc Hw].
  assert (Y' : forall v, on_way p cs v -> exists ocs, v = NObject ocs)
    by (intros u U; apply Y; inversion U; subst; [eapply way_here; [right|..]|eapply way_below; [right|..]]; eassumption).
  specialize (IH Hw Y'). inversion X as [|? ? ? ? Hf Hi X'|fc ? q u ? F1 ? S Ad X']; subst.
  - rewrite hasb_cons, hasb_nonfield by assumption. exact (IH F0 F P0 Fr X').
  - destruct (wf_field_node _ Hc) as [Wf Wc]. destruct (says_parts _ _ _ S Wf) as [-> [Pu [_ [n [Vn Sn]]]]]. destruct (field_parts _ Wf) as [_ [_ [_ [Hk _]]]].
    destruct (add_field_over F0 (key_of fc) u P0 Pu Hk) as [F2 [E [P1 T]]]. rewrite Ad in E. injection E as <-.
    destruct (twins_look p _ _ Np T) as [Tl Tf]. pose proof (relate_spec (key_of fc) p) as Rs.
    assert (G : free p (Some (under (key_of fc) u)) /\ (look p (Some (under (key_of fc) u)) = None <-> hasb (Datatypes.S m) p [NField fc] = false)).
    { rewrite hasb_field. destruct (relate (key_of fc) p) as [| |r|] eqn:R.
      - rewrite Rs. pose proof (free_above p [] u) as E1. pose proof (look_below p [] u) as E2. rewrite app_nil_r in E1, E2. split; [exact E1|rewrite E2; split; discriminate].
      - destruct Rs as [x [_ ->]]. split; [apply free_above|rewrite look_below; split; discriminate].
      - destruct Rs as [Nr Rs]. destruct (Y n) as [ocs ->]; [eapply way_here; [left; reflexivity|exact R|exact Vn]|].
        destruct (stands_runs _ _ Sn) as [G [-> Rg]]. rewrite Vn.
        destruct (IHm ocs r Nr) with (F0 := @nil (str * value)) (F := G) as [G1 G2].
        + pose proof (above_shorter _ _ _ Hk R). lia.
        + exact (wf_object _ (value_wf _ _ Vn Wc)).
        + intros y Hy. apply Y. eapply way_below; try eassumption. left. reflexivity.
        + exact plain_nil.
        + apply free_obj.
        + exact Rg.
        + rewrite Rs. split; [apply free_under; exact G1|]. rewrite look_under. rewrite look_obj in G2 by exact Nr. change (Some (new_object G)) with (obj G). tauto.
      - destruct Rs as [R1 R2]. destruct (apart_under (key_of fc) p u R1 R2) as [L Fn]. split; [exact Fn|tauto]. }
    destruct G as [G1 G2].
    assert (O : free p (obj F1) /\ (look p (obj F1) = None <-> look p (Some (under (key_of fc) u)) = None /\ look p (obj F0) = None)).
    { split; [apply Tf, free_over; [exact (under_plain (key_of fc) u Pu)|exact (obj_plain F0 P0)|exact G1|exact Fr]|].
      rewrite Tl. apply look_over_iff; [exact (under_plain (key_of fc) u Pu)|exact (obj_plain F0 P0)|exact G1]. }
    destruct O as [O1 O2]. destruct (IH F1 F P1 O1 X') as [Z1 Z2]. split; [exact Z1|]. rewrite hasb_cons, orb_false_iff. tauto.
Qed.
