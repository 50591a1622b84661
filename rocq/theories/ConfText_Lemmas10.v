(** Removing and replacing settings of tidily written objects. *)
From Verif Require Import Base BaseLemmas Util_Model Num_Model Path_Model Path_Spec Path_Lemmas Token_Model PathParser_Model Doc_Model Doc_Lemmas Edit_Model Json_Lemmas2 ConfEdit_Spec ConfText_Spec ConfText_Lemmas7 ConfText_Lemmas8.

(** ** Walks *)
Definition closes (e : place * bool) : bool := match e with (Closed, _) => true | _ => false end.
Definition goes (s : place * bool) (cs : list node) (b : bool) : Prop := exists e, walk s cs = Some e /\ closes e = b.
Lemma goes_cons : forall s c cs b, goes s (c :: cs) b <-> exists s', step s c = Some s' /\ goes s' cs b.
Proof.
  intros s c cs b. unfold goes. cbn [walk]. split.
  - intros [e [H C]]. destruct (step s c) as [s'|]; [|discriminate]. eauto.
  - intros [s' [-> H]]. exact H.
Qed.
Lemma walk_app : forall a b s, walk s (a ++ b) = match walk s a with Some s' => walk s' b | None => None end.
Proof. induction a as [|c a IH]; intros b s; [reflexivity|]. cbn [walk app]. destruct (step s c); [apply IH|reflexivity]. Qed.
Definition cut (cs : list node) : Prop := match cs with c :: _ => is_blank_node c || is_comma c = false | [] => True end.
Lemma goes_before : forall cs p h b, goes (p, h) cs b -> p <> Closed -> (h = false -> cut cs) -> goes (Before, h) cs b.
Proof.
  induction cs as [|c cs IH]; intros p h b H N C.
  - destruct H as [e [E X]]. injection E as <-. exists (Before, h). split; [reflexivity|]. destruct p; try congruence; exact X.
  - apply goes_cons in H. destruct H as [s' [S H]]. apply goes_cons.
    assert (Same : step (Before, h) c = Some s' -> exists s'', step (Before, h) c = Some s'' /\ goes s'' cs b) by eauto.
    destruct c; try discriminate S.
    + assert (X : step (Before, h) (NTok t) = Some s' -> exists s'', step (Before, h) (NTok t) = Some s'' /\ goes s'' cs b) by exact Same. apply X. clear X Same IH.
      cbn [step] in *. destruct h.
      * destruct t; try (destruct (pass p _); discriminate S); destruct p; try discriminate S; try congruence; exact S.
      * specialize (C eq_refl). destruct t; try discriminate C; try discriminate S; destruct p; try discriminate S; try congruence; exact S.
    + apply Same. clear Same IH. cbn [step] in *. destruct t; try discriminate S. destruct h; [discriminate|]. destruct p; try discriminate S; try congruence; unfold pass in *; try exact S. destruct double_slash; [discriminate|exact S].
    + cbn [step] in S |- *. destruct (line_lead (lead_of children)).
      * assert (s' = (p, true)) as -> by (destruct p; congruence). exists (Before, true). split; [reflexivity|]. apply (IH p true b H N). discriminate.
      * exists s'. split; [|exact H]. destruct p; try congruence; try exact S; destruct (inline_lead (lead_of children) && negb h); discriminate.
Qed.
Lemma goes_free : forall cs p b, goes (p, true) cs b -> goes (p, false) cs b.
Proof.
  intros [|c cs] p b H.
  - destruct H as [e [E X]]. injection E as <-. exists (p, false). split; [reflexivity|]. destruct p; exact X.
  - apply goes_cons in H. destruct H as [s' [S H]]. apply goes_cons. exists s'. split; [|exact H]. cbn [step] in *. destruct c; try discriminate S.
    + destruct t; try discriminate S; destruct (pass p _); try discriminate S; exact S.
    + destruct t; discriminate S.
    + destruct (line_lead (lead_of children)); [exact S|]. destruct p; try discriminate S; destruct (inline_lead (lead_of children)); discriminate S.
Qed.
Lemma goes_drop : forall cs p b, goes (p, false) cs b -> p = Before \/ p = Behind \/ p = Apart -> goes (Before, false) (drop_separators cs) b.
Proof.
  induction cs as [|c cs IH]; intros p b H P.
  - apply (goes_before _ p); [exact H|intros ->; destruct P as [P|[P|P]]; discriminate|intros _; exact I].
  - cbn [drop_separators]. destruct (is_blank_node c || is_comma c) eqn:B.
    + apply goes_cons in H. destruct H as [s' [S H]]. destruct c as [t| | | | | | | |]; try discriminate B. cbn [step] in S.
      assert (X : exists p', s' = (p', false) /\ (p' = Before \/ p' = Behind \/ p' = Apart)).
      { destruct t; try discriminate B; destruct P as [-> | [-> | ->]]; cbn [pass] in S; try discriminate S; try (destruct (blank_text text); [|discriminate S]); injection S as <-; eexists; split; try reflexivity; auto. }
      destruct X as [p' [-> P']]. exact (IH p' b H P').
    + apply (goes_before _ p); [exact H|intros ->; destruct P as [P|[P|P]]; discriminate|intros _; exact B].
Qed.
Lemma goes_lead : forall cs s b, goes s cs b -> forall fc, In (NField fc) cs -> inline_lead (lead_of fc) = true \/ line_lead (lead_of fc) = true.
Proof.
  induction cs as [|c cs IH]; intros s b H fc I; [destruct I|]. apply goes_cons in H. destruct H as [s' [S H]]. destruct I as [->|I]; [|exact (IH _ _ H _ I)].
  destruct s as [p h]. cbn [step] in S. destruct (line_lead (lead_of fc)); [auto|]. destruct (inline_lead (lead_of fc)); [auto|]. destruct p; discriminate S.
Qed.
(** A field is taken out, with the separators behind it. *)
Lemma goes_remove : forall fc cs s b, goes s (NField fc :: cs) b -> goes s (drop_separators cs) b.
Proof.
  intros fc cs [p h] b H. apply goes_cons in H. destruct H as [s' [S H]]. cbn [step] in S. destruct (line_lead (lead_of fc)).
  - assert (s' = (p, true) /\ p <> Closed) as [-> Np] by (destruct p; try discriminate S; split; congruence).
    assert (D : drop_separators cs = cs).
    { destruct cs as [|c cs]; [reflexivity|]. cbn [drop_separators]. destruct (is_blank_node c || is_comma c) eqn:B; [|reflexivity]. exfalso. apply goes_cons in H. destruct H as [s2 [S2 _]]. cbn [step] in S2.
      destruct c as [t| | | | | | | |]; try discriminate B. destruct t; try discriminate B; destruct (pass p _); discriminate S2. }
    rewrite D. destruct h; [exact H|apply goes_free, H].
  - destruct (inline_lead (lead_of fc) && negb h) eqn:E; [|destruct p; discriminate]. apply andb_true_iff in E. destruct E as [_ E]. destruct h; [discriminate|]. destruct p; try discriminate. injection S as <-. apply (goes_drop _ Behind); auto.
Qed.

(** ** Values without newlines are not changed by indentation *)
Lemma indent_same : forall ind n n', newline_free n = true -> indent_text ind n = Ok n' -> n' = n.
Proof.
  intros ind n. 
  assert (Kids : forall cs cs', Forall (fun n => forall n', newline_free n = true -> indent_text ind n = Ok n' -> n' = n) cs ->
     (forall fc, In (NField fc) cs -> Forall (fun n => forall n', newline_free n = true -> indent_text ind n = Ok n' -> n' = n) fc) ->
     forallb newline_free cs = true -> indent_children (indent_text ind) ind cs = Ok cs' -> cs' = cs).
  { induction cs as [|c cs IH]; intros cs' F G N H; [injection H as <-; reflexivity|]. inversion F as [|? ? Fc F']; subst. cbn [forallb] in N. apply andb_true_iff in N. destruct N as [Nc N].
    specialize (fun cs' => IH cs' F' (fun fc I => G fc (or_intror I)) N). cbn [indent_children] in H.
    assert (Plain : (r <- indent_children (indent_text ind) ind cs ;; Ok (c :: r)) = Ok cs' -> cs' = c :: cs) by (intro E; step E as r R; injection E as <-; rewrite (IH _ R); reflexivity).
    assert (Deep : (c' <- indent_text ind c ;; r <- indent_children (indent_text ind) ind cs ;; Ok (c' :: r)) = Ok cs' -> cs' = c :: cs) by (intro E; step E as c' Rc; step E as r R; injection E as <-; rewrite (IH _ R), (Fc _ Nc Rc); reflexivity).
    destruct c; try exact (Plain H); try exact (Deep H).
    - destruct t; try exact (Plain H). discriminate Nc.
    - step H as fc' Rf. step H as r R. injection H as <-. rewrite (IH _ R). f_equal. f_equal. specialize (G _ (or_introl eq_refl)). cbn [newline_free] in Nc. clear -G Nc Rf. revert fc' Rf.
      induction children as [|x fc IH]; intros fc' Rf; [discriminate|]. inversion G as [|? ? Gx G']; subst. cbn [forallb] in Nc. apply andb_true_iff in Nc. destruct Nc as [Nx Nc]. cbn [indent_field] in Rf. destruct (is_value_node x).
      + destruct (is_complex x); [|injection Rf as <-; reflexivity]. step Rf as x' Rx. injection Rf as <-. rewrite (Gx _ Nx Rx). reflexivity.
      + step Rf as r Rr. injection Rf as <-. rewrite (IH G' Nc _ Rr). reflexivity. }
  assert (All : (forall n', newline_free n = true -> indent_text ind n = Ok n' -> n' = n) /\ forall fc, n = NField fc -> Forall (fun n => forall n', newline_free n = true -> indent_text ind n = Ok n' -> n' = n) fc).
  { induction n using node_ind'; (split; [|intros fc E; try discriminate E]); try (intros n' _ E; injection E as <-; reflexivity).
    - injection E as <-. eapply Forall_impl; [|eassumption]. intros a X. apply X.
    - intros n' Nf E. cbn [indent_text] in E. unfold rmap in E. step E as cs' R. injection E as <-. f_equal. apply Kids; auto; [eapply Forall_impl; [|eassumption]; intros a X; apply X|].
      match goal with F : Forall _ cs |- _ => rewrite Forall_forall in F; intros fc I; exact (proj2 (F _ I) fc eq_refl) end.
    - intros n' Nf E. cbn [indent_text] in E. unfold rmap in E. step E as cs' R. injection E as <-. f_equal. apply Kids; auto; [eapply Forall_impl; [|eassumption]; intros a X; apply X|].
      match goal with F : Forall _ cs |- _ => rewrite Forall_forall in F; intros fc I; exact (proj2 (F _ I) fc eq_refl) end.
    - intros n' Nf E. cbn [indent_text] in E. unfold rmap in E. step E as cs' R. injection E as <-. f_equal. apply Kids; auto; [eapply Forall_impl; [|eassumption]; intros a X; apply X|].
      match goal with F : Forall _ cs |- _ => rewrite Forall_forall in F; intros fc I; exact (proj2 (F _ I) fc eq_refl) end. }
  apply All.
Qed.

(** ** Fields *)
Definition field_ok (fc : list node) : Prop :=
  field_shape fc = true /\ (forall pn, In (NPath pn) fc -> key_ok pn) /\ (forall v, In v fc -> is_value_node v = true -> tame v).
Lemma tame_fields_ok : forall cs, tame_fields cs <-> forall fc, In (NField fc) cs -> field_ok fc.
Proof.
  intro cs. split.
  - intros [A [B C]] fc I. split; [exact (A _ I)|]. split; [exact (fun pn => B _ pn I)|exact (fun v => C _ v I)].
  - intro H. split; [intros fc I; apply (H fc I)|]. split; [intros fc pn I; apply (H fc I)|intros fc v I; apply (H fc I)].
Qed.
Lemma lead_toks : forall fc, inline_lead (lead_of fc) = true \/ line_lead (lead_of fc) = true -> exists L, lead_of fc = map NTok L.
Proof.
  intros fc H.
  assert (G : forall l, (forall c, In c l -> exists t, c = NTok t) -> exists L, l = map NTok L).
  { induction l as [|c l IH]; intro A; [exists []; reflexivity|]. destruct (A c (or_introl eq_refl)) as [t ->]. destruct IH as [L ->]; [intros d I; apply A; right; exact I|]. exists (t :: L). reflexivity. }
  apply G. destruct H as [H|H].
  - unfold inline_lead in H. rewrite forallb_forall in H. intros c I. specialize (H _ I). destruct c; try discriminate H. eauto.
  - destruct (lead_of fc) as [|c l]; [discriminate|]. destruct c; try discriminate H. destruct t; try discriminate H. cbn [line_lead] in H. rewrite forallb_forall in H. intros c [<-|I]; [eauto|]. specialize (H _ I). destruct c; try discriminate H. eauto.
Qed.
Definition separates (fc : list node) : Prop := In (NTok TColon) fc \/ In (NTok TEquals) fc.
Lemma core_lead : forall L pn r, lead_of (map NTok L ++ NPath pn :: r) = map NTok L /\ core_of (map NTok L ++ NPath pn :: r) = NPath pn :: r.
Proof. induction L as [|t L IH]; intros pn r; [split; reflexivity|]. destruct (IH pn r) as [A B]. cbn [map app lead_of core_of]. rewrite A. auto. Qed.
Lemma after_gapn : forall g c r, gapn g -> is_blank_node c = false -> after_gap (map NTok g ++ c :: r) = c :: r.
Proof.
  intros g c r G B. assert (Z : after_gap (c :: r) = c :: r) by (destruct c; try reflexivity; destruct t; try reflexivity; discriminate). destruct G as [->|[w [-> W]]]; [exact Z|]. cbn [map app after_gap]. rewrite W. reflexivity.
Qed.
Lemma field_view : forall fc, field_shape fc = true -> inline_lead (lead_of fc) = true \/ line_lead (lead_of fc) = true ->
  exists L pn M v0, fc = map NTok L ++ NPath pn :: map NTok M ++ [v0] /\ lead_of fc = map NTok L /\ field_thing v0 = true /\
    forall v, field_thing v = true -> field_object v = true \/ separates fc -> field_shape (map NTok L ++ NPath pn :: map NTok M ++ [v]) = true.
Proof.
  intros fc Sh Ld. destruct (lead_toks fc Ld) as [L EL]. destruct (shape_parts _ Sh) as [pn [g1 [G1 [[v0 [E O]]|[sep [g2 [v0 [Sp [G2 [E O]]]]]]]]]].
  - exists L, pn, g1, v0. split; [rewrite (field_split fc), EL, E; reflexivity|]. split; [exact EL|]. split; [apply object_thing, O|]. intros v T D.
    assert (Ob : field_object v = true).
    { destruct D as [D|D]; [exact D|]. exfalso. assert (NT : forall t l, In (NTok t) (map NTok l) -> In t l) by (intros t l Z; apply in_map_iff in Z; destruct Z as [x [Q Z]]; injection Q as ->; exact Z).
      assert (Lay : forall t, In t (L ++ g1) -> t <> TColon /\ t <> TEquals).
      { intros t I. apply in_app_or in I. destruct I as [I|I].
        - assert (J : In (NTok t) (lead_of fc)) by (rewrite EL; apply in_map; exact I). destruct Ld as [Ld|Ld].
          + unfold inline_lead in Ld. rewrite forallb_forall in Ld. specialize (Ld _ J). destruct t; try discriminate Ld; split; discriminate.
          + destruct (lead_of fc) as [|c l]; [destruct J|]. destruct c; try discriminate Ld. destruct t0; try discriminate Ld. cbn [line_lead] in Ld. rewrite forallb_forall in Ld. destruct J as [J|J]; [injection J as <-; split; discriminate|]. specialize (Ld _ J). destruct t; try discriminate Ld; split; discriminate.
        - destruct G1 as [->|[w [-> _]]]; [destruct I|]. destruct I as [<-|[]]. split; discriminate. }
      rewrite (field_split fc), EL, E in D. unfold separates in D. rewrite !in_app_iff in D. cbn [In] in D. rewrite !in_app_iff in D. cbn [In] in D.
      destruct D as [[D|[D|[D|[D|[]]]]]|[D|[D|[D|[D|[]]]]]]; try discriminate D; try (subst v0; discriminate O); apply NT in D; first [destruct (Lay _ (in_or_app L g1 _ (or_introl D))); congruence|destruct (Lay _ (in_or_app L g1 _ (or_intror D))); congruence]. }
    unfold field_shape. rewrite (proj2 (core_lead _ _ _)), (after_gapn _ _ _ G1) by (destruct v; try discriminate Ob; reflexivity). destruct v; try discriminate Ob. exact Ob.
  - exists L, pn, (g1 ++ sep :: g2), v0. split; [rewrite (field_split fc), EL, E, map_app, <- app_assoc; reflexivity|]. split; [exact EL|]. split; [exact O|]. intros v T _.
    unfold field_shape. rewrite (proj2 (core_lead _ _ _)), map_app, <- app_assoc. cbn [map app]. rewrite (after_gapn _ _ _ G1) by (destruct Sp as [-> | ->]; reflexivity). 
    assert (Gap : after_gap (map NTok g2 ++ [v]) = [v]) by (apply after_gapn; [exact G2|destruct v; try discriminate T; reflexivity]).
    destruct (map NTok g2 ++ [v]) as [|x r] eqn:X; [destruct g2; discriminate|]. destruct Sp as [-> | ->]; rewrite Gap; exact T.
Qed.
Lemma replace_last : forall l v0 v, Forall (fun c => is_value_node c = false) l -> is_value_node v0 = true -> replace_value (l ++ [v0]) v = Ok (l ++ [v]).
Proof. intros l v0 v F V. induction F as [|c l Hc F IH]; cbn [app replace_value]; [rewrite V; reflexivity|]. rewrite Hc, IH. reflexivity. Qed.
Lemma field_parts' : forall L pn M v0, is_value_node v0 = true -> let fc := map NTok L ++ NPath pn :: map NTok M ++ [v0] in
  field_path fc = Ok pn /\ field_value fc = Ok v0 /\ forall v, replace_value fc v = Ok (map NTok L ++ NPath pn :: map NTok M ++ [v]).
Proof.
  intros L pn M v0 V fc. unfold fc. assert (T : forall l, Forall (fun c => is_value_node c = false) (map NTok l)) by (induction l; constructor; auto).
  split; [clear -V; induction L as [|t L IH]; [reflexivity|exact IH]|]. split.
  - clear fc T. induction L as [|t L IH]; [|exact IH]. cbn [map app field_value is_value_node]. induction M as [|t M IH]; [cbn; rewrite V; reflexivity|exact IH].
  - intro v. change (NPath pn :: map NTok M ++ [v0]) with ((NPath pn :: map NTok M) ++ [v0]). rewrite app_assoc, replace_last; [rewrite <- app_assoc; reflexivity| |exact V]. apply Forall_app. split; [apply T|constructor; [reflexivity|apply T]].
Qed.
Lemma field_replaced : forall fc v fc', field_ok fc -> inline_lead (lead_of fc) = true \/ line_lead (lead_of fc) = true -> tame v -> field_thing v = true -> field_object v = true \/ separates fc ->
  replace_value fc v = Ok fc' -> field_ok fc' /\ lead_of fc' = lead_of fc.
Proof.
  intros fc v fc' [Sh [K V]] Ld T Th D R. destruct (field_view fc Sh Ld) as [L [pn [M [v0 [E [EL [T0 S]]]]]]]. destruct (thing_value _ T0) as [V0 _]. rewrite E in R. rewrite (proj2 (proj2 (field_parts' L pn M v0 V0))) in R. injection R as <-.
  split; [|rewrite EL; apply core_lead]. split; [apply S; assumption|]. split.
  - intros q I. apply K. rewrite E. apply in_app_or in I. apply in_or_app. destruct I as [I|[I|I]]; [left; exact I|right; left; exact I|]. apply in_app_or in I. destruct I as [I|[->|[]]]; [apply in_map_iff in I; destruct I as [x [X _]]; discriminate X|discriminate Th].
  - intros x I Vx. apply in_app_or in I. destruct I as [I|[<-|I]]; [apply in_map_iff in I; destruct I as [y [<- _]]; discriminate Vx|discriminate Vx|]. apply in_app_or in I. destruct I as [I|[<-|[]]]; [apply in_map_iff in I; destruct I as [y [<- _]]; discriminate Vx|exact T].
Qed.

(** ** change_value_on_path *)
Definition vok (v : node) : Prop := tame v /\ field_thing v = true /\ newline_free v = true.
Definition fits (value : option node) (p : path) (cs : list node) : Prop := forall v, value = Some v -> vok v /\ (field_object v = true \/ ~ bare p cs).
Lemma fits_less : forall value p q a b, (bare q b -> bare p a) -> fits value p a -> fits value q b.
Proof. intros value p q a b B F v E. destruct (F v E) as [V [O|N]]; split; auto. Qed.
Lemma tame_kids : forall cs, tame (NObject cs) -> braced cs = true /\ tame_fields cs.
Proof. intros cs T. inversion T as [v ts N V O|x B Sh K V]; subst; [destruct (N _ eq_refl)|]. split; [exact B|]. split; [exact Sh|]. split; assumption. Qed.
Definition changes (rec : list node -> path -> option node -> result (list node)) : Prop :=
  forall ocs p value ocs', braced ocs = true -> tame_fields ocs -> p <> [] -> fits value p ocs -> rec ocs p value = Ok ocs' -> braced ocs' = true /\ tame_fields ocs'.
Lemma indent_like_same : forall prev v v', newline_free v = true -> indent_like prev v = Ok v' -> v' = v.
Proof. intros prev v v' N H. unfold indent_like in H. destruct prev as [b|]; [|congruence]. destruct (is_complex v && is_blank_node b); [exact (indent_same _ _ _ N H)|congruence]. Qed.
Lemma separates_dec : forall fc, separates fc \/ ~ separates fc.
Proof.
  intro fc. destruct (existsb (fun c => match c with NTok TColon | NTok TEquals => true | _ => false end) fc) eqn:E.
  - left. apply existsb_exists in E. destruct E as [c [I E]]. destruct c; try discriminate E. destruct t; try discriminate E; [right|left]; exact I.
  - right. intro S. assert (X : existsb (fun c => match c with NTok TColon | NTok TEquals => true | _ => false end) fc = true); [|congruence]. apply existsb_exists. destruct S as [S|S]; eauto.
Qed.
Lemma drop_newlines : forall cs, existsb is_newline (drop_separators cs) = existsb is_newline cs.
Proof. induction cs as [|c cs IH]; [reflexivity|]. cbn [drop_separators]. destruct (is_blank_node c || is_comma c) eqn:B; [|reflexivity]. cbn [existsb]. rewrite IH. destruct c; try discriminate B. destruct t; try discriminate B; reflexivity. Qed.
Lemma drop_in : forall cs c, In c (drop_separators cs) -> In c cs.
Proof. induction cs as [|x cs IH]; intros c I; [exact I|]. cbn [drop_separators] in I. destruct (is_blank_node x || is_comma x); [right; apply IH, I|exact I]. Qed.
Lemma drop_one_line : forall cs, forallb one_line_child cs = true -> forallb one_line_child (drop_separators cs) = true.
Proof. intros cs H. rewrite forallb_forall in *. intros c I. apply H, drop_in, I. Qed.

Lemma change_kids : forall rec desired value, changes rec -> desired <> [] -> forall cs i prev after seen vc s b, goes s cs b -> (forall fc, In (NField fc) cs -> field_ok fc) -> fits value desired cs ->
  change_children rec CONF desired value i prev cs = Ok (after, seen, vc) ->
  goes s after b /\ existsb is_newline after = existsb is_newline cs /\ (forallb one_line_child cs = true -> forallb one_line_child after = true) /\ (forall fc, In (NField fc) after -> field_ok fc) /\ (vc = value \/ vc = None).
Proof.
  intros rec desired value Rec Nd. induction cs as [|c cs IH]; intros i prev after seen vc s b G F Ft H.
  - injection H as <- <- <-. split; [exact G|]. split; [reflexivity|]. split; [auto|]. split; [intros fc []|auto].
  - cbn [change_children] in H. step H as [[after0 seen0] vc0] Hc. pose proof G as Gc. apply goes_cons in G. destruct G as [s1 [S G]].
    assert (Ft' : fits value desired cs).
    { apply (fits_less value desired desired (c :: cs)); [|exact Ft]. intro B. inversion B as [? fc p ts Ic Ip N1 N2|? fc p ts ocs q Ic Ip Io Bo]; subst; [apply (bare_field _ fc _ ts)|apply (bare_below _ fc _ ts ocs)]; auto; right; exact Ic. }
    destruct (IH _ _ _ _ _ _ _ G (fun fc I => F fc (or_intror I)) Ft' Hc) as [G0 [N0 [O0 [F0 V0]]]]. clear IH.
    assert (Keep : forall vc', (vc' = value \/ vc' = None) -> goes s (c :: after0) b /\ existsb is_newline (c :: after0) = existsb is_newline (c :: cs) /\ (forallb one_line_child (c :: cs) = true -> forallb one_line_child (c :: after0) = true) /\
       (forall fc, In (NField fc) (c :: after0) -> field_ok fc) /\ (vc' = value \/ vc' = None)).
    { intros vc' E. split; [apply goes_cons; eauto|]. split; [cbn [existsb]; rewrite N0; reflexivity|]. split; [cbn [forallb]; intro X; apply andb_true_iff in X; destruct X as [X Y]; rewrite X; exact (O0 Y)|]. split; [|exact E].
      intros fc [I|I]; [apply F; left; exact I|exact (F0 _ I)]. }
    destruct c as [t|t|p|t|fc|cs0 k|cs0|cs0|cs0]; try (destruct s as [p0 h0]; discriminate S).
    + change (is_json CONF) with false in H. cbn [andb] in H. injection H as <- <- <-. apply Keep, V0.
    + change (is_json CONF) with false in H. cbn [andb] in H. injection H as <- <- <-. apply Keep, V0.
    + pose proof (goes_lead _ _ _ Gc fc (or_introl eq_refl)) as Ld. pose proof (F fc (or_introl eq_refl)) as Fok. destruct Fok as [Sh [Ky Vl]].
      destruct (field_view fc Sh Ld) as [L [pn [M [v0 [E [EL [T0 _]]]]]]]. destruct (thing_value _ T0) as [Vv0 _]. pose proof (field_parts' L pn M v0 Vv0) as Parts. cbv zeta in Parts. rewrite <- E in Parts. destruct Parts as [Fp [Fv Rp]].
      rewrite Fp in H. cbn [bind] in H. destruct pn as [key ts]. cbv beta iota in H.
      assert (Ip : In (NPath (key, ts)) fc) by (rewrite E; apply in_or_app; right; left; reflexivity). assert (Iv : In v0 fc) by (rewrite E; apply in_or_app; right; right; apply in_or_app; right; left; reflexivity).
      assert (Nk : key <> []) by (destruct (Ky _ Ip) as [ks [pn' [_ [_ [_ [_ [_ [_ N]]]]]]]]; exact N).
      step H as ext Hext. destruct ext.
      { injection H as <- <- <-. split; [apply (goes_remove fc), goes_cons; eauto|]. split; [rewrite drop_newlines, N0; reflexivity|].
        split; [cbn [forallb]; intro X; apply andb_true_iff in X; destruct X as [_ Y]; apply drop_one_line, O0, Y|]. split; [intros fc2 I; apply F0, drop_in, I|exact V0]. }
      assert (Put : forall v fc' vc', replace_value fc v = Ok fc' -> tame v -> field_thing v = true -> field_object v = true \/ separates fc -> (vc' = value \/ vc' = None) ->
         goes s (NField fc' :: after0) b /\ existsb is_newline (NField fc' :: after0) = existsb is_newline (NField fc :: cs) /\ (forallb one_line_child (NField fc :: cs) = true -> forallb one_line_child (NField fc' :: after0) = true) /\
         (forall fc2, In (NField fc2) (NField fc' :: after0) -> field_ok fc2) /\ (vc' = value \/ vc' = None)).
      { intros v fc' vc' R T Th D E'. destruct (field_replaced fc v fc' (conj Sh (conj Ky Vl)) Ld T Th D R) as [Fok' Ld'].
        split; [apply goes_cons; exists s1; split; [|exact G0]; destruct s as [p0 h0]; cbn [step] in *; rewrite Ld'; exact S|]. split; [cbn [existsb is_newline]; rewrite N0; reflexivity|].
        split; [cbn [forallb one_line_child]; rewrite Ld'; intro X; apply andb_true_iff in X; destruct X as [X Y]; rewrite X; exact (O0 Y)|]. split; [|exact E'].
        intros fc2 [I|I]; [injection I as <-; exact Fok'|exact (F0 _ I)]. }
      destruct (path_eq key desired) eqn:Same.
      * destruct vc0 as [v|]; [|discriminate Hext]. apply path_eq_spec in Same. subst key. step H as v' Hi. step H as fc' Hr. injection H as <- <- <-.
        assert (Ev : value = Some v) by (destruct V0 as [V0|V0]; congruence). destruct (Ft v Ev) as [[Tv [Thv Nf]] B]. apply indent_like_same in Hi; [|exact Nf]. subst v'.
        apply (Put v); auto. destruct B as [B|B]; [auto|]. destruct (separates_dec fc) as [D|D]; [auto|]. exfalso. apply B. apply (bare_field _ fc _ ts); [left; reflexivity|exact Ip|intro X; apply D; left; exact X|intro X; apply D; right; exact X].
      * assert (H' : (below <- starts_with desired key ;; if below then old <- field_value fc ;; match old with NObject ocs => ocs' <- rec ocs (sub_path desired (length key)) vc0 ;; fc' <- replace_value fc (NObject ocs') ;; Ok (NField fc' :: after0, true, vc0) | _ => Ok (NField fc :: after0, true, vc0) end else Ok (NField fc :: after0, true, vc0)) = Ok (after, seen, vc)) by exact H.
        clear H. step H' as below Hb. destruct below; [|injection H' as <- <- <-; apply Keep, V0]. rewrite Fv in H'. cbn [bind] in H'. destruct v0 as [t0|t0|p0|t0|c0|c0 k0|c0|c0|ocs]; try (injection H' as <- <- <-; apply Keep, V0).
        step H' as ocs' Ho. step H' as fc' Hr. injection H' as <- <- <-.
        destruct (starts_with_spec desired key Nd) as [r [Hr1 Hr2]]. rewrite Hr1 in Hb. injection Hb as ->. destruct (proj1 Hr2 eq_refl) as [q Eq].
        assert (Nq : q <> []) by (intros ->; rewrite app_nil_r in Eq; subst key; rewrite (proj2 (path_eq_spec desired desired) eq_refl) in Same; discriminate).
        assert (Sub : sub_path desired (length key) = q).
        { rewrite (length_spec key Nk), sub_path_spec; rewrite Eq; [|rewrite app_length; destruct q; [congruence|cbn; lia]]. rewrite skipn_app, Nat.sub_diag, skipn_all. reflexivity. }
        rewrite Sub in Ho. destruct (tame_kids _ (Vl _ Iv eq_refl)) as [Br Tf].
        assert (Fo : fits vc0 q ocs).
        { destruct V0 as [-> | ->]; [|intros v X; discriminate X]. apply (fits_less value desired q (NField fc :: cs)); [|exact Ft]. intro B. rewrite Eq. apply (bare_below _ fc _ ts ocs); auto. left. reflexivity. }
        destruct (Rec ocs q vc0 ocs' Br Tf Nq Fo Ho) as [Br' Tf']. apply (Put (NObject ocs')); auto. destruct Tf' as [A1 [A2 A3]]. apply tame_object; assumption.
Qed.
Lemma change_closes : forall cs, braced cs = true <-> exists cs', cs = NTok TOpenCurly :: cs' /\ goes (Before, false) cs' true /\ lines cs' = true.
Proof.
  intro cs. split.
  - intro H. destruct cs as [|c cs]; [discriminate|]. destruct c; try discriminate H. destruct t; try discriminate H. cbn [braced] in H. apply andb_true_iff in H. destruct H as [H Ln]. exists cs. split; [reflexivity|]. split; [|exact Ln].
    destruct (walk (Before, false) cs) as [[p h]|] eqn:E; [|discriminate]. destruct p; try discriminate H. exists (Closed, h). auto.
  - intros [cs' [-> [[[p h] [E C]] Ln]]]. cbn [braced]. rewrite E, Ln. destruct p; try discriminate C. reflexivity.
Qed.
Lemma open_closes : forall cs, unbraced cs = true <-> goes (Before, false) cs false /\ lines cs = true.
Proof.
  intro cs. unfold unbraced. rewrite andb_true_iff. split; intros [A B]; (split; [|exact B]).
  - destruct (walk (Before, false) cs) as [[p h]|] eqn:E; [|discriminate]. exists (p, h). split; [exact E|]. destruct p; try reflexivity; discriminate A.
  - destruct A as [[p h] [-> C]]. destruct p; try reflexivity; discriminate C.
Qed.
Lemma lines_kept : forall a b, existsb is_newline b = existsb is_newline a -> (forallb one_line_child a = true -> forallb one_line_child b = true) -> lines a = true -> lines b = true.
Proof. intros a b N O L. unfold lines in *. rewrite N. destruct (existsb is_newline a); [reflexivity|exact (O L)]. Qed.
Lemma change_all : forall n, changes (change_value_n n CONF).
Proof.
  induction n as [|n IH]; intros ocs p value ocs' B T Np Ft H; cbn [change_value_n] in H; [discriminate|]. step H as [[cs' seen] vc] C. injection H as <-. apply change_closes in B. destruct B as [cs [-> [G Ln]]].
  cbn [change_children] in C. step C as [[a s0] v0] C0. change (is_json CONF) with false in C. cbn [andb] in C. injection C as <- <- <-. rewrite tame_fields_ok in T.
  assert (Ft' : fits value p cs).
  { apply (fits_less value p p (NTok TOpenCurly :: cs)); [|exact Ft]. intro B. inversion B as [? fc p0 ts Ic Ip N1 N2|? fc p0 ts ocs q Ic Ip Io Bo]; subst; [apply (bare_field _ fc _ ts)|apply (bare_below _ fc _ ts ocs)]; auto; right; exact Ic. }
  destruct (change_kids _ p value IH Np _ _ _ _ _ _ _ _ G (fun fc I => T fc (or_intror I)) Ft' C0) as [G' [N' [O' [F' _]]]].
  split; [apply change_closes; exists a; split; [reflexivity|]; split; [exact G'|exact (lines_kept _ _ N' O' Ln)]|]. apply tame_fields_ok. intros fc [I|I]; [discriminate|exact (F' _ I)].
Qed.
Lemma change_open : forall n cs p value cs', unbraced cs = true -> tame_fields cs -> p <> [] -> fits value p cs -> change_value_n n CONF cs p value = Ok cs' -> unbraced cs' = true /\ tame_fields cs'.
Proof.
  intros [|n] cs p value cs' U T Np Ft H; cbn [change_value_n] in H; [discriminate|]. step H as [[a seen] vc] C. injection H as <-. apply open_closes in U. destruct U as [G Ln]. rewrite tame_fields_ok in T.
  destruct (change_kids _ p value (change_all n) Np _ _ _ _ _ _ _ _ G T Ft C) as [G' [N' [O' [F' _]]]]. split; [apply open_closes; split; [exact G'|exact (lines_kept _ _ N' O' Ln)]|apply tame_fields_ok, F'].
Qed.
