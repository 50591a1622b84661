(** What add_value_on_path does. *)
From Verif Require Import Base BaseLemmas Util_Model Num_Model Path_Model Path_Spec Path_Lemmas Token_Model PathParser_Model
  PathParser_Lemmas3 Doc_Model Doc_Spec Doc_Lemmas Doc_Lemmas2 Doc_Lemmas3 Edit_Model Edit_Spec Edit_Lemmas Edit_Lemmas2.

(** ** Inserting a field and commas *)

Inductive inserted (new : node) : list node -> list node -> Prop :=
| I_nil : inserted new [] []
| I_keep : forall c cs cs', inserted new cs cs' -> inserted new (c :: cs) (c :: cs')
| I_comma : forall cs cs', inserted new cs cs' -> inserted new cs (NTok TComma :: cs')
| I_new : forall cs cs', inserted new cs cs' -> inserted new cs (new :: cs').

Lemma inserted_refl : forall new cs, inserted new cs cs.
Proof. induction cs; constructor; assumption. Qed.
Lemma inserted_trans : forall new b c, inserted new b c -> forall a, inserted new a b -> inserted new a c.
Proof.
  intros new b c H. induction H; intros a Ha.
  - exact Ha.
  - inversion Ha; subst; [apply I_keep|apply I_comma|apply I_new]; apply IHinserted; assumption.
  - apply I_comma, IHinserted, Ha.
  - apply I_new, IHinserted, Ha.
Qed.
Lemma inserted_app : forall new a a' b b', inserted new a a' -> inserted new b b' -> inserted new (a ++ b) (a' ++ b').
Proof. intros new a a' b b' H. induction H; intro Hb; cbn; [exact Hb|..]; constructor; auto. Qed.

Lemma insert_new : forall new i cs, inserted new cs (insert_at i new cs).
Proof.
  intros new i cs. unfold insert_at. rewrite <- (firstn_skipn i cs) at 1. apply inserted_app; [apply inserted_refl|].
  apply I_new, inserted_refl.
Qed.

Lemma skipn_insert : forall i new cs, (i <= List.length cs)%nat -> skipn i (insert_at i new cs) = new :: skipn i cs.
Proof.
  intros i new cs H. unfold insert_at. rewrite skipn_app, firstn_length. replace (i - Nat.min i (List.length cs))%nat with 0%nat by lia.
  rewrite skipn_all2 by (rewrite firstn_length; lia). reflexivity.
Qed.
Lemma hd_insert : forall i new cs, i <> 0%nat -> starts_open (insert_at i new cs) = starts_open cs \/ cs = [].
Proof. intros [|i] new [|c cs] H; auto; congruence. Qed.
Lemma skipn_le : forall {A} (l : list A) i j, (i <= j)%nat -> exists pre, skipn i l = pre ++ skipn j l.
Proof.
  intros A l i j H. exists (firstn (j - i) (skipn i l)). rewrite <- (firstn_skipn (j - i) (skipn i l)) at 1. f_equal.
  revert i j H. induction l; intros i j H; [rewrite !skipn_nil; reflexivity|]. destruct i.
  - rewrite Nat.sub_0_r. reflexivity.
  - destruct j; [lia|]. cbn. apply IHl. lia.
Qed.
Lemma nth_error_lt : forall {A} (l : list A) i x, nth_error l i = Some x -> (i < List.length l)%nat.
Proof. intros A l i x H. apply nth_error_Some. congruence. Qed.
Lemma nth_skipn : forall {A} (l : list A) i x, nth_error l i = Some x -> skipn i l = x :: skipn (S i) l.
Proof. induction l; intros [|i] x H; try discriminate; cbn in *; [congruence|]. apply IHl. exact H. Qed.

Lemma place_loop_inserted : forall commas brace same new i1 cs cs', place_loop commas brace same new i1 cs = Ok cs' ->
  inserted new cs cs' /\ (exists pre, cs' = pre ++ skipn i1 cs) /\ (brace = true -> starts_open cs = true -> starts_open cs' = true).
Proof.
  intros commas brace same new i1.
  induction i1 as [i1 IH] using lt_wf_ind. intros cs cs' H. destruct i1 as [|i]; cbn [place_loop] in H.
  { injection H as <-. split; [apply inserted_refl|]. split; [exists []; reflexivity|auto]. }
  destruct (nth_error cs i) as [child|] eqn:Ec; [|discriminate]. pose proof (nth_error_lt _ _ _ Ec) as Li.
  assert (Hnext : forall j, (j <= i)%nat -> (j = O -> starts_open cs = false) ->
            place_loop commas brace same new j (insert_at j new cs) = Ok cs' ->
            inserted new cs cs' /\ (exists pre, cs' = pre ++ skipn (S i) cs) /\ (brace = true -> starts_open cs = true -> starts_open cs' = true)).
  { intros j Hj H0 Hp. apply IH in Hp; [|lia]. destruct Hp as [P1 [[pre P2] P3]].
    split; [eapply inserted_trans; [exact P1|apply insert_new]|]. split.
    - rewrite skipn_insert in P2 by lia. destruct (skipn_le cs j (S i)) as [q Hq]; [lia|]. rewrite Hq in P2.
      exists (pre ++ new :: q). rewrite <- app_assoc. exact P2.
    - intros Hb Ho. apply P3; [exact Hb|]. destruct j; [rewrite H0 in Ho; [discriminate|reflexivity]|].
      destruct (hd_insert (S j) new cs) as [-> | ->]; [discriminate|exact Ho|discriminate]. }
  destruct (_ && _ && _) in H; [|destruct (brace && is_close_curly child) eqn:Eb].
  - injection H as <-. split; [|split].
    + unfold insert_at. rewrite <- (firstn_skipn (S i) cs) at 1. apply inserted_app; [apply inserted_refl|]. apply I_comma, inserted_refl.
    + unfold insert_at. exists (firstn (S i) cs ++ [NTok TComma]). rewrite <- app_assoc. reflexivity.
    + intros _ Ho. destruct (hd_insert (S i) (NTok TComma) cs) as [-> | ->]; [discriminate|exact Ho|discriminate].
  - destruct i as [|p]; [discriminate|]. destruct (nth_error cs p) as [previous|] eqn:Ep; [|discriminate].
    assert (Hclosed : forall j x, nth_error cs j = Some x -> is_newline x = true -> j = O -> starts_open cs = false).
    { intros j x Hj Hx ->. destruct cs as [|y cs]; [discriminate|]. cbn in Hj. injection Hj as ->. destruct x as [[]| | | | | | | | ]; try discriminate; reflexivity. }
    destruct (is_newline previous) eqn:En; [exact (Hnext p ltac:(lia) (Hclosed _ _ Ep En) H)|].
    destruct (is_blank_node previous) eqn:Ebl; [|exact (Hnext (S p) ltac:(lia) ltac:(discriminate) H)].
    destruct p as [|q]; [discriminate|]. destruct (nth_error cs q) as [bp|] eqn:Eq; [|discriminate].
    destruct same; [exact (Hnext (S q) ltac:(lia) ltac:(discriminate) H)|].
    destruct (is_newline bp) eqn:Enb; [exact (Hnext q ltac:(lia) (Hclosed _ _ Eq Enb) H)|].
    exact (Hnext (S (S q)) ltac:(lia) ltac:(discriminate) H).
  - apply IH in H; [|lia]. destruct H as [P1 [[pre P2] P3]]. split; [exact P1|]. split; [|exact P3].
    rewrite (nth_skipn _ _ _ Ec) in P2. exists (pre ++ [child]). rewrite <- app_assoc. exact P2.
Qed.

Lemma ends_close_app : forall a b, b <> [] -> ends_close (a ++ b) = ends_close b.
Proof.
  induction a as [|x a IH]; intros b Hb; [reflexivity|]. cbn [app]. rewrite <- (IH b Hb).
  destruct (a ++ b) eqn:E; [|reflexivity]. apply app_eq_nil in E. destruct E; congruence.
Qed.
Lemma ends_close_split : forall cs, ends_close cs = true -> exists pre c, cs = pre ++ [c] /\ is_close_curly c = true.
Proof.
  intros cs H. destruct (rev cs) as [|c r] eqn:E.
  - apply (f_equal (@rev _)) in E. rewrite rev_involutive in E. subst. discriminate.
  - apply (f_equal (@rev _)) in E. rewrite rev_involutive in E. cbn in E. subst cs. exists (rev r), c. split; [reflexivity|].
    rewrite ends_close_app in H by discriminate. exact H.
Qed.

(** In braces the field does get in, and before the closing one. *)
Lemma place_loop_braces : forall commas same new cs cs', ends_close cs = true ->
  place_loop commas true same new (List.length cs) cs = Ok cs' -> In new cs' /\ ends_close cs' = true.
Proof.
  intros commas same new cs cs' He H. destruct (ends_close_split _ He) as [pre [c [-> Hc]]]. rewrite app_length in H. cbn [List.length] in H.
  rewrite Nat.add_1_r in H. cbn [place_loop] in H.
  assert (Hn : nth_error (pre ++ [c]) (List.length pre) = Some c) by (rewrite nth_error_app2, Nat.sub_diag by lia; reflexivity).
  rewrite Hn in H. assert (Hf : is_field c = false) by (destruct c as [[]| | | | | | | | ]; try discriminate; reflexivity).
  rewrite Hf, andb_false_r, Hc in H. cbn [andb] in H.
  assert (Hnext : forall j, (j <= List.length pre)%nat -> place_loop commas true same new j (insert_at j new (pre ++ [c])) = Ok cs' ->
     In new cs' /\ ends_close cs' = true).
  { intros j Hj Hp. apply place_loop_inserted in Hp. destruct Hp as [_ [[p2 P2] _]]. rewrite skipn_insert in P2 by (rewrite app_length; lia).
    subst cs'. split; [apply in_or_app; right; left; reflexivity|]. rewrite ends_close_app by discriminate.
    destruct (skipn_le (pre ++ [c]) j (List.length pre) Hj) as [q Hq]. rewrite Hq.
    rewrite skipn_app, skipn_all, Nat.sub_diag. cbn [skipn app].
    change (new :: q ++ [c]) with ((new :: q) ++ [c]). rewrite ends_close_app by discriminate. exact Hc. }
  destruct (List.length pre) as [|p]; [discriminate|]. destruct (nth_error _ p) as [previous|]; [|discriminate].
  destruct (is_newline previous); [exact (Hnext p ltac:(lia) H)|].
  destruct (is_blank_node previous); [|exact (Hnext (S p) ltac:(lia) H)].
  destruct p as [|q]; [discriminate|]. destruct (nth_error _ q) as [bp|]; [|discriminate].
  destruct same; [exact (Hnext (S q) ltac:(lia) H)|].
  destruct (is_newline bp); [exact (Hnext q ltac:(lia) H)|]. exact (Hnext (S (S q)) ltac:(lia) H).
Qed.

(** ** Adding *)

Definition only_toks (cs : list node) : Prop := Forall (fun c => match c with NTok _ => True | _ => False end) cs.

Inductive added : path -> list node -> list node -> Prop :=
| A_below : forall p r pre post fc ocs ocs' fc', relate (key_of fc) p = Above r -> value_of fc = Some (NObject ocs) ->
    added r ocs ocs' -> replace_value fc (NObject ocs') = Ok fc' ->
    (braces ocs && starts_open ocs = true -> braces ocs' && starts_open ocs' = true) ->
    added p (pre ++ NField fc :: post) (pre ++ NField fc' :: post)
| A_here : forall p fc cs cs', key_of fc = p -> wf_node (NField fc) = true -> inserted (NField fc) cs cs' -> In (NField fc) cs' ->
    added p cs cs'
| A_nested : forall k r fc cs cs' base ocs, r <> [] -> key_of fc = [k] -> value_of fc = Some (NObject ocs) ->
    only_toks base -> added r base ocs -> wf_node (NField fc) = true -> inserted (NField fc) cs cs' -> In (NField fc) cs' ->
    added (k :: r) cs cs'.

Lemma hasb_inserted : forall new cs cs' n p, inserted new cs cs' -> hasb n p [new] = false -> hasb n p cs' = hasb n p cs.
Proof.
  intros new cs cs' n p H Hn. induction H; [reflexivity|..]; rewrite hasb_cons.
  - rewrite (hasb_cons n p c cs), IHinserted. reflexivity.
  - rewrite hasb_nonfield by reflexivity. exact IHinserted.
  - rewrite Hn. exact IHinserted.
Qed.
Lemma others_inserted : forall new cs cs' n p, inserted new cs cs' -> others n p [new] = [] -> others n p cs' = others n p cs.
Proof.
  intros new cs cs' n p H Hn. induction H; [reflexivity|..]; rewrite others_cons.
  - rewrite (others_cons n p c cs), IHinserted. reflexivity.
  - rewrite others_tok. exact IHinserted.
  - rewrite Hn. exact IHinserted.
Qed.
Lemma hasb_in : forall n p c cs, In c cs -> hasb n p [c] = true -> hasb n p cs = true.
Proof.
  intros n p c cs H Hc. apply in_split in H. destruct H as [a [b ->]]. rewrite hasb_app, hasb_cons, Hc. cbn. apply orb_true_r.
Qed.
Lemma hasb_toks : forall n p cs, only_toks cs -> hasb n p cs = false.
Proof.
  intros n p cs H. induction H as [|c cs Hc H IH]; [destruct n; reflexivity|]. rewrite hasb_cons, IH, hasb_nonfield; [reflexivity|].
  destruct c; try contradiction. reflexivity.
Qed.
Lemma others_toks : forall n p cs, only_toks cs -> others n p cs = [].
Proof.
  intros n p cs H. induction H as [|c cs Hc H IH]; [destruct n; reflexivity|]. rewrite others_cons, IH.
  destruct c; try contradiction. rewrite others_tok. reflexivity.
Qed.

Lemma relate_same : forall p, relate p p = Same.
Proof. induction p; cbn; [reflexivity|]. rewrite str_eqb_refl. exact IHp. Qed.
Lemma relate_head : forall k (r : path), r <> [] -> relate [k] (k :: r) = Above r.
Proof. intros k r H. cbn. rewrite str_eqb_refl. destruct r; [congruence|reflexivity]. Qed.

Lemma added_has : forall p cs cs', added p cs cs' -> forall n, (List.length p <= n)%nat -> p <> [] -> wfs cs = true -> hasb n p cs' = true.
Proof.
  intros p cs cs' H. induction H; intros n Hn Hp Hw; (destruct n as [|n]; [destruct p; [congruence|cbn in Hn; lia] || (cbn in Hn; lia)|]).
  - apply (hasb_in _ _ (NField fc')); [apply in_or_app; right; left; reflexivity|]. rewrite hasb_field.
    destruct (replace_parts _ _ _ H2 eq_refl) as [-> [-> _]]. rewrite H.
    unfold wfs in Hw. rewrite forallb_app in Hw. cbn in Hw. apply andb_true_iff in Hw. destruct Hw as [_ Hw].
    apply andb_true_iff in Hw. destruct Hw as [Hf _]. apply andb_true_iff in Hf. destruct Hf as [Hf Hcs].
    destruct (field_parts _ Hf) as [toks [ov [_ [Hne _]]]]. pose proof (above_shorter _ _ _ Hne H). apply IHadded; [lia| |].
    + pose proof (relate_spec (key_of fc) p) as R. rewrite H in R. apply R.
    + pose proof (value_wf _ _ H0 Hcs) as Hv. cbn in Hv. apply andb_true_iff in Hv. apply Hv.
  - apply (hasb_in _ _ (NField fc)); [assumption|]. rewrite hasb_field, H, relate_same. reflexivity.
  - apply (hasb_in _ _ (NField fc)); [assumption|]. rewrite hasb_field, H0, relate_head, H1 by assumption.
    apply IHadded; [cbn in Hn; lia|assumption|]. unfold wfs. apply forallb_forall. unfold only_toks in H2. rewrite Forall_forall in H2.
    intros x Hx. specialize (H2 x Hx). destruct x; try contradiction. reflexivity.
Qed.

Lemma added_frame : forall p cs cs', added p cs cs' -> forall n q, unrelated p q -> hasb n q cs' = hasb n q cs.
Proof.
  intros p cs cs' H. induction H; intros n q Hu.
  - rewrite !hasb_app, hasb_cons, (hasb_cons n q (NField fc)). f_equal. f_equal. destruct n; [reflexivity|]. rewrite !hasb_field.
    destruct (replace_parts _ _ _ H2 eq_refl) as [-> [-> _]]. rewrite H0.
    pose proof (above_unrelated _ _ _ _ H Hu) as U. destruct (relate (key_of fc) q); try reflexivity. apply IHadded. exact U.
  - eapply hasb_inserted; [eassumption|]. destruct n; [reflexivity|]. rewrite hasb_field.
    rewrite (below_unrelated (key_of fc) p q); [reflexivity|rewrite H; apply prefix_self|exact Hu].
  - eapply hasb_inserted; [eassumption|]. destruct n; [reflexivity|]. rewrite hasb_field, H1, H0.
    pose proof (above_unrelated [k] (k :: r) r q (relate_head k r H) Hu) as U. destruct (relate [k] q) as [| |x|]; try contradiction; try reflexivity.
    rewrite (IHadded n x U). apply hasb_toks. exact H2.
Qed.

Lemma added_others : forall p cs cs', added p cs cs' -> forall n, others n p cs' = others n p cs.
Proof.
  intros p cs cs' H. induction H; intros n.
  - rewrite !others_app, others_cons, (others_cons n p (NField fc)). f_equal. f_equal. destruct n; [reflexivity|]. rewrite !others_field.
    destruct (replace_parts _ _ _ H2 eq_refl) as [-> [-> _]]. rewrite H0, H. apply IHadded.
  - eapply others_inserted; [eassumption|]. destruct n; [reflexivity|]. rewrite others_field, H, relate_same. reflexivity.
  - eapply others_inserted; [eassumption|]. destruct n; [reflexivity|]. rewrite others_field, H0, relate_head, H1 by assumption.
    rewrite IHadded. apply others_toks. exact H2.
Qed.

Lemma inserted_wfs : forall new cs cs', inserted new cs cs' -> wf_node new = true -> wfs cs = true -> wfs cs' = true.
Proof.
  intros new cs cs' H Hn. induction H; intro Hw; unfold wfs in *; cbn [forallb] in *; auto.
  - apply andb_true_iff in Hw. destruct Hw as [Hc Hw]. rewrite Hc. apply IHinserted. exact Hw.
  - rewrite Hn. apply IHinserted. exact Hw.
Qed.
Lemma inserted_open : forall new cs cs', inserted new cs cs' -> is_open_curly new = false -> existsb is_open_curly cs' = existsb is_open_curly cs.
Proof.
  intros new cs cs' H Hn. induction H; cbn [existsb]; auto.
  - rewrite IHinserted. reflexivity.
  - rewrite Hn. exact IHinserted.
Qed.

Lemma added_wf : forall p cs cs', added p cs cs' -> wfs cs = true -> wfs cs' = true.
Proof.
  intros p cs cs' H. induction H; intro Hw.
  - unfold wfs in *. rewrite forallb_app in *. cbn [forallb] in *. apply andb_true_iff in Hw. destruct Hw as [Hw1 Hw].
    apply andb_true_iff in Hw. destruct Hw as [Hf Hw]. rewrite Hw1, Hw, andb_true_r. cbn [andb].
    eapply replace_wf; try eassumption; [reflexivity|]. cbn [wf_node] in Hf. apply andb_true_iff in Hf. destruct Hf as [_ Hf].
    pose proof (value_wf _ _ H0 Hf) as Hv. cbn [wf_node] in *. apply andb_true_iff in Hv. destruct Hv as [Hb Hv].
    rewrite (H3 Hb), (IHadded Hv). reflexivity.
  - eapply inserted_wfs; eassumption.
  - eapply inserted_wfs; eassumption.
Qed.

(** ** add_value_on_path adds *)

Definition blankish (c : node) : bool := is_newline c || is_blank_node c.

Lemma blankish_tok : forall c, blankish c = true -> exists t, c = NTok t /\ is_open_curly c = false.
Proof. intros [[]| | | | | | | | ] H; try discriminate; eexists; split; reflexivity. Qed.

Lemma field_indent_blank : forall cs c, field_indent cs = Some c -> blankish c = true.
Proof.
  induction cs as [|x cs IH]; intros c H; [discriminate|]. cbn [field_indent] in H.
  assert (Hx : (if is_blank_node x then Some x else field_indent cs) = Some c -> blankish c = true).
  { destruct (is_blank_node x) eqn:E; [|apply IH]. intro E'. injection E' as <-. unfold blankish. rewrite E. apply orb_true_r. }
  destruct cs as [|y cs]; [discriminate|]. destruct y; auto.
Qed.

Lemma indentation_blank : forall cs ind, indentation cs = Ok ind -> Forall (fun c => blankish c = true) ind.
Proof.
  intros cs ind H. unfold indentation in H. destruct cs as [|c0 cs0]; [injection H as <-; constructor|].
  destruct (after_newline (c0 :: cs0)) as [rest|]; [|injection H as <-; repeat constructor].
  destruct (field_indent rest) as [ws|] eqn:E.
  - injection H as <-. constructor; [reflexivity|]. constructor; [|constructor]. eapply field_indent_blank. exact E.
  - destruct (rev (c0 :: cs0)) as [|last before]; [injection H as <-; repeat constructor|].
    destruct (is_close_curly last); [|injection H as <-; repeat constructor].
    destruct before; [discriminate|]. injection H as <-. repeat constructor.
Qed.

Lemma skip_before : forall ts rest, skip_periods 0 1 ts = Some rest -> exists ts', before_period ts = Some ts'.
Proof.
  induction ts as [|t ts IH]; intros rest H; [discriminate|]. cbn [skip_periods before_period] in *.
  destruct (match t with TUnquoted s => str_eqb s (lit ".") | _ => false end) eqn:E; [eexists; reflexivity|].
  change (0 =? 1) with false in H. cbv iota in H. destruct (IH _ H) as [ts' ->]. eexists. reflexivity.
Qed.

Lemma single : forall k, length [k] = 1. Proof. reflexivity. Qed.
Lemma sub_path_one : forall (k : str) r, r <> [] -> sub_path (k :: r) 1 = r.
Proof. intros k r H. change 1 with (Z.of_nat 1). rewrite sub_path_spec; [reflexivity|]. destruct r; [congruence|cbn; lia]. Qed.
Lemma sub_path2_one : forall (k : str) r, r <> [] -> sub_path2 (k :: r) 0 1 = Ok [k].
Proof.
  intros k r H. change 1 with (Z.of_nat 1). change 0 with (Z.of_nat 0). rewrite sub_path2_spec; [reflexivity|lia|]. destruct r; [congruence|cbn; lia].
Qed.

Lemma add_below_split : forall rec d v cs cs', add_below rec d v cs = Ok (Some cs') ->
  exists pre fc post fc' key toks ocs rest ocs', cs = pre ++ NField fc :: post /\ cs' = pre ++ NField fc' :: post /\
    field_path fc = Ok (key, toks) /\ starts_with (fst d) key = Ok true /\ field_value fc = Ok (NObject ocs) /\
    path_node_sub_path d (length key) = Ok rest /\ rec ocs rest v = Ok ocs' /\ replace_value fc (NObject ocs') = Ok fc'.
Proof.
  intros rec d v. induction cs as [|c cs IH]; intros cs' H; [discriminate|]. cbn [add_below] in H. inv_bind H. destruct a as [after'|].
  - injection Hk as <-. destruct (IH _ Hb) as [pre [fc [post [fc' [key [toks [ocs [rest [ocs' [-> [-> K]]]]]]]]]]].
    exists (c :: pre), fc, post, fc', key, toks, ocs, rest, ocs'. split; [reflexivity|]. split; [reflexivity|exact K].
  - destruct c; try discriminate. inv_bind Hk. destruct a as [key toks]. inv_bind Hk0. destruct a; [|discriminate]. inv_bind Hk.
    destruct a; try discriminate. inv_bind Hk0. inv_bind Hk. inv_bind Hk0. injection Hk as <-.
    exists [], children, cs, a1, key, toks, children0, a, a0. repeat (split; [reflexivity || assumption|]). assumption.
Qed.

Lemma braces_field : forall a b x y, braces (a ++ NField x :: b) = true -> braces (a ++ NField y :: b) = true.
Proof.
  intros a b x y. apply braces_change.
  - rewrite !existsb_app. reflexivity.
  - destruct a; auto.
  - rewrite !ends_close_app by discriminate. destruct b; auto.
Qed.

Lemma add_below_added : forall rec d v cs cs', fst d <> [] -> wfs cs = true -> braces cs = true -> (forall n, hasb n (fst d) cs = false) ->
  (forall ocs d' ocs', fst d' <> [] -> wfs ocs = true -> braces ocs = true -> (forall n, hasb n (fst d') ocs = false) ->
     rec ocs d' v = Ok ocs' -> added (fst d') ocs ocs' /\ braces ocs' = true /\ (starts_open ocs = true -> starts_open ocs' = true)) ->
  add_below rec d v cs = Ok (Some cs') -> added (fst d) cs cs' /\ braces cs' = true /\ (starts_open cs = true -> starts_open cs' = true).
Proof.
  intros rec d v cs cs' Hd Hw Hb Hh Hrec H. apply add_below_split in H.
  destruct H as [pre [fc [post [fc' [key [toks [ocs [rest [ocs' [-> [-> [E1 [E2 [E3 [E4 [E5 E6]]]]]]]]]]]]]]]].
  destruct d as [dp dt], rest as [rp rt]. cbn [fst snd] in *. specialize (Hrec ocs (rp, rt) ocs'). cbn [fst] in Hrec.
  unfold wfs in Hw. rewrite forallb_app in Hw. cbn [forallb] in Hw. apply andb_true_iff in Hw. destruct Hw as [_ Hw].
  apply andb_true_iff in Hw. destruct Hw as [Hf _]. cbn [wf_node] in Hf. apply andb_true_iff in Hf. destruct Hf as [Hf Hcs].
  destruct (field_parts _ Hf) as [toks' [ov [F1 [Hne [F2 [F3 _]]]]]]. rewrite F1 in E1. injection E1 as <- <-.
  rewrite F2 in E3. injection E3 as ->.
  destruct (relate_ops _ _ Hne Hd) as [_ [_ [O3 O4]]].
  match type of O3 with _ = Ok ?b => assert (Ht : b = true) by (apply Ok_inj; rewrite <- O3; exact E2) end.
  assert (Hhf : forall n, hasb (S n) dp [NField fc] = false).
  { intro n. specialize (Hh (S n)). rewrite hasb_app, hasb_cons in Hh. apply orb_false_iff in Hh. destruct Hh as [_ Hh].
    apply orb_false_iff in Hh. apply Hh. }
  assert (Hhf' := Hhf O). rewrite hasb_field in Hhf'.
  destruct (relate (key_of fc) dp) as [| |r|] eqn:Er; try discriminate.
  destruct (O4 r eq_refl) as [O5 [O6 O7]].
  assert (Hr : rp = r).
  { unfold path_node_sub_path in E4. cbn [fst snd] in E4.
    match type of E4 with context [skip_periods ?a ?b ?c] => destruct (skip_periods a b c) end; [|discriminate].
    injection E4 as <- _. exact O5. }
  subst rp. pose proof (value_wf _ _ F3 Hcs) as Hv. cbn [wf_node] in Hv. apply andb_true_iff in Hv. destruct Hv as [Hbo Hv]. apply andb_true_iff in Hbo. destruct Hbo as [Hbo Hso].
  apply Hrec in E5; [|exact O6|exact Hv|exact Hbo|].
  - destruct E5 as [E5 [E7 E8]]. split; [|split; [eapply braces_field; exact Hb|destruct pre; auto]].
    eapply A_below; try eassumption. rewrite E7, (E8 Hso). auto.
  - intro n. specialize (Hhf n). rewrite hasb_field, Er, F3 in Hhf. exact Hhf.
Qed.

Lemma inserted_snoc : forall new cs cs', inserted new cs cs' -> inserted new cs (cs' ++ [new]).
Proof. intros new cs cs' H. rewrite <- (app_nil_r cs). apply inserted_app; [exact H|]. apply I_new, I_nil. Qed.

Lemma starts_open_braces : forall cs, braces cs = true -> starts_open cs = true -> ends_close cs = true.
Proof.
  intros cs H Ho. unfold braces in H. assert (existsb is_open_curly cs = true) as E.
  { destruct cs as [|c cs]; [discriminate|]. cbn in *. rewrite Ho. reflexivity. }
  rewrite E, Ho in H. exact H.
Qed.

Lemma key_of_app : forall a b, only_toks a -> key_of (a ++ b) = key_of b /\ value_of (a ++ b) = value_of b.
Proof.
  intros a b H. induction H as [|c a Hc H IH]; [auto|]. destruct c; try contradiction. exact IH.
Qed.
Lemma toks_wf : forall cs, only_toks cs -> wfs cs = true.
Proof.
  intros cs H. unfold wfs. apply forallb_forall. unfold only_toks in H. rewrite Forall_forall in H. intros x Hx. specialize (H x Hx).
  destruct x; try contradiction. reflexivity.
Qed.

Lemma braces_enclosed : forall x, braces (NTok TOpenCurly :: x ++ [NTok TCloseCurly]) = true.
Proof.
  intro x. unfold braces. cbn [existsb starts_open]. change (is_open_curly (NTok TOpenCurly)) with true. cbn [orb andb].
  exact (ends_close_app (NTok TOpenCurly :: x) [NTok TCloseCurly] ltac:(discriminate)).
Qed.

Lemma add_value_added : forall n f cs d v cs', fst d <> [] -> wfs cs = true -> braces cs = true ->
  wf_node v = true -> is_value_node v = true -> (forall m, hasb m (fst d) cs = false) ->
  add_value_n n f cs d v = Ok cs' -> added (fst d) cs cs' /\ braces cs' = true /\ (starts_open cs = true -> starts_open cs' = true).
Proof.
  induction n as [|n IH]; intros f cs d v cs' Hd Hw Hb Hv1 Hv2 Hh H; [discriminate|]. cbn [add_value_n] in H.
  destruct d as [dp dt]. cbn [fst snd] in *.
  inv_bind H. rename a into ind. rename Hb0 into Hind. apply indentation_blank in Hind.
  inv_bind Hk. rename a into v'. rename Hb0 into Hv'. rename Hk0 into H.
  assert (Hvw : wf_node v' = true /\ is_value_node v' = true).
  { destruct (rev ind) as [|back r] eqn:Er; [injection Hv' as <-; auto|]. destruct (is_complex v); [|injection Hv' as <-; auto].
    assert (Hbk : blankish back = true).
    { rewrite Forall_forall in Hind. apply Hind. rewrite in_rev, Er. left. reflexivity. }
    apply indent_text_wf in Hv'; [|exact Hbk|exact Hv1]. destruct Hv' as [W1 W2]. rewrite W2. auto. }
  destruct Hvw as [W1 W2]. inv_bind H. rename Hb0 into Hbelow. rename Hk into H. destruct a as [cs0|].
  { injection H as <-. match type of Hbelow with (if ?b then _ else _) = _ => destruct b end; [|discriminate].
    apply (add_below_added (add_value_n n f) (dp, dt) v cs cs0 Hd Hw Hb Hh); [|exact Hbelow].
    intros ocs d' ocs' X1 X2 X3 X4 X5. exact (IH f ocs d' v ocs' X1 X2 X3 Hv1 Hv2 X4 X5). }
  clear Hbelow. inv_bind H. destruct a as [fp ft]. rename Hb0 into Hfp. rename Hk into H. inv_bind H. rename a into nv. rename Hb0 into Hnv. rename Hk into H.
  set (fc := ind ++ [NPath (fp, ft); blank_node (lit " "); NTok TColon; blank_node (lit " "); nv]) in *.
  assert (Htoks : only_toks ind).
  { eapply Forall_impl; [|exact Hind]. intros c Hc. apply blankish_tok in Hc. destruct Hc as [t [-> _]]. exact I. }
  assert (Hfc1 : key_of fc = fp) by (apply (key_of_app ind); exact Htoks).
  assert (Hfc2 : is_value_node nv = true -> value_of fc = Some nv).
  { intro Hn. unfold fc. destruct (key_of_app ind [NPath (fp, ft); blank_node (lit " "); NTok TColon; blank_node (lit " "); nv] Htoks) as [_ ->].
    cbn. destruct nv; try discriminate; reflexivity. }
  (* what the new field is *)
  assert (Hnew : is_value_node nv = true /\ wf_node nv = true /\ fp <> [] /\
                 (fp = dp \/ exists k r base ocs, dp = k :: r /\ r <> [] /\ fp = [k] /\ nv = NObject ocs /\ only_toks base /\ added r base ocs)).
  { destruct (length dp =? 1) eqn:El.
    - injection Hnv as <-. refine (conj W2 (conj W1 _)).
      assert (Hone : exists k, dp = [k]).
      { apply Z.eqb_eq in El. rewrite length_spec in El by exact Hd. destruct dp as [|k [|k2 r]]; [congruence|eexists; reflexivity|cbn in El; lia]. }
      destruct Hone as [k Hone]. unfold path_node_first in Hfp; cbn [fst snd] in Hfp. destruct (before_period dt).
      + rewrite Hone in Hfp. inv_bind Hfp. discriminate.
      + injection Hfp as <- <-. auto.
    - inv_bind Hnv. destruct a as [rest rt]. inv_bind Hk. rename a into ocs. injection Hk0 as <-.
      destruct dp as [|k r]; [congruence|]. destruct r as [|k2 r]; [discriminate|].
      assert (Hrest : rest = k2 :: r).
      { unfold path_node_sub_path in Hb0; cbn [fst snd] in Hb0. destruct (skip_periods 0 1 dt) as [ts|]; [|discriminate]. apply Ok_inj in Hb0.
        apply (f_equal fst) in Hb0. transitivity (sub_path (k :: k2 :: r) 1); [symmetry; exact Hb0|]. apply sub_path_one. discriminate. }
      assert (Hf : fp = [k]).
      { unfold path_node_sub_path in Hb0; cbn [fst snd] in Hb0. destruct (skip_periods 0 1 dt) as [ts|] eqn:Es; [|discriminate].
        destruct (skip_before _ _ Es) as [ts' Ets]. unfold path_node_first in Hfp; cbn [fst snd] in Hfp. rewrite Ets, sub_path2_one in Hfp by discriminate.
        injection Hfp as <- _. reflexivity. }
      set (base := NTok TOpenCurly :: match ind with [] => [NTok TNewline] | _ :: _ => [] end ++ ind ++ [NTok TCloseCurly]) in *.
      assert (Hbase : only_toks base).
      { constructor; [exact I|]. apply Forall_app. split; [destruct ind; repeat constructor|]. apply Forall_app. split; [exact Htoks|repeat constructor]. }
      assert (Hbb : braces base = true).
      { unfold base. rewrite app_assoc. apply braces_enclosed. }
      apply IH in Hb1; [|rewrite Hrest; discriminate|apply toks_wf; exact Hbase|exact Hbb|exact W1|exact W2|intro m; apply hasb_toks; exact Hbase].
      rewrite Hrest in Hb1. destruct Hb1 as [Ha [Hbr Hso]]. split; [reflexivity|]. split.
      { cbn [wf_node]. rewrite Hbr, (Hso eq_refl). apply (added_wf _ _ _ Ha). apply toks_wf. exact Hbase. }
      rewrite Hf. split; [discriminate|]. right. exists k, (k2 :: r), base, ocs. repeat (split; [reflexivity || assumption || discriminate|]). assumption. }
  destruct Hnew as [N1 [N2 [N3 N4]]]. specialize (Hfc2 N1).
  assert (Hwf : wf_node (NField fc) = true).
  { cbn [wf_node]. unfold wf_field. rewrite Hfc1, Hfc2. destruct fp; [congruence|]. cbn [andb]. unfold fc. rewrite forallb_app.
    cbn. rewrite N2. rewrite andb_true_r. apply toks_wf. exact Htoks. }
  (* where it is *)
  inv_bind H. rename a into cs1. rename Hb0 into Hpl. rename Hk into H.
  assert (Hplace : inserted (NField fc) cs cs' /\ In (NField fc) cs' /\ braces cs' = true /\ (starts_open cs = true -> starts_open cs' = true)).
  { change (match cs with c :: _ => is_open_curly c | [] => false end) with (starts_open cs) in *. destruct (starts_open cs) eqn:Eo.
    - rewrite orb_true_r in Hpl. cbn [orb] in Hpl. injection H as <-. pose proof (starts_open_braces _ Hb Eo) as He.
      destruct (place_loop_braces _ _ _ _ _ He Hpl) as [P1 P2]. apply place_loop_inserted in Hpl. destruct Hpl as [P3 [_ P4]].
      split; [exact P3|]. split; [exact P1|]. split; [|intros _; exact (P4 eq_refl Eo)]. unfold braces. rewrite (P4 eq_refl Eo), P2. destruct (existsb is_open_curly cs1); reflexivity.
    - assert (Hins : inserted (NField fc) cs cs1).
      { destruct (is_json f || false || _) in Hpl; [apply place_loop_inserted in Hpl; apply Hpl|]. injection Hpl as <-. apply inserted_refl. }
      assert (Hno : existsb is_open_curly cs = false).
      { unfold braces in Hb. rewrite Eo in Hb. destruct (existsb is_open_curly cs); [discriminate|reflexivity]. }
      assert (Hres : inserted (NField fc) cs cs' /\ In (NField fc) cs').
      { destruct (rev cs1) as [|last before] eqn:Er.
        - apply (f_equal (@rev _)) in Er. rewrite rev_involutive in Er. cbn in Er. subst cs1. injection H as <-.
          split; [|left; reflexivity]. apply I_new. exact Hins.
        - apply (f_equal (@rev _)) in Er. rewrite rev_involutive in Er. cbn in Er. subst cs1. destruct (is_newline last); injection H as <-.
          + split; [|apply in_or_app; right; left; reflexivity]. eapply inserted_trans; [|exact Hins].
            apply inserted_app; [apply inserted_refl|]. apply I_new, inserted_refl.
          + split; [|apply in_or_app; right; left; reflexivity]. apply inserted_snoc. exact Hins. }
      destruct Hres as [R1 R2]. refine (conj R1 (conj R2 _)). split; [|congruence]. unfold braces.
      rewrite (inserted_open _ _ _ R1 eq_refl), Hno. reflexivity. }
  destruct Hplace as [Q1 [Q2 Q3]]. split; [|exact Q3]. destruct N4 as [N4|[k [r [base [ocs [M1 [M2 [M3 [M4 [M5 M6]]]]]]]]]].
  - eapply A_here; try eassumption. congruence.
  - rewrite M1. eapply A_nested; try eassumption; congruence.
Qed.
