(** Proofs about the parser's line numbers. *)
From Verif Require Import Base BaseLemmas Util_Model Num_Model Path_Model Token_Model PathParser_Model Doc_Model Doc_Lemmas Comments_Model Comments_Spec Comments_Lemmas2.

Lemma newlines_app : forall a b, newlines (a ++ b) = newlines a + newlines b.
Proof. intros a b. unfold newlines. rewrite count_occ_app. lia. Qed.
Lemma line_app : forall a b, line_after (a ++ b) = line_after a + newlines b.
Proof. intros a b. unfold line_after. rewrite newlines_app. lia. Qed.
Lemma begins_children : forall before n, begins before n =
  match n with
  | NObject cs | NArray cs => line_after before :: begins_all before cs
  | NConcat cs | NField cs | NInclude cs _ => begins_all before cs
  | _ => []
  end.
Proof.
  intros before [| | | | | | | |]; reflexivity.
Qed.
Lemma render_cons : forall c cs, render_nodes (c :: cs) = render_node c ++ render_nodes cs.
Proof. intros. unfold render_nodes, render_node. cbn [flat_map]. apply render_tokens_app. Qed.
Lemma begins_app : forall a b before, begins_all before (a ++ b) = begins_all before a ++ begins_all (before ++ render_nodes a) b.
Proof.
  induction a as [|c a IH]; intros b before; [cbn; unfold render_nodes; cbn; rewrite app_nil_r; reflexivity|].
  cbn [app begins_all]. rewrite IH, <- !app_assoc. rewrite render_cons. reflexivity.
Qed.
Definition is_newline_node (c : node) : bool := match c with NTok TNewline => true | _ => false end.
Lemma newline_one : newlines (render_node (NTok TNewline)) = 1.
Proof. reflexivity. Qed.
Lemma flat_begins : forall c before, flat c = true -> begins before c = [].
Proof. intros [] before H; try discriminate; reflexivity. Qed.
Lemma flat_begins_all : forall cs before, forallb flat cs = true -> begins_all before cs = [].
Proof.
  induction cs as [|c cs IH]; intros before H; [reflexivity|]. cbn [forallb] in H. apply andb_true_iff in H. destruct H as [H1 H2].
  cbn [begins_all]. rewrite (flat_begins _ _ H1). exact (IH _ H2).
Qed.
Lemma flat_regular : forall c, flat c = true -> regular c = true -> newlines (render_node c) = 0.
Proof. intros [] H R; try discriminate; apply Z.eqb_eq; exact R. Qed.
Definition walks (n : node) : Prop := valued n = true -> shaped n = true -> regular n = true -> forall before,
  walk n (line_after before) = (line_after (before ++ render_node n), begins before n).

Lemma valued_node : forall c, valued c = true -> is_value_node c = true.
Proof. intros [] H; try discriminate; reflexivity. Qed.
Lemma walk_value_ok : forall cs, Forall walks cs -> ends shaped cs = true -> forallb regular cs = true -> forall before,
  walk_value walk cs (line_after before) = (line_after (before ++ render_nodes cs), begins_all before cs).
Proof.
  induction cs as [|c cs IH]; intros HF He Hr before; [discriminate|]. inversion HF as [|? ? F1 F2]; subst.
  cbn [forallb] in Hr. apply andb_true_iff in Hr. destruct Hr as [R1 R2]. cbn [walk_value begins_all]. rewrite render_cons.
  destruct cs as [|d cs].
  - cbn [ends] in He. apply andb_true_iff in He. destruct He as [V S]. rewrite (valued_node c V), (F1 V S R1). cbn [begins_all]. unfold render_nodes. cbn. rewrite !app_nil_r. reflexivity.
  - cbn [ends] in He. apply andb_true_iff in He. destruct He as [Q E].
    assert (is_value_node c = false) as -> by (destruct c; try discriminate; reflexivity).
    rewrite (flat_begins _ _ Q). cbn [app]. rewrite app_assoc. rewrite <- (IH F2 E R2 (before ++ render_node c)). rewrite line_app, (flat_regular _ Q R1), Z.add_0_r. reflexivity.
Qed.
Definition below (c : node) : bool := match c with NTok TNewline => true | _ => regular c end.
Lemma below_spec : forall c, below c = true -> c = NTok TNewline \/ (is_newline_node c = false /\ regular c = true).
Proof. intros [[]| | | | | | | |] H; auto. Qed.
Lemma walk_elements_ok : forall cs, Forall walks cs -> forallb in_list cs = true -> forall counting,
  forallb (if counting : bool then below else regular) cs = true -> forall before,
  walk_elements walk counting cs (line_after before) = (line_after (before ++ render_nodes cs), begins_all before cs).
Proof.
  induction cs as [|c cs IH]; intros HF Hs counting Hr before; [cbn; unfold render_nodes; cbn; rewrite app_nil_r; reflexivity|].
  inversion HF as [|? ? F1 F2]; subst. cbn [forallb] in Hr, Hs. apply andb_true_iff in Hr, Hs. destruct Hr as [R1 R2], Hs as [S1 S2].
  cbn [begins_all]. rewrite render_cons, app_assoc.
  specialize (IH F2 S2 counting R2 (before ++ render_node c)).
  assert (Cases : (counting = true /\ c = NTok TNewline) \/ (is_newline_node c = false /\ regular c = true)).
  { destruct counting; [destruct (below_spec _ R1); auto|]. right. split; [|exact R1]. destruct c as [[]| | | | | | | |]; try reflexivity. discriminate. }
  destruct Cases as [[-> ->]|[NN R]].
  - cbn [walk_elements begins app]. rewrite line_app, newline_one in IH. exact IH.
  - assert (Eq : walk_elements walk counting (c :: cs) (line_after before) =
      if is_value_node c then let '(line1, ls1) := walk c (line_after before) in let '(line2, ls2) := walk_elements walk counting cs line1 in (line2, ls1 ++ ls2)
      else walk_elements walk counting cs (line_after before)).
    { destruct c as [[]| | | | | | | |]; try reflexivity. discriminate. }
    rewrite Eq. destruct (is_value_node c) eqn:V.
    + assert (V' : valued c = true /\ shaped c = true). { destruct c; try discriminate; unfold in_list in S1; cbn [flat valued orb] in S1; try discriminate; apply andb_true_iff in S1; exact S1. }
      rewrite (F1 (proj1 V') (proj2 V') R), IH. reflexivity.
    + assert (Q : flat c = true) by (destruct c; try discriminate; reflexivity).
      rewrite (flat_begins _ _ Q). cbn [app]. rewrite <- IH, line_app, (flat_regular _ Q R), Z.add_0_r. reflexivity.
Qed.
Lemma include_begins : forall cs before, forallb (fun c => match c with NTok _ | NComment _ | NSimple _ => true | _ => false end) cs = true -> begins_all before cs = [].
Proof.
  induction cs as [|c cs IH]; intros before H; [reflexivity|]. cbn [forallb] in H. apply andb_true_iff in H. destruct H as [H1 H2].
  cbn [begins_all]. rewrite (IH _ H2), app_nil_r. destruct c; try discriminate; reflexivity.
Qed.
(** Of the children of an object, a field is known by what is known of its parts. *)
Definition part_walks (n : node) : Prop := match n with NField cs => Forall walks cs | _ => True end.
Lemma walk_object_ok : forall cs, Forall part_walks cs -> forallb in_object cs = true -> forallb below cs = true -> forall before,
  walk_object walk cs (line_after before) = (line_after (before ++ render_nodes cs), begins_all before cs).
Proof.
  induction cs as [|c cs IH]; intros HF Hs Hr before; [cbn; unfold render_nodes; cbn; rewrite app_nil_r; reflexivity|].
  inversion HF as [|? ? F1 F2]; subst. cbn [forallb] in Hr, Hs. apply andb_true_iff in Hr, Hs. destruct Hr as [R1 R2], Hs as [S1 S2].
  cbn [begins_all]. rewrite render_cons, app_assoc. specialize (IH F2 S2 R2 (before ++ render_node c)).
  assert (Plain : begins before c = [] -> newlines (render_node c) = 0 -> walk_object walk cs (line_after before) = (line_after ((before ++ render_node c) ++ render_nodes cs), begins before c ++ begins_all (before ++ render_node c) cs)).
  { intros -> N. cbn [app]. rewrite <- IH, line_app, N, Z.add_0_r. reflexivity. }
  destruct (below_spec _ R1) as [->|[NN R]].
  - cbn [walk_object begins app]. rewrite line_app, newline_one in IH. exact IH.
  - destruct c as [t|t|p|t|fc|ic k|cc|ac|oc]; try discriminate.
    + destruct t; try discriminate; cbn [walk_object]; (apply Plain; [reflexivity|apply flat_regular; [reflexivity|exact R]]).
    + cbn [walk_object]; (apply Plain; [reflexivity|apply flat_regular; [reflexivity|exact R]]).
    + cbn [walk_object]. destruct fc as [|[] fc]; try discriminate. unfold in_object in S1. cbn [flat orb shaped] in S1.
      cbn [part_walks] in F1. inversion F1 as [|? ? _ F1']; subst. cbn [regular forallb] in R. apply andb_true_iff in R. destruct R as [Rp R].
      cbn [walk_value is_value_node].
      assert (L : line_after before = line_after (before ++ render_node (NPath p))) by (rewrite line_app; apply Z.eqb_eq in Rp; rewrite Rp; lia).
      rewrite L, (walk_value_ok fc F1' S1 R). rewrite begins_children. cbn [begins_all app].
      replace ((before ++ render_node (NPath p)) ++ render_nodes fc) with (before ++ render_node (NField (NPath p :: fc))).
      * rewrite IH. reflexivity.
      * rewrite <- app_assoc, <- render_cons. reflexivity.
    + cbn [walk_object]. apply Plain; [rewrite begins_children; apply include_begins; exact S1|apply Z.eqb_eq; exact R].
Qed.
Lemma walk_ok : forall n, walks n /\ part_walks n.
Proof.
  induction n as [t|t|p|t|cs IH|cs k IH|cs IH|cs IH|cs IH] using node_ind'; (split; [|try exact I]); intros.
  all: try (intros V S R before; discriminate V).
  - intros V S R before. cbn [walk begins]. rewrite line_app. apply Z.eqb_eq in R. rewrite R, Z.add_0_r. reflexivity.
  - cbn [part_walks]. rewrite Forall_forall in IH |- *. intros x X. apply IH. exact X.
  - intros V S R before. rewrite begins_children. cbn [walk]. apply walk_elements_ok; [|exact S|exact R]. rewrite Forall_forall in IH |- *. intros x X. apply IH. exact X.
  - intros V S R before. rewrite begins_children. cbn [walk]. rewrite walk_elements_ok; [reflexivity| |exact S|exact R]. rewrite Forall_forall in IH |- *. intros x X. apply IH. exact X.
  - intros V S R before. rewrite begins_children. cbn [walk]. rewrite walk_object_ok; [reflexivity| |exact S|exact R]. rewrite Forall_forall in IH |- *. intros x X. apply IH. exact X.
Qed.
Lemma walk_root_flat : forall cs line, forallb flat cs = true -> walk_root true cs line = [].
Proof.
  induction cs as [|c cs IH]; intros line H; [reflexivity|]. cbn [forallb] in H. apply andb_true_iff in H. destruct H as [H1 H2].
  destruct c as [[]| | | | | | | |]; try discriminate; cbn [walk_root]; try reflexivity; apply IH; exact H2.
Qed.
Lemma walk_root_ok : forall ws before v ws2, forallb flat ws = true -> forallb below ws = true -> forallb flat ws2 = true ->
  shaped v = true -> regular v = true -> match v with NObject _ | NArray _ => True | _ => False end ->
  walk_root false (ws ++ v :: ws2) (line_after before) = begins_all before (ws ++ v :: ws2).
Proof.
  induction ws as [|c ws IH]; intros before v ws2 H B H2 S R Hv.
  - cbn [app begins_all]. rewrite (flat_begins_all ws2) by exact H2. rewrite app_nil_r.
    assert (valued v = true) as V by (destruct v; try contradiction; reflexivity).
    assert (walk_root false (v :: ws2) (line_after before) = let '(line', ls) := walk v (line_after before) in ls ++ walk_root true ws2 line') as -> by (destruct v; try contradiction; reflexivity).
    rewrite (proj1 (walk_ok v) V S R). rewrite walk_root_flat by exact H2. apply app_nil_r.
  - cbn [forallb] in H, B. apply andb_true_iff in H, B. destruct H as [H1 H3], B as [B1 B2]. cbn [app begins_all]. rewrite (flat_begins _ _ H1). cbn [app].
    rewrite <- (IH (before ++ render_node c) v ws2) by assumption. rewrite line_app.
    destruct (below_spec _ B1) as [->|[NN Rc]]; [reflexivity|]. rewrite (flat_regular _ H1 Rc), Z.add_0_r.
    destruct c as [[]| | | | | | | |]; try discriminate; reflexivity.
Qed.
Lemma parse_lines : forall f s root, parse_document f s = Ok root -> regular_document root = true ->
  walk_root false root 1 = begins_all [] root.
Proof.
  intros f s root H Hr. unfold regular_document in Hr. destruct (parse_document_shape _ _ _ H) as [ws [v [ws2 [-> [H1 [H2 [S V]]]]]]].
  rewrite forallb_app in Hr. apply andb_true_iff in Hr. destruct Hr as [R1 R]. cbn [forallb] in R. apply andb_true_iff in R. destruct R as [R _].
  apply (walk_root_ok ws [] v ws2); try assumption.
  destruct v; try contradiction; exact R.
Qed.
