(** Proofs about comments. *)
From Verif Require Import Base BaseLemmas Util_Model Token_Model PathParser_Model Doc_Model Origin_Model Comments_Model Comments_Spec.

Lemma text_spec : forall t, [text_of_comment t] = comment_texts [NComment t].
Proof. destruct t; reflexivity. Qed.
Lemma field_comments_spec : forall fcs, field_comments fcs = comment_texts fcs.
Proof. induction fcs as [|[] fcs IH]; cbn [field_comments]; try exact IH; [reflexivity|]. rewrite IH. destruct t; reflexivity. Qed.
Lemma trailing_spec : forall cs, trailing_comment cs = behind_field cs.
Proof. induction cs as [|[] cs IH]; cbn [trailing_comment behind_field]; try reflexivity; [destruct t; try reflexivity; exact IH|apply text_spec]. Qed.

(** ** Objects *)
(** Walking up, only things without meaning for the count of lines, then the end of a line. *)
Fixpoint at_newline (l : list node) : bool :=
  match l with
  | NTok TNewline :: _ => true
  | NField _ :: _ | NInclude _ _ :: _ | NComment _ :: _ | [] => false
  | _ :: l' => at_newline l'
  end.
Lemma above_newline : forall l, above_field true l = if at_newline l then [] else above_field false l.
Proof.
  induction l as [|c l IH]; [reflexivity|]. destruct c; cbn [above_field at_newline]; try exact IH; try reflexivity.
  destruct t; try exact IH. reflexivity.
Qed.

Lemma beside_above : forall l, beside_field l = true -> above_field false l = [] /\ at_newline l = false.
Proof.
  induction l as [|c l IH]; [discriminate|]. destruct c; cbn [beside_field above_field at_newline]; intros H; try discriminate; try (split; reflexivity).
  destruct t; try discriminate; apply IH; exact H.
Qed.

Lemma object_comments_at : forall post l pre fcs, no_include pre ->
  nth_error (object_comments (at_newline l) (beside_field l) (rev (above_field false l)) (pre ++ NField fcs :: post)) (fields_in pre) =
  Some (fcs, rev (above_field false (rev pre ++ l)) ++ comment_texts fcs, behind_field post).
Proof.
  intros post l pre. revert l. induction pre as [|c pre IH]; intros l fcs Hn.
  { cbn [app object_comments fields_in filter List.length nth_error rev]. rewrite field_comments_spec, trailing_spec. reflexivity. }
  inversion Hn as [|? ? Hc Hn']; subst. cbn [rev]. rewrite <- app_assoc. cbn [app].
  assert (Go : forall b d e, fields_in (c :: pre) = fields_in pre -> b = at_newline (c :: l) -> d = beside_field (c :: l) -> e = rev (above_field false (c :: l)) ->
    nth_error (object_comments b d e (pre ++ NField fcs :: post)) (fields_in (c :: pre)) = Some (fcs, rev (above_field false (rev pre ++ c :: l)) ++ comment_texts fcs, behind_field post)).
  { intros b d e F -> -> ->. rewrite F. apply IH. exact Hn'. }
  destruct c; cbn [object_comments]; try (apply Go; reflexivity).
  - destruct t; try (apply Go; reflexivity). apply Go; try reflexivity. cbn [above_field]. rewrite above_newline. destruct (at_newline l); reflexivity.
  - destruct (beside_field l) eqn:E.
    + destruct (beside_above l E) as [A N]. apply Go; cbn [above_field at_newline beside_field]; rewrite ?E, ?A, ?N; reflexivity.
    + apply Go; cbn [above_field at_newline beside_field]; rewrite ?E; try reflexivity.
      rewrite rev_app_distr, <- text_spec. reflexivity.
  - cbn [fields_in filter List.length nth_error]. specialize (IH (NField children :: l) fcs Hn'). exact IH.
  - contradiction.
Qed.
Lemma object_comments_spec : forall pre fcs post, no_include pre ->
  nth_error (object_comments false false [] (pre ++ NField fcs :: post)) (fields_in pre) =
  Some (fcs, rev (above_field false (rev pre)) ++ comment_texts fcs, behind_field post).
Proof. intros pre fcs post H. pose proof (object_comments_at post [] pre fcs H) as G. rewrite app_nil_r in G. exact G. Qed.

(** ** None twice, none out of order *)
Lemma sub_nil : forall A (b : list A), subsequence [] b.
Proof. induction b; constructor; assumption. Qed.
Lemma sub_refl : forall A (b : list A), subsequence b b.
Proof. induction b; constructor; assumption. Qed.
Lemma sub_app : forall A (a b c d : list A), subsequence a b -> subsequence c d -> subsequence (a ++ c) (b ++ d).
Proof. intros A a b c d H K. induction H; cbn [app]; [exact K|constructor; assumption|constructor; assumption]. Qed.
Lemma sub_drop_front : forall A (x a b : list A), subsequence a b -> subsequence a (x ++ b).
Proof. induction x; cbn [app]; intros; [assumption|constructor; auto]. Qed.

Lemma comment_one : forall t, comment_texts [NComment t] = [text_of_comment t].
Proof. intros t. symmetry. apply text_spec. Qed.
Lemma all_cons : forall c cs, all_comments (c :: cs) = (match c with NField fcs => comment_texts fcs | _ => comment_texts [c] end) ++ all_comments cs.
Proof. reflexivity. Qed.
Lemma trailing_first : forall cs, all_comments cs = trailing_comment cs ++ skipn (List.length (trailing_comment cs)) (all_comments cs).
Proof.
  induction cs as [|c cs IH]; [reflexivity|].
  destruct c; cbn [trailing_comment]; try reflexivity.
  - destruct t; try reflexivity; exact IH.
  - rewrite all_cons, comment_one. reflexivity.
Qed.
(** While the search behind a field goes on, its comment has been used already: the rest is what remains. *)
Lemma object_comments_sub : forall cs newline searching comments,
  subsequence (attached (object_comments newline searching comments cs))
              (comments ++ (if searching then skipn (List.length (trailing_comment cs)) (all_comments cs) else all_comments cs)).
Proof.
  induction cs as [|c cs IH]; intros newline searching comments.
  { cbn. apply sub_nil. }
  assert (Plain : forall newline comments', comment_texts [c] = [] -> all_comments (c :: cs) = comment_texts [c] ++ all_comments cs -> trailing_comment (c :: cs) = [] -> subsequence comments' comments ->
    subsequence (attached (object_comments newline false comments' cs))
      (comments ++ (if searching then skipn (List.length (trailing_comment (c :: cs))) (all_comments (c :: cs)) else all_comments (c :: cs)))).
  { intros nl' comments' E A T Hs. rewrite T, A, E. cbn [List.length skipn app].
    assert (subsequence (attached (object_comments nl' false comments' cs)) (comments ++ all_comments cs)) as G.
    { specialize (IH nl' false comments'). cbv iota in IH. revert IH. generalize (attached (object_comments nl' false comments' cs)). intros a Ha.
      clear - Ha Hs. revert a Ha. induction Hs; intros a' Ha; [exact Ha| |].
      - cbn [app] in Ha |- *. inversion Ha; subst; constructor; apply IHHs; assumption.
      - constructor. apply IHHs. exact Ha. }
    destruct searching; exact G. }
  destruct c; cbn [object_comments]; try (apply Plain; try reflexivity; apply sub_refl).
  - destruct t; try (apply Plain; try reflexivity; apply sub_refl); try exact (IH newline searching comments).
    apply Plain; try reflexivity. destruct newline; [apply sub_nil|apply sub_refl].
  - destruct searching; cbn [trailing_comment List.length]; rewrite all_cons, comment_one.
    + cbn [app skipn]. exact (IH newline false comments).
    + specialize (IH false false (comments ++ [text_of_comment t])). rewrite <- app_assoc in IH. exact IH.
  - cbn [attached flat_map trailing_comment List.length skipn]. rewrite all_cons.
    assert (subsequence (((comments ++ field_comments children) ++ trailing_comment cs) ++ attached (object_comments false true [] cs)) (comments ++ comment_texts children ++ all_comments cs)) as G.
    { rewrite field_comments_spec, <- !app_assoc. apply sub_app; [apply sub_refl|]. apply sub_app; [apply sub_refl|].
      rewrite (trailing_first cs). apply sub_app; [apply sub_refl|]. exact (IH false true []). }
    destruct searching; exact G.
Qed.

(** ** Lists *)
Fixpoint element_newline (l : list node) : bool :=
  match l with
  | [] => false
  | NTok TNewline :: _ => true
  | NComment _ :: _ => false
  | n :: l' => if is_value_node n then false else element_newline l'
  end.
Lemma above_element_newline : forall l, above_element true l = if element_newline l then [] else above_element false l.
Proof.
  induction l as [|c l IH]; [reflexivity|].
  destruct c; cbn [above_element element_newline is_value_node]; try exact IH; try reflexivity.
  destruct t; try exact IH. reflexivity.
Qed.
(** What is put behind the element that is not yet pushed. *)
Lemma array_first : forall cs newline comments n before,
  nth_error (array_comments newline comments (Some (n, before)) cs) 0 = Some (n, before, comments ++ behind_element cs).
Proof.
  induction cs as [|c cs IH]; intros newline comments n before; [cbn; rewrite app_nil_r; reflexivity|].
  destruct c; cbn [array_comments behind_element is_value_node]; try apply IH; try (cbn [nth_error]; rewrite app_nil_r; reflexivity).
  - destruct t; try apply IH. cbn [nth_error]. rewrite app_nil_r. reflexivity.
  - rewrite IH, <- app_assoc, <- text_spec. reflexivity.
Qed.
Lemma beside_above_element : forall l b, beside_element l = true -> above_element b l = [].
Proof.
  induction l as [|c l IH]; [discriminate|]. intros b. destruct c; cbn [beside_element above_element is_value_node orb]; intros H; try reflexivity; try (apply IH; exact H).
  - destruct t; try discriminate; apply IH; exact H.
  - rewrite H. reflexivity.
Qed.
Lemma array_comments_at : forall post v, is_value_node v = true -> forall pre l,
  (beside_element l = false ->
   nth_error (array_comments (element_newline l) (rev (above_element false l)) None (pre ++ v :: post)) (elements_in pre) =
   Some (v, rev (above_element false (rev pre ++ l)), behind_element post)) /\
  (beside_element l = true -> forall b comments n,
   nth_error (array_comments b comments (Some n) (pre ++ v :: post)) (S (elements_in pre)) =
   Some (v, rev (above_element false (rev pre ++ l)), behind_element post)).
Proof.
  intros post v Hv. induction pre as [|c pre IH]; intros l.
  { cbn [app elements_in filter List.length rev]. split; intros Hb.
    - destruct v; try discriminate; cbn [array_comments is_value_node]; rewrite array_first; reflexivity.
    - intros b comments [n before]. rewrite beside_above_element by exact Hb.
      destruct v; try discriminate; exact (array_first post false [] _ []). }
  cbn [rev]. rewrite <- app_assoc. cbn [app]. destruct (IH (c :: l)) as [I1 I2]. split; intros Hb.
  - destruct c; cbn [array_comments is_value_node]; try (apply I1; exact Hb); try (apply I2; reflexivity).
    + destruct t; try (apply I1; exact Hb). specialize (I1 eq_refl). cbn [above_element element_newline] in I1. rewrite above_element_newline in I1. destruct (element_newline l); exact I1.
    + specialize (I1 Hb). cbn [above_element element_newline] in I1. rewrite Hb, rev_app_distr, <- text_spec in I1. exact I1.
  - intros b comments [n before].
    destruct c; cbn [array_comments is_value_node]; try (apply I2; exact Hb); try (apply (I2 eq_refl)).
    destruct t; try (apply (I2 Hb)). specialize (I1 eq_refl). cbn [above_element element_newline] in I1. rewrite beside_above_element in I1 by exact Hb. exact I1.
Qed.
Lemma array_comments_spec : forall pre v post, is_value_node v = true ->
  nth_error (array_comments false [] None (pre ++ v :: post)) (elements_in pre) =
  Some (v, rev (above_element false (rev pre)), behind_element post).
Proof. intros pre v post H. destruct (array_comments_at post v H pre []) as [G _]. rewrite app_nil_r in G. exact (G eq_refl). Qed.

(** ** What the origin says *)
Lemma annotate_comments : forall o before behind, comments o = [] ->
  comments (annotate o before behind) = if list_eq_dec (list_eq_dec ascii_dec) behind before then before else before ++ behind.
Proof.
  intros o before behind Ho. unfold annotate.
  assert (comments (match before with [] => o | _ => prepend_comments o before end) = before) as E.
  { destruct before as [|b bs]; [exact Ho|]. unfold prepend_comments, comments_eqb. rewrite Ho. destruct (list_eq_dec (list_eq_dec ascii_dec) (b :: bs) []); [discriminate|]. cbn [List.length Nat.eqb orb comments]. apply app_nil_r. }
  revert E. generalize (match before with [] => o | _ => prepend_comments o before end). intros o1 E.
  unfold append_comments, comments_eqb. rewrite E. destruct (list_eq_dec (list_eq_dec ascii_dec) behind before); cbn [orb]; [exact E|].
  destruct behind; cbn [List.length Nat.eqb]; [rewrite E; symmetry; apply app_nil_r|]. cbn [comments]. reflexivity.
Qed.

(** ** The whole document *)
Lemma root_behind : forall ws2 n before newline comments, forallb plain ws2 = true ->
  root_comments newline comments (Some (n, before)) ws2 = Some (n, before, if has_newline ws2 then comments ++ behind_element ws2 else []).
Proof.
  induction ws2 as [|c ws2 IH]; intros n before newline comments H; [reflexivity|].
  cbn [forallb] in H. apply andb_true_iff in H. destruct H as [H1 H2]. destruct c; try discriminate.
  - destruct t; cbn [root_comments has_newline existsb orb behind_element is_value_node]; try (apply IH; exact H2). rewrite app_nil_r. reflexivity.
  - cbn [root_comments has_newline existsb orb behind_element]. rewrite IH by exact H2. rewrite <- app_assoc, <- text_spec. reflexivity.
Qed.
Lemma plain_beside : forall l, forallb plain l = true -> beside_element l = false.
Proof.
  induction l as [|c l IH]; intro H; [reflexivity|]. cbn [forallb] in H. apply andb_true_iff in H. destruct H as [H1 H2].
  destruct c; try discriminate; cbn [beside_element is_value_node orb]; [destruct t|]; try (apply IH; exact H2); reflexivity.
Qed.
Lemma root_comments_at : forall ws l v ws2, forallb plain ws = true -> forallb plain l = true -> forallb plain ws2 = true ->
  match v with NObject _ | NArray _ => True | _ => False end ->
  root_comments (element_newline l) (rev (above_element false l)) None (ws ++ v :: ws2) =
  Some (v, rev (above_element false (rev ws ++ l)), if has_newline ws2 then behind_element ws2 else []).
Proof.
  induction ws as [|c ws IH]; intros l v ws2 H Hl H2 Hv.
  - cbn [app rev]. destruct v; try contradiction; cbn [root_comments]; rewrite root_behind by exact H2; reflexivity.
  - cbn [forallb] in H. apply andb_true_iff in H. destruct H as [H1 H3]. cbn [rev]. rewrite <- app_assoc. cbn [app].
    assert (Hcl : forallb plain (c :: l) = true) by (cbn [forallb]; rewrite H1; exact Hl).
    specialize (IH (c :: l) v ws2 H3 Hcl H2 Hv). rewrite <- IH.
    destruct c; try discriminate; cbn [root_comments].
    + destruct t; try reflexivity. cbn [above_element element_newline]. rewrite above_element_newline. destruct (element_newline l); reflexivity.
    + cbn [above_element element_newline]. rewrite (plain_beside l Hl), rev_app_distr, <- text_spec. reflexivity.
Qed.
