(** Unresolved merges as they are rendered are read back. *)
From Verif Require Import Base BaseLemmas Util_Model Num_Model Path_Model Path_Spec Path_Lemmas Token_Model Token_Spec Token_Lemmas Token_Lemmas2 PathParser_Model PathParser_Spec PathParser_Lemmas PathParser_Lemmas2 PathParser_Lemmas3 Doc_Model Doc_Lemmas Edit_Model Value_Model Value_Spec Value_Lemmas Concat_Model ConfigParser_Model Json_Lemmas2 Render_Model Render_Spec Render_Lemmas Render_Lemmas2 Render_Lemmas3 Render_Lemmas4 Render_Lemmas5 JsonEdit_Lemmas JsonEdit_Lemmas2 JsonEdit_Lemmas7 JsonEdit_Spec ConfEdit_Spec ConfEdit_Lemmas7 ConfText_Spec ConfText_Lemmas ConfText_Lemmas2 ConfText_Lemmas3 ConfText_Lemmas5 ConfText_Lemmas6 ConfText_Lemmas7 ConfText_Lemmas8 ConfText_Lemmas11 ConfText_Lemmas12 RenderConf_Lemmas RenderConf_Lemmas2 RenderRef_Spec RenderRef_Lemmas RenderRef_Lemmas2 RenderRef_Lemmas3.
From Coq Require Import Permutation.

Lemma sequence_app : forall a b, sequence (a ++ b) = (x <- sequence a ;; y <- sequence b ;; Ok (x ++ y)).
Proof.
  induction a as [|r a IH]; intro b; [cbn [app sequence bind]; destruct (sequence b); reflexivity|]. cbn [app sequence]. destruct r as [x|?|?]; [|reflexivity|reflexivity]. cbn [bind]. rewrite IH.
  destruct (sequence a) as [y|?|?]; [|reflexivity|reflexivity]. cbn [bind]. destruct (sequence b); cbn [bind]; rewrite ?app_assoc; reflexivity.
Qed.
Lemma digits_one_line : forall z, one_line (string_of_Z z).
Proof.
  intro z. destruct (integer_text z) as [sign [ds [-> [Sg [_ [D _]]]]]]. intro H. apply in_app_iff in H. destruct H as [H|H]; [destruct Sg as [-> | ->]; [destruct H|destruct H as [H|[]]; discriminate H]|].
  rewrite forallb_forall in D. specialize (D _ H). discriminate D.
Qed.
Lemma one_line_app : forall a b, one_line a -> one_line b -> one_line (a ++ b).
Proof. intros a b A B H. apply in_app_iff in H. destruct H; auto. Qed.

Lemma alike_merge : forall v w, alike v w -> is_merge w = is_merge v.
Proof. intros v w []; reflexivity. Qed.
Lemma find_key_last : forall k (w : value) m, find_key k m = None -> find_key k (m ++ [(k, w)]) = Some w.
Proof.
  intros k w m. induction m as [|[q u] m IH]; cbn [app find_key]; [rewrite str_eqb_refl; reflexivity|]. destruct (str_eqb k q); [discriminate|exact IH].
Qed.
Lemma set_key_last : forall k (w u : value) m, find_key k m = None -> set_key (m ++ [(k, w)]) k u = m ++ [(k, u)].
Proof.
  intros k w u m. induction m as [|[q x] m IH]; cbn [app find_key set_key]; [rewrite str_eqb_refl; reflexivity|]. destruct (str_eqb k q); [discriminate|]. intro H. rewrite IH by exact H. reflexivity.
Qed.

Definition stack_value (ws : list value) : value := match ws with [w] => w | _ => merge_of ws end.
Lemma not_delayed : forall ws, Forall (fun v => is_merge v = false) ws -> existsb is_delayed ws = false.
Proof. intros ws F. induction F as [|w ws H F IH]; [reflexivity|]. cbn [existsb]. rewrite IH. destruct w; try discriminate H; reflexivity. Qed.
Lemma merge_of_stack : forall ws, ws <> [] -> unmerged_values (merge_of ws) = ws /\ is_unmergeable (merge_of ws) = true.
Proof. intros [|[] ws] N; try congruence; split; reflexivity. Qed.
Lemma on_stack : forall w ws, ignores_fallbacks w = false -> ws <> [] -> Forall (fun v => is_merge v = false) (w :: ws) ->
  (forall x, ws = [x] -> is_unmergeable x = true \/ (is_resolved w = false /\ is_object w && is_object x = false)) -> with_fallback w (stack_value ws) = Ok (merge_of (w :: ws)).
Proof.
  intros w ws Ig N F U. inversion F as [|? ? Fw F']; subst.
  assert (Cd : construct_delayed_merge w (w :: ws) = Ok (merge_of (w :: ws))).
  { unfold construct_delayed_merge. destruct w; try discriminate Fw; try reflexivity. cbn [is_object]. unfold new_delayed_merge_object. cbn [is_object negb]. rewrite not_delayed by exact F. reflexivity. }
  assert (Un : is_unmergeable (stack_value ws) = true -> unmerged_values (stack_value ws) = ws -> with_fallback w (stack_value ws) = Ok (merge_of (w :: ws))).
  { intros E1 E2. unfold with_fallback. destruct w; try discriminate Fw; fold with_fallback; rewrite Ig, E1; unfold merged_with_the_unmergeable; rewrite Ig, E2; exact Cd. }
  destruct ws as [|x [|y ws]]; [congruence| |].
  - specialize (U x eq_refl). cbn [stack_value] in *. inversion F' as [|? ? Fx _]; subst.
    destruct (is_unmergeable x) eqn:Ux; [apply Un; destruct x; try discriminate Ux; try discriminate Fx; reflexivity|]. destruct U as [U|[U1 U2]]; [discriminate|].
    assert (Mn : merged_with_non_object w x = Ok (merge_of [w; x])) by (unfold merged_with_non_object; rewrite Ig, U1; exact Cd).
    destruct w; try discriminate Fw; cbn [with_fallback]; rewrite Ig, Ux; destruct x; try discriminate U2; exact Mn.
  - apply Un; [apply (merge_of_stack (x :: y :: ws)); discriminate|apply (merge_of_stack (x :: y :: ws)); discriminate].
Qed.
Lemma layered_rest : forall a vs, layered (a :: vs) -> waits a = true /\ ((exists b, vs = [b] /\ unmergeable a b = true) \/ (layered vs /\ (2 <= List.length vs)%nat)).
Proof.
  intros a [|b [|c vs]] H; [destruct H| |].
  - destruct H as [W U]. split; [exact W|]. left. eauto.
  - destruct H as [W L]. split; [exact W|]. right. split; [exact L|cbn; lia].
Qed.
Lemma waits_got : forall v w, got v w -> fresh w -> is_merge v = false -> waits v = true -> ignores_fallbacks w = false.
Proof.
  intros v w [A R] F Mv W. destruct A; try discriminate W; try discriminate Mv; try reflexivity.
  - cbn [ignores_fallbacks]. change (forallb is_resolved ws) with (is_resolved (VList ws)). rewrite R. cbn [waits] in W. rewrite W. reflexivity.
  - exact F.
Qed.
Lemma unmergeable_got : forall a b w x, got a w -> got b x -> is_merge b = false -> unmergeable a b = true -> is_unmergeable x = true \/ (is_resolved w = false /\ is_object w && is_object x = false).
Proof.
  intros a b w x [A Ra] [B _] Mb U. unfold unmergeable in U. apply orb_prop in U. destruct U as [U|U].
  - left. destruct B; try discriminate U; reflexivity.
  - apply andb_prop in U. destruct U as [U1 U2]. right. rewrite Ra, U1, (proj2 (proj2 (alike_reference _ _ A))), (proj2 (proj2 (alike_reference _ _ B))). apply negb_true_iff in U2. split; [reflexivity|exact U2].
Qed.

Section Rendering.
Variables (o : options) (ns : notes).
Hypothesis C : origin_comments o || comments o = true -> one_line_comments ns.
Hypothesis M : merges_fit o ns.
Notation parse inc := (ConfigParser_Model.parse_value CONF inc).
Notation line := (Render_Lemmas5.line o).

Lemma before_layer_gap : forall i indent k at_, k <> [] -> exists g, Render_Lemmas3.gap g /\
  before_layer o ns i indent k at_ = Ok (render_tokens g ++ render_json_string k ++ (if formatted o then lit " : " else lit ":")).
Proof.
  intros i indent k at_ K. unfold before_layer. destruct (comments o) eqn:Co.
  - destruct (C (orb_true_r _) at_) as [d [cs [E L]]]. unfold origin_of. rewrite E. cbn [bind]. destruct M as [_ M2]. pose proof (proj2 (M2 Co) _ _ _ E) as Dl.
    exists (line_toks o indent (lit "     unmerged value " ++ string_of_Z (Z.of_nat i) ++ lit " from " ++ d) ++ concat (map (line_toks o indent) (map (app (lit " ")) cs)) ++ blank_toks o indent). split.
    + apply line_gap; [|apply lines_gap; [apply space_lines, L|apply blank_gap]].
      apply one_line_app; [intro H; cbn in H; repeat (destruct H as [H|H]; [discriminate H|]); destruct H|]. apply one_line_app; [apply digits_one_line|]. apply one_line_app; [intro H; cbn in H; repeat (destruct H as [H|H]; [discriminate H|]); destruct H|exact Dl].
    + rewrite !render_app', Render_Lemmas5.line_text, Render_Lemmas5.blank_text, <- comment_text_lines. destruct k as [|c k]; [congruence|]. rewrite <- !app_assoc. reflexivity.
  - cbn [origin_of bind]. exists (blank_toks o indent). split; [apply blank_gap|]. rewrite Render_Lemmas5.blank_text. destruct k; [congruence|reflexivity].
Qed.

Lemma layers_read : forall vs n k at_ indent i, vs <> [] -> layered vs \/ (exists b, vs = [b]) -> Forall (fun v => is_merge v = false) vs -> k <> [] -> Forall quotable k -> Forall (reading o ns) vs ->
  exists its, sequence (rev (merge_items o ns n k at_ indent false i vs)) = Ok (render_tokens (itoks its) ++ lit "," ++ render_tokens line) /\
    irun Before its = Some Behind /\ fine fieldly its /\
    forall inc m0 st ac next, find_key k m0 = None -> exists ws next', Forall2 got vs ws /\
      forall rest, parse_object_nodes CONF inc (parse inc) (map inode its ++ rest) m0 st ac next = parse_object_nodes CONF inc (parse inc) rest (m0 ++ [(k, stack_value ws)]) st ac next'.
Proof.
  induction vs as [|v vs IH]; intros n k at_ indent i N Ly Fm K Q F; [congruence|]. clear N. inversion F as [|? ? V F']; subst. inversion Fm as [|? ? Mv Fm']; subst.
  destruct (before_layer_gap (n - 1 - i) indent k (at_ ++ [InList i]) K) as [g [G E]]. destruct (V (at_ ++ [InList i]) indent) as [nd [tv [R [Vo [_ [_ [_ [Vn St]]]]]]]].
  destruct (colon_field o k nd tv K Q Vo Vn) as [fc [ts [Fd [Ch [Tn [Tx Pf]]]]]].
  assert (It : (b <- before_layer o ns (n - 1 - i) indent k (at_ ++ [InList i]) ;; t <- render o ns v [] (at_ ++ [InList i]) indent false ;; Ok (b ++ t ++ lit "," ++ (if formatted o then [nl] else []))) =
    Ok (render_tokens (itoks (map IL g ++ [IX (NField fc) ts])) ++ lit "," ++ render_tokens line)).
  { rewrite E, R. cbn [bind]. rewrite itoks_app, itoks_layout, itoks_cons. cbn [itoks flat_map]. rewrite app_nil_r, render_app', Tx, line_text', <- !app_assoc. reflexivity. }
  assert (Fi0 : fine fieldly (map IL g ++ [IX (NField fc) ts])) by (apply fine_app; [apply fine_layout|]; constructor; [auto|constructor]).
  assert (Rn0 : irun Before (map IL g ++ [IX (NField fc) ts]) = Some Behind) by (rewrite irun_app, (gap_run g G); reflexivity).
  destruct vs as [|v2 vs].
  - exists (map IL g ++ [IX (NField fc) ts]). split; [|split; [exact Rn0|split; [exact Fi0|]]].
    + cbn [merge_items rev app sequence]. rewrite It. cbn [bind]. rewrite app_nil_r. reflexivity.
    + intros inc m0 st ac next Z. destruct (St inc (st ++ [[k]]) ac next) as [w [next' [P [A _]]]]. exists [w], next'. split; [constructor; [exact A|constructor]|]. intro rest.
      rewrite map_app, inode_layout, <- app_assoc, layout_fields. cbn [map inode app parse_object_nodes]. rewrite (Pf _ _ _ _ _ _ P). cbn [bind add_field]. rewrite Z. cbn [bind stack_value]. rewrite find_none_append by exact Z. reflexivity.
  - assert (Ly' : waits v = true /\ ((exists b, v2 :: vs = [b] /\ unmergeable v b = true) \/ (layered (v2 :: vs) /\ (2 <= List.length (v2 :: vs))%nat))).
    { destruct Ly as [Ly|[b Ly]]; [|discriminate Ly]. exact (layered_rest _ _ Ly). }
    destruct Ly' as [Wv Ly']. destruct (IH n k at_ indent (S i) ltac:(discriminate) ltac:(destruct Ly' as [[b [Lb _]]|[Lb _]]; [right; exists b; exact Lb|left; exact Lb]) Fm' K Q F') as [its [Qs [Rn [Fi Pv]]]].
    exists (its ++ map IL (TComma :: line) ++ map IL g ++ [IX (NField fc) ts]). split; [|split; [|split]].
    + change (merge_items o ns n k at_ indent false i (v :: v2 :: vs)) with
        ((b <- before_layer o ns (n - 1 - i) indent k (at_ ++ [InList i]) ;; t <- render o ns v [] (at_ ++ [InList i]) indent false ;;
          Ok (b ++ t ++ lit "," ++ (if formatted o then [nl] else []))) :: merge_items o ns n k at_ indent false (S i) (v2 :: vs)).
      cbn [rev]. rewrite sequence_app, Qs. cbn [bind sequence]. rewrite It. cbn [bind]. rewrite app_nil_r, (itoks_app its), (itoks_app (map IL (TComma :: line))), (itoks_layout (TComma :: line)), !render_app', (render_cons' TComma), <- !app_assoc. reflexivity.
    + rewrite irun_app, Rn, irun_app. assert (L : irun Behind (map IL (TComma :: line)) = Some Before) by (unfold Render_Lemmas5.line; destruct (formatted o); reflexivity). rewrite L. exact Rn0.
    + apply fine_app; [exact Fi|]. apply fine_app; [apply fine_layout|exact Fi0].
    + intros inc m0 st ac next Z. destruct (Pv inc m0 st ac next Z) as [ws [next1 [As P1]]]. destruct (St inc (st ++ [[k]]) ac next1) as [w [next' [P [A Fr]]]].
      exists (w :: ws), next'. split; [constructor; assumption|]. intro rest.
      rewrite map_app, <- app_assoc, P1, map_app, inode_layout, <- app_assoc, layout_fields, map_app, inode_layout, <- app_assoc, layout_fields. cbn [map inode app parse_object_nodes].
      rewrite (Pf _ _ _ _ _ _ P). cbn [bind add_field]. rewrite find_key_last by exact Z.
      assert (Fw : Forall (fun v => is_merge v = false) (w :: ws)).
      { constructor; [rewrite (alike_merge _ _ (proj1 A)); exact Mv|]. clear - As Fm'. induction As as [|a b la lb H As IH]; [constructor|]. inversion Fm'; subst. constructor; [rewrite (alike_merge _ _ (proj1 H)); assumption|auto]. }
      rewrite on_stack; [|exact (waits_got _ _ A Fr Mv Wv)|inversion As; discriminate|exact Fw|].
      * cbn [bind]. rewrite set_key_last by exact Z. inversion As; subst. reflexivity.
      * intros x ->. inversion As as [|a b la lb H As']; subst. inversion As'; subst. inversion Fm'; subst. destruct Ly' as [[b [Lb U]]|[_ L2]]; [injection Lb as <-; eapply unmergeable_got; eassumption|cbn in L2; lia].
Qed.
Lemma render_merge : forall vs k at_ indent b, render o ns (merge_of vs) k at_ indent b =
  (t <- sequence (rev (merge_items o ns (List.length vs) k at_ indent b 0 vs)) ;;
   Ok (merge_head o (List.length vs) indent k ++ (if formatted o then chop 2 t ++ [nl] else chop 1 t) ++
       (if comments o then indent_text o indent ++ lit "# ) end of unresolved merge" ++ [nl] else []))).
Proof. intros vs k at_ indent b. destruct vs as [|v vs]; [reflexivity|]. destruct v; reflexivity. Qed.
Lemma merge_head_gap : forall n indent k, k <> [] -> exists g, Render_Lemmas3.gap g /\ merge_head o n indent k = render_tokens g.
Proof.
  intros n indent k K. unfold merge_head. destruct (comments o); [|exists []; split; [constructor|reflexivity]].
  exists [TComment false (lit " unresolved merge of " ++ string_of_Z (Z.of_nat n) ++ lit " values follows ("); TNewline]. split.
  - apply gap_comment; [|constructor]. apply one_line_app; [intro H; cbn in H; repeat (destruct H as [H|H]; [discriminate H|]); destruct H|]. apply one_line_app; [apply digits_one_line|].
    intro H; cbn in H; repeat (destruct H as [H|H]; [discriminate H|]); destruct H.
  - destruct k; [congruence|]. rewrite render_cons'. cbn [render_tokens map concat token_text]. rewrite !app_nil_r, <- !app_assoc. reflexivity.
Qed.
Definition merge_tail (indent : nat) : list token := line ++ (if comments o then line_toks o indent (lit " ) end of unresolved merge") else []).
Lemma merge_tail_text : forall indent, render_tokens (merge_tail indent) = (if formatted o then [nl] else []) ++ (if comments o then indent_text o indent ++ lit "# ) end of unresolved merge" ++ [nl] else []).
Proof. intro indent. unfold merge_tail. rewrite render_app', line_text'. destruct (comments o); [rewrite Render_Lemmas5.line_text|]; reflexivity. Qed.
Lemma merge_tail_run : forall indent, exists e, irun Behind (map IL (merge_tail indent)) = Some e /\ ended o e.
Proof.
  intro indent. destruct M as [M1 M2]. unfold merge_tail, Render_Lemmas5.line. destruct (formatted o) eqn:Fo.
  - exists Before. split; [|right; rewrite M1 by reflexivity; auto]. cbn [app map irun]. change (pass' Behind TNewline) with (Some Before). cbv iota. apply gap_run.
    destruct (comments o); [|constructor]. rewrite <- (app_nil_r (line_toks _ _ _)). apply line_gap; [|constructor]. intro H; cbn in H; repeat (destruct H as [H|H]; [discriminate H|]); destruct H.
  - destruct (comments o) eqn:Co; [destruct (M2 eq_refl); congruence|]. exists Behind. split; [reflexivity|left; reflexivity].
Qed.
Lemma stack_alike : forall vs ws, layered vs -> Forall2 got vs ws -> got (merge_of vs) (stack_value ws).
Proof.
  intros vs ws L F. destruct F as [|a b vs ws H F]; [destruct L|]. destruct F as [|a2 b2 vs ws H2 F]; [destruct L|]. cbn [stack_value].
  assert (Fw : Forall2 alike (a :: a2 :: vs) (b :: b2 :: ws)) by (constructor; [apply H|constructor; [apply H2|]]; clear - F; induction F as [|x y la lb [X _] F IH]; constructor; assumption).
  destruct H as [H _]. split; [destruct H; cbn [merge_of]; constructor; exact Fw|]. destruct H; reflexivity.
Qed.
Lemma merge_entry : forall k vs, k <> [] -> Forall quotable k -> layered vs -> Forall (fun v => is_merge v = false) vs -> Forall (reading o ns) vs -> entry o ns k (merge_of vs).
Proof.
  intros k vs K Q L Fm F at_ indent inner. destruct (before_field_gap o ns C indent inner (at_ ++ [InField k])) as [g [G [_ E]]].
  assert (N : vs <> []) by (destruct vs; [destruct L|discriminate]).
  destruct (layers_read vs (List.length vs) k (at_ ++ [InField k]) inner 0 N (or_introl L) Fm K Q F) as [its [Qs [Rn [Fi Pv]]]].
  destruct (merge_head_gap (List.length vs) inner k K) as [h [H Eh]]. destruct (merge_tail_run inner) as [e [Rt Ed]].
  exists (map IL g ++ map IL h ++ its ++ map IL (merge_tail inner)), e. split; [|split; [|split; [exact Ed|split]]].
  - unfold field_item. cbn [fst snd]. rewrite E, render_merge, Qs, Eh. cbn [bind]. rewrite !itoks_app, !itoks_layout, !render_app', merge_tail_text.
    replace (if formatted o then chop 2 (render_tokens (itoks its) ++ lit "," ++ render_tokens line) ++ [nl] else chop 1 (render_tokens (itoks its) ++ lit "," ++ render_tokens line))
      with (render_tokens (itoks its) ++ (if formatted o then [nl] else [])); [rewrite <- !app_assoc; reflexivity|].
    rewrite line_text'. destruct (formatted o); rewrite chop_end by reflexivity; [reflexivity|apply app_nil_r].
  - rewrite irun_app, (gap_run g G), irun_app, (gap_run h H), irun_app, Rn. exact Rt.
  - repeat (apply fine_app; [apply fine_layout|]). apply fine_app; [exact Fi|apply fine_layout].
  - intros inc m0 st ac next Z. destruct (Pv inc m0 st ac next Z) as [ws [next' [As P]]]. exists (stack_value ws), next'. split; [exact (stack_alike _ _ L As)|]. intro rest.
    rewrite !map_app, !inode_layout, <- !app_assoc, !layout_fields, P, layout_fields. reflexivity.
Qed.
End Rendering.
