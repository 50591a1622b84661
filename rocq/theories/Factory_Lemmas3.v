(** The text of a value is accepted as a value, and what setting it does. *)
From Verif Require Import Base BaseLemmas Util_Model Num_Model Path_Model Token_Model Token_Spec Token_Lemmas Token_Lemmas2 PathParser_Model Doc_Model Doc_Spec Doc_Lemmas Doc_Lemmas2 Doc_Lemmas3 Edit_Model Edit_Spec Edit_Lemmas6 Duration_Lemmas
  Value_Model Value_Spec Config_Model Concat_Model ConfigParser_Model Json_Lemmas Json_Lemmas2 Json_Lemmas3 Render_Model Render_Spec Render_Lemmas Render_Lemmas2 Render_Lemmas3 Render_Lemmas4 Render_Lemmas5 Factory_Model Factory_Spec Factory_Lemmas Factory_Lemmas2.

Lemma number_not_space : forall c, mem c number_chars = true \/ mem c first_number_chars = true -> isspace c = false.
Proof.
  intros c [H|H]; unfold mem in H; apply existsb_exists in H; destruct H as [d [I H]]; apply Ascii.eqb_eq in H; subst d; cbn in I;
    repeat (destruct I as [<-|I]; [reflexivity|]); destruct I.
Qed.
Lemma all_edge : forall s, s <> [] -> Forall (fun c => isspace c = false) s -> edge s.
Proof.
  intros s N F. split.
  - destruct F; [congruence|assumption].
  - apply Forall_rev in F. destruct (rev s) eqn:E; [|inversion F; assumption]. apply (f_equal (@rev _)) in E. rewrite rev_involutive in E. exact (N E).
Qed.
Lemma edge_between : forall a s b, isspace a = false -> isspace b = false -> edge (a :: s ++ [b]).
Proof. intros a s b A B. split; [exact A|]. cbn [rev]. rewrite rev_app_distr. exact B. Qed.
Lemma scalar_edge : forall s t, scalar_token s t -> edge (token_text t).
Proof.
  intros s t H. destruct H as [|b|s q F|n n' c more S F M T].
  - split; reflexivity.
  - destruct b; split; reflexivity.
  - cbn [token_text]. apply edge_between; reflexivity.
  - cbn [token_text]. apply all_edge; [discriminate|]. constructor; [apply number_not_space; auto|]. eapply Forall_impl; [|exact M]. intros x X. apply number_not_space; auto.
Qed.
Lemma spelled_edge : forall v tv, spelled v tv -> edge (render_tokens tv).
Proof.
  intros v tv H. destruct H as [s t T| |g v vs tv ts G S O|r i|r i m k v m' g te ts N P G E O].
  - cbn. rewrite app_nil_r. exact (scalar_edge s t T).
  - split; reflexivity.
  - rewrite !app_assoc, render_cons, render_app. exact (edge_between "["%char _ "]"%char eq_refl eq_refl).
  - split; reflexivity.
  - rewrite !app_assoc, render_cons, render_app. exact (edge_between "{"%char _ "}"%char eq_refl eq_refl).
Qed.
Lemma trimmed : forall v tv tail, spelled v tv -> tail = [] \/ tail = [TNewline] -> trim (render_tokens (tv ++ tail)) = render_tokens tv.
Proof.
  intros v tv tail S T. rewrite render_app. apply (trim_edges [] (render_tokens tv) (render_tokens tail)); [constructor| |exact (spelled_edge v tv S)].
  destruct T as [-> | ->]; [constructor|]. constructor; [reflexivity|constructor].
Qed.

Lemma single_parsed : forall inc v tv, spelled v tv ->
  exists n w, parse_single_value JSON LEnd (tv ++ [TEnd]) = Ok (Some n) /\ same_contents v w /\ forall st ac next, parse_value JSON inc n st ac next = Ok (w, next).
Proof.
  intros inc v tv S. destruct (proj1 (spelled_parsed LEnd inc) v _ S) as [t [tl [n [w [-> [[T1 [T2 T3]] [N [M [C P]]]]]]]]].
  exists n, w. split; [|split; [exact C|exact M]].
  assert (R : Doc_Model.parse_value (Datatypes.S (List.length ((t :: tl) ++ [TEnd]))) JSON LEnd t (tl ++ [TEnd]) = Ok (n, [TEnd])).
  { apply P. rewrite app_length. lia. }
  unfold parse_single_value. change ((t :: tl) ++ [TEnd]) with (t :: tl ++ [TEnd]) in *. cbn [next_token]. rewrite T2. cbn [bind is_json].
  destruct t; try discriminate T1; try discriminate T3; rewrite ?T3; cbn [is_unquoted_whitespace]; try (rewrite R; reflexivity).
  cbn in T3. rewrite T3, R. reflexivity.
Qed.

(** What is written for a value to be set is a value for the document parser, and means the same. *)
Lemma set_text : forall inc v ns, writable v -> one_line_comments ns ->
  exists text n w, render_value (Options false true true true) ns v = Ok text /\ parse_value_text CONF (trim text) = Ok (Some n) /\ trim text <> [] /\
    (no_comments ns -> parse_value_text JSON (trim text) = Ok (Some n)) /\
    same_contents v w /\ forall st ac next, parse_value CONF inc n st ac next = Ok (w, next).
Proof.
  intros inc v ns W C. destruct (writable_rendered (Options false true true true) ns eq_refl (fun _ => C) v W [] 0%nat true) as [tv [tail [R [S [F [T _]]]]]].
  destruct (single_parsed inc v tv S) as [n [w [P [Sm M]]]]. exists (render_tokens (tv ++ tail)), n, w. rewrite (trimmed v tv tail S T). split; [exact R|].
  assert (L : forall ac, ac = true \/ no_comment_in tv -> lex ac (render_tokens tv) = (TStart :: tv ++ [TEnd], LEnd)).
  { intros ac A. pose proof (spelled_lex ac v tv [] S A (or_introl eq_refl)) as L. rewrite app_nil_r in L. exact L. }
  assert (Z : parse_value_text CONF (render_tokens tv) = Ok (Some n) /\ clean n = true).
  { pose proof (L true (or_introl eq_refl)) as L1. pose proof L1 as L2. unfold lex in L2.
    destruct (lex_loop _ true saver_init (render_tokens tv)) as [ts e] eqn:K. injection L2 as E1 E2. subst e.
    assert (Ti : tidy ts). { split; [exact (proj2 (lex_loop_stream _ _ _ _ _ _ K))|]. eapply classified_follow. exact (proj1 (lex_loop_classified _ _ _ _ _ _ _ K (Forall_nil _))). }
    subst ts. destruct (single_same _ _ _ Ti P) as [Pc _]. split.
    - unfold parse_value_text, after_start. cbn [is_json negb]. rewrite L1. cbn [delivered]. exact Pc.
    - unfold parse_single_value in P. destruct tv as [|t tv]; [destruct (spelled_edge v [] S) as [[] _]|]. cbn [app next_token] in P. destruct (json_forbids JSON t); [discriminate|]. cbn [bind is_json] in P.
      assert (T2 : tidy (tv ++ [TEnd])) by exact (tidy_tl _ _ Ti).
      destruct t; try discriminate P; cbn [is_unquoted_whitespace] in P; try (step P as [n0 r0] Hp; step P as [t1 r1] Hn; destruct t1; try discriminate P; injection P as ->; exact (proj1 (proj2 (proj2 (value_same _ _ _ _ _ _ T2 Hp))))).
      all: destruct (forallb is_whitespace text); try discriminate P; step P as [n0 r0] Hp; step P as [t1 r1] Hn; destruct t1; try discriminate P; injection P as ->; exact (proj1 (proj2 (proj2 (value_same _ _ _ _ _ _ T2 Hp)))). }
  destruct Z as [Z1 Z2]. split; [exact Z1|]. split; [destruct (spelled_edge v tv S) as [E _]; destruct (render_tokens tv); [destruct E|discriminate]|].
  split; [|split; [exact Sm|]].
  - intro Q. unfold parse_value_text, after_start. cbn [is_json negb]. rewrite L; [cbn [delivered]; exact P|]. right. apply F. split; [reflexivity|right; exact Q].
  - intros st ac next. apply (proj1 (all_agree inc inc n) Z2). apply M.
Qed.

Lemma set_value_present : forall f root ps v ns root', document f root -> f = CONF \/ (exists p, new_path ps = Ok p) ->
  document_with_value f root ps v ns = Ok root' -> Edit_Model.has_path root' ps = Ok true.
Proof. intros f root ps v ns root' D P H. unfold document_with_value in H. step H as t Ht. exact (set_has f root ps _ root' D P H). Qed.

Lemma set_data_stuck : forall f root ps d u, with_parts u -> document_with_value f root ps (from_any_ref u) (from_any_ref_notes d) = Stuck UNullDeref.
Proof. intros f root ps d u P. unfold document_with_value. rewrite (parts_stuck (Options false true true true) d u eq_refl P). reflexivity. Qed.
