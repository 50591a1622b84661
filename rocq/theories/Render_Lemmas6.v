(** A rendered document parses back. *)
From Verif Require Import Base BaseLemmas Util_Model Num_Model Path_Model Token_Model Token_Spec Token_Lemmas Token_Lemmas2 PathParser_Model Doc_Model Doc_Spec Doc_Lemmas Doc_Lemmas2 Doc_Lemmas3 Edit_Model Value_Model Value_Spec Concat_Model ConfigParser_Model Json_Lemmas Json_Lemmas2 Json_Lemmas3 Render_Model Render_Spec Render_Lemmas Render_Lemmas2 Render_Lemmas3 Render_Lemmas4 Render_Lemmas5.

Lemma document_starts : forall v tv, spelled v tv -> a_document v -> exists t tl, tv = t :: tl /\ (t = TOpenCurly \/ t = TOpenSquare).
Proof. intros v tv S D. destruct S; [destruct D| | | |]; eauto 10. Qed.
Lemma opened_complex : forall k e t ts n r, t = TOpenCurly \/ t = TOpenSquare -> Doc_Model.parse_value k JSON e t ts = Ok (n, r) -> is_complex n = true.
Proof.
  intros [|k] e t ts n r T H; [discriminate|]. destruct T as [-> | ->]; cbn [Doc_Model.parse_value] in H.
  - unfold parse_object in H. step H as [cs r'] Hc. injection H as <- _. reflexivity.
  - unfold parse_array in H. step H as [[ns' nx] r1] Hc. step H as [cs r2] Hd. injection H as <- _. reflexivity.
Qed.
Lemma root_parsed : forall inc v tv tail, spelled v tv -> a_document v -> (tail = [] \/ tail = [TNewline]) ->
  exists ns w, parse_root JSON LEnd (tv ++ tail ++ [TEnd]) = Ok ns /\ (forall next, parse_root_nodes JSON inc None ns next = Ok (Some w, next)) /\ same_contents v w.
Proof.
  intros inc v tv tail S D T. destruct (document_starts v tv S D) as [t [tl [-> O]]].
  destruct (proj1 (spelled_parsed LEnd inc) v _ S) as [t' [tl' [n [w [E [[T1 [T2 T3]] [N [M [C P]]]]]]]]]. injection E as <- <-.
  assert (R : Doc_Model.parse_value (Datatypes.S (List.length ((t :: tl) ++ tail ++ [TEnd]))) JSON LEnd t (tl ++ tail ++ [TEnd]) = Ok (n, tail ++ [TEnd])).
  { apply P. rewrite app_length. lia. }
  pose proof (opened_complex _ _ _ _ _ _ O R) as X.
  assert (L : collect JSON LEnd (tail ++ [TEnd]) = Ok (map NTok tail, TEnd, [])) by (destruct T as [-> | ->]; reflexivity).
  exists ([n] ++ map NTok tail), w. split; [|split; [|exact C]].
  - unfold parse_root. change ((t :: tl) ++ tail ++ [TEnd]) with (t :: tl ++ tail ++ [TEnd]) at 1. rewrite collect_stop by assumption. cbn [bind].
    rewrite R. destruct O as [-> | ->]; cbn [bind app]; rewrite L; reflexivity.
  - intro next. cbn [app parse_root_nodes]. destruct n; try discriminate X; rewrite X, M; cbn [bind]; destruct T as [-> | ->]; reflexivity.
Qed.

Lemma rendered_parses : forall o notes_ v inc next, json o = true -> (origin_comments o || comments o = true -> one_line_comments notes_) ->
  writable v -> a_document v ->
  exists text w, render_value o notes_ v = Ok text /\ same_contents v w /\ parse_config CONF inc text next = Ok (Some w, next) /\
    (origin_comments o = false -> comments o = false -> parse_config JSON inc text next = Ok (Some w, next)).
Proof.
  intros o notes_ v inc next J C W D. destruct (writable_rendered o notes_ J C v W [] 0%nat true) as [tv [tail [R [S [F [T _]]]]]].
  destruct (root_parsed inc v tv tail S D T) as [ns [w [P [V Sm]]]]. exists (render_tokens (tv ++ tail)), w. split; [exact R|]. split; [exact Sm|]. split.
  - pose proof (spelled_lex true v tv tail S (or_introl eq_refl) T) as L. pose proof L as L2. unfold lex in L2.
    destruct (lex_loop _ true saver_init (render_tokens (tv ++ tail))) as [ts e] eqn:K. injection L2 as E1 E2. subst e.
    assert (Ti : tidy ts). { split; [exact (proj2 (lex_loop_stream _ _ _ _ _ _ K))|]. eapply classified_follow. exact (proj1 (lex_loop_classified _ _ _ _ _ _ _ K (Forall_nil _))). }
    subst ts. destruct (root_same _ _ _ Ti P) as [Pc [Cl _]].
    unfold parse_config, parse_document, after_start. cbn [is_json negb]. rewrite L. cbn [delivered]. rewrite Pc. cbn [bind]. apply (root_nodes_agrees inc inc _ Cl). apply V.
  - intros Q1 Q2. pose proof (spelled_lex false v tv tail S (or_intror (F (conj Q1 (or_introl Q2)))) T) as L.
    unfold parse_config, parse_document, after_start. cbn [is_json negb]. rewrite L. cbn [delivered]. rewrite P. cbn [bind]. apply V.
Qed.
