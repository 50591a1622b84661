(** The path parser against path::render, the shortcut against the full parser, empty elements. *)
From Verif Require Import Base BaseLemmas Util_Model Num_Model Path_Model Path_Lemmas Token_Model Token_Spec
  Token_Lemmas Token_Lemmas2 PathParser_Model PathParser_Spec PathParser_Lemmas.

Lemma plain_key_dec : forall k, (has_funky_chars k || match k with [] => true | _ => false end) = false <-> plain_key k.
Proof.
  intro k. unfold plain_key. rewrite orb_false_iff. unfold has_funky_chars.
  split.
  - intros [H1 H2]. split; [destruct k; [discriminate|discriminate]|].
    apply Forall_forall. intros c Hc. unfold plain_char.
    assert (Hn : negb (isalnum c || Ascii.eqb c "-" || Ascii.eqb c "_") = false).
    { destruct (negb _) eqn:E; [|reflexivity]. rewrite <- H1. symmetry. apply existsb_exists. eauto. }
    apply negb_false_iff in Hn. rewrite !orb_true_iff in Hn.
    destruct Hn as [[Hn|Hn]|Hn]; [auto|apply Ascii.eqb_eq in Hn; auto..].
  - intros [H1 H2]. split; [|destruct k; [contradiction|reflexivity]].
    apply not_true_is_false. intro H. apply existsb_exists in H. destruct H as [c [Hc H]].
    rewrite Forall_forall in H2. apply H2 in Hc. apply negb_true_iff in H. rewrite !orb_false_iff in H.
    destruct H as [[Ha Hb] Hd]. destruct Hc as [Hc|[->| ->]]; [congruence|discriminate Hb|discriminate Hd].
Qed.

Lemma render_key_plain : forall k, plain_key k -> render_key k = k.
Proof. intros k H. apply plain_key_dec in H. unfold render_key. rewrite H. reflexivity. Qed.
Lemma render_key_quoted : forall k, ~ plain_key k -> render_key k = render_json_string k.
Proof.
  intros k H. unfold render_key. destruct (_ || _) eqn:E; [reflexivity|].
  apply plain_key_dec in E. contradiction.
Qed.
Lemma plain_dec : forall k, plain_key k \/ ~ plain_key k.
Proof.
  intro k. destruct (has_funky_chars k || match k with [] => true | _ => false end) eqn:E.
  - right. intro H. apply plain_key_dec in H. congruence.
  - left. apply plain_key_dec, E.
Qed.

Lemma plain_Uc : forall k, plain_key k -> Forall (fun c => Uc c = true) k.
Proof.
  intros k [_ H]. eapply Forall_impl; [|exact H]. intros c [Hc|[->| ->]]; unfold Uc; [rewrite Hc|..]; reflexivity.
Qed.
Lemma plain_dotless : forall k, plain_key k -> dotless k.
Proof.
  intros k [_ H] Hi. rewrite Forall_forall in H. apply H in Hi. destruct Hi as [Hi|[Hi|Hi]]; discriminate.
Qed.

(** What the keys of a rendered path do to the elements. *)
Definition add_key (b : list element) (k : str) : list element :=
  if has_funky_chars k || match k with [] => true | _ => false end
  then add_path_text b true k else add_path_text b false k.
Fixpoint add_keys (b : list element) (p : path) : list element :=
  match p with
  | [] => b
  | k :: r => match r with
              | [] => add_key b k
              | _ :: _ => add_keys (add_path_text (add_key b k) false (lit ".")) r
              end
  end.

Definition dot_rest (r : path) : str := match r with [] => [] | _ :: _ => lit "." end.

Lemma render_path_cons : forall k r, render_path (k :: r) = render_key k ++ dot_rest r ++ render_path r.
Proof. intros k [|k' r]; reflexivity. Qed.

Lemma add_keys_cons : forall b k r, b <> [] ->
  add_keys b (k :: r) = add_keys (add_path_text (add_key b k) false (dot_rest r)) r.
Proof.
  intros b k [|k' r] Hb; [|reflexivity]. cbn. rewrite add_path_text_fold; [reflexivity|].
  unfold add_key. destruct (_ || _); apply add_path_text_ne, Hb.
Qed.

Definition run_digit (u : str) (p : path) : Prop :=
  has_digit u \/ exists k, In k p /\ plain_key k /\ has_digit k.

Lemma stop_quoted : forall s r, stop (render_json_string s ++ r).
Proof. intros s r. left. reflexivity. Qed.

Lemma lex_quoted_step : forall n ac ls k rest, Forall quotable k ->
  match rest with c :: _ => c <> ch 34 | [] => True end ->
  lex_loop (S n) ac ([], ls) (render_json_string k ++ rest) =
    (TValue (SStr k true) (render_json_string k) :: fst (lex_loop n ac ([], true) rest),
     snd (lex_loop n ac ([], true) rest)).
Proof.
  intros n ac ls k rest Hq Hr. cbn [lex_loop]. rewrite pull_next_quoted; [|exact Hq|intros _; exact Hr].
  rewrite saver_check_eq. cbn [is_simple_value app]. destruct (lex_loop n ac ([], true) rest). reflexivity.
Qed.

Lemma lex_end_any : forall k ac ls, (0 < k)%nat -> lex_loop k ac ([], ls) [] = ([TEnd], LEnd).
Proof. intros [|k] ac ls H; [lia|]. reflexivity. Qed.

Lemma lex_path : forall p n ac ls u, Forall (Forall quotable) p -> Forall (fun c => Uc c = true) u ->
  (List.length (u ++ render_path p) < n)%nat ->
  (exists ts, Forall path_token ts /\ lex_loop n ac ([], ls) (u ++ render_path p) = (ts, LEnd) /\
     forall b, b <> [] -> fold_left tok_buff ts b = add_keys (add_path_text b false u) p) \/
  (exists ts, Forall path_token ts /\ run_digit u p /\
     lex_loop n ac ([], ls) (u ++ render_path p) = (ts, LStuck UFloatCast)).
Proof.
  induction p as [|k r IH]; intros n ac ls u Hq Hu Hn.
  - cbn [render_path] in *.
    destruct (lex_U n ac ls u [] Hu I Hn) as [[k [ls' [ts1 [H1 [H2 [H3 [_ H4]]]]]]]|[ts1 [H1 [H2 H3]]]].
    + left. rewrite H4, lex_end_any by exact H1. cbn [fst snd]. exists (ts1 ++ [TEnd]).
      split; [|split; [reflexivity|]].
      * apply Forall_app. split; [eapply Forall_impl; [|exact H2]; exact textual_path|]. repeat constructor.
      * intros b Hb. rewrite fold_left_app, (textual_fold ts1), H3 by assumption. reflexivity.
    + right. exists ts1. split; [eapply Forall_impl; [|exact H1]; exact textual_path|]. split; [left; exact H2|exact H3].
  - inversion Hq as [|x y Hk Hr]; subst. rewrite render_path_cons in *.
    destruct (plain_dec k) as [Hp|Hp].
    + rewrite render_key_plain in * by exact Hp.
      assert (Hu' : Forall (fun c => Uc c = true) (u ++ k ++ dot_rest r)).
      { rewrite !Forall_app. repeat split; [exact Hu|apply plain_Uc, Hp|]. destruct r; repeat constructor. }
      rewrite !app_assoc in *. rewrite <- (app_assoc u k) in *.
      destruct (IH n ac ls (u ++ k ++ dot_rest r) Hr Hu' Hn) as [[ts [H1 [H2 H3]]]|[ts [H1 [H2 H3]]]].
      * left. exists ts. split; [exact H1|]. split; [exact H2|]. intros b Hb. rewrite H3 by exact Hb.
        rewrite add_keys_cons by (apply add_path_text_ne, Hb). unfold add_key.
        pose proof (proj2 (plain_key_dec k) Hp) as ->.
        rewrite <- (add_path_text_app u) by exact Hb. rewrite <- add_path_text_app by (apply add_path_text_ne, Hb). reflexivity.
      * right. exists ts. split; [exact H1|]. split; [|exact H3].
        destruct H2 as [[x [Hx Hd]]|[k' [Hk' H2]]].
        -- rewrite !in_app_iff in Hx. destruct Hx as [Hx|[Hx|Hx]].
           ++ left. exists x. auto.
           ++ right. exists k. split; [left; reflexivity|]. split; [exact Hp|]. exists x. auto.
           ++ exfalso. destruct r; cbn in Hx; [contradiction|]. destruct Hx as [<-|[]]. discriminate.
        -- right. exists k'. split; [right; exact Hk'|exact H2].
    + rewrite render_key_quoted in * by exact Hp.
      destruct (lex_U n ac ls u (render_json_string k ++ dot_rest r ++ render_path r) Hu (stop_quoted _ _) Hn)
        as [[m [ls' [ts1 [H1 [H2 [H3 [_ H4]]]]]]]|[ts1 [H1 [H2 H3]]]].
      2:{ right. exists ts1. split; [eapply Forall_impl; [|exact H1]; exact textual_path|]. split; [left; exact H2|exact H3]. }
      rewrite H4. destruct m as [|m]; [lia|].
      assert (Hnq : match dot_rest r ++ render_path r with c :: _ => c <> ch 34 | [] => True end).
      { destruct r; cbn; [exact I|discriminate]. }
      rewrite lex_quoted_step by assumption. cbn [fst snd].
      assert (Hd : Forall (fun c => Uc c = true) (dot_rest r)) by (destruct r; repeat constructor).
      assert (Hm : (List.length (dot_rest r ++ render_path r) < m)%nat).
      { rewrite app_length in H1. unfold render_json_string in H1. cbn in H1. lia. }
      destruct (IH m ac true (dot_rest r) Hr Hd Hm) as [[ts [G1 [G2 G3]]]|[ts [G1 [G2 G3]]]]; rewrite ?G2, ?G3; cbn [fst snd].
      * left. exists (ts1 ++ TValue (SStr k true) (render_json_string k) :: ts). split; [|split; [reflexivity|]].
        -- apply Forall_app. split; [eapply Forall_impl; [|exact H2]; exact textual_path|]. constructor; [exact I|exact G1].
        -- intros b Hb. rewrite fold_left_app, (textual_fold ts1), H3 by assumption. cbn [fold_left tok_buff].
           rewrite G3 by (apply add_path_text_ne, add_path_text_ne, Hb).
           rewrite add_keys_cons by (apply add_path_text_ne, Hb). unfold add_key at 1.
           destruct (_ || _) eqn:E; [reflexivity|]. apply plain_key_dec in E. contradiction.
      * right. exists (ts1 ++ TValue (SStr k true) (render_json_string k) :: ts). split; [|split; [|reflexivity]].
        -- apply Forall_app. split; [eapply Forall_impl; [|exact H2]; exact textual_path|]. constructor; [exact I|exact G1].
        -- destruct G2 as [[x [Hx Hd']]|[k' [Hk' G2]]].
           ++ exfalso. destruct r; cbn in Hx; [contradiction|]. destruct Hx as [<-|[]]. discriminate.
           ++ right. exists k'. split; [right; exact Hk'|exact G2].
Qed.

(** ** The elements of a rendered path *)

Lemma split_dots_dotless : forall s, dotless s -> split_dots s = [s].
Proof.
  induction s as [|c s IH]; intro H; [reflexivity|]. cbn.
  destruct (Ascii.eqb_spec c ".") as [->|]; [exfalso; apply H; left; reflexivity|].
  rewrite IH; [reflexivity|]. intro Hi. apply H. right. exact Hi.
Qed.

Lemma add_key_fresh : forall k b, exists e, add_key (([], false) :: b) k = (k, e) :: b /\ (k <> [] \/ e = true).
Proof.
  intros k b. unfold add_key. destruct (_ || _) eqn:E.
  - cbn. destruct k; eexists; split; try reflexivity; auto. left; discriminate.
  - apply plain_key_dec in E. unfold add_path_text. rewrite split_dots_dotless by (apply plain_dotless, E).
    cbn. eexists. split; [reflexivity|]. left. apply E.
Qed.

Lemma add_keys_result : forall p b, p <> [] -> exists es, add_keys (([], false) :: b) p = rev es ++ b /\
  map fst es = p /\ Forall (fun e => fst e <> [] \/ snd e = true) es.
Proof.
  induction p as [|k r IH]; intros b Hp; [contradiction|].
  destruct (add_key_fresh k b) as [e [He Hok]].
  destruct r as [|k' r].
  - exists [(k, e)]. cbn [add_keys]. rewrite He. repeat split. constructor; [exact Hok|constructor].
  - change (add_keys (([], false) :: b) (k :: k' :: r))
      with (add_keys (add_path_text (add_key (([], false) :: b) k) false (lit ".")) (k' :: r)).
    rewrite He.
    assert (Hd : add_path_text ((k, e) :: b) false (lit ".") = ([], false) :: (k, e) :: b).
    { unfold add_path_text. change (split_dots (lit ".")) with [([] : str); []]. cbn [fold_left]. rewrite app_nil_r. reflexivity. }
    rewrite Hd. destruct (IH ((k, e) :: b) ltac:(discriminate)) as [es [H1 [H2 H3]]].
    exists ((k, e) :: es). rewrite H1. cbn [rev map fst]. rewrite H2, <- app_assoc. repeat split. constructor; assumption.
Qed.

Lemma finish_keys : forall p, p <> [] -> finish (add_keys [([], false)] p) = Ok p.
Proof.
  intros p Hp. destruct (add_keys_result p [] Hp) as [es [H1 [H2 H3]]]. rewrite H1, app_nil_r.
  unfold finish. rewrite rev_involutive, build_path_ok by exact H3. rewrite H2. reflexivity.
Qed.

Lemma full_parse_render : forall p, p <> [] -> Forall (Forall quotable) p ->
  full_parse_path (render_path p) = Ok p \/
  (full_parse_path (render_path p) = Stuck UFloatCast /\ run_digit [] p).
Proof.
  intros p Hp Hq. rewrite full_parse_stream. unfold saver_init.
  destruct (lex_path p (S (List.length (render_path p))) true false [] Hq (Forall_nil _)) as [[ts [H1 [H2 H3]]]|[ts [H1 [H2 H3]]]].
  - cbn. lia.
  - cbn [app] in H2. left. rewrite H2, stream_result_ok by exact H1. rewrite H3 by discriminate.
    rewrite add_path_text_fold by discriminate. cbn [fold_left]. apply finish_keys, Hp.
  - cbn [app] in H3. right. split; [|exact H2]. rewrite H3. apply stream_result_stuck, H1.
Qed.

(** ** When the first key is a word nothing is read as a number *)

Lemma pull_unquoted_all : forall ac u res rest, Forall (fun c => Uc c = true) u -> stop rest ->
  (forall a x, In x [lit "true"; lit "null"; lit "false"] -> a <> [] -> (exists b, u = a ++ b) -> res ++ a <> x) ->
  pull_unquoted_text ac res (u ++ rest) = (TUnquoted (res ++ u), rest).
Proof.
  induction u as [|c u IH]; intros res rest Hu Hs Hl.
  - cbn [app]. rewrite app_nil_r. destruct rest as [|c rest]; [reflexivity|]. cbn [pull_unquoted_text].
    apply stop_facts in Hs. destruct Hs as [-> _]. reflexivity.
  - inversion Hu as [|x y Hc Hu']; subst. cbn [app pull_unquoted_text].
    pose proof (Uc_facts c Hc) as [_ [Hw [_ [_ [_ Hm]]]]]. rewrite Hm, Hw, Uc_comment by exact Hc. cbn [orb].
    assert (Hn : forall x, In x [lit "true"; lit "null"; lit "false"] -> str_eqb (res ++ [c]) x = false).
    { intros x Hx. apply str_eqb_neq. apply Hl; [exact Hx|discriminate|exists u; reflexivity]. }
    rewrite !Hn by (cbn; tauto).
    rewrite IH; [rewrite <- app_assoc; reflexivity|exact Hu'|exact Hs|].
    intros a x Hx Ha [b ->]. rewrite <- app_assoc. apply Hl; [exact Hx|discriminate|].
    exists b. reflexivity.
Qed.

Definition word_run (u : str) : Prop :=
  match u with
  | [] => True
  | c :: _ => mem c first_number_chars = false /\
     forall x b, In x [lit "true"; lit "null"; lit "false"] -> u <> x ++ b
  end.

Lemma lex_word_run : forall n ac ls u rest, Forall (fun c => Uc c = true) u -> stop rest -> word_run u ->
  (List.length (u ++ rest) < n)%nat ->
  exists k ls' ts1, (List.length rest < k)%nat /\ Forall textual ts1 /\ render_tokens ts1 = u /\
     lex_loop n ac ([], ls) (u ++ rest) =
       (ts1 ++ fst (lex_loop k ac ([], ls') rest), snd (lex_loop k ac ([], ls') rest)).
Proof.
  intros n ac ls u rest Hu Hs Hw Hn. destruct u as [|c u].
  - exists n, ls, []. cbn [app] in *. repeat split; auto. destruct (lex_loop n ac ([], ls) rest); reflexivity.
  - destruct n as [|n]; [lia|]. exists n, true, [TUnquoted (c :: u)].
    rewrite app_length in Hn. cbn in Hn. split; [lia|]. split; [repeat constructor|].
    split; [cbn; rewrite app_nil_r; reflexivity|].
    cbn [app lex_loop]. inversion Hu as [|x y Hc Hu']; subst.
    pose proof (Uc_facts c Hc) as [Hwn [Hww [Hnl [_ [_ Hm]]]]].
    cbn [pull_next_token next_char_after_whitespace]. rewrite Hwn. cbv iota. rewrite Hnl, Uc_comment by exact Hc.
    rewrite !(not_in_unquoted_eqb c) by (try exact Hm; reflexivity).
    destruct Hw as [Hf Hl]. rewrite Hf, Hm.
    change (c :: u ++ rest) with ((c :: u) ++ rest). rewrite pull_unquoted_all; [|exact Hu|exact Hs|].
    + cbn [bind app]. rewrite saver_check_eq. cbn [is_simple_value app]. destruct (lex_loop n ac ([], true) rest). reflexivity.
    + intros a x Hx Ha [b Hb] Hax. cbn [app] in Hax. subst a. eapply Hl; eassumption.
Qed.

Lemma word_run_app : forall u v, u <> [] -> word_run u -> In "."%char u -> word_run (u ++ v).
Proof.
  intros [|c u] v Hne Hw H3; [contradiction|]. destruct Hw as [H1 H2]. cbn [app word_run]. split; [exact H1|].
  intros x b Hx Hxb. change (c :: u ++ v) with ((c :: u) ++ v) in Hxb. 
  destruct (le_lt_dec (List.length x) (List.length (c :: u))) as [Hl|Hl].
  - apply (H2 x (skipn (List.length x) (c :: u)) Hx).
    assert (E : firstn (List.length x) (c :: u) = x).
    { apply (f_equal (firstn (List.length x))) in Hxb.
      rewrite !firstn_app, !firstn_all in Hxb. replace (List.length x - List.length (c :: u))%nat with 0%nat in Hxb by lia.
      rewrite Nat.sub_diag in Hxb. cbn [firstn] in Hxb. rewrite !app_nil_r in Hxb. exact Hxb. }
    pose proof (firstn_skipn (List.length x) (c :: u)) as F. rewrite E in F. symmetry. exact F.
  - assert (E : firstn (List.length (c :: u)) x = c :: u).
    { apply (f_equal (firstn (List.length (c :: u)))) in Hxb.
      rewrite !firstn_app, !firstn_all in Hxb. replace (List.length (c :: u) - List.length x)%nat with 0%nat in Hxb by lia.
      rewrite Nat.sub_diag in Hxb. cbn [firstn] in Hxb. rewrite !app_nil_r in Hxb. symmetry. exact Hxb. }
    rewrite <- E in H3. assert (H4 : In "."%char x).
    { rewrite <- (firstn_skipn (List.length (c :: u)) x). apply in_app_iff. left. exact H3. }
    clear -Hx H4. repeat destruct Hx as [<-|Hx]; try contradiction; vm_compute in H4; intuition discriminate.
Qed.

Lemma lex_path_word : forall p n ac ls u, Forall (Forall quotable) p -> Forall (fun c => Uc c = true) u ->
  (u <> [] /\ word_run u /\ (p = [] \/ In "."%char u)
   \/ u = [] /\ (p = [] \/ exists k r, p = k :: r /\ ~ plain_key k)) ->
  (List.length (u ++ render_path p) < n)%nat ->
  exists ts, Forall path_token ts /\ lex_loop n ac ([], ls) (u ++ render_path p) = (ts, LEnd).
Proof.
  induction p as [|k r IH]; intros n ac ls u Hq Hu Hw Hn.
  - cbn [render_path] in *.
    assert (Hwu : word_run u) by (destruct Hw as [[_ [Hw _]]|[-> _]]; [exact Hw|exact I]).
    destruct (lex_word_run n ac ls u [] Hu I Hwu Hn) as [m [ls' [ts1 [H1 [H2 [H3 H4]]]]]].
    rewrite H4, lex_end_any by exact H1. exists (ts1 ++ [TEnd]). split; [|reflexivity].
    apply Forall_app. split; [eapply Forall_impl; [|exact H2]; exact textual_path|]. repeat constructor.
  - inversion Hq as [|x y Hk Hr]; subst. rewrite render_path_cons in *.
    destruct (plain_dec k) as [Hp|Hp].
    + rewrite render_key_plain in * by exact Hp.
      assert (Hu' : Forall (fun c => Uc c = true) (u ++ k ++ dot_rest r)).
      { rewrite !Forall_app. repeat split; [exact Hu|apply plain_Uc, Hp|]. destruct r; repeat constructor. }
      rewrite !app_assoc in *. rewrite <- (app_assoc u k) in *.
      apply IH; [exact Hr|exact Hu'| |exact Hn]. left.
      destruct Hw as [[W1 [W2 W3]]|[-> [W|[k0 [r0 [W W']]]]]]; [|discriminate|injection W as <- <-; contradiction].
      destruct W3 as [W3|W3]; [discriminate|].
      split; [destruct u; [contradiction|discriminate]|]. split; [apply word_run_app; assumption|].
      right. apply in_app_iff. left. exact W3.
    + rewrite render_key_quoted in * by exact Hp.
      assert (Hwu : word_run u) by (destruct Hw as [[_ [Hw _]]|[-> _]]; [exact Hw|exact I]).
      destruct (lex_word_run n ac ls u _ Hu (stop_quoted k (dot_rest r ++ render_path r)) Hwu Hn)
        as [m [ls' [ts1 [H1 [H2 [H3 H4]]]]]].
      rewrite H4. destruct m as [|m]; [lia|].
      assert (Hnq : match dot_rest r ++ render_path r with c :: _ => c <> ch 34 | [] => True end).
      { destruct r; cbn; [exact I|discriminate]. }
      rewrite lex_quoted_step by assumption. cbn [fst snd].
      assert (Hd : Forall (fun c => Uc c = true) (dot_rest r)) by (destruct r; repeat constructor).
      assert (Hm : (List.length (dot_rest r ++ render_path r) < m)%nat).
      { rewrite app_length in H1. unfold render_json_string in H1. cbn in H1. lia. }
      destruct (IH m ac true (dot_rest r) Hr Hd) as [ts [G1 G2]]; [|exact Hm|].
      * destruct r as [|k' r].
        -- right. auto.
        -- left. cbn. split; [discriminate|]. split; [split; [reflexivity|]|].
           ++ intros x b [<-|[<-|[<-|[]]]]; discriminate.
           ++ right. left. reflexivity.
      * rewrite G2. cbn [fst snd]. eexists. split; [|reflexivity].
        apply Forall_app. split; [eapply Forall_impl; [|exact H2]; exact textual_path|]. constructor; [exact I|exact G1].
Qed.

Lemma word_key_cases : forall k, word_key k -> ~ plain_key k \/ (plain_key k /\ k <> [] /\
  forall r, word_run (k ++ dot_rest r)).
Proof.
  intros k [H|H]; [left; exact H|]. destruct (plain_dec k) as [Hp|Hp]; [right|left; exact Hp].
  split; [exact Hp|]. split; [destruct k; [contradiction|discriminate]|].
  intro r. destruct k as [|c k]; [contradiction|]. destruct H as [Hc [H1 [H2 H3]]].
  assert (Hw : word_run (c :: k)).
  { split.
    - pose proof (forall_byte (fun c => implb (isalpha c || Ascii.eqb c "_") (negb (mem c first_number_chars)))
        ltac:(vm_compute; reflexivity) c) as F. cbv beta in F.
      assert (Hcc : isalpha c || Ascii.eqb c "_" = true).
      { apply orb_true_iff. destruct Hc as [Hc| ->]; [left; exact Hc|right; reflexivity]. }
      rewrite Hcc in F. cbn [implb] in F. apply negb_true_iff in F. exact F.
    - intros x b [<-|[<-|[<-|[]]]]; auto. }
  destruct r as [|k' r]; cbn [dot_rest]; [rewrite app_nil_r; exact Hw|].
  destruct Hw as [Hf Hl]. cbn [app word_run]. split; [exact Hf|].
  intros x b Hx Hxb. 
  assert (Hd : forall z, In z x -> z <> "."%char).
  { intros z Hz ->. clear -Hx Hz. repeat destruct Hx as [<-|Hx]; try contradiction; vm_compute in Hz; intuition discriminate. }
  assert (Hgen : forall (y z : str) b, (forall c, In c z -> c <> "."%char) -> y ++ ["."%char] = z ++ b -> exists b', y = z ++ b').
  { clear. induction y as [|a y IH]; intros [|a' z] b Hz E; cbn in *; try (eexists; reflexivity).
    - injection E as <- _. exfalso. apply (Hz "."%char); auto.
    - injection E as -> E. apply IH in E; [|auto]. destruct E as [b' ->]. exists b'. reflexivity. }
  destruct (Hgen (c :: k) x b Hd Hxb) as [b' Hb']. eapply Hl; eassumption.
Qed.

Lemma full_parse_render_word : forall k r, Forall (Forall quotable) (k :: r) -> word_key k ->
  full_parse_path (render_path (k :: r)) = Ok (k :: r).
Proof.
  intros k r Hq Hw. destruct (full_parse_render (k :: r) ltac:(discriminate) Hq) as [H|[H _]]; [exact H|exfalso].
  rewrite full_parse_stream in H. unfold saver_init in H.
  assert (Hex : exists ts, Forall path_token ts /\
     lex_loop (S (List.length (render_path (k :: r)))) true ([], false) (render_path (k :: r)) = (ts, LEnd)).
  { apply word_key_cases in Hw. destruct Hw as [Hw|[Hp [Hne Hw]]].
    - apply (lex_path_word (k :: r) _ true false [] Hq (Forall_nil _)); [|cbn [app]; lia].
      right. split; [reflexivity|]. right. eauto.
    - rewrite render_path_cons, render_key_plain, app_assoc by exact Hp.
      inversion Hq; subst. apply lex_path_word; [assumption| | |lia].
      + apply Forall_app. split; [apply plain_Uc, Hp|]. destruct r; repeat constructor.
      + left. split; [destruct k; [contradiction|discriminate]|]. split; [apply Hw|].
        destruct r; [left; reflexivity|right]. apply in_app_iff. right. left. reflexivity. }
  destruct Hex as [ts [H1 H2]]. rewrite H2, stream_result_ok in H by exact H1.
  unfold finish in H. revert H. generalize (rev (fold_left tok_buff ts [([], false)])) (@nil str).
  induction l as [|[v e] l IH]; intros b H; cbn [build_path] in H; [discriminate|].
  destruct v; [destruct e|]; cbn in H; try discriminate; eapply IH, H.
Qed.
