(** Keys of words and strings with periods between them are read. *)
From Verif Require Import Base BaseLemmas Util_Model Num_Model Path_Model Path_Spec Path_Lemmas Token_Model Token_Spec Token_Lemmas Token_Lemmas2 PathParser_Model PathParser_Spec PathParser_Lemmas PathParser_Lemmas2 PathParser_Lemmas3 Doc_Model Doc_Lemmas Edit_Model
  Value_Model Value_Spec Value_Lemmas Concat_Model ConfigParser_Model Json_Lemmas2 Render_Lemmas3 JsonEdit_Lemmas JsonEdit_Spec ConfEdit_Spec ConfText_Spec ConfText_Lemmas ConfText_Lemmas2 ConfText_Lemmas3 ConfText_Lemmas5
  ConfText_Lemmas7 ConfText_Lemmas12 RenderConf_Lemmas RenderConf_Lemmas2 RenderRef_Lemmas Escape_Spec Rfc_Spec Rfc_Lemmas Rfc_Lemmas2 Hocon_Spec Hocon_Lemmas Phrase_Lemmas.

Definition keyword_free (t : token) : Prop := solid t = true /\ is_comment t = false /\ keyish t = true /\ is_include_keyword t = false /\ path_token t.
Definition filled (e : element) : Prop := fst e <> [] \/ snd e = true.
Lemma Uc_no_nul : forall u, Forall (fun c => Uc c = true) u -> no_nul u.
Proof. intros u F I. rewrite Forall_forall in F. specialize (F _ I). discriminate F. Qed.
Lemma run_keyword_free : forall u, Forall (fun c => Uc c = true) u -> u <> lit "include" -> Forall keyword_free (run_toks u).
Proof.
  intros [|c u] F N; constructor; [|constructor]. split; [|split; [reflexivity|split; [reflexivity|split; [|exact I]]]].
  - cbn [solid]. inversion F as [|? ? Hc _]; subst. pose proof (Uc_facts c Hc) as [_ [Hw _]]. cbn [is_unquoted_whitespace forallb]. rewrite Hw. reflexivity.
  - cbn [is_include_keyword]. apply str_eqb_neq, N.
Qed.
Lemma string_keyword_free : forall w k, keyword_free (string_token w k).
Proof. intros w k. repeat split. Qed.
Lemma run_chunk : forall c u, Forall (fun c => Uc c = true) (c :: u) -> word_run (c :: u) -> chunk [TUnquoted (c :: u)].
Proof. intros c u F W. apply one_chunk; [apply reads_word'; assumption|apply Uc_no_nul, F|reflexivity]. Qed.
Lemma dot_word : word_run (lit ".").
Proof. split; [reflexivity|]. intros x b [<-|[<-|[<-|[]]]]; discriminate. Qed.

Lemma rest_ok : forall r p, key_rest r p -> forall u b v f before, Forall (fun c => Uc c = true) u -> (u = [] \/ word_run u /\ word_run (u ++ lit ".")) -> u <> lit "include" ->
  b <> [] -> add_path_text b false u = (v, f) :: before ->
  exists ts es, render_tokens ts = u ++ r /\ Forall keyword_free ts /\ (forall k x, neutral x -> spelt k ts x) /\
    fold_left tok_buff ts b = es ++ (v, f) :: before /\ rev (map fst es) = p /\ Forall filled es.
Proof.
  intros r p H. induction H as [|t k r p S H IH|k r p P H IH]; intros u b v f before U W NI Nb A.
  - exists (run_toks u), []. split; [rewrite run_toks_text, app_nil_r; reflexivity|]. split; [apply run_keyword_free; assumption|]. split; [|split; [rewrite run_toks_fold by exact Nb; exact A|split; [reflexivity|constructor]]].
    intros k x N. destruct u as [|c u]; [constructor|]. destruct W as [W|[W _]]; [discriminate|]. apply (run_chunk c u U W), N.
  - destruct S as [w k S]. set (d := u ++ lit "."). 
    assert (Ud : Forall (fun c => Uc c = true) d) by (apply Forall_app; split; [exact U|repeat constructor]).
    assert (Wd : word_run d) by (destruct W as [->|[_ W]]; [exact dot_word|exact W]).
    assert (Nd : d <> lit "include"). { intro E. assert (I : In "."%char d) by (apply in_app_iff; right; left; reflexivity). rewrite E in I. cbn in I. intuition discriminate. }
    assert (Ad : add_path_text b false d = ([], false) :: (v, f) :: before).
    { unfold d. rewrite <- add_path_text_app by exact Nb. rewrite A. change (add_path_text ((v, f) :: before) false (lit ".")) with (([], false) :: (v ++ [], f) :: before). rewrite app_nil_r. reflexivity. }
    set (e := (k, match k with [] => true | _ => false end) : element).
    assert (Ak : add_path_text (([], false) :: (v, f) :: before) true k = e :: (v, f) :: before) by (destruct k; reflexivity).
    destruct (IH [] (e :: (v, f) :: before) k (snd e) ((v, f) :: before)) as [ts [es [T [K [Sp [Fo [R Fi]]]]]]].
    { constructor. } { left; reflexivity. } { discriminate. } { discriminate. } { unfold e, add_path_text. cbn [split_dots fold_left snd]. rewrite app_nil_r. reflexivity. }
    cbn [app] in T. exists (run_toks d ++ string_token w k :: ts), (es ++ [e]).
    split; [rewrite render_app', run_toks_text, render_cons', T; unfold d; rewrite <- !app_assoc; reflexivity|].
    split; [apply Forall_app; split; [apply run_keyword_free; assumption|constructor; [apply string_keyword_free|exact K]]|].
    split; [|split; [|split]].
    + intros j x N. apply run_spelt; [exact Ud|exact Wd|rewrite render_cons'; right; reflexivity|]. intro j'. apply sp_tok; [|apply Sp, N].
      apply reads_fuel, reads_escaped; [exact S|]. rewrite T. destruct H; cbn; try discriminate. destruct x as [|c x]; [exact I|]. cbn. intros ->. discriminate N.
    + rewrite fold_left_app, run_toks_fold by exact Nb. rewrite Ad. cbn [fold_left tok_buff string_token]. rewrite Ak, Fo. rewrite <- app_assoc. reflexivity.
    + rewrite map_app, rev_app_distr, R. reflexivity.
    + apply Forall_app. split; [exact Fi|]. constructor; [|constructor]. unfold filled, e. destruct k; [right; reflexivity|left; discriminate].
  - set (d := u ++ lit "." ++ k).
    assert (Ud : Forall (fun c => Uc c = true) d) by (apply Forall_app; split; [exact U|constructor; [reflexivity|apply plain_Uc, P]]).
    assert (Wo : word_run (u ++ lit ".")) by (destruct W as [->|[_ W]]; [exact dot_word|exact W]).
    assert (Io : In "."%char (u ++ lit ".")) by (apply in_app_iff; right; left; reflexivity).
    assert (Wd : forall x, word_run (d ++ x)). { intro x. unfold d. rewrite app_assoc, <- app_assoc. apply word_run_app; [destruct u; discriminate|exact Wo|exact Io]. }
    assert (Nd : d <> lit "include"). { intro E. assert (I : In "."%char d) by (apply in_app_iff; right; left; reflexivity). rewrite E in I. cbn in I. intuition discriminate. }
    assert (Ad : add_path_text b false d = (k, false) :: (v, f) :: before).
    { unfold d. rewrite <- add_path_text_app by exact Nb. rewrite A. rewrite <- (add_path_text_app (lit ".") k) by discriminate.
      change (add_path_text ((v, f) :: before) false (lit ".")) with (([], false) :: (v ++ [], f) :: before). rewrite app_nil_r. unfold add_path_text. rewrite split_dots_dotless by (apply PathParser_Lemmas2.plain_dotless, P). reflexivity. }
    destruct (IH d b k false ((v, f) :: before) Ud ltac:(right; split; [rewrite <- (app_nil_r d); apply Wd|apply Wd]) Nd Nb Ad) as [ts [es [T [K [Sp [Fo [R Fi]]]]]]].
    exists ts, (es ++ [(k, false)]). split; [rewrite T; unfold d; rewrite <- !app_assoc; reflexivity|]. split; [exact K|]. split; [exact Sp|]. split; [rewrite Fo, <- app_assoc; reflexivity|].
    split; [rewrite map_app, rev_app_distr, R; reflexivity|]. apply Forall_app. split; [exact Fi|]. constructor; [|constructor]. left. apply P.
Qed.

Lemma key_read : forall t p, key_text t p -> p <> [] /\ exists ks, key_ok (p, ks) /\ render_tokens ks = t.
Proof.
  assert (D : forall ts t k p es e, render_tokens ts = t -> t <> [] -> Forall keyword_free ts -> (forall j x, neutral x -> spelt j ts x) ->
    fold_left tok_buff ts [([], false)] = es ++ [e] -> fst e = k -> filled e -> rev (map fst es) = p -> Forall filled es -> key_ok (k :: p, ts)).
  { intros ts t k p es e T Nt K Sp Fo Ek Ef R Fi.
    destruct ts as [|a ts]; [subst t; exfalso; apply Nt; reflexivity|].
    assert (Ka : keyword_free (List.last (a :: ts) TEnd)). { rewrite Forall_forall in K. apply K. rewrite (app_removelast_last TEnd (l := a :: ts)) at 2 by discriminate. apply in_app_iff. right. left. reflexivity. }
    inversion K as [|? ? Kh _]; subst. destruct Kh as [K1 [K2 [K3 [K4 K5]]]]. destruct Ka as [L1 [L2 _]].
    assert (Fp : Forall path_token (a :: ts)) by (eapply Forall_impl; [|exact K]; intros x X; apply X).
    destruct (path_tokens_loop_ok (a :: ts) false CONF [([], false)] [] Fp) as [acc Ep].
    exists (a :: ts), (fst e :: rev (map fst es), acc). split; [reflexivity|]. split; [split; [exact Sp|split; [discriminate|split; [exact K1|split; [exact L1|exact L2]]]]|].
    split; [eapply Forall_impl; [|exact K]; intros x X; apply X|]. split; [exact K4|]. split; [|split; [reflexivity|discriminate]].
    unfold parse_path_expression. rewrite Ep. cbn [bind raise_end]. rewrite Fo. rewrite rev_app_distr. cbn [rev app]. rewrite build_path_ok by (constructor; [exact Ef|apply Forall_rev, Fi]).
    cbn [map]. rewrite map_rev. reflexivity. }
  intros t p H. destruct H as [t k r p S H]. split; [discriminate|]. destruct S as [t k S|k P Wk Ni].
  - destruct S as [w k S]. set (e := (k, match k with [] => true | _ => false end) : element).
    destruct (rest_ok r p H [] [e] k (snd e) []) as [ts [es [T [K [Sp [Fo [R Fi]]]]]]].
    { constructor. } { left; reflexivity. } { discriminate. } { discriminate. } { unfold e, add_path_text. cbn [split_dots fold_left snd]. rewrite app_nil_r. reflexivity. }
    cbn [app] in T. exists (string_token w k :: ts). split; [|rewrite render_cons', T; reflexivity].
    apply (D _ _ k p es e (eq_refl _)); [discriminate|constructor; [apply string_keyword_free|exact K]| |cbn [fold_left tok_buff string_token]; replace (add_path_text [([], false)] true k) with [e] by (destruct k; reflexivity); exact Fo|reflexivity|unfold filled, e; destruct k; [right; reflexivity|left; discriminate]|exact R|exact Fi].
    intros j x N. apply sp_tok; [|apply Sp, N]. apply reads_fuel, reads_escaped; [exact S|]. rewrite T. destruct H; cbn; try discriminate. destruct x as [|c x]; [exact I|]. cbn. intros ->. discriminate N.
  - destruct (word_key_cases k Wk) as [NP|[_ [Nk Wr]]]; [contradiction|].
    assert (A : add_path_text [([], false)] false k = [(k, false)]). { unfold add_path_text. rewrite split_dots_dotless by (apply PathParser_Lemmas2.plain_dotless, P). reflexivity. }
    destruct (rest_ok r p H k [([], false)] k false [] (plain_Uc k P) ltac:(right; split; [rewrite <- (app_nil_r k); apply (Wr [])|apply (Wr [[]])]) Ni ltac:(discriminate) A) as [ts [es [T [K [Sp [Fo [R Fi]]]]]]].
    exists ts. split; [|exact T]. apply (D ts _ k p es (k, false) T); try assumption; [destruct k; [contradiction|discriminate]|reflexivity|left; exact Nk].
Qed.
(** Words alone. *)
Lemma key_words : forall k p, Forall (fun k => plain_key k /\ word_key k /\ k <> lit "include") (k :: p) -> key_text (dotted (k :: p)) (k :: p).
Proof.
  intros k p F. inversion F as [|? ? [P [W N]] F']; subst.
  assert (R : exists r, dotted (k :: p) = k ++ r /\ key_rest r p).
  { clear -F'. revert k. induction F' as [|q p [Pq _] F IH]; intro k; [exists []; split; [symmetry; apply app_nil_r|constructor]|].
    destruct (IH q) as [r [E R]]. exists (lit "." ++ q ++ r). split; [|apply rest_word; assumption]. change (dotted (k :: q :: p)) with (k ++ "."%char :: dotted (q :: p)). rewrite E. reflexivity. }
  destruct R as [r [-> R]]. apply key_of; [apply start_word; assumption|exact R].
Qed.
