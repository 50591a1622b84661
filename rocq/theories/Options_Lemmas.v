(** Proofs about the options of documents, and about includers. *)
From Coq Require Import Lia.
From Verif Require Import Base BaseLemmas Util_Model Num_Model Path_Model Path_Spec Token_Model PathParser_Model Doc_Model Edit_Model Value_Model Value_Spec Concat_Model ConfigParser_Model
  Config_Lemmas Include_Model Include_Spec Include_Lemmas Include_Lemmas2 Include_Lemmas3 JsonEdit_Spec JsonEdit_Lemmas8 Options_Model Options_Spec.

(** *** Documents *)
Definition syntax_of (final : parse_options) : syntax := match o_syntax final with Some s => s | None => CONF end.

Lemma fixed_syntax : forall o file s, asks_for o file s ->
  forall guess, guess = match file with Some n => syntax_from_extension n | None => None end ->
  o_syntax (fixup_options guess (fixup_options guess o)) = Some s.
Proof.
  intros o file s H guess ->. unfold fixup_options, set_syntax. cbn [o_syntax]. destruct H as [s E|stem E ->|E N]; rewrite E; [reflexivity| |].
  - unfold syntax_from_extension. rewrite (proj2 (ends_iff _ _)); [reflexivity|]. exists stem. reflexivity.
  - destruct file as [n|]; [|reflexivity]. unfold syntax_from_extension. destruct (ends_with (lit ".json") n) eqn:J.
    + exfalso. apply ends_iff in J. destruct J as [stem ->]. apply (N stem). reflexivity.
    + destruct (ends_with (lit ".conf") n); reflexivity.
Qed.

Lemma parsed_document : forall p s, o_syntax (fixup_options (p_guess p) (p_options p)) = Some s ->
  rmap d_root (parse_config_document p) = parse_document s (p_text p) /\
  forall d, parse_config_document p = Ok d -> d_syntax d = s.
Proof.
  intros p s E. unfold parse_config_document, parse_document_of. cbv zeta. rewrite E. split.
  - destruct (parse_document s (p_text p)); reflexivity.
  - intros d H. destruct (parse_document s (p_text p)); try discriminate H. injection H as <-. unfold d_syntax. cbn [d_options]. rewrite E. reflexivity.
Qed.
Lemma edited_syntax : forall d e, edited d e -> d_syntax e = d_syntax d.
Proof.
  induction 1 as [d|d e e' path text H IH E|d e e' path H IH E]; [reflexivity| |].
  - unfold document_set in E. destruct (with_value_text _ _ _ _); try discriminate E. injection E as <-. exact IH.
  - unfold document_remove in E. destruct (Edit_Model.without_path _ _ _); try discriminate E. injection E as <-. exact IH.
Qed.

Lemma string_document : forall text o s, asks_for o None s ->
  rmap d_root (document_of_string text o) = parse_document s text /\
  forall d e, document_of_string text o = Ok d -> edited d e -> d_syntax e = s.
Proof.
  intros text o s A. pose proof (parsed_document (new_string text o) s (fixed_syntax _ _ _ A None eq_refl)) as [P Q].
  split; [exact P|]. intros d e E D. rewrite (edited_syntax _ _ D). apply Q, E.
Qed.
Lemma file_document : forall files name text o s, asks_for o (Some name) s -> files name = Some text ->
  rmap d_root (document_of_file files name o) = parse_document s text /\
  forall d e, document_of_file files name o = Ok d -> edited d e -> d_syntax e = s.
Proof.
  intros files name text o s A F. pose proof (parsed_document (new_file files name o) s (fixed_syntax _ _ _ A (syntax_from_extension name) eq_refl)) as [P Q].
  unfold document_of_file. split; [rewrite P; unfold new_file; cbn [p_text]; rewrite F; reflexivity|]. intros d e E D. rewrite (edited_syntax _ _ D). apply Q, E.
Qed.

Lemma empty_conf : parse_document CONF [] = Ok [NObject []].
Proof. vm_compute. reflexivity. Qed.
Lemma missing_document : forall files name o s, asks_for o (Some name) s -> files name = None ->
  match s with
  | CONF => exists d, document_of_file files name o = Ok d /\ document_text d = [] /\
              forall path p, new_path path = Ok p -> Edit_Model.has_path (d_root d) path = Ok false
  | JSON => document_of_file files name o = Throw EParse
  end.
Proof.
  intros files name o s A F. pose proof (parsed_document (new_file files name o) s (fixed_syntax _ _ _ A (syntax_from_extension name) eq_refl)) as [P _].
  unfold document_of_file. replace (p_text (new_file files name o)) with (@nil ascii) in P by (unfold new_file; cbn [p_text]; rewrite F; reflexivity).
  destruct s.
  - rewrite empty_conf in P. destruct (parse_config_document _) as [d|x|u]; try discriminate P. cbn [rmap bind] in P. injection P as P. exists d. split; [reflexivity|].
    unfold document_text. rewrite P. split; [reflexivity|]. intros path p E. unfold Edit_Model.has_path, root_has_value. rewrite E. cbn [bind on_root rmap snd]. unfold has_value. destruct p as [|k p]; [destruct (new_path_not_empty _ _ E eq_refl)|]. reflexivity.
  - assert (E : parse_document JSON [] = Throw EParse) by (vm_compute; reflexivity). rewrite E in P. destruct (parse_config_document _) as [d|x|u]; try discriminate P. injection P as ->. reflexivity.
Qed.

Lemma json_file_set : forall files name text o d v ps p t n w,
  files name = Some text -> asks_for o (Some name) JSON -> document_of_file files name o = Ok d ->
  ~ In (ch 0) text -> forallb neat (d_root d) = true -> json_text (document_text d) v -> simple_object v ->
  path_text ps p -> way_open p v -> ~ In (ch 0) t -> json_value_text t n w -> neat n = true ->
  exists d' v', document_set d ps t = Ok d' /\ json_text (document_text d') v' /\ get p v' = Some w /\ forall q, apart p q -> get q v' = get q v.
Proof.
  intros files name text o d v ps p t n w F A E N T J S Pt W Nt V Nn. destruct (file_document files name text o JSON A F) as [P Q]. rewrite E in P. cbn [rmap bind] in P.
  pose proof (Q d d E (edited_not d)) as Sd. symmetry in P.
  destruct (json_set_meaning (d_root d) v ps p t n w (json_parsed text _ N P T) J S Pt W Nt V Nn) as [ns' [v' [H [_ [J' [G R]]]]]].
  exists (Document ns' (d_options d)), v'. unfold document_set. rewrite Sd, H. split; [reflexivity|]. split; [exact J'|]. split; assumption.
Qed.

(** *** Includers *)
Lemma includer_induction : forall (P : includer -> Prop),
  (forall n own, P (Own n own None)) -> (forall n own f, P f -> P (Own n own (Some f))) -> (forall n d, P d -> P (Proxy n d)) ->
  forall i, P i.
Proof.
  intros P H1 H2 H3. fix IH 1. intros [n own [f|]|n d]; [apply H2, IH|apply H1|apply H3, IH].
Qed.
Lemma order_some : forall i, order i <> [].
Proof. induction i using includer_induction; cbn [order]; [discriminate|discriminate|assumption]. Qed.
Lemma members_head : forall i, In (number i) (members i).
Proof. intros [n own [f|]|n d]; left; reflexivity. Qed.

Lemma include_order : forall i dir name next v next', include_with i dir name next = Ok (v, next') <-> contribute dir name (map by_name (order i)) next v next'.
Proof.
  intros i dir name. induction i as [n own|n own f IH|n d IH] using includer_induction; intros next v next'; cbn [include_with order map].
  - split; [apply contribute_last|]. intro H. inversion H; subst; [assumption|]. match goal with H : [] <> [] |- _ => destruct H; reflexivity end.
  - split; intro H.
    + destruct (by_name own dir name next) as [[obj n1]|x|u] eqn:E1; try discriminate H. cbn [bind] in H.
      destruct (include_with f dir name n1) as [[below n2]|x|u] eqn:E2; try discriminate H. cbn [bind] in H.
      destruct (with_fallback obj below) as [w|x|u] eqn:E3; try discriminate H. cbn [bind] in H. injection H as <- <-.
      eapply contribute_over; [intro Q; apply map_eq_nil in Q; exact (order_some f Q)|exact E1|apply IH; exact E2|exact E3].
    + inversion H; subst; [exfalso; eapply order_some; eapply map_eq_nil; symmetry; eassumption|].
      match goal with E : by_name own dir name next = _ |- _ => rewrite E end. cbn [bind].
      match goal with E : contribute _ _ (map by_name (order f)) _ _ _ |- _ => apply IH in E; rewrite E end. cbn [bind].
      match goal with E : with_fallback _ _ = _ |- _ => rewrite E end. reflexivity.
  - apply IH.
Qed.

Lemma fallback_order : forall c i fresh, proxy_free c -> number c <> number i ->
  exists r fresh', includer_with_fallback c i fresh = Ok (r, fresh') /\
    (~ In (number i) (members c) -> order r = order c ++ order i) /\ (In (number i) (members c) -> order r = order c).
Proof.
  intros c i. induction c as [n own|n own f IH|n d IH] using includer_induction; intros fresh F N; cbn [includer_with_fallback order members number] in *.
  - rewrite (proj2 (Nat.eqb_neq _ _) N). eexists _, _. split; [reflexivity|]. split; [intros _; reflexivity|]. intros [H|[]]. destruct (N H).
  - rewrite (proj2 (Nat.eqb_neq _ _) N). destruct (Nat.eqb (number f) (number i)) eqn:E.
    + eexists _, _. split; [reflexivity|]. apply Nat.eqb_eq in E. split; [|reflexivity]. intro H. exfalso. apply H. right. rewrite <- E. apply members_head.
    + apply Nat.eqb_neq in E. destruct (IH fresh F E) as [r [fresh' [-> [A B]]]]. cbn [bind]. eexists _, _. split; [reflexivity|]. cbn [order]. split.
      * intro H. rewrite A; [reflexivity|]. intro H'. apply H. right. exact H'.
      * intros [H|H]; [destruct (N H)|]. rewrite B; [reflexivity|exact H].
  - destruct F.
Qed.

Lemma append_order : forall c i fresh, proxy_free c ->
  exists r fresh', append_includer (Some c) i fresh = Ok (r, fresh') /\
    (~ In (number i) (members c) -> order r = order c ++ order i) /\ (In (number i) (members c) -> order r = order c).
Proof.
  intros c i fresh F. unfold append_includer. destruct (Nat.eqb (number c) (number i)) eqn:E.
  - apply Nat.eqb_eq in E. eexists _, _. split; [reflexivity|]. split; [|reflexivity]. intro H. exfalso. apply H. rewrite <- E. apply members_head.
  - apply fallback_order; [exact F|apply Nat.eqb_neq, E].
Qed.
Lemma prepend_order : forall c i fresh, proxy_free i -> ~ In (number c) (members i) ->
  exists r fresh', prepend_includer (Some c) i fresh = Ok (r, fresh') /\ order r = order i ++ order c.
Proof.
  intros c i fresh F H. unfold prepend_includer. destruct (Nat.eqb (number c) (number i)) eqn:E.
  - apply Nat.eqb_eq in E. exfalso. apply H. rewrite E. apply members_head.
  - apply Nat.eqb_neq in E. destruct (fallback_order i c fresh F) as [r [fresh' [Q [A _]]]]; [intro X; apply E; symmetry; exact X|].
    exists r, fresh'. split; [exact Q|apply A, H].
Qed.

Lemma full_order : forall i fresh, order (fst (make_full i fresh)) = order i.
Proof. intros [n own f|n d] fresh; reflexivity. Qed.
Lemma fixup_order : forall own zero c fresh, proxy_free c -> ~ In zero (members c) ->
  exists r fresh', fixup_includer (Own zero own None) (Some c) fresh = Ok (r, fresh') /\ order r = order c ++ [own] /\
    exists r' fresh'', fixup_includer (Own zero own None) (Some r) fresh' = Ok (r', fresh'') /\ order r' = order r.
Proof.
  intros own zero c fresh F H. unfold fixup_includer. destruct (append_order c (Own zero own None) fresh F) as [r [fresh' [E [A _]]]]. rewrite E. cbn [bind].
  specialize (A H). cbn [order] in A. pose proof (full_order r fresh') as O. destruct (make_full r fresh') as [r1 f1] eqn:M. cbn [fst] in O.
  exists r1, f1. split; [reflexivity|]. split; [rewrite O; exact A|].
  assert (X : exists n d, r1 = Proxy n d) by (destruct r as [n o f|n d]; injection M as <- <-; eauto). destruct X as [n [d ->]].
  unfold append_includer. cbn [number]. destruct (Nat.eqb n zero) eqn:Z; cbn [includer_with_fallback bind make_full]; eexists _, _; (split; [reflexivity|]); reflexivity.
Qed.

Lemma fallback_total : forall c i fresh, number c <> number i -> exists r fresh', includer_with_fallback c i fresh = Ok (r, fresh').
Proof.
  intros c i. induction c as [n own|n own f IH|n d IH] using includer_induction; intros fresh N; cbn [includer_with_fallback number] in *.
  - rewrite (proj2 (Nat.eqb_neq _ _) N). eauto.
  - rewrite (proj2 (Nat.eqb_neq _ _) N). destruct (Nat.eqb (number f) (number i)) eqn:E; [eauto|]. apply Nat.eqb_neq in E.
    destruct (IH fresh E) as [r [fresh' ->]]. cbn [bind]. eauto.
  - eauto.
Qed.
Lemma full_alone : forall own zero c fresh, exists r fresh', fixup_includer (Own zero own None) c fresh = Ok (r, fresh') /\
  (forall i f, append_includer (Some r) i f = Ok (r, f)) /\ forall other f, prepend_includer (Some other) r f = Ok (r, f) \/ number other = number r.
Proof.
  intros own zero c fresh. unfold fixup_includer.
  assert (A : exists r f1, append_includer c (Own zero own None) fresh = Ok (r, f1)).
  { destruct c as [c|]; [|cbn [append_includer]; eauto]. unfold append_includer. destruct (Nat.eqb _ _) eqn:E; [eauto|]. apply fallback_total, Nat.eqb_neq, E. }
  destruct A as [r [f1 ->]]. cbn [bind]. assert (X : exists n d f2, make_full r f1 = (Proxy n d, f2)) by (destruct r; cbn [make_full]; eauto). destruct X as [n [d [f2 ->]]].
  exists (Proxy n d), f2. split; [reflexivity|]. split.
  - intros i f. unfold append_includer. destruct (Nat.eqb _ _); reflexivity.
  - intros other f. unfold prepend_includer. destruct (Nat.eqb (number other) (number (Proxy n d))) eqn:E; [right; apply Nat.eqb_eq, E|left; reflexivity].
Qed.

(** include file(...) *)
Lemma file_none : forall default i, proxy_free i -> (include_file_of default i = None <-> exists b bs, order i = b :: bs /\ by_file b = None).
Proof.
  intros default [n own [f|]|n d] F; [| |destruct F]; cbn [include_file_of order]; destruct (by_file own) eqn:E; split; intro H; try discriminate H; try reflexivity; eauto;
  destruct H as [b [bs [Q B]]]; injection Q as <- _; congruence.
Qed.
Lemma file_order : forall default i, proxy_free i -> forall g, include_file_of default i = Some g ->
  forall fs rest, fs <> [] -> map by_file (order i) = map Some fs ++ rest -> (rest = [] \/ exists more, rest = None :: more) ->
  forall dir name next v next', g dir name next = Ok (v, next') <-> contribute dir name fs next v next'.
Proof.
  intros default i. induction i as [n own|n own f IH|n d IH] using includer_induction; intros F g G fs rest N M R dir name next v next'; [| |destruct F].
  - cbn [include_file_of] in G. cbn [order map] in M. destruct fs as [|f1 fs]; [congruence|]. cbn [map app] in M. injection M as M1 M2. rewrite M1 in G. injection G as <-.
    assert (fs = []) by (destruct fs; [reflexivity|discriminate M2]). subst fs. split; intro H.
    + destruct (f1 dir name next) as [[o n1]|x|u] eqn:E; try discriminate H. cbn [bind] in H. injection H as <- <-. apply contribute_last. exact E.
    + inversion H; subst; [|match goal with H : [] <> [] |- _ => destruct H; reflexivity end]. match goal with E : f1 dir name next = _ |- _ => rewrite E end. reflexivity.
  - cbn [include_file_of] in G. cbn [order map] in M. destruct fs as [|f1 fs]; [congruence|]. cbn [map app] in M. injection M as M1 M2. rewrite M1 in G. injection G as <-.
    destruct (order f) as [|b bs] eqn:O; [destruct (order_some f O)|]. destruct (include_file_of default f) as [g'|] eqn:G'.
    + assert (N' : fs <> []). { intros ->. destruct R as [->|[more ->]]; [discriminate M2|]. cbn [map app] in M2. injection M2 as B _.
        assert (Z : include_file_of default f = None) by (apply (file_none default f F); exists b, bs; split; assumption). congruence. }
      specialize (IH F g' eq_refl fs rest N' M2 R dir name). split; intro H.
      * destruct (f1 dir name next) as [[o n1]|x|u] eqn:E; try discriminate H. cbn [bind] in H. destruct (g' dir name n1) as [[o2 n2]|x|u] eqn:E2; try discriminate H. cbn [bind] in H.
        destruct (with_fallback o o2) as [w|x|u] eqn:E3; try discriminate H. cbn [bind] in H. injection H as <- <-. eapply contribute_over; [exact N'|exact E|apply IH; exact E2|exact E3].
      * inversion H; subst; [destruct (N' eq_refl)|]. match goal with E : f1 dir name next = _ |- _ => rewrite E end. cbn [bind]. match goal with E : contribute _ _ fs _ _ _ |- _ => apply IH in E; rewrite E end. cbn [bind].
        match goal with E : with_fallback _ _ = _ |- _ => rewrite E end. reflexivity.
    + apply (file_none default f F) in G'. destruct G' as [b' [bs' [Q B]]]. rewrite O in Q. injection Q as <- <-.
      assert (fs = []). { destruct fs as [|f2 fs]; [reflexivity|]. cbn [map app] in M2. injection M2 as M2 _. congruence. } subst fs. split; intro H.
      * destruct (f1 dir name next) as [[o n1]|x|u] eqn:E; try discriminate H. cbn [bind] in H. injection H as <- <-. apply contribute_last. exact E.
      * inversion H; subst; [|match goal with H : [] <> [] |- _ => destruct H; reflexivity end]. match goal with E : f1 dir name next = _ |- _ => rewrite E end. reflexivity.
Qed.
Lemma files_asked : forall default n i fs, proxy_free i -> map by_file (order i) = map Some fs ->
  exists g, include_file_of default (Proxy n i) = Some g /\ forall dir name next v next', g dir name next = Ok (v, next') <-> contribute dir name fs next v next'.
Proof.
  intros default n i fs F M. cbn [include_file_of]. eexists. split; [reflexivity|]. destruct (include_file_of default i) as [g|] eqn:G.
  - apply (file_order default i F g G fs []); [intros ->; apply map_eq_nil in M; exact (order_some i M)|rewrite app_nil_r; exact M|left; reflexivity].
  - apply (file_none default i F) in G. destruct G as [b [bs [O B]]]. rewrite O in M. destruct fs as [|f fs]; [discriminate M|]. cbn [map] in M. injection M as M _. congruence.
Qed.
Lemma files_hidden : forall default n i fs more, proxy_free i -> map by_file (order i) = map Some fs ++ None :: more ->
  exists g, include_file_of default (Proxy n i) = Some g /\
    forall dir name next v next', g dir name next = Ok (v, next') <-> contribute dir name (match fs with [] => [default] | _ => fs end) next v next'.
Proof.
  intros default n i fs more F M. cbn [include_file_of]. eexists. split; [reflexivity|]. destruct (include_file_of default i) as [g|] eqn:G.
  - destruct fs as [|f fs].
    + assert (Z : include_file_of default i = None). { apply (file_none default i F). destruct (order i) as [|b bs]; [discriminate M|]. cbn [map app] in M. injection M as M _. eauto. } congruence.
    + apply (file_order default i F g G (f :: fs) (None :: more)); [discriminate|exact M|right; eauto].
  - apply (file_none default i F) in G. destruct G as [b [bs [O B]]]. rewrite O in M. destruct fs as [|f fs]; [|cbn [map app] in M; injection M as M _; congruence].
    intros dir name next v next'. split; [apply contribute_last|]. intro H. inversion H; subst; [assumption|match goal with H : [] <> [] |- _ => destruct H; reflexivity end].
Qed.
