(** Unresolved values as they are rendered are read back: the root. *)
From Verif Require Import Base BaseLemmas Util_Model Num_Model Path_Model Token_Model Token_Spec Token_Lemmas Token_Lemmas2 PathParser_Model PathParser_Spec Doc_Model Doc_Lemmas Edit_Model Edit_Lemmas4 Value_Model Value_Spec Value_Lemmas Concat_Model ConfigParser_Model Json_Lemmas2 Render_Model Render_Spec Render_Lemmas Render_Lemmas3 Render_Lemmas4 Render_Lemmas5 JsonEdit_Lemmas ConfEdit_Spec ConfEdit_Lemmas6 ConfEdit_Lemmas7 ConfText_Spec ConfText_Lemmas ConfText_Lemmas2 ConfText_Lemmas3 ConfText_Lemmas4 ConfText_Lemmas5 ConfText_Lemmas6 ConfText_Lemmas7 ConfText_Lemmas8 RenderConf_Lemmas RenderConf_Lemmas2 RenderConf_Lemmas3 RenderRef_Spec RenderRef_Lemmas RenderRef_Lemmas2 RenderRef_Lemmas3 RenderRef_Lemmas4 RenderRef_Lemmas5.

(** A document of one object or list in its brackets, and perhaps a newline. *)
Lemma bracketed_root : forall t u n b inc next, t = TOpenCurly \/ t = TOpenSquare -> match n with NObject _ | NArray _ => True | _ => False end -> render_tokens (t :: u) = render_node n -> chunk (t :: u) ->
  (forall fuel r, (List.length u < fuel)%nat -> exists v', Doc_Model.parse_value fuel CONF LEnd t (u ++ r) = Ok (v', r) /\ is_value_node v' = true /\ is_layout v' = false /\ bones v' = bones n) ->
  parse_config CONF inc (render_node n ++ (if b : bool then [nl] else [])) next = ('(v, nx) <- ConfigParser_Model.parse_value CONF inc n [] 0 next ;; Ok (Some v, nx)).
Proof.
  intros t u n b inc next T N Tx Ch A. set (tail := if b then [TNewline] else []). assert (Et : (if b then [nl] else []) = render_tokens tail) by (unfold tail; destruct b; reflexivity).
  assert (Sp : spelt false ((t :: u) ++ tail) []).
  { destruct Ch as [Ch [_ [_ [Sl _]]]]. eapply spelt_app; [apply Ch|reflexivity|exact Sl|].
    - unfold tail. destruct b; reflexivity.
    - intro k. unfold tail. destruct b; [|constructor]. apply sp_tok; [apply reads_fuel, reads_newline|constructor]. }
  pose proof (spelt_lexes _ _ _ Sp eq_refl) as Lx. rewrite Et, <- Tx, <- render_app'. unfold parse_config. rewrite (parse_lexed _ _ Lx). unfold parse_root.
  assert (Cl : collect CONF LEnd (((t :: u) ++ tail) ++ [TEnd]) = Ok ([], t, u ++ tail ++ [TEnd])) by (rewrite <- app_assoc; destruct T as [-> | ->]; reflexivity).
  rewrite Cl. cbn [bind]. destruct (A (S (List.length (((t :: u) ++ tail) ++ [TEnd]))) (tail ++ [TEnd]) ltac:(rewrite !app_length; cbn [List.length]; lia)) as [v' [P [V [Ly B]]]].
  rewrite P.
  assert (Br : forall (X Y : result (bool * list node * list token)), match t with TOpenCurly | TOpenSquare => X | _ => Y end = X) by (intros; destruct T as [-> | ->]; reflexivity).
  rewrite Br. cbn [bind].
  assert (Pv : ConfigParser_Model.parse_value CONF inc v' [] 0 next = ConfigParser_Model.parse_value CONF inc n [] 0 next) by (rewrite <- (proj1 (bones_all v')), B; apply (proj1 (bones_all n))).
  assert (X : match v' with NObject _ | NArray _ => True | _ => False end) by (destruct n; try contradiction; destruct v'; try discriminate B; exact I).
  assert (Ct : exists post, collect CONF LEnd (tail ++ [TEnd]) = Ok (post, TEnd, []) /\ Edit_Lemmas4.quiets post = true) by (unfold tail; destruct b; eexists; split; reflexivity).
  destruct Ct as [post [Ec Qp]]. rewrite Ec. cbn [bind app]. change (v' :: post) with ([] ++ v' :: post). rewrite root_parses by (reflexivity || assumption). rewrite Pv. reflexivity.
Qed.

Section Rendering.
Variables (o : options) (ns : notes) (ms : bool).
Hypothesis C : origin_comments o || comments o = true -> one_line_comments ns.
Hypothesis M : ms = true -> merges_fit o ns.

Lemma pending_fields : forall r i m, pending ms (VObj r i m) -> NoDup (map fst m) /\ Forall (fun kv => entry o ns (fst kv) (snd kv)) m.
Proof.
  intros r i m P. destruct (pending_inv _ _ P) as [D F]. split; [exact D|]. eapply Forall_impl; [|exact F]. intros kv [K [Q P']]. apply (pending_reads o ns ms C M); assumption.
Qed.
Lemma object_root : forall r i m inc next, pending ms (VObj r i m) ->
  exists text w next', render_value o ns (VObj r i m) = Ok text /\ alike (VObj r i m) w /\ parse_config CONF inc text next = Ok (Some w, next').
Proof.
  intros r i m inc next P. destruct (pending_fields r i m P) as [D Fe]. unfold render_value. destruct (json o) eqn:J.
  - destruct (object_reading o ns r i m D Fe [] 0%nat true (or_introl J)) as [n [ts [R [Oo [Vn St]]]]]. rewrite R. destruct Oo as [Tx [Ch [u [-> A]]]].
    assert (X : match n with NObject _ | NArray _ => True | _ => False end).
    { destruct (A (S (List.length u)) [] (Nat.lt_succ_diag_r _)) as [v' [Pv [_ [_ B]]]]. pose proof (open_value _ _ _ _ _ _ _ (or_introl eq_refl) Pv) as Y. destruct v'; try contradiction; destruct n; try discriminate B; exact I. }
    destruct (St inc [] 0%Z next) as [w [next' [Pw [[Al _] _]]]]. eexists. exists w, next'. split; [reflexivity|]. split; [exact Al|].
    rewrite Tx, (bracketed_root TOpenCurly u n _ inc next (or_introl eq_refl) X Tx Ch A), Pw. reflexivity.
  - rewrite render_object, J. cbn [orb negb andb key_text app]. destruct m as [|kv0 m0].
    + cbn [bind]. eexists. exists (new_object []), next. split; [reflexivity|]. split; [apply alike_objects; [reflexivity|intros k v H; discriminate H]|].
      destruct (formatted o); vm_compute; reflexivity.
    + set (m := kv0 :: m0) in *. destruct (object_fields_read o ns m [] 0%nat 0%nat ltac:(discriminate) D Fe) as [its [e0 [Q [Rn [Ed [Fi Pv]]]]]].
      rewrite Q. cbn [bind]. rewrite chop_end by reflexivity. set (its2 := its ++ map IL (Render_Lemmas5.line o)).
      assert (R2 : exists e, irun Before its2 = Some e /\ (e = Before \/ e = Behind)).
      { unfold its2. rewrite irun_app, Rn. unfold Render_Lemmas5.line. destruct Ed as [->|[-> _]]; destruct (formatted o); eexists; (split; [reflexivity|auto]). }
      destruct R2 as [e [R2 He]].
      assert (Fw : fine fieldly its2) by (apply fine_app; [exact Fi|apply fine_layout]). destruct (fine_parts _ _ Fw) as [Ck [Fo Fm]].
      destruct (root_from its2 e R2 He Ck Fo Fm) as [ns' [Pd B]]. destruct (Pv inc [] 0%Z next) as [F [next' [A Pf]]]. exists (render_tokens (itoks its2)), (new_object F), next'. split; [|split; [apply A|]].
      * unfold its2. rewrite itoks_app, itoks_layout, render_app', line_text'. reflexivity.
      * unfold parse_config. rewrite Pd. cbn [bind]. pose proof (parsed_shape _ _ _ Pd) as S1.
        assert (S2 : shape [NObject (map inode its2)]) by (exists [], (NObject (map inode its2)), []; repeat split).
        rewrite (bones_root ns' [NObject (map inode its2)] inc next S1 S2) by (rewrite B; unfold root_bones; cbn [flat_map app]; reflexivity).
        change [NObject (map inode its2)] with ([] ++ NObject (map inode its2) :: []). rewrite root_parses by (reflexivity || exact I).
        cbn [ConfigParser_Model.parse_value]. unfold its2. rewrite map_app, inode_layout, Pf.
        rewrite <- (app_nil_r (map layout_node (Render_Lemmas5.line o))), layout_fields. reflexivity.
Qed.

Lemma flat_pieces : forall vs at_ indent i b b', (forall v, In v vs -> forall at_ indent, render o ns v [] at_ indent b = render o ns v [] at_ indent b') ->
  concat_items o ns at_ indent b i vs = concat_items o ns at_ indent b' i vs.
Proof.
  induction vs as [|v vs IH]; intros at_ indent i b b' H; [reflexivity|]. cbn [concat_items]. rewrite (H v (or_introl eq_refl)), (IH at_ indent (S i) b b'); [reflexivity|]. intros w Hw. apply H. right. exact Hw.
Qed.
Lemma flat_pending : forall v, no_objects_below v -> forall at_ indent b b', render o ns v [] at_ indent b = render o ns v [] at_ indent b'.
Proof.
  intro v. induction v as [s|vs IH|r i m IH|n p q l|vs IH|vs IH|vs IH] using value_induction; intro N; try (inversion N; fail); intros at_ indent b b'; [reflexivity| |reflexivity|].
  - rewrite !render_list. inversion N as [|? F| |]; subst. rewrite (flat_items o ns vs at_ indent 0 b b'); [reflexivity|]. intros v Hv at' indent'. rewrite Forall_forall in IH, F. apply IH; auto.
  - inversion N as [| | |? F]; subst.
    assert (E : forall b, render o ns (VConcat vs) [] at_ indent b = (t <- sequence (concat_items o ns at_ indent b 0 vs) ;; Ok (key_text o [] (VConcat vs) ++ t))) by reflexivity.
    rewrite !E, (flat_pieces vs at_ indent 0 b b'); [reflexivity|]. intros v Hv at' indent'. rewrite Forall_forall in IH, F. apply IH; auto.
Qed.
Lemma list_root : forall vs inc next, pending ms (VList vs) -> no_objects_below (VList vs) ->
  exists text w next', render_value o ns (VList vs) = Ok text /\ alike (VList vs) w /\ parse_config CONF inc text next = Ok (Some w, next').
Proof.
  intros vs inc next P N. unfold render_value. rewrite (flat_pending _ N [] 0 true false). destruct (pending_inv _ _ P) as [Nm F].
  assert (R : Forall (reading o ns) vs) by (rewrite Forall_forall in *; intros v Hv; apply (pending_reads o ns ms C M); auto).
  destruct (list_array o ns C vs R [] 0) as [its [e [Rd [Rn [Re [Fi St]]]]]]. destruct (fine_parts _ _ Fi) as [Ck [Fo Fm]].
  destruct (array_from its e Rn Re Ck Fo Fm) as [u [Tx [Ch A]]]. set (n := NArray (NTok TOpenSquare :: map inode its ++ [NTok TCloseSquare])) in *.
  destruct (St inc [] 0%Z next) as [w [next' [Pw [[Al _] _]]]]. exists (render_node n), w, next'. split; [exact Rd|]. split; [exact Al|].
  pose proof (bracketed_root TOpenSquare u n false inc next (or_intror eq_refl) I Tx Ch A) as K. rewrite app_nil_r in K. rewrite K, Pw. reflexivity.
Qed.
End Rendering.
Lemma pending_rendered : forall o ns ms v inc next, (origin_comments o || comments o = true -> one_line_comments ns) -> (ms = true -> merges_fit o ns) -> pending ms v -> a_pending_root v ->
  exists text w next', render_value o ns v = Ok text /\ alike v w /\ parse_config CONF inc text next = Ok (Some w, next').
Proof. intros o ns ms v inc next C M P R. destruct v; try contradiction; [eapply list_root|eapply object_root]; eassumption. Qed.
