(** Unresolved values as they are rendered are read back: all values. *)
From Verif Require Import Base BaseLemmas Util_Model Num_Model Path_Model Path_Spec Path_Lemmas Token_Model Token_Spec Token_Lemmas Token_Lemmas2 PathParser_Model PathParser_Spec PathParser_Lemmas PathParser_Lemmas2 PathParser_Lemmas3 Doc_Model Doc_Lemmas Edit_Model Value_Model Value_Spec Value_Lemmas Concat_Model ConfigParser_Model Json_Lemmas2 Render_Model Render_Spec Render_Lemmas Render_Lemmas2 Render_Lemmas3 Render_Lemmas4 Render_Lemmas5 JsonEdit_Lemmas JsonEdit_Lemmas2 JsonEdit_Lemmas7 JsonEdit_Spec ConfEdit_Spec ConfEdit_Lemmas7 ConfText_Spec ConfText_Lemmas ConfText_Lemmas2 ConfText_Lemmas3 ConfText_Lemmas5 ConfText_Lemmas6 ConfText_Lemmas7 ConfText_Lemmas8 ConfText_Lemmas11 ConfText_Lemmas12 RenderConf_Lemmas RenderConf_Lemmas2 RenderRef_Spec RenderRef_Lemmas RenderRef_Lemmas2 RenderRef_Lemmas3 RenderRef_Lemmas4.
From Coq Require Import Permutation.

Lemma pending_inv : forall ms v, pending ms v ->
  match v with
  | VScalar s => writable (VScalar s)
  | VList vs => Forall (fun v => is_merge v = false) vs /\ Forall (pending ms) vs
  | VObj r i m => NoDup (map fst m) /\ Forall (fun kv => fst kv <> [] /\ Forall quotable (fst kv) /\ pending ms (snd kv)) m
  | VRef n p o l => p <> [] /\ Forall (Forall quotable) p /\ word_key (hd [] p)
  | VConcat vs => (2 <= List.length vs)%nat /\ apart vs /\ Forall (fun v => is_concatenation v = false) vs /\ Forall (fun v => is_merge v = false) vs /\ Forall (pending ms) vs
  | VMerge vs | VMergeObj vs => ms = true /\ v = merge_of vs /\ layered vs /\ Forall (fun v => is_merge v = false) vs /\ Forall (pending ms) vs
  end.
Proof.
  intros ms v []; auto 10. destruct vs as [|v0 vs]; [contradiction|]. destruct v0; cbn [merge_of]; auto 10.
Qed.

Section Rendering.
Variables (o : options) (ns : notes) (ms : bool).
Hypothesis C : origin_comments o || comments o = true -> one_line_comments ns.
Hypothesis M : ms = true -> merges_fit o ns.
Notation parse inc := (ConfigParser_Model.parse_value CONF inc).
Notation line := (Render_Lemmas5.line o).
Notation closing := (Render_Lemmas5.closing o).

Lemma render_keyed : forall v k at_ indent b, is_merge v = false -> render o ns v k at_ indent b = (t <- render o ns v [] at_ indent b ;; Ok (key_text o k v ++ t)).
Proof.
  intros v k at_ indent b W. destruct v; try discriminate W.
  - reflexivity.
  - rewrite !render_list. destruct vs; [reflexivity|]. destruct (sequence _); reflexivity.
  - rewrite !render_object. match goal with |- (t <- ?X ;; _) = _ => destruct X; reflexivity end.
  - reflexivity.
  - cbn [render]. match goal with |- (t <- ?X ;; _) = _ => destruct X; reflexivity end.
Qed.
Lemma token_reading : forall v t, (forall at_ indent, render o ns v [] at_ indent false = Ok (token_text t)) -> piece_ok (NSimple t) [t] -> is_object v = false -> is_reference v = false -> stands (NSimple t) v -> reading o ns v.
Proof.
  intros v t R P O Rf St at_ indent. exists (NSimple t), [t]. split; [rewrite R; cbn; rewrite app_nil_r; reflexivity|]. split; [apply piece_value, P|]. split; [rewrite O; discriminate|]. split; [auto|]. split; [rewrite Rf; discriminate|]. split; [reflexivity|exact St].
Qed.
Lemma scalar_reading : forall s, writable (VScalar s) -> reading o ns (VScalar s).
Proof.
  intros s W.
  assert (Al : forall n w, ConfEdit_Spec.stands_for n w -> same_contents (VScalar s) w -> stands n (VScalar s)).
  { intros n w Sf Sm inc st ac next. exists w, next. split; [apply Sf|]. inversion Sm; subst; (split; [split; [constructor; exact Sm|reflexivity]|exact I]). }
  assert (N : forall tok, scalar_token s tok -> token_text tok = (match s with SStr t _ => if json o then render_json_string t else render_string_unquoted_if_possible t | _ => scalar_text s end) -> reading o ns (VScalar s)).
  { intros tok T E. destruct (scalar_ok s tok T) as [_ [w [Sf Sm]]]. apply (token_reading _ tok); [|apply (scalar_piece s), T|reflexivity|reflexivity|exact (Al _ w Sf Sm)].
    intros at_ indent. cbn [render key_text app]. rewrite E. destruct s; reflexivity. }
  inversion W as [|b|x q F|z t I D|z t I D|n' c more F Mo R| |]; subst.
  - apply (N (value_token SNull)); [constructor|reflexivity].
  - apply (N (value_token (SBool b))); [constructor|reflexivity].
  - destruct (json o) eqn:J; [apply (N (TValue (SStr x true) (render_json_string x))); [constructor; exact F|reflexivity]|].
    destruct (unquoted_cases x) as [E|[E [P [Wk _]]]].
    + apply (N (TValue (SStr x true) (render_json_string x))); [constructor; exact F|symmetry; exact E].
    + destruct (word_ok x q P Wk) as [Vo [w [Sf Sm]]]. apply (token_reading _ (TUnquoted x)); [|apply token_piece; [apply Vo|reflexivity|discriminate|discriminate]|reflexivity|reflexivity|exact (Al _ w Sf Sm)].
      intros at_ indent. cbn [render key_text app token_text]. rewrite J, E. reflexivity.
  - destruct (integer_spelled (SInt z t) z t (or_introl eq_refl) I D) as [tok [S E]]. exact (N tok S E).
  - destruct (integer_spelled (SLong z t) z t (or_intror eq_refl) I D) as [tok [S E]]. exact (N tok S E).
  - destruct (number_same s c more R) as [E1 E2]. apply (N (TValue s (c :: more))).
    + apply (st_number s s c more); assumption.
    + cbn [token_text]. rewrite <- E2. destruct s; try reflexivity. destruct E1 as [E1 _]. discriminate.
Qed.
Lemma list_array : forall vs, Forall (reading o ns) vs -> forall at_ indent, exists its e, let n := NArray (NTok TOpenSquare :: map inode its ++ [NTok TCloseSquare]) in
  render o ns (VList vs) [] at_ indent false = Ok (render_node n) /\ irun Before its = Some e /\ e <> Remark /\ fine value_ok its /\ stands n (VList vs).
Proof.
  intros vs R at_ indent. rewrite render_list. cbn [key_text app]. destruct vs as [|v vs].
  - exists [], Before. cbv zeta. split; [reflexivity|]. split; [reflexivity|]. split; [discriminate|]. split; [constructor|]. intros inc st ac next. exists (VList []), next. split; [reflexivity|]. split; [apply list_got; constructor|exact I].
  - inversion R as [|? ? R1 R2]; subst. destruct (elements_read o ns C vs v at_ indent 0%nat R1 R2) as [its [Q [Rn [Fi Pv]]]].
    destruct (RenderRef_Lemmas3.wrapped_run o its Behind indent Rn (or_introl eq_refl)) as [e [Rw Re]]. set (its2 := map IL line ++ its ++ map IL (closing indent)) in *.
    assert (Fw : fine value_ok its2) by (apply fine_app; [apply fine_layout|apply fine_app; [exact Fi|apply fine_layout]]). destruct (fine_parts _ _ Fw) as [Ck [Fo Fm]].
    exists its2, e. cbv zeta. split; [|split; [exact Rw|split; [exact Re|split; [exact Fw|]]]].
    + rewrite (array_text its2 Fm). unfold its2. rewrite wrapped_text, Q. cbn [bind]. rewrite line_text'. destruct (formatted o); rewrite chop_end by reflexivity; rewrite ?app_nil_r, <- ?app_assoc; reflexivity.
    + intros inc st ac next. destruct (Pv inc st (ac + 1) next) as [ws [next' [Sw P]]]. exists (VList ws), next'. split; [|split; [apply list_got, Sw|exact I]].
      cbn [ConfigParser_Model.parse_value]. unfold its2. rewrite !map_app, !inode_layout, <- !app_assoc.
      match goal with |- context [parse_values ?p (NTok TOpenSquare :: ?x) ?a ?b ?c] => change (parse_values p (NTok TOpenSquare :: x) a b c) with (parse_values p x a b c) end.
      rewrite layout_values, P, layout_values. cbn [parse_values is_value_node bind]. rewrite app_nil_r. reflexivity.
Qed.
Lemma list_reading : forall vs, Forall (reading o ns) vs -> reading o ns (VList vs).
Proof.
  intros vs R at_ indent. destruct (list_array vs R at_ indent) as [its [e [Rd [Rn [Re [Fi St]]]]]]. destruct (fine_parts _ _ Fi) as [Ck [Fo Fm]].
  destruct (array_from its e Rn Re Ck Fo Fm) as [u [Tx [Ch A]]]. exists (NArray (NTok TOpenSquare :: map inode its ++ [NTok TCloseSquare])), (TOpenSquare :: u).
  assert (P : piece_ok (NArray (NTok TOpenSquare :: map inode its ++ [NTok TCloseSquare])) (TOpenSquare :: u)).
  { split; [exact Tx|]. split; [exact Ch|]. split; [reflexivity|]. exists TOpenSquare, u. split; [reflexivity|]. split; [reflexivity|exact A]. }
  split; [rewrite Tx; exact Rd|]. split; [apply piece_value, P|]. split; [discriminate|]. split; [auto|]. split; [discriminate|]. split; [reflexivity|exact St].
Qed.
Lemma reference_reading : forall n p q l, p <> [] -> Forall (Forall quotable) p -> word_key (hd [] p) -> reading o ns (VRef n p q l).
Proof.
  intros n p q l N Q W at_ indent. pose proof (reference_piece p q N Q W) as P. pose proof (reference_text p q) as T. exists (NSimple (reference_token p q)), [reference_token p q].
  assert (Tx : render_tokens [reference_token p q] = token_text (reference_token p q)) by (cbn [render_tokens map concat]; apply app_nil_r).
  split; [rewrite Tx, T; reflexivity|]. split; [apply piece_value, P|]. split; [discriminate|]. split; [auto|].
  split; [intros _; split; [intros k r; apply sp_tok; [apply reference_reads; assumption|constructor]|rewrite Tx, T; eexists; reflexivity]|]. split; [reflexivity|].
  intros inc st ac next. destruct (path_toks_parse p N) as [ts E]. exists (VRef next p q 0), (S next). split; [|split; [split; [constructor|reflexivity]|exact I]].
  cbn [ConfigParser_Model.parse_value]. unfold reference_token. cbn [token_value]. unfold str in *. rewrite E. reflexivity.
Qed.
Lemma pieces_read : forall vs at_ indent i, Forall (reading o ns) vs -> Forall (fun v => is_concatenation v = false) vs -> exists ps,
  sequence (concat_items o ns at_ indent false i vs) = Ok (render_tokens (ptoks ps)) /\ Forall (fun p => piece_ok (fst p) (snd p)) ps /\ Forall2 spelt_piece vs ps /\
  forall inc st ac next, exists ws next', Forall2 got vs ws /\ parse_values (parse inc) (map fst ps) st ac next = Ok (ws, next').
Proof.
  induction vs as [|v vs IH]; intros at_ indent i R F; [exists []; repeat split; try constructor; exists [], next; repeat constructor|].
  inversion R as [|? ? V R']; subst. inversion F as [|? ? Vc F']; subst. destruct (IH at_ indent (S i) R' F') as [ps [Q [Po [Sp Pv]]]].
  destruct (V (at_ ++ [InList i]) indent) as [n [ts [E [_ [_ [Pc [Rf [Vn St]]]]]]]]. specialize (Pc Vc). exists ((n, ts) :: ps). split; [|split; [constructor; assumption|split]].
  - cbn [concat_items sequence]. rewrite E, Q. cbn [bind]. unfold ptoks. cbn [map snd concat]. rewrite render_app'. reflexivity.
  - constructor; [|exact Sp]. split; [apply Pc|exact Rf].
  - intros inc st ac next. destruct (St inc st ac next) as [w [next1 [P [A _]]]]. destruct (Pv inc st ac next1) as [ws [next' [As P2]]]. exists (w :: ws), next'. split; [constructor; assumption|].
    cbn [map fst parse_values]. rewrite Vn, P. cbn [bind]. rewrite P2. reflexivity.
Qed.
Lemma concat_reading : forall vs, (2 <= List.length vs)%nat -> apart vs -> Forall (fun v => is_concatenation v = false) vs -> Forall (reading o ns) vs -> reading o ns (VConcat vs).
Proof.
  intros vs L Ap Fc R at_ indent. destruct (pieces_read vs at_ indent 0 R Fc) as [ps [Q [Po [Sp Pv]]]]. exists (NConcat (map fst ps)), (ptoks ps).
  split; [change (render o ns (VConcat vs) [] at_ indent false) with (t <- sequence (concat_items o ns at_ indent false 0 vs) ;; Ok (key_text o [] (VConcat vs) ++ t)); rewrite Q; reflexivity|].
  split; [apply concat_value; [rewrite <- (Forall2_length _ _ _ _ _ Sp); exact L|exact Po|apply (pieces_spelt vs); assumption]|]. split; [discriminate|]. split; [discriminate|]. split; [discriminate|]. split; [reflexivity|].
  intros inc st ac next. destruct (Pv inc st ac next) as [ws [next' [As P]]]. exists (VConcat ws), next'. assert (Aa : Forall2 alike vs ws) by (clear - As; induction As as [|x y la lb [X _] F IH]; constructor; assumption).
  split; [|split; [split; [constructor; exact Aa|reflexivity]|exact I]].
  cbn [ConfigParser_Model.parse_value]. rewrite P. cbn [bind]. rewrite concatenate_apart; [reflexivity|rewrite <- (Forall2_length _ _ _ _ _ As); exact L|exact (apart_alike _ _ Aa Ap)|].
  clear - Aa Fc. induction Aa as [|a b la lb H As IH]; [constructor|]. inversion Fc; subst. constructor; [rewrite (proj1 (proj2 (alike_reference _ _ H))); assumption|auto].
Qed.

Lemma pending_reads : forall v, pending ms v -> (is_merge v = false -> reading o ns v) /\ (forall k, k <> [] -> Forall quotable k -> entry o ns k v).
Proof.
  assert (En : forall v, is_merge v = false -> reading o ns v -> (is_merge v = false -> reading o ns v) /\ (forall k, k <> [] -> Forall quotable k -> entry o ns k v)).
  { intros v N R. split; [auto|]. intros k K Q. apply plain_entry; auto. intros at_ indent. apply render_keyed, N. }
  assert (All : forall vs, Forall (fun v => pending ms v -> (is_merge v = false -> reading o ns v) /\ (forall k, k <> [] -> Forall quotable k -> entry o ns k v)) vs ->
    Forall (fun v => is_merge v = false) vs -> Forall (pending ms) vs -> Forall (reading o ns) vs).
  { intros vs IH N P. rewrite Forall_forall in *. intros v Hv. apply IH; auto. }
  intro v. induction v as [s|vs IH|r i m IH|n p q l|vs IH|vs IH|vs IH] using value_induction; intro P; pose proof (pending_inv _ _ P) as I.
  - apply En; [reflexivity|]. apply scalar_reading, I.
  - apply En; [reflexivity|]. apply list_reading. destruct I as [N F]. apply All; assumption.
  - apply En; [reflexivity|]. destruct I as [D F]. intros at_ indent.
    assert (Fe : Forall (fun kv => entry o ns (fst kv) (snd kv)) m).
    { rewrite Forall_forall in *. intros kv Hkv. destruct (F kv Hkv) as [K [Q P']]. apply (IH kv Hkv); assumption. }
    destruct (object_reading o ns r i m D Fe at_ indent false (or_intror eq_refl)) as [n [ts [R [Oo [Vn St]]]]]. exists n, ts. cbn [andb] in R. rewrite app_nil_r in R.
    split; [exact R|]. split; [apply object_value, Oo|]. split; [auto|]. split; [intros _; apply object_piece; assumption|]. split; [discriminate|]. split; assumption.
  - apply En; [reflexivity|]. destruct I as [N [Q W]]. apply reference_reading; assumption.
  - apply En; [reflexivity|]. destruct I as [L [Ap [Fc [N F]]]]. apply concat_reading; auto.
  - destruct I as [E [-> [L [N F]]]]. split; [intro X; destruct vs as [|[] vs]; discriminate X|]. intros k K Q. apply merge_entry; auto.
  - destruct I as [E [-> [L [N F]]]]. split; [intro X; destruct vs as [|[] vs]; discriminate X|]. intros k K Q. apply merge_entry; auto.
Qed.
End Rendering.
