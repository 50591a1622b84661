(** Unresolved values as they are rendered are read back: lists, fields and objects. *)
From Verif Require Import Base BaseLemmas Util_Model Num_Model Path_Model Path_Spec Path_Lemmas Token_Model Token_Spec Token_Lemmas Token_Lemmas2 PathParser_Model PathParser_Spec PathParser_Lemmas PathParser_Lemmas2 PathParser_Lemmas3 Doc_Model Doc_Lemmas Edit_Model Value_Model Value_Spec Value_Lemmas Concat_Model ConfigParser_Model Json_Lemmas2 Render_Model Render_Spec Render_Lemmas Render_Lemmas2 Render_Lemmas3 Render_Lemmas4 Render_Lemmas5 JsonEdit_Lemmas JsonEdit_Lemmas2 JsonEdit_Lemmas7 JsonEdit_Spec ConfEdit_Spec ConfEdit_Lemmas7 ConfText_Spec ConfText_Lemmas ConfText_Lemmas2 ConfText_Lemmas3 ConfText_Lemmas5 ConfText_Lemmas6 ConfText_Lemmas7 ConfText_Lemmas8 ConfText_Lemmas11 ConfText_Lemmas12 RenderConf_Lemmas RenderConf_Lemmas2 RenderRef_Spec RenderRef_Lemmas RenderRef_Lemmas2.
From Coq Require Import Permutation.

Section Rendering.
Variables (o : options) (ns : notes).
Hypothesis C : origin_comments o || comments o = true -> one_line_comments ns.
Notation parse inc := (ConfigParser_Model.parse_value CONF inc).
Notation line := (Render_Lemmas5.line o).
Notation closing := (Render_Lemmas5.closing o).

(** An object that has been read takes fallbacks. *)
Definition fresh (w : value) : Prop := match w with VObj _ i _ => i = false | _ => True end.
Definition got (v w : value) : Prop := alike v w /\ is_resolved w = negb (is_open v).
Definition stands (n : node) (v : value) : Prop := forall inc st ac next, exists w next', parse inc n st ac next = Ok (w, next') /\ got v w /\ fresh w.
Definition reading (v : value) : Prop := forall at_ indent, exists n ts,
  render o ns v [] at_ indent false = Ok (render_tokens ts) /\ value_ok n ts /\ (is_object v = true -> object_ok n ts) /\ (is_concatenation v = false -> piece_ok n ts) /\
  (is_reference v = true -> (forall k r, spelt k ts r) /\ exists y, render_tokens ts = "$"%char :: y) /\ is_value_node n = true /\ stands n v.

(** ** Lists *)
Lemma elements_read : forall vs v at_ indent i, reading v -> Forall reading vs ->
  exists its, sequence (list_items o ns at_ indent false i (v :: vs)) = Ok (render_tokens (itoks its) ++ lit "," ++ render_tokens line) /\
    irun Before its = Some Behind /\ fine value_ok its /\
    forall inc st ac next, exists ws next', Forall2 got (v :: vs) ws /\
      forall rest, parse_values (parse inc) (map inode its ++ rest) st ac next = ('(us, nx) <- parse_values (parse inc) rest st ac next' ;; Ok (ws ++ us, nx)).
Proof.
  induction vs as [|v' vs IH]; intros v at_ indent i V F;
    (destruct (before_element_gap o ns C indent (at_ ++ [InList i])) as [g [G [_ E]]]; destruct (V (at_ ++ [InList i]) (indent + 1)%nat) as [n [ts [R [Vo [_ [_ [_ [Vn St]]]]]]]]);
    pose proof (value_layout n Vn) as Ly; pose proof Vo as [Tx [Ch _]].
  - exists (map IL g ++ [IX n ts]). split; [|split; [|split]].
    + cbn [list_items sequence]. rewrite E, R. cbn [bind]. rewrite itoks_app, itoks_layout, itoks_cons. cbn [itoks flat_map]. rewrite !app_nil_r, render_app', line_text', <- !app_assoc. reflexivity.
    + rewrite irun_app, (gap_run g G). reflexivity.
    + apply fine_app; [apply fine_layout|]. constructor; [auto|constructor].
    + intros inc st ac next. destruct (St inc st ac next) as [w [next' [P [A _]]]]. exists [w], next'. split; [constructor; [exact A|constructor]|].
      intro rest. rewrite map_app, inode_layout, <- app_assoc, layout_values. cbn [map inode app parse_values]. rewrite Vn, P. cbn [bind]. reflexivity.
  - inversion F as [|? ? V' F']; subst. destruct (IH v' at_ indent (S i) V' F') as [its [Q [Rn [Fi Pv]]]].
    exists (map IL g ++ IX n ts :: map IL (TComma :: line) ++ its). split; [|split; [|split]].
    + change (list_items o ns at_ indent false i (v :: v' :: vs)) with
        ((b <- before_element o ns indent (at_ ++ [InList i]) ;; t <- render o ns v [] (at_ ++ [InList i]) (indent + 1) false ;;
          Ok (b ++ t ++ lit "," ++ (if formatted o then [nl] else []))) :: list_items o ns at_ indent false (Datatypes.S i) (v' :: vs)).
      cbn [sequence]. rewrite Q, E, R. cbn [bind]. rewrite itoks_app, itoks_layout, itoks_cons, itoks_app, itoks_layout, !render_app', render_cons', line_text', <- !app_assoc. reflexivity.
    + rewrite irun_app, (gap_run g G). cbn [irun]. rewrite irun_app. assert (L : irun Behind (map IL (TComma :: line)) = Some Before) by (unfold Render_Lemmas5.line; destruct (formatted o); reflexivity). rewrite L. exact Rn.
    + apply fine_app; [apply fine_layout|]. constructor; [auto|]. apply fine_app; [apply fine_layout|exact Fi].
    + intros inc st ac next. destruct (St inc st ac next) as [w [next1 [P [A _]]]]. destruct (Pv inc st ac next1) as [ws [next' [As Q2]]]. exists (w :: ws), next'. split; [constructor; assumption|].
      intro rest. rewrite map_app, inode_layout, <- app_assoc, layout_values. cbn [map app]. rewrite map_app, inode_layout.
      change (inode (IX n ts)) with n. change (inode (IL TComma)) with (NTok TComma).
      cbn [parse_values]. rewrite Vn, P. change (is_value_node (NTok TComma)) with false. cbv iota. cbn [bind]. rewrite <- app_assoc, layout_values, Q2. destruct (parse_values (parse inc) rest st ac next') as [[us nx]|?|?]; reflexivity.
Qed.

(** ** Fields *)
Definition fieldly_of (k : str) (n : node) (text : str) : Prop := exists fc ts, fieldly (NField fc) ts /\ chunk ts /\ render_tokens ts = render_node (NField fc) /\ render_tokens ts = text /\
  forall inc st ac next w nx, parse inc n (st ++ [[k]]) ac next = Ok (w, nx) -> ConfigParser_Model.parse_field (parse inc) fc st ac next = Ok ([k], w, nx).
Lemma field_nodes_text : forall fc, render_nodes fc = render_node (NField fc).
Proof. intro fc. reflexivity. Qed.
Lemma gaps_value : forall inc g n s a x, gapn g -> is_value_node n = true -> parse_field_value (parse inc) (map NTok g ++ [n]) s a x = parse inc n s a x.
Proof. intros inc g n s a x G V. destruct G as [->|[w [-> _]]]; cbn [map app parse_field_value is_value_node]; rewrite V; reflexivity. Qed.
Lemma parsed_field : forall inc k ts g sep g2 n st ac next w nx, gapn g -> gapn g2 -> (sep = [] \/ sep = [NTok TColon] \/ sep = [NTok TEquals]) -> is_value_node n = true -> parse inc n (st ++ [[k]]) ac next = Ok (w, nx) ->
  ConfigParser_Model.parse_field (parse inc) (NPath ([k], ts) :: map NTok g ++ sep ++ map NTok g2 ++ [n]) st ac next = Ok ([k], w, nx).
Proof.
  intros inc k ts g sep g2 n st ac next w nx G G2 S V P. unfold ConfigParser_Model.parse_field. cbn [field_path bind].
  assert (Pe : is_plus_equals (NPath ([k], ts) :: map NTok g ++ sep ++ map NTok g2 ++ [n]) = false).
  { destruct G as [->|[w1 [-> _]]], G2 as [->|[w2 [-> _]]], S as [->|[-> | ->]]; destruct n; try discriminate V; reflexivity. }
  rewrite Pe. cbn [andb].
  assert (Pv : forall s a x, parse_field_value (parse inc) (NPath ([k], ts) :: map NTok g ++ sep ++ map NTok g2 ++ [n]) s a x = parse inc n s a x).
  { intros s a x. cbn [parse_field_value is_value_node]. destruct G as [->|[w1 [-> _]]], S as [->|[-> | ->]]; cbn [map app parse_field_value is_value_node]; apply gaps_value; assumption. }
  rewrite Pv. cbv iota. match goal with |- bind ?x _ = _ => change x with (parse inc n (st ++ [[k]]) ac next) end. rewrite P. reflexivity.
Qed.
Definition sp : list token := if formatted o then [TIgnored (lit " ")] else [].
Lemma sp_gapn : gapn sp.
Proof. unfold sp. destruct (formatted o); [right; exists (lit " "); split; reflexivity|left; reflexivity]. Qed.
Lemma sp_nodes : render_nodes (map NTok sp) = if formatted o then lit " " else [].
Proof. unfold sp. destruct (formatted o); reflexivity. Qed.
Lemma nodes_app : forall a b, render_nodes (a ++ b) = render_nodes a ++ render_nodes b.
Proof. intros a b. unfold render_nodes. rewrite flat_map_app. apply render_app'. Qed.
Lemma nodes_one : forall n, render_nodes [n] = render_node n.
Proof. intro n. unfold render_nodes, render_node. cbn [flat_map]. rewrite app_nil_r. reflexivity. Qed.
Lemma colon_field : forall k n tv, k <> [] -> Forall quotable k -> value_ok n tv -> is_value_node n = true ->
  fieldly_of k n (render_json_string k ++ (if formatted o then lit " : " else lit ":") ++ render_tokens tv).
Proof.
  intros k n tv K Q Vo Vn. pose proof (value_layout n Vn) as Ly. destruct (quoted_sure k Q) as [_ Sk]. specialize (Sk [] (or_introl eq_refl)).
  destruct (field_sep_ok _ sp TColon sp n tv Sk sp_gapn (or_introl eq_refl) sp_gapn Vo Ly) as [ts [Fd [Ch Tx]]]. eexists. exists ts. split; [exact Fd|]. split; [exact Ch|]. split; [rewrite Tx; apply field_nodes_text|]. split.
  - rewrite Tx, render_nodes_cons, nodes_app, render_nodes_cons, nodes_app, nodes_one, sp_nodes, (proj1 Vo). unfold render_node at 1. cbn [node_tokens snd]. unfold JsonEdit_Lemmas7.quoted_key. cbn [render_tokens map concat token_text]. rewrite app_nil_r.
    unfold render_node at 1. cbn [node_tokens render_tokens map concat token_text]. destruct (formatted o); rewrite ?app_nil_r, <- ?app_assoc; reflexivity.
  - intros inc st ac next w nx P. change (NTok TColon :: map NTok sp ++ [n]) with ([NTok TColon] ++ map NTok sp ++ [n]). apply parsed_field; [exact sp_gapn|exact sp_gapn|auto|exact Vn|exact P].
Qed.
Lemma keyed_field : forall k v n tv, k <> [] -> Forall quotable k -> value_ok n tv -> (is_object v = true -> object_ok n tv) -> is_value_node n = true ->
  fieldly_of k n (key_text o k v ++ render_tokens tv).
Proof.
  intros k v n tv K Q Vo Oo Vn. pose proof (value_layout n Vn) as Ly. unfold key_text. destruct k as [|c k'] eqn:Ek; [congruence|]. rewrite <- Ek in *. clear Ek.
  destruct (json o) eqn:J; [rewrite <- app_assoc; apply colon_field; assumption|].
  destruct (sure_key k Q) as [tk [[_ Sk] Tk]]. specialize (Sk [] (or_introl eq_refl)). rewrite <- Tk. destruct (is_object v).
  - destruct (field_object_ok _ sp n tv Sk sp_gapn (Oo eq_refl) Ly) as [ts [Fd [Ch Tx]]]. eexists. exists ts. split; [exact Fd|]. split; [exact Ch|]. split; [rewrite Tx; apply field_nodes_text|]. split.
    + rewrite Tx, render_nodes_cons, nodes_app, nodes_one, sp_nodes, (proj1 Vo). unfold render_node at 1. cbn [node_tokens snd render_tokens map concat]. rewrite app_nil_r, <- app_assoc. reflexivity.
    + intros inc st ac next w nx P. change (map NTok sp ++ [n]) with (map NTok sp ++ [] ++ map NTok [] ++ [n]). apply parsed_field; [exact sp_gapn|left; reflexivity|auto|exact Vn|exact P].
  - destruct (field_sep_ok _ [] TEquals [] n tv Sk (or_introl eq_refl) (or_intror eq_refl) (or_introl eq_refl) Vo Ly) as [ts [Fd [Ch Tx]]]. eexists. exists ts. split; [exact Fd|]. split; [exact Ch|]. split; [rewrite Tx; apply field_nodes_text|]. split.
    + rewrite Tx. cbn [map app]. rewrite !render_nodes_cons. rewrite (proj1 Vo). unfold render_nodes. cbn [flat_map]. unfold render_node at 1. cbn [node_tokens snd render_tokens map concat]. rewrite !app_nil_r, <- app_assoc. reflexivity.
    + intros inc st ac next w nx P. change (map NTok [] ++ NTok TEquals :: map NTok [] ++ [n]) with (map NTok [] ++ [NTok TEquals] ++ map NTok [] ++ [n]). apply parsed_field; [left; reflexivity|left; reflexivity|auto|exact Vn|exact P].
Qed.

(** What is written for a field, one or several fields with the key [k]. *)
Definition ended (e : place) : Prop := e = Behind \/ (e = Before /\ formatted o = true /\ json o = false).
Definition entry (k : str) (v : value) : Prop := forall at_ indent inner, exists its e,
  field_item o ns at_ indent inner (k, v) = Ok (render_tokens (itoks its) ++ field_end o) /\ irun Before its = Some e /\ ended e /\ fine fieldly its /\
  forall inc m0 st ac next, find_key k m0 = None -> exists w next', got v w /\
    forall rest, parse_object_nodes CONF inc (parse inc) (map inode its ++ rest) m0 st ac next = parse_object_nodes CONF inc (parse inc) rest (m0 ++ [(k, w)]) st ac next'.
Lemma plain_entry : forall k v, k <> [] -> Forall quotable k -> (forall at_ indent, render o ns v k at_ indent false = (t <- render o ns v [] at_ indent false ;; Ok (key_text o k v ++ t))) -> reading v -> entry k v.
Proof.
  intros k v K Q Rk V at_ indent inner. destruct (before_field_gap o ns C indent inner (at_ ++ [InField k])) as [g [G [_ E]]]. destruct (V (at_ ++ [InField k]) inner) as [n [tv [R [Vo [Oo [_ [_ [Vn St]]]]]]]].
  destruct (keyed_field k v n tv K Q Vo Oo Vn) as [fc [ts [Fd [Ch [Tn [Tx Pf]]]]]]. exists (map IL g ++ [IX (NField fc) ts]), Behind.
  split; [|split; [rewrite irun_app, (gap_run g G); reflexivity|split; [left; reflexivity|split]]].
  - unfold field_item. cbn [fst snd]. rewrite E, Rk, R. cbn [bind]. rewrite itoks_app, itoks_layout, itoks_cons. cbn [itoks flat_map]. rewrite app_nil_r, render_app', Tx, <- !app_assoc. reflexivity.
  - apply fine_app; [apply fine_layout|]. constructor; [auto|constructor].
  - intros inc m0 st ac next Z. destruct (St inc (st ++ [[k]]) ac next) as [w [next' [P [A _]]]]. exists w, next'. split; [exact A|]. intro rest.
    rewrite map_app, inode_layout, <- app_assoc, layout_fields. cbn [map inode app parse_object_nodes]. rewrite (Pf _ _ _ _ _ _ P). cbn [bind add_field]. rewrite Z. cbn [bind]. rewrite find_none_append by exact Z. reflexivity.
Qed.

(** ** Objects *)
Definition fsep : list token := (if negb (formatted o) || json o then [TComma] else []) ++ (if formatted o then [TNewline] else []).
Lemma fsep_text : render_tokens fsep = field_end o.
Proof. unfold fsep, field_end. destruct (formatted o), (json o); reflexivity. Qed.
Lemma fsep_run : forall e, ended e -> irun e (map IL fsep) = Some Before.
Proof. intros e [->|[-> [F J]]]; unfold fsep; [destruct (formatted o), (json o); reflexivity|rewrite F, J; reflexivity]. Qed.
Definition alike_entries (m m' : fields) : Prop := Forall2 (fun a b => fst a = fst b /\ got (snd a) (snd b)) m m'.
Lemma fields_read : forall l k v at_ indent inner, Forall (fun kv => entry (fst kv) (snd kv)) ((k, v) :: l) ->
  exists its e, sequence (map (field_item o ns at_ indent inner) ((k, v) :: l)) = Ok (render_tokens (itoks its) ++ field_end o) /\
    irun Before its = Some e /\ ended e /\ fine fieldly its /\
    forall inc m0 st ac next, NoDup (map fst ((k, v) :: l)) -> (forall q, In q (map fst ((k, v) :: l)) -> ~ In q (map fst m0)) ->
      exists F next', alike_entries ((k, v) :: l) F /\
        forall rest, parse_object_nodes CONF inc (parse inc) (map inode its ++ rest) m0 st ac next = parse_object_nodes CONF inc (parse inc) rest (m0 ++ F) st ac next'.
Proof.
  induction l as [|[k' v'] l IH]; intros k v at_ indent inner Fa; inversion Fa as [|? ? En Fa']; subst; cbn [fst snd] in *;
    destruct (En at_ indent inner) as [its1 [e1 [E [Rn1 [Ed1 [Fi1 Pf]]]]]].
  - exists its1, e1. split; [cbn [map sequence]; rewrite E; cbn [bind]; rewrite app_nil_r; reflexivity|]. split; [exact Rn1|]. split; [exact Ed1|]. split; [exact Fi1|].
    intros inc m0 st ac next _ Hn. assert (Z : find_key k m0 = None) by (apply find_key_none; apply Hn; left; reflexivity). destruct (Pf inc m0 st ac next Z) as [w [next' [A P]]].
    exists [(k, w)], next'. split; [constructor; [split; [reflexivity|exact A]|constructor]|exact P].
  - destruct (IH k' v' at_ indent inner Fa') as [its [e [Qs [Rn [Ed [Fi Pv]]]]]].
    exists (its1 ++ map IL fsep ++ its), e. split; [|split; [|split; [exact Ed|split]]].
    + change (map (field_item o ns at_ indent inner) ((k, v) :: (k', v') :: l)) with (field_item o ns at_ indent inner (k, v) :: map (field_item o ns at_ indent inner) ((k', v') :: l)).
      cbn [sequence]. rewrite E, Qs. cbn [bind]. rewrite !itoks_app, itoks_layout, !render_app', fsep_text, <- !app_assoc. reflexivity.
    + rewrite irun_app, Rn1, irun_app, (fsep_run _ Ed1). exact Rn.
    + apply fine_app; [exact Fi1|]. apply fine_app; [apply fine_layout|exact Fi].
    + intros inc m0 st ac next D Hn. cbn [map fst] in D, Hn. inversion D as [|? ? D1 D2]; subst.
      assert (Z : find_key k m0 = None) by (apply find_key_none; apply Hn; left; reflexivity). destruct (Pf inc m0 st ac next Z) as [w [next1 [A P]]].
      destruct (Pv inc (m0 ++ [(k, w)]) st ac next1 D2) as [F [next' [As P2]]].
      { intros q Hq. rewrite map_app, in_app_iff. intros [X|[<-|[]]]; [exact (Hn q (or_intror Hq) X)|exact (D1 Hq)]. }
      exists ((k, w) :: F), next'. split; [constructor; [split; [reflexivity|exact A]|exact As]|]. intro rest.
      rewrite !map_app, inode_layout, <- !app_assoc, P, layout_fields, P2, <- app_assoc. reflexivity.
Qed.
Lemma entries_object : forall r i m l F r' i', Permutation m l -> NoDup (map fst m) -> alike_entries l F -> alike (VObj r i m) (VObj r' i' F).
Proof.
  intros r i m l F r' i' P D Se. apply alike_objects.
  - rewrite (Permutation_length P). exact (Forall2_length _ _ _ _ _ Se).
  - intros q u H. apply find_key_in in H. eapply Permutation_in in H; [|exact P].
    assert (D' : NoDup (map fst l)) by (eapply Permutation_NoDup; [apply Permutation_map, P|exact D]).
    assert (U : find_key q l = Some u) by (apply find_key_unique; assumption).
    revert U. clear -Se. induction Se as [|[a1 a2] [b1 b2] la lb [Q1 [Q2 _]] Se IH]; intro U; [discriminate|].
    cbn [fst snd] in *. subst b1. cbn [find_key] in *. destruct (str_eqb q a1); [injection U as <-; eauto|auto].
Qed.
Lemma open_object : forall r i m, is_open (VObj r i m) = existsb (fun kv => is_open (snd kv)) m.
Proof. intros r i m. induction m as [|[k v] m IH]; [reflexivity|]. cbn [existsb snd]. rewrite <- IH. reflexivity. Qed.
Lemma existsb_perm : forall A (f : A -> bool) a b, Permutation a b -> existsb f a = existsb f b.
Proof. intros A f a b P. induction P; cbn [existsb]; [reflexivity|rewrite IHP; reflexivity|rewrite !orb_assoc, (orb_comm (f y)); reflexivity|congruence]. Qed.
Lemma entries_resolved : forall r i m l F, Permutation m l -> alike_entries l F -> fields_resolved F = negb (is_open (VObj r i m)).
Proof.
  intros r i m l F P Se. rewrite open_object, (existsb_perm _ _ _ _ P). clear P. unfold fields_resolved. induction Se as [|[a1 a2] [b1 b2] la lb [_ [_ Q]] Se IH]; [reflexivity|].
  cbn [existsb forallb snd] in *. rewrite IH, Q, negb_orb. reflexivity.
Qed.
Lemma list_got : forall vs ws, Forall2 got vs ws -> got (VList vs) (VList ws).
Proof.
  intros vs ws F. split.
  - constructor. induction F as [|v w vs ws [A _] F IH]; constructor; assumption.
  - cbn [is_resolved is_open]. induction F as [|v w vs ws [_ Q] F IH]; [reflexivity|]. cbn [forallb existsb]. rewrite IH, Q, negb_orb. reflexivity.
Qed.
(** The fields of an object, in their order, without braces. *)
Lemma object_fields_read : forall m at_ indent inner, m <> [] -> NoDup (map fst m) -> Forall (fun kv => entry (fst kv) (snd kv)) m ->
  exists its e, sequence (map snd (sort_keys (object_items o ns at_ indent inner m))) = Ok (render_tokens (itoks its) ++ field_end o) /\
    irun Before its = Some e /\ ended e /\ fine fieldly its /\
    forall inc st ac next, exists F next', (forall r i, got (VObj r i m) (new_object F)) /\
      forall rest, parse_object_nodes CONF inc (parse inc) (map inode its ++ rest) [] st ac next = parse_object_nodes CONF inc (parse inc) rest F st ac next'.
Proof.
  intros m at_ indent inner Nm D Fa. pose proof (sort_perm m) as P. destruct (sort_keys m) as [|[k v] l] eqn:E; [apply Permutation_sym in P; apply Permutation_nil in P; elim Nm; exact P|].
  assert (Fs : Forall (fun kv => entry (fst kv) (snd kv)) ((k, v) :: l)) by (eapply Permutation_Forall; [exact P|exact Fa]).
  assert (D' : NoDup (map fst ((k, v) :: l))) by (eapply Permutation_NoDup; [apply Permutation_map, P|exact D]).
  destruct (fields_read l k v at_ indent inner Fs) as [its [e [Q [Rn [Ed [Fi Pv]]]]]]. exists its, e. split; [|split; [exact Rn|split; [exact Ed|split; [exact Fi|]]]].
  - unfold object_items. rewrite (sort_map _ _ (field_item o ns at_ indent inner) m), E, map_map. cbn [snd]. exact Q.
  - intros inc st ac next. destruct (Pv inc [] st ac next D') as [F [next' [As P2]]]; [intros q _ []|]. exists F, next'. split; [|exact P2]. intros r i. split; [exact (entries_object _ _ m _ F _ _ P D As)|exact (entries_resolved _ _ m _ F P As)].
Qed.
Lemma closing_run : forall e indent, ended e -> exists e', irun e (map IL (closing indent)) = Some e' /\ (e' = Before \/ e' = Behind).
Proof.
  intros e indent Ed. unfold Render_Lemmas5.closing. destruct (formatted o) eqn:Fo.
  - exists Before. split; [|auto]. destruct Ed as [->|[-> _]]; cbn [map irun].
    + change (pass' Behind TNewline) with (Some Before). cbv iota. apply gap_run, blank_gap.
    + change (pass' Before TNewline) with (Some Before). cbv iota. apply gap_run, blank_gap.
  - exists Behind. split; [|auto]. destruct Ed as [->|[_ [X _]]]; [reflexivity|congruence].
Qed.
Lemma wrapped_run : forall its e indent, irun Before its = Some e -> ended e -> exists e', irun Before (map IL line ++ its ++ map IL (closing indent)) = Some e' /\ e' <> Remark.
Proof.
  intros its e indent H Ed. rewrite irun_app, line_run, irun_app, H. destruct (closing_run e indent Ed) as [e' [-> X]]. exists e'. split; [reflexivity|]. destruct X; congruence.
Qed.
Lemma object_reading : forall r i m, NoDup (map fst m) -> Forall (fun kv => entry (fst kv) (snd kv)) m -> forall at_ indent b, json o = true \/ b = false ->
  exists n ts, render o ns (VObj r i m) [] at_ indent b = Ok (render_tokens ts ++ if b && formatted o then [nl] else []) /\ object_ok n ts /\ is_value_node n = true /\ stands n (VObj r i m).
Proof.
  intros r i m D Fa at_ indent b Hb. rewrite render_object. assert (Bj : json o || negb b = true) by (destruct Hb as [-> | ->]; [reflexivity|apply orb_true_r]). rewrite Bj. cbn [key_text app]. destruct m as [|kv0 m0].
  - destruct (object_from [] Before eq_refl ltac:(discriminate) (Forall_nil _) (Forall_nil _) (Forall_nil _)) as [ts Ok_]. eexists. exists ts. pose proof Ok_ as [Tx _]. rewrite Tx.
    split; [reflexivity|]. split; [exact Ok_|]. split; [reflexivity|]. intros inc st ac next. eexists. eexists. split; [reflexivity|]. split; [|reflexivity]. split; [|reflexivity]. apply alike_objects; [reflexivity|]. intros k v H. discriminate H.
  - set (m := kv0 :: m0) in *. destruct (object_fields_read m at_ indent (indent + 1) ltac:(discriminate) D Fa) as [its [e0 [Q [Rn [Ed [Fi Pv]]]]]].
    destruct (wrapped_run its e0 indent Rn Ed) as [e [Rw Re]]. set (its2 := map IL line ++ its ++ map IL (closing indent)) in *.
    assert (Fw : fine fieldly its2) by (apply fine_app; [apply fine_layout|apply fine_app; [exact Fi|apply fine_layout]]). destruct (fine_parts _ _ Fw) as [Ck [Fo Fm]].
    destruct (object_from its2 e Rw Re Ck Fo Fm) as [ts Ok_]. eexists. exists ts. pose proof Ok_ as [Tx _]. rewrite Tx. split; [|split; [exact Ok_|split; [reflexivity|]]].
    + rewrite (object_text its2 Fm). unfold its2. rewrite wrapped_text, Q. cbn [bind]. rewrite chop_end by reflexivity. rewrite <- !app_assoc. reflexivity.
    + intros inc st ac next. destruct (Pv inc st ac next) as [F [next' [A P]]]. exists (new_object F), next'. split; [|split; [apply A|reflexivity]]. cbn [ConfigParser_Model.parse_value]. unfold its2. rewrite !map_app, !inode_layout, <- !app_assoc.
      match goal with |- parse_object_nodes _ _ ?p (NTok TOpenCurly :: ?x) ?a ?b ?c ?d = _ => change (parse_object_nodes CONF inc p (NTok TOpenCurly :: x) a b c d) with (parse_object_nodes CONF inc p x a b c d) end.
      rewrite layout_fields, P, layout_fields. reflexivity.
Qed.
End Rendering.
