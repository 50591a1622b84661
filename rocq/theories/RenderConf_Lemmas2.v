(** What is rendered as HOCON is read back. *)
From Verif Require Import Base BaseLemmas Util_Model Num_Model Path_Model Path_Spec Path_Lemmas Token_Model Token_Spec Token_Lemmas Token_Lemmas2 PathParser_Model PathParser_Spec PathParser_Lemmas PathParser_Lemmas2 PathParser_Lemmas3 Doc_Model Doc_Lemmas Edit_Model Value_Model Value_Spec Value_Lemmas Concat_Model ConfigParser_Model Json_Lemmas2 Render_Model Render_Spec Render_Lemmas Render_Lemmas2 Render_Lemmas3 Render_Lemmas4 Render_Lemmas5 JsonEdit_Lemmas JsonEdit_Lemmas2 JsonEdit_Lemmas7 JsonEdit_Spec ConfEdit_Spec ConfEdit_Lemmas7 ConfText_Spec ConfText_Lemmas ConfText_Lemmas2 ConfText_Lemmas3 ConfText_Lemmas5 ConfText_Lemmas6 ConfText_Lemmas7 ConfText_Lemmas8 ConfText_Lemmas11 ConfText_Lemmas12 RenderConf_Lemmas.
From Coq Require Import Permutation.

(** ** Words without quotes *)
Lemma prefix_no : forall p s, starts_with_str s p = false -> forall r, s <> p ++ r.
Proof.
  induction p as [|c p IH]; intros s H r; [destruct s; discriminate H|]. destruct s as [|d s]; [discriminate|]. cbn [starts_with_str] in H. intro E. injection E as -> E.
  rewrite Ascii.eqb_refl in H. cbn [andb] in H. exact (IH s H r E).
Qed.
Lemma unquoted_cases : forall s, render_string_unquoted_if_possible s = render_json_string s \/
  (render_string_unquoted_if_possible s = s /\ plain_key s /\ word_key s /\ s <> lit "include").
Proof.
  intros [|c s]; [left; reflexivity|]. unfold render_string_unquoted_if_possible. destruct (isdigit c || Ascii.eqb c "-") eqn:D; [left; reflexivity|].
  destruct (starts_with_str (c :: s) (lit "include") || starts_with_str (c :: s) (lit "true") || starts_with_str (c :: s) (lit "false") || starts_with_str (c :: s) (lit "null") || starts_with_str (c :: s) (lit "//")) eqn:P; [left; reflexivity|].
  destruct (forallb (fun c => isalpha c || isdigit c || Ascii.eqb c "-") (c :: s)) eqn:A; [|left; reflexivity]. right. split; [reflexivity|].
  apply orb_false_iff in P. destruct P as [P _]. apply orb_false_iff in P. destruct P as [P Pn]. apply orb_false_iff in P. destruct P as [P Pf]. apply orb_false_iff in P. destruct P as [Pi Pt].
  split; [|split].
  - split; [discriminate|]. rewrite forallb_forall in A. apply Forall_forall. intros x X. specialize (A x X). unfold plain_char, isalnum.
    apply orb_true_iff in A. destruct A as [A|A]; [left; exact A|right; left; apply Ascii.eqb_eq, A].
  - right. split; [|split; [|split]; apply prefix_no; assumption]. left. cbn [forallb] in A. apply andb_true_iff in A. destruct A as [A _]. apply orb_false_iff in D. destruct D as [D1 D2]. rewrite D1, D2, !orb_false_r in A. exact A.
  - intro E. apply (prefix_no _ _ Pi []). rewrite app_nil_r. exact E.
Qed.
Lemma sure_key : forall k, Forall quotable k -> exists tk, sure tk k /\ token_text (tk k) = render_string_unquoted_if_possible k.
Proof.
  intros k Q. destruct (unquoted_cases k) as [E|[E [P [W I]]]]; rewrite E; [exists JsonEdit_Lemmas7.quoted_key|exists TUnquoted]; (split; [|reflexivity]); [apply quoted_sure, Q|apply plain_sure; assumption].
Qed.

(** ** Values of one token *)
Lemma token_ok : forall t, Render_Lemmas3.reads true t [] -> no_nul (token_text t) -> is_comment t = false -> is_value_start t = true -> t <> TOpenCurly -> t <> TOpenSquare -> value_ok (NSimple t) [t].
Proof.
  intros t R N C V X Y. split; [reflexivity|]. split; [apply one_chunk; assumption|]. split; [exact C|]. split; [destruct t; discriminate|].
  intros fuel r St L. destruct fuel as [|fuel]; [cbn in L; lia|]. exists (NSimple t). split; [|split; reflexivity].
  apply (consolidate_one _ t [] r (NSimple t)); [destruct t; try discriminate V; try congruence; reflexivity|reflexivity|exact V|exact (reads_solid _ _ (reads_fuel _ _ R))|exact St].
Qed.
Lemma number_no_nul : forall c more, mem c first_number_chars = true -> Forall (fun c => mem c number_chars = true) more -> no_nul (c :: more).
Proof. intros c more F M [E|E]; [subst c; discriminate F|]. rewrite Forall_forall in M. specialize (M _ E). discriminate M. Qed.
Lemma scalar_ok : forall s t, scalar_token s t -> value_ok (NSimple t) [t] /\ exists w, ConfEdit_Spec.stands_for (NSimple t) w /\ same_contents (VScalar s) w.
Proof.
  intros s t H. pose proof (reads_scalar true s t [] H I I) as R. split.
  - apply token_ok; [exact R| | | | |..]; destruct H as [|b|x q F|n n' c more S F M T]; try reflexivity; try discriminate.
    + intro E. cbn in E. intuition discriminate.
    + intro E. destruct b; cbn in E; intuition discriminate.
    + apply quoted_text, F.
    + apply number_no_nul; assumption.
  - destruct (scalar_same s t H) as [s' [E S]]. exists (VScalar s'). split; [|exact S]. rewrite E. intros inc st ac next. reflexivity.
Qed.
Lemma word_ok : forall s q, plain_key s -> word_key s -> value_ok (NSimple (TUnquoted s)) [TUnquoted s] /\ exists w, ConfEdit_Spec.stands_for (NSimple (TUnquoted s)) w /\ same_contents (VScalar (SStr s q)) w.
Proof.
  intros s q P W. split.
  - pose proof (word_dotted s [] (Forall_cons _ P (Forall_nil _)) W) as Wr. cbn [dotted] in Wr. destruct P as [N F].
    assert (U : Forall (fun c => Uc c = true) s) by exact (Uc_dotted [s] (Forall_cons _ F (Forall_nil _))).
    apply token_ok; try reflexivity; try discriminate; [destruct s as [|c s]; [congruence|]; apply reads_word'; assumption|].
    intro E. rewrite Forall_forall in F. destruct (F _ E) as [X|[X|X]]; discriminate X.
  - exists (VScalar (SStr s false)). split; [intros inc st ac next; reflexivity|constructor].
Qed.

(** ** Layout *)
Lemma irun_app : forall a b p, irun p (a ++ b) = match irun p a with Some q => irun q b | None => None end.
Proof.
  induction a as [|i a IH]; intros b p; [reflexivity|]. cbn [app irun]. destruct i as [t|n ts]; [destruct (pass' p t); [apply IH|reflexivity]|]. destruct p; try reflexivity. apply IH.
Qed.
Lemma spaces_blank : forall w, spaces w -> ConfText_Spec.blank_text w = true.
Proof.
  intros w [N F]. unfold ConfText_Spec.blank_text. destruct w as [|c w]; [congruence|]. apply forallb_forall. rewrite Forall_forall in F. intros x X. rewrite (F x X). reflexivity.
Qed.
Lemma one_line_text : forall c, one_line c -> ConfText_Spec.line_text c = true.
Proof. intros c H. unfold ConfText_Spec.line_text. apply forallb_forall. intros x X. destruct (Ascii.eqb_spec x nl) as [->|]; [contradiction|reflexivity]. Qed.
Lemma gap_run : forall g, Render_Lemmas3.gap g -> irun Before (map IL g) = Some Before.
Proof.
  intros g G. induction G as [|w W|g G IH|c g C G IH|w c g W C G IH]; cbn [map irun]; unfold pass', pass; rewrite ?spaces_blank by assumption; rewrite ?one_line_text by assumption; try reflexivity; exact IH.
Qed.
Definition fine (P : node -> list token -> Prop) (its : list item) : Prop :=
  Forall (fun i => match i with IX n ts => chunk ts /\ P n ts /\ is_layout n = false /\ render_tokens ts = render_node n | IL _ => True end) its.
Lemma fine_app : forall P a b, fine P a -> fine P b -> fine P (a ++ b).
Proof. intros P a b A B. apply Forall_app. split; assumption. Qed.
Lemma fine_layout : forall P g, fine P (map IL g).
Proof. intros P g. induction g; constructor; auto. Qed.
Lemma fine_parts : forall P its, fine P its -> chunks its /\ Forall (fun i => match i with IX n ts => P n ts | IL _ => True end) its /\ firm its.
Proof.
  intros P its F. repeat split; (eapply Forall_impl; [|exact F]); intros [t|n ts] H; try exact I; destruct H as [A [B [C D]]]; auto.
Qed.
Lemma inode_layout : forall g, map inode (map IL g) = map layout_node g.
Proof. intro g. rewrite map_map. reflexivity. Qed.
Lemma layout_values : forall p g rest st ac next, parse_values p (map layout_node g ++ rest) st ac next = parse_values p rest st ac next.
Proof. intros p g rest st ac next. induction g as [|t g IH]; [reflexivity|]. cbn [map app parse_values]. destruct t; exact IH. Qed.
Lemma layout_fields : forall inc p g rest m st ac next, parse_object_nodes CONF inc p (map layout_node g ++ rest) m st ac next = parse_object_nodes CONF inc p rest m st ac next.
Proof. intros inc p g rest m st ac next. induction g as [|t g IH]; [reflexivity|]. cbn [map app]. destruct t; cbn [layout_node parse_object_nodes]; exact IH. Qed.
Lemma value_layout : forall n, is_value_node n = true -> is_layout n = false.
Proof. intros [] H; try discriminate H; reflexivity. Qed.

Lemma chop_end : forall a b n, List.length b = n -> chop n (a ++ b) = a.
Proof.
  intros a b n <-. unfold chop. rewrite app_length. replace (List.length a + List.length b - List.length b)%nat with (List.length a) by lia.
  rewrite firstn_app, Nat.sub_diag, firstn_all. apply app_nil_r.
Qed.

Section Rendering.
Variables (o : options) (ns : notes).
Hypothesis J : json o = false.
Hypothesis C : origin_comments o || comments o = true -> one_line_comments ns.
Notation parse inc := (ConfigParser_Model.parse_value CONF inc).
Notation line := (Render_Lemmas5.line o).
Notation closing := (Render_Lemmas5.closing o).

Definition reading (v : value) : Prop := forall at_ indent, exists n ts w,
  render o ns v [] at_ indent false = Ok (render_tokens ts) /\ value_ok n ts /\ (is_object v = true -> object_ok n ts) /\ is_value_node n = true /\ ConfEdit_Spec.stands_for n w /\ same_contents v w.

(** ** Lists *)
Lemma elements_read : forall vs v at_ indent i, reading v -> Forall reading vs ->
  exists its ws, sequence (list_items o ns at_ indent false i (v :: vs)) = Ok (render_tokens (itoks its) ++ lit "," ++ render_tokens line) /\
    irun Before its = Some Behind /\ fine value_ok its /\ Forall2 same_contents (v :: vs) ws /\
    forall inc rest st ac next, parse_values (parse inc) (map inode its ++ rest) st ac next = ('(us, nx) <- parse_values (parse inc) rest st ac next ;; Ok (ws ++ us, nx)).
Proof.
  induction vs as [|v' vs IH]; intros v at_ indent i V F;
    (destruct (before_element_gap o ns C indent (at_ ++ [InList i])) as [g [G [_ E]]]; destruct (V (at_ ++ [InList i]) (indent + 1)%nat) as [n [ts [w [R [Vo [_ [Vn [St Sm]]]]]]]]);
    pose proof (value_layout n Vn) as Ly; pose proof Vo as [Tx [Ch _]].
  - exists (map IL g ++ [IX n ts]), [w]. split; [|split; [|split; [|split]]].
    + cbn [list_items sequence]. rewrite E, R. cbn [bind]. rewrite itoks_app, itoks_layout, itoks_cons. cbn [itoks flat_map]. rewrite !app_nil_r, render_app', line_text', <- !app_assoc. reflexivity.
    + rewrite irun_app, (gap_run g G). reflexivity.
    + apply fine_app; [apply fine_layout|]. constructor; [auto|constructor].
    + constructor; [exact Sm|constructor].
    + intros inc rest st ac next. rewrite map_app, inode_layout, <- app_assoc, layout_values. cbn [map inode app parse_values]. rewrite Vn, St. cbn [bind]. reflexivity.
  - inversion F as [|? ? V' F']; subst. destruct (IH v' at_ indent (S i) V' F') as [its [ws [Q [Rn [Fi [Sw Pv]]]]]].
    exists (map IL g ++ IX n ts :: map IL (TComma :: line) ++ its), (w :: ws). split; [|split; [|split; [|split]]].
    + change (list_items o ns at_ indent false i (v :: v' :: vs)) with
        ((b <- before_element o ns indent (at_ ++ [InList i]) ;; t <- render o ns v [] (at_ ++ [InList i]) (indent + 1) false ;;
          Ok (b ++ t ++ lit "," ++ (if formatted o then [nl] else []))) :: list_items o ns at_ indent false (Datatypes.S i) (v' :: vs)).
      cbn [sequence]. rewrite Q, E, R. cbn [bind]. rewrite itoks_app, itoks_layout, itoks_cons, itoks_app, itoks_layout, !render_app', render_cons', line_text', <- !app_assoc. reflexivity.
    + rewrite irun_app, (gap_run g G). cbn [irun]. rewrite irun_app. assert (L : irun Behind (map IL (TComma :: line)) = Some Before) by (unfold Render_Lemmas5.line; destruct (formatted o); reflexivity). rewrite L. exact Rn.
    + apply fine_app; [apply fine_layout|]. constructor; [auto|]. apply fine_app; [apply fine_layout|exact Fi].
    + constructor; assumption.
    + intros inc rest st ac next. rewrite map_app, inode_layout, <- app_assoc, layout_values. cbn [map app]. rewrite map_app, inode_layout.
      change (inode (IX n ts)) with n. change (inode (IL TComma)) with (NTok TComma).
      cbn [parse_values]. rewrite Vn, St. change (is_value_node (NTok TComma)) with false. cbv iota. cbn [bind]. rewrite <- app_assoc, layout_values, Pv. destruct (parse_values (parse inc) rest st ac next) as [[us nx]|?|?]; reflexivity.
Qed.

(** ** Objects *)
Definition fsep : list token := if formatted o then [TNewline] else [TComma].
Lemma fsep_text : render_tokens fsep = field_end o.
Proof. unfold fsep, field_end. rewrite J, orb_false_r. destruct (formatted o); reflexivity. Qed.
Lemma field_read : forall k v at_ indent inner, k <> [] -> Forall quotable k -> writable v -> reading v ->
  exists g fc ts w, field_item o ns at_ indent inner (k, v) = Ok (render_tokens (g ++ ts) ++ field_end o) /\ Render_Lemmas3.gap g /\
    chunk ts /\ fieldly (NField fc) ts /\ render_tokens ts = render_node (NField fc) /\ same_contents v w /\
    forall inc st ac next, ConfigParser_Model.parse_field (parse inc) fc st ac next = Ok ([k], w, next).
Proof.
  intros k v at_ indent inner K Q W V. destruct (before_field_gap o ns C indent inner (at_ ++ [InField k])) as [g [G [_ E]]]. destruct (V (at_ ++ [InField k]) inner) as [n [tv [w [R [Vo [Oo [Vn [St Sm]]]]]]]].
  pose proof (value_layout n Vn) as Ly. destruct (sure_key k Q) as [tk [[_ Sk] Tk]]. specialize (Sk [] (or_introl eq_refl)).
  set (blank := if formatted o then [TIgnored (lit " ")] else []). assert (Gb : gapn blank) by (unfold blank; destruct (formatted o); [right; exists (lit " "); split; reflexivity|left; reflexivity]).
  assert (Kt : key_text o k v = render_string_unquoted_if_possible k ++ (if is_object v then (if formatted o then lit " " else []) else lit "=")) by (unfold key_text; destruct k; [congruence|]; rewrite J; reflexivity).
  set (fc := if is_object v then NPath ([k], [tk k]) :: map NTok blank ++ [n] else NPath ([k], [tk k]) :: map NTok [] ++ NTok TEquals :: map NTok [] ++ [n]).
  assert (Fd : exists ts, fieldly (NField fc) ts /\ chunk ts /\ render_tokens ts = render_nodes fc).
  { unfold fc. destruct (is_object v); [apply (field_object_ok _ blank n tv Sk Gb (Oo eq_refl) Ly)|]. apply (field_sep_ok _ [] TEquals [] n tv Sk); [left; reflexivity|right; reflexivity|left; reflexivity|exact Vo|exact Ly]. }
  destruct Fd as [ts [Fd [Ch Tx]]]. exists g, fc, ts, w.
  assert (Nt : render_nodes fc = key_text o k v ++ render_tokens tv).
  { rewrite Kt. pose proof Vo as [Tv _]. rewrite Tv, <- Tk. unfold fc. destruct (is_object v).
    - rewrite render_nodes_cons. unfold render_nodes. rewrite flat_map_app, node_gap, render_app'. cbn [flat_map]. rewrite app_nil_r. unfold render_node at 1. cbn [node_tokens snd]. unfold blank. destruct (formatted o); cbn; rewrite ?app_nil_r, <- ?app_assoc; reflexivity.
    - rewrite render_nodes_cons. cbn [map app]. rewrite !render_nodes_cons. unfold render_node at 1. cbn [node_tokens snd render_tokens map concat]. unfold render_nodes at 1. cbn [flat_map]. rewrite app_nil_r, <- app_assoc. cbn. rewrite app_nil_r. reflexivity. }
  split; [|split; [exact G|split; [exact Ch|split; [exact Fd|split; [exact Tx|split; [exact Sm|]]]]]].
  - unfold field_item. cbn [fst snd]. rewrite E, (render_key o ns v k _ _ _ W), R. cbn [bind]. rewrite render_app', Tx, Nt, <- !app_assoc. reflexivity.
  - intros inc st ac next. unfold ConfigParser_Model.parse_field, fc.
    destruct (is_object v); cbn [field_path bind app map]; [|cbn [is_plus_equals andb parse_field_value is_value_node]; rewrite Vn, St; destruct n; try discriminate Vn; reflexivity].
    assert (Pe : is_plus_equals (NPath ([k], [tk k]) :: map NTok blank ++ [n]) = false) by (unfold blank; destruct (formatted o); destruct n; try discriminate Vn; reflexivity).
    rewrite Pe. cbn [andb].
    assert (Pv : forall s a x, parse_field_value (parse inc) (NPath ([k], [tk k]) :: map NTok blank ++ [n]) s a x = Ok (w, x)) by (intros; unfold blank; destruct (formatted o); cbn [map app parse_field_value is_value_node]; rewrite Vn; apply St).
    rewrite Pv. reflexivity.
Qed.
Lemma fields_read : forall l k v at_ indent inner, Forall (fun kv => fst kv <> [] /\ Forall quotable (fst kv) /\ writable (snd kv) /\ reading (snd kv)) ((k, v) :: l) ->
  exists its F, sequence (map (field_item o ns at_ indent inner) ((k, v) :: l)) = Ok (render_tokens (itoks its) ++ field_end o) /\
    irun Before its = Some Behind /\ fine fieldly its /\ same_entries ((k, v) :: l) F /\
    forall inc rest m0 st ac next, NoDup (map fst ((k, v) :: l)) -> (forall q, In q (map fst ((k, v) :: l)) -> ~ In q (map fst m0)) ->
      parse_object_nodes CONF inc (parse inc) (map inode its ++ rest) m0 st ac next = parse_object_nodes CONF inc (parse inc) rest (m0 ++ F) st ac next.
Proof.
  induction l as [|[k' v'] l IH]; intros k v at_ indent inner Fa; inversion Fa as [|? ? [K [Q [W V]]] Fa']; subst; cbn [fst snd] in *;
    destruct (field_read k v at_ indent inner K Q W V) as [g [fc [ts [w [E [G [Ch [Fd [Tx [Sm Pf]]]]]]]]]].
  - exists (map IL g ++ [IX (NField fc) ts]), [(k, w)]. split; [|split; [|split; [|split]]].
    + cbn [map sequence]. rewrite E. cbn [bind]. rewrite itoks_app, itoks_layout, itoks_cons. cbn [itoks flat_map]. rewrite !app_nil_r. reflexivity.
    + rewrite irun_app, (gap_run g G). reflexivity.
    + apply fine_app; [apply fine_layout|]. constructor; [auto|constructor].
    + constructor; [split; [reflexivity|exact Sm]|constructor].
    + intros inc rest m0 st ac next _ Hn. rewrite map_app, inode_layout, <- app_assoc, layout_fields. cbn [map inode app parse_object_nodes]. rewrite Pf. cbn [bind add_field].
      assert (Z : find_key k m0 = None) by (apply find_key_none; apply Hn; left; reflexivity). rewrite Z. cbn [bind]. rewrite find_none_append by exact Z. reflexivity.
  - destruct (IH k' v' at_ indent inner Fa') as [its [F [Qs [Rn [Fi [Sw Pv]]]]]].
    exists (map IL g ++ IX (NField fc) ts :: map IL fsep ++ its), ((k, w) :: F). split; [|split; [|split; [|split]]].
    + change (map (field_item o ns at_ indent inner) ((k, v) :: (k', v') :: l)) with (field_item o ns at_ indent inner (k, v) :: map (field_item o ns at_ indent inner) ((k', v') :: l)).
      cbn [sequence]. rewrite E, Qs. cbn [bind]. rewrite itoks_app, itoks_layout, itoks_cons, itoks_app, itoks_layout, !render_app', fsep_text, <- !app_assoc. reflexivity.
    + rewrite irun_app, (gap_run g G). cbn [irun]. rewrite irun_app. assert (L : irun Behind (map IL fsep) = Some Before) by (unfold fsep; destruct (formatted o); reflexivity). rewrite L. exact Rn.
    + apply fine_app; [apply fine_layout|]. constructor; [auto|]. apply fine_app; [apply fine_layout|exact Fi].
    + constructor; [split; [reflexivity|exact Sm]|exact Sw].
    + intros inc rest m0 st ac next D Hn. cbn [map fst] in D, Hn. inversion D as [|? ? D1 D2]; subst.
      rewrite map_app, inode_layout, <- app_assoc, layout_fields. cbn [map app]. rewrite map_app, inode_layout. cbn [inode parse_object_nodes]. rewrite Pf. cbn [bind add_field].
      assert (Z : find_key k m0 = None) by (apply find_key_none; apply Hn; left; reflexivity). rewrite Z. cbn [bind]. rewrite find_none_append by exact Z.
      rewrite <- app_assoc, layout_fields, Pv; [rewrite <- app_assoc; reflexivity|exact D2|].
      intros q Hq. rewrite map_app, in_app_iff. intros [X|[<-|[]]]; [exact (Hn q (or_intror Hq) X)|exact (D1 Hq)].
Qed.
Lemma entries_object : forall r i m l F r' i', Permutation m l -> NoDup (map fst m) -> same_entries l F -> same_contents (VObj r i m) (VObj r' i' F).
Proof.
  intros r i m l F r' i' P D Se. apply same_objects.
  - rewrite (Permutation_length P). exact (Forall2_length _ _ _ _ _ Se).
  - intros q u H. apply find_key_in in H. eapply Permutation_in in H; [|exact P].
    assert (D' : NoDup (map fst l)) by (eapply Permutation_NoDup; [apply Permutation_map, P|exact D]).
    assert (U : find_key q l = Some u) by (apply find_key_unique; assumption).
    revert U. clear -Se. induction Se as [|[a1 a2] [b1 b2] la lb [Q1 Q2] Se IH]; intro U; [discriminate|].
    cbn [fst snd] in *. subst b1. cbn [find_key] in *. destruct (str_eqb q a1); [injection U as <-; eauto|auto].
Qed.
(** The fields of an object, in their order, without braces. *)
Lemma object_fields_read : forall m at_ indent inner, m <> [] -> NoDup (map fst m) -> Forall (fun kv => fst kv <> [] /\ Forall quotable (fst kv) /\ writable (snd kv) /\ reading (snd kv)) m ->
  exists its F, sequence (map snd (sort_keys (object_items o ns at_ indent inner m))) = Ok (render_tokens (itoks its) ++ field_end o) /\
    irun Before its = Some Behind /\ fine fieldly its /\ (forall r i r' i', same_contents (VObj r i m) (VObj r' i' F)) /\
    forall inc rest st ac next, parse_object_nodes CONF inc (parse inc) (map inode its ++ rest) [] st ac next = parse_object_nodes CONF inc (parse inc) rest F st ac next.
Proof.
  intros m at_ indent inner Nm D Fa. pose proof (sort_perm m) as P. destruct (sort_keys m) as [|[k v] l] eqn:E; [apply Permutation_sym in P; apply Permutation_nil in P; elim Nm; exact P|].
  assert (Fs : Forall (fun kv => fst kv <> [] /\ Forall quotable (fst kv) /\ writable (snd kv) /\ reading (snd kv)) ((k, v) :: l)) by (eapply Permutation_Forall; [exact P|exact Fa]).
  assert (D' : NoDup (map fst ((k, v) :: l))) by (eapply Permutation_NoDup; [apply Permutation_map, P|exact D]).
  destruct (fields_read l k v at_ indent inner Fs) as [its [F [Q [Rn [Fi [Se Pv]]]]]]. exists its, F. split; [|split; [exact Rn|split; [exact Fi|split]]].
  - unfold object_items. rewrite (sort_map _ _ (field_item o ns at_ indent inner) m), E, map_map. cbn [snd]. exact Q.
  - intros. exact (entries_object _ _ m _ F _ _ P D Se).
  - intros inc rest st ac next. apply (Pv inc rest [] st ac next D'). intros q _ [].
Qed.

(** ** Values *)
Lemma closing_run : forall indent, irun Behind (map IL (closing indent)) = Some Before \/ irun Behind (map IL (closing indent)) = Some Behind.
Proof.
  intro indent. unfold Render_Lemmas5.closing. destruct (formatted o) eqn:Fo; [|right; reflexivity]. left. cbn [map irun]. change (pass' Behind TNewline) with (Some Before). cbv iota. apply gap_run, blank_gap.
Qed.
Lemma line_run : irun Before (map IL line) = Some Before.
Proof. unfold Render_Lemmas5.line. destruct (formatted o); reflexivity. Qed.
Lemma wrapped_run : forall its indent, irun Before its = Some Behind -> exists e, irun Before (map IL line ++ its ++ map IL (closing indent)) = Some e /\ e <> Remark.
Proof.
  intros its indent H. rewrite irun_app, line_run, irun_app, H. destruct (closing_run indent) as [E|E]; rewrite E; eexists; (split; [reflexivity|discriminate]).
Qed.
Lemma wrapped_text : forall its indent, render_tokens (itoks (map IL line ++ its ++ map IL (closing indent))) = (if formatted o then [nl] else []) ++ render_tokens (itoks its) ++ (if formatted o then [nl] ++ indent_text o indent else []).
Proof. intros its indent. rewrite !itoks_app, !itoks_layout, !render_app', line_text', closing_text. reflexivity. Qed.
Lemma array_text : forall its, firm its -> render_node (NArray (NTok TOpenSquare :: map inode its ++ [NTok TCloseSquare])) = lit "[" ++ render_tokens (itoks its) ++ lit "]".
Proof. intros its F. rewrite <- (inode_text its F). unfold render_node. cbn [node_tokens flat_map app]. rewrite render_cons', flat_map_app, render_app'. reflexivity. Qed.
Lemma object_text : forall its, firm its -> render_node (NObject (NTok TOpenCurly :: map inode its ++ [NTok TCloseCurly])) = lit "{" ++ render_tokens (itoks its) ++ lit "}".
Proof. intros its F. rewrite <- (inode_text its F). unfold render_node. cbn [node_tokens flat_map app]. rewrite render_cons', flat_map_app, render_app'. reflexivity. Qed.
Lemma object_reading : forall r i m at_ indent, NoDup (map fst m) -> Forall (fun kv => fst kv <> [] /\ Forall quotable (fst kv) /\ writable (snd kv) /\ reading (snd kv)) m ->
  exists n ts w, render o ns (VObj r i m) [] at_ indent false = Ok (render_tokens ts) /\ object_ok n ts /\ is_value_node n = true /\ ConfEdit_Spec.stands_for n w /\ same_contents (VObj r i m) w.
Proof.
  intros r i m at_ indent D Fa. rewrite render_object, J. cbn [orb negb andb key_text app]. destruct m as [|kv0 m0].
  - destruct (object_from [] Before eq_refl ltac:(discriminate) (Forall_nil _) (Forall_nil _) (Forall_nil _)) as [ts Ok_]. eexists. exists ts, (new_object []). pose proof Ok_ as [Tx _]. rewrite Tx.
    split; [reflexivity|]. split; [exact Ok_|]. split; [reflexivity|]. split; [intros inc st ac next; reflexivity|]. apply same_objects; [reflexivity|]. intros k v H. discriminate H.
  - set (m := kv0 :: m0) in *. destruct (object_fields_read m at_ indent (indent + 1) ltac:(discriminate) D Fa) as [its [F [Q [Rn [Fi [Sm Pv]]]]]].
    destruct (wrapped_run its indent Rn) as [e [Rw Re]]. set (its2 := map IL line ++ its ++ map IL (closing indent)) in *.
    assert (Fw : fine fieldly its2) by (apply fine_app; [apply fine_layout|apply fine_app; [exact Fi|apply fine_layout]]). destruct (fine_parts _ _ Fw) as [Ck [Fo Fm]].
    destruct (object_from its2 e Rw Re Ck Fo Fm) as [ts Ok_]. eexists. exists ts, (new_object F). pose proof Ok_ as [Tx _]. rewrite Tx. split; [|split; [exact Ok_|split; [reflexivity|split; [|apply Sm]]]].
    + rewrite (object_text its2 Fm). unfold its2. rewrite wrapped_text, Q. cbn [bind]. rewrite chop_end by reflexivity. rewrite ?app_nil_r, <- !app_assoc. reflexivity.
    + intros inc st ac next. cbn [ConfigParser_Model.parse_value]. unfold its2. rewrite !map_app, !inode_layout, <- !app_assoc.
      change (parse_object_nodes CONF inc (parse inc) (NTok TOpenCurly :: map layout_node line ++ map inode its ++ map layout_node (closing indent) ++ [NTok TCloseCurly]) [] st ac next)
        with (parse_object_nodes CONF inc (parse inc) (map layout_node line ++ map inode its ++ map layout_node (closing indent) ++ [NTok TCloseCurly]) [] st ac next).
      rewrite layout_fields, Pv, layout_fields. reflexivity.
Qed.
Lemma writable_reading : forall v, writable v -> reading v.
Proof.
  intro v. induction v as [s|vs IH|r i m IH|n p q l|vs IH|vs IH|vs IH] using value_induction; intro W; try (inversion W; fail); intros at_ indent.
  - assert (N : forall tok, scalar_token s tok -> token_text tok = (match s with SStr t _ => render_string_unquoted_if_possible t | _ => scalar_text s end) ->
      exists n ts w, render o ns (VScalar s) [] at_ indent false = Ok (render_tokens ts) /\ value_ok n ts /\ (is_object (VScalar s) = true -> object_ok n ts) /\ is_value_node n = true /\ ConfEdit_Spec.stands_for n w /\ same_contents (VScalar s) w).
    { intros tok T E. destruct (scalar_ok s tok T) as [Vo [w [St Sm]]]. exists (NSimple tok), [tok], w. split; [|split; [exact Vo|split; [discriminate|split; [reflexivity|split; assumption]]]].
      cbn [render key_text app]. rewrite J. rewrite render_cons'. cbn [render_tokens map concat]. rewrite app_nil_r, E. destruct s; reflexivity. }
    inversion W as [|b|x q F|z t I D|z t I D|n' c more F M R| |]; subst.
    + apply (N (value_token SNull)); [constructor|reflexivity].
    + apply (N (value_token (SBool b))); [constructor|reflexivity].
    + destruct (unquoted_cases x) as [E|[E [P [Wk _]]]].
      * apply (N (TValue (SStr x true) (render_json_string x))); [constructor; exact F|symmetry; exact E].
      * destruct (word_ok x q P Wk) as [Vo [w [St Sm]]]. exists (NSimple (TUnquoted x)), [TUnquoted x], w. split; [|split; [exact Vo|split; [discriminate|split; [reflexivity|split; assumption]]]].
        cbn [render key_text app]. rewrite J, E. cbn. rewrite app_nil_r. reflexivity.
    + destruct (integer_spelled (SInt z t) z t (or_introl eq_refl) I D) as [tok [S E]]. exact (N tok S E).
    + destruct (integer_spelled (SLong z t) z t (or_intror eq_refl) I D) as [tok [S E]]. exact (N tok S E).
    + destruct (number_same s c more R) as [E1 E2]. apply (N (TValue s (c :: more))).
      * apply (st_number s s c more); assumption.
      * cbn [token_text]. rewrite <- E2. destruct s; try reflexivity. destruct E1 as [E1 _]. discriminate.
  - inversion W as [| | | | | |? F|]; subst. rewrite render_list. cbn [key_text app]. destruct vs as [|v vs].
    + destruct (array_value [] Before eq_refl ltac:(discriminate) (Forall_nil _) (Forall_nil _) (Forall_nil _)) as [ts Vo]. eexists. exists ts, (VList []). pose proof Vo as [Tx _]. rewrite Tx.
      split; [reflexivity|]. split; [exact Vo|]. split; [discriminate|]. split; [reflexivity|]. split; [intros inc st ac next; reflexivity|]. repeat constructor.
    + assert (R : Forall reading (v :: vs)) by (rewrite Forall_forall in *; intros x X; apply IH; auto).
      inversion R as [|? ? R1 R2]; subst. destruct (elements_read vs v at_ indent 0%nat R1 R2) as [its [ws [Q [Rn [Fi [Sw Pv]]]]]].
      destruct (wrapped_run its indent Rn) as [e [Rw Re]]. set (its2 := map IL line ++ its ++ map IL (closing indent)) in *.
      assert (Fw : fine value_ok its2) by (apply fine_app; [apply fine_layout|apply fine_app; [exact Fi|apply fine_layout]]). destruct (fine_parts _ _ Fw) as [Ck [Fo Fm]].
      destruct (array_value its2 e Rw Re Ck Fo Fm) as [ts Vo]. eexists. exists ts, (VList ws). pose proof Vo as [Tx _]. rewrite Tx. split; [|split; [exact Vo|split; [discriminate|split; [reflexivity|split; [|constructor; exact Sw]]]]].
      * rewrite (array_text its2 Fm). unfold its2. rewrite wrapped_text, Q. cbn [bind]. rewrite line_text'. destruct (formatted o); rewrite chop_end by reflexivity; rewrite ?app_nil_r, <- ?app_assoc; reflexivity.
      * intros inc st ac next. cbn [ConfigParser_Model.parse_value]. unfold its2. rewrite !map_app, !inode_layout, <- !app_assoc.
        change (parse_values (parse inc) (NTok TOpenSquare :: map layout_node line ++ map inode its ++ map layout_node (closing indent) ++ [NTok TCloseSquare]) st (ac + 1) next)
          with (parse_values (parse inc) (map layout_node line ++ map inode its ++ map layout_node (closing indent) ++ [NTok TCloseSquare]) st (ac + 1) next).
        rewrite layout_values, Pv, layout_values. cbn [parse_values is_value_node bind]. rewrite app_nil_r. reflexivity.
  - inversion W as [| | | | | | |? ? ? D F]; subst.
    assert (Fs : Forall (fun kv => fst kv <> [] /\ Forall quotable (fst kv) /\ writable (snd kv) /\ reading (snd kv)) m).
    { rewrite Forall_forall in *. intros x X. destruct (F x X) as [F1 [F2 F3]]. repeat split; auto. }
    destruct (object_reading r i m at_ indent D Fs) as [n [ts [w [R [Oo [Vn [St Sm]]]]]]]. exists n, ts, w. split; [exact R|]. split; [apply object_value, Oo|]. auto.
Qed.
End Rendering.
