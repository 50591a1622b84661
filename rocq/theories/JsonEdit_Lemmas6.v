(** Adding to the nodes of a JSON document. *)
From Verif Require Import Base BaseLemmas Util_Model Num_Model Path_Model Path_Spec Path_Lemmas Token_Model Token_Spec PathParser_Model Doc_Model Json_Lemmas2 Edit_Model Value_Model Value_Spec Value_Lemmas Render_Lemmas3 JsonEdit_Lemmas JsonEdit_Lemmas2 JsonEdit_Lemmas5.

(** ** Values *)
Fixpoint set_key (m : fields) (k : str) (v : value) : fields :=
  match m with [] => [] | (q, w) :: m' => if str_eqb k q then (q, v) :: m' else (q, w) :: set_key m' k v end.
Fixpoint add_m (p : path) (w : value) (m : fields) : fields :=
  match p with
  | [] => m
  | k :: p' =>
      match p' with
      | [] => m ++ [(k, w)]
      | _ :: _ =>
          match find_key k m with
          | Some (VObj _ _ m') => set_key m k (new_object (add_m p' w m'))
          | _ => m ++ [(k, new_object (add_m p' w []))]
          end
      end
  end.
(** No value that is not an object on the way *)
Fixpoint open_path (p : path) (m : fields) : Prop :=
  match p with
  | [] => True
  | k :: p' =>
      match p' with
      | [] => True
      | _ :: _ => match find_key k m with Some (VObj _ _ m') => open_path p' m' | Some _ => False | None => True end
      end
  end.

Lemma set_key_in : forall (m : fields) k v, In k (map fst m) -> map fst (set_key m k v) = map fst m.
Proof.
  induction m as [|[q w] m IH]; intros k v H; [destruct H|]. cbn [set_key]. destruct (str_eqb k q) eqn:E; [apply str_eqb_eq in E; subst; reflexivity|].
  cbn [map fst]. f_equal. apply IH. destruct H as [H|H]; [|exact H]. cbn in H. subst. rewrite (proj2 (str_eqb_eq k k) eq_refl) in E. discriminate.
Qed.
Lemma present_none : forall k p' m, find_key k m = None -> present (k :: p') m = false.
Proof.
  intros k p' m. induction m as [|[q w] m IH]; intro H; [reflexivity|]. cbn [find_key] in H. destruct (str_eqb k q) eqn:E; [discriminate|]. cbn [present existsb]. rewrite E. apply IH, H.
Qed.
Lemma present_find : forall k p' m, NoDup (map fst m) -> present (k :: p') m = match find_key k m with
  | Some v => match p' with [] => true | _ :: _ => match v with VObj _ _ m' => present p' m' | _ => false end end | None => false end.
Proof.
  intros k p' m. induction m as [|[q w] m IH]; intro D; [reflexivity|]. inversion D as [|? ? D1 D2]; subst. cbn [find_key].
  change (present (k :: p') ((q, w) :: m)) with ((str_eqb k q && match p' with [] => true | _ :: _ => match w with VObj _ _ m' => present p' m' | _ => false end end) || present (k :: p') m).
  destruct (str_eqb k q) eqn:E; [|apply IH, D2]. apply str_eqb_eq in E. subst q. cbn [andb].
  rewrite (present_none k p' m), orb_false_r; [reflexivity|]. apply find_key_none. exact D1.
Qed.
Lemma append_nodup : forall (m : fields) k w, NoDup (map fst m) -> find_key k m = None -> NoDup (map fst (m ++ [(k, w)])).
Proof.
  intros m k w D N. rewrite map_app. cbn [map fst]. induction m as [|[q v] m IH]; [repeat constructor; intros []|]. cbn [map fst app find_key] in *. destruct (str_eqb k q) eqn:E; [discriminate|].
  inversion D as [|? ? D1 D2]; subst. constructor; [|apply IH; assumption]. rewrite in_app_iff. intros [K|[K|[]]]; [exact (D1 K)|]. subst q. rewrite (proj2 (str_eqb_eq k k) eq_refl) in E. discriminate.
Qed.
Lemma find_in_keys : forall (m : fields) k v, find_key k m = Some v -> In k (map fst m).
Proof.
  induction m as [|[q w] m IH]; intros k v H; [discriminate|]. cbn [find_key] in H. destruct (str_eqb k q) eqn:E; [apply str_eqb_eq in E; subst; left; reflexivity|right; eapply IH; exact H].
Qed.
Lemma add_nodup : forall p w m, p <> [] -> NoDup (map fst m) -> present p m = false -> open_path p m -> NoDup (map fst (add_m p w m)).
Proof.
  intros [|k p'] w m N D P O; [congruence|]. cbn [add_m]. rewrite present_find in P by exact D. destruct p' as [|k2 p'].
  - destruct (find_key k m) eqn:F; [discriminate|]. apply append_nodup; assumption.
  - cbn [open_path] in O. destruct (find_key k m) as [[]|] eqn:F; try destruct O; try (apply append_nodup; assumption). rewrite set_key_in; [exact D|]. eapply find_in_keys. exact F.
Qed.

(** ** The path: [tk] makes the token of a key *)
Definition fine_key (tk : str -> token) (k : str) : Prop :=
  (exists v x, tk k = TValue v x) /\ readable (TValue (SStr k true) (token_text (tk k))).
Section Path.
Variable tk : str -> token.
Fixpoint key_tokens (p : path) : list token :=
  match p with
  | [] => [TEnd]
  | k :: p' => tk k :: match p' with [] => [TEnd] | _ :: _ => dot_token :: key_tokens p' end
  end.
Definition key_node (p : path) : path_node := (p, key_tokens p).
Lemma quoted_first : forall k p', fine_key tk k -> exists tl, path_node_first (key_node (k :: p')) = Ok ([k], tk k :: tl) /\ (tl = [] \/ tl = [TEnd]).
Proof.
  intros k p' [[v [x E]] _]. destruct p' as [|k2 p'].
  - exists [TEnd]. split; [|auto]. unfold path_node_first, key_node. cbn [fst snd key_tokens before_period]. rewrite E. reflexivity.
  - exists []. split; [|auto]. unfold path_node_first, key_node. cbn [fst snd key_tokens before_period]. rewrite E. reflexivity.
Qed.
Lemma quoted_sub : forall k k2 p', fine_key tk k -> path_node_sub_path (key_node (k :: k2 :: p')) 1 = Ok (key_node (k2 :: p')).
Proof. intros k k2 p' [[v [x E]] _]. unfold path_node_sub_path, key_node. cbn [fst snd]. rewrite (sub_one k). cbn [key_tokens skip_periods]. rewrite E. reflexivity. Qed.

(** ** Below *)
Definition adds (rec : list node -> path_node -> node -> result (list node)) (p : path) : Prop :=
  forall cs m n w, NoDup (map fst m) -> members' Open cs m -> good' n w -> present p m = false -> open_path p m ->
  exists cs', rec (NTok TOpenCurly :: cs) (key_node p) n = Ok (NTok TOpenCurly :: cs') /\ members' Open cs' (add_m p w m).
Lemma below_none : forall rec k p' n st cs m, members' st cs m -> find_key k m = None -> add_below rec (key_node (k :: p')) n cs = Ok None.
Proof.
  intros rec k p' n st cs m H. induction H as [st w cs m W H IH|st c cs m C H IH|b cs m L H IH|st fc q v cs m St F H IH|st St]; intro N; cbn [add_below].
  - rewrite IH by exact N. reflexivity.
  - destruct C; rewrite IH by exact N; reflexivity.
  - rewrite IH by exact N. reflexivity.
  - cbn [find_key] in N. destruct (str_eqb k q) eqn:E; [discriminate|]. rewrite IH by exact N. cbn [bind]. destruct (field_parts _ _ _ _ F) as [x [ts [Fp _]]]. rewrite Fp. cbn [bind fst key_node]. rewrite starts_key, E. reflexivity.
  - reflexivity.
Qed.
Lemma below_some : forall rec k k2 p' n w, fine_key tk k -> adds rec (k2 :: p') -> good' n w -> forall st cs m, members' st cs m -> NoDup (map fst m) -> forall r i mi, find_key k m = Some (VObj r i mi) ->
  present (k2 :: p') mi = false -> open_path (k2 :: p') mi ->
  exists cs', add_below rec (key_node (k :: k2 :: p')) n cs = Ok (Some cs') /\ members' st cs' (set_key m k (new_object (add_m (k2 :: p') w mi))).
Proof.
  intros rec k k2 p' n w Fk R G st cs m H.
  induction H as [st b cs m W H IH|st c cs m C H IH|b cs m L H IH|st fc q v cs m St F H IH|st St]; intros D r i mi N P O; cbn [add_below].
  - destruct (IH D r i mi N P O) as [cs' [E M]]. rewrite E. cbn [bind]. eexists. split; [reflexivity|]. apply me_blank; assumption.
  - destruct (IH D r i mi N P O) as [cs' [E M]]. rewrite E. cbn [bind]. eexists. split; [reflexivity|]. apply me_line; assumption.
  - destruct (IH D r i mi N P O) as [cs' [E M]]. rewrite E. cbn [bind]. eexists. split; [reflexivity|]. apply me_comma; assumption.
  - cbn [map fst] in D. inversion D as [|? ? D1 D2]; subst. cbn [find_key set_key] in *. destruct (str_eqb k q) eqn:E.
    + apply str_eqb_eq in E. subst q. injection N as ->. rewrite (below_none _ _ _ _ _ _ _ H) by (apply find_key_none; exact D1). cbn [bind].
      destruct (field_parts _ _ _ _ F) as [x [ts [Fp [Fv [Gx Rep]]]]]. rewrite Fp. cbn [bind fst key_node]. rewrite starts_key, (proj2 (str_eqb_eq k k) eq_refl). cbn [bind]. rewrite Fv. cbn [bind].
      pose proof (good_object_only _ _ _ Gx) as Go. destruct x as [t|t|p0|t|c0|c0 ki|c0|c0|ocs]; try (destruct (Go _ _ _ eq_refl); fail).
      destruct Go as [ocs' [mm [-> [Ev [Dm Mm]]]]]. injection Ev as -> -> ->. change (length [k]) with 1. change (k :: k2 :: p', key_tokens (k :: k2 :: p')) with (key_node (k :: k2 :: p')). rewrite quoted_sub by exact Fk. cbn [bind].
      destruct (R _ _ _ _ Dm Mm G P O) as [cs' [Ec Mc]]. rewrite Ec. cbn [bind].
      destruct (Rep (NObject (NTok TOpenCurly :: cs')) (new_object (add_m (k2 :: p') w mm))) as [fc' [R1 R2]]. { constructor; [apply add_nodup; auto; discriminate|exact Mc]. }
      rewrite R1. cbn [bind]. eexists. split; [reflexivity|]. apply me_field; assumption.
    + destruct (IH D2 r i mi N P O) as [cs' [E' M]]. rewrite E'. cbn [bind]. eexists. split; [reflexivity|]. apply me_field; assumption.
  - discriminate.
Qed.

End Path.

(** ** Where the new field goes *)
Lemma members_blank : forall l st cs m, members l st cs m -> forall w, In (NTok (TIgnored w)) cs -> blanks w.
Proof.
  intros l st cs m H. induction H as [st b cs m W H IH|st c cs m C H IH|b cs m L H IH|st fc q v cs m St F H IH|st St]; intros w [K|K]; try (apply IH; exact K); try discriminate K; [| |destruct K].
  - injection K as <-. exact W.
  - subst c. inversion C. assumption.
Qed.
Lemma closing_shape : forall cs, closing cs -> exists W, cs = W ++ [NTok TCloseCurly] /\ Forall white W.
Proof.
  intros cs H. induction H as [|c cs C H [W [-> F]]]; [exists []; split; [reflexivity|constructor]|]. exists (c :: W). split; [reflexivity|constructor; assumption].
Qed.
Lemma last_field : forall st cs m, members' st cs m -> (m = [] /\ closing cs) \/
  exists A fc W, cs = A ++ NField fc :: W ++ [NTok TCloseCurly] /\ Forall white W /\ forall tail mt, members' (After true) tail mt -> members' st (A ++ NField fc :: tail) (m ++ mt).
Proof.
  intros st cs m H. induction H as [st b cs m W H IH|st c cs m C H IH|b cs m L H IH|st fc q v cs m St F H IH|st St].
  - destruct IH as [[E K]|[A [fc [V [-> [Wv T]]]]]]; [left; split; [exact E|apply closing_white; [constructor; exact W|exact K]]|]. right. exists (NTok (TIgnored b) :: A), fc, V. split; [reflexivity|]. split; [exact Wv|].
    intros tail mt Mt. cbn [app]. apply me_blank; auto.
  - destruct IH as [[E K]|[A [fc [V [-> [Wv T]]]]]]; [left; split; [exact E|apply closing_white; assumption]|]. right. exists (c :: A), fc, V. split; [reflexivity|]. split; [exact Wv|].
    intros tail mt Mt. cbn [app]. apply me_line; auto.
  - destruct IH as [[E K]|[A [fc [V [-> [Wv T]]]]]].
    + exfalso. clear -H E. remember Comma as p eqn:P. induction H; subst; try discriminate; auto.
    + right. exists (NTok TComma :: A), fc, V. split; [reflexivity|]. split; [exact Wv|]. intros tail mt Mt. cbn [app]. apply me_comma; auto.
  - destruct IH as [[E K]|[A [fc' [V [-> [Wv T]]]]]].
    + right. destruct (closing_shape _ K) as [V [-> Wv]]. exists [], fc, V. split; [reflexivity|]. split; [exact Wv|]. intros tail mt Mt. subst m. cbn [app]. apply me_field; assumption.
    + right. exists (NField fc :: A), fc', V. split; [reflexivity|]. split; [exact Wv|]. intros tail mt Mt. cbn [app]. apply me_field; auto.
  - left. split; [reflexivity|constructor].
Qed.
Lemma members_close : forall st cs m, members' st cs m -> exists X, cs = X ++ [NTok TCloseCurly].
Proof.
  intros st cs m H. destruct (last_field st cs m H) as [[_ K]|[A [fc [W [-> _]]]]].
  - destruct (closing_shape _ K) as [W [-> _]]. eauto.
  - exists (A ++ NField fc :: W). rewrite <- app_assoc. reflexivity.
Qed.

Definition an_indent (i : list node) : Prop := i = [blank_node (lit " ")] \/ exists w, blanks w /\ i = [NTok TNewline; NTok (TIgnored w)].
Lemma space_blanks : blanks (lit " ").
Proof. split; [discriminate|]. repeat constructor. Qed.
Lemma indent_whites : forall i, an_indent i -> Forall white i.
Proof. intros i [-> |[w [W ->]]]; repeat (apply Forall_cons || apply Forall_nil); try apply white_newline; apply white_blank; [apply space_blanks|exact W]. Qed.
Lemma members_indent : forall cs m, members' Open cs m -> exists i, indentation (NTok TOpenCurly :: cs) = Ok i /\ an_indent i.
Proof.
  intros cs m H. unfold indentation. cbn [after_newline is_newline]. destruct (after_newline cs) as [rest|] eqn:A; [|eexists; split; [reflexivity|left; reflexivity]].
  assert (Sub : forall c, In c rest -> In c cs).
  { clear -A. revert rest A. induction cs as [|c cs IH]; intros rest A; [discriminate|]. cbn [after_newline] in A. destruct (is_newline c); [injection A as <-; intros x X; right; exact X|]. intros x X. right. eapply IH; eassumption. }
  destruct (field_indent rest) as [ws|] eqn:F.
  - assert (X : In ws rest /\ is_blank_node ws = true).
    { clear -F. induction rest as [|c rest IH]; [discriminate|]. cbn [field_indent] in F. destruct rest as [|d rest]; [discriminate|].
      assert (K : field_indent (d :: rest) = Some ws -> In ws (c :: d :: rest) /\ is_blank_node ws = true) by (intro K; destruct (IH K); split; [right|]; assumption).
      destruct d; try exact (K F); destruct (is_blank_node c) eqn:B; try exact (K F); injection F as <-; split; try exact B; left; reflexivity. }
    destruct X as [I B]. destruct ws as [[]| | | | | | | |]; try discriminate B. eexists. split; [reflexivity|]. right. exists text. split; [|reflexivity]. eapply members_blank; [exact H|apply Sub, I].
  - destruct (members_close _ _ _ H) as [X ->]. rewrite app_comm_cons, rev_app_distr. cbn [rev app is_close_curly].
    destruct (rev X ++ [NTok TOpenCurly]) as [|b r] eqn:E; [apply app_eq_nil in E; destruct E; discriminate|]. eexists. split; [reflexivity|]. right. eexists. split; [|reflexivity].
    assert (I : forall s, b = NTok (TIgnored s) -> blanks s).
    { intros s ->. eapply members_blank; [exact H|]. rewrite in_app_iff. left. apply in_rev. destruct (rev X) as [|y ys]; cbn [app] in E; [discriminate|]. injection E as <- _. left. reflexivity. }
    assert (Z : forall u, u = [] \/ blanks u -> blanks (u ++ lit "  ")).
    { intros u [-> |[U1 U2]]; (split; [|apply Forall_app; split]); try (intro Q; apply app_eq_nil in Q; destruct Q; discriminate); try assumption; try discriminate; repeat constructor. }
    apply Z. destruct b as [[]| | | | | | | |]; try (left; reflexivity). right. apply I. reflexivity.
Qed.

Lemma nth_middle' : forall (A B : list node) x, nth_error (A ++ x :: B) (List.length A) = Some x.
Proof. intros. rewrite nth_error_app2 by lia. rewrite Nat.sub_diag. reflexivity. Qed.
Lemma insert_middle : forall (A B : list node) x, insert_at (List.length A) x (A ++ B) = A ++ x :: B.
Proof. intros. unfold insert_at. rewrite firstn_app, skipn_app, Nat.sub_diag, firstn_all, skipn_all. cbn. rewrite app_nil_r. reflexivity. Qed.
Lemma scan_white : forall same new W Y Z, Forall (fun c => white c \/ c = NTok TOpenCurly) W ->
  place_loop true true same new (List.length (Y ++ W)) (Y ++ W ++ Z) = place_loop true true same new (List.length Y) (Y ++ W ++ Z).
Proof.
  intros same new W. induction W as [|c W IH] using rev_ind; intros Y Z F; [rewrite app_nil_r; reflexivity|]. apply Forall_app in F. destruct F as [F C].
  rewrite app_assoc, app_length. cbn [List.length]. rewrite Nat.add_1_r. cbn [place_loop].
  rewrite <- app_assoc. cbn [app]. rewrite (app_assoc Y W), nth_middle'. inversion C as [|? ? C1 _]; subst.
  assert (X : is_field c = false /\ is_close_curly c = false) by (destruct C1 as [C1 | ->]; [destruct C1|]; split; reflexivity).
  destruct X as [-> ->]. cbn [andb]. rewrite <- app_assoc. apply IH. exact F.
Qed.
Lemma scan_field : forall same new A fc W Z, Forall white W -> (forall z Z', Z = z :: Z' -> is_comma z = false) ->
  place_loop true true same new (List.length (A ++ NField fc :: W)) (A ++ NField fc :: W ++ Z) = Ok (A ++ NField fc :: NTok TComma :: W ++ Z).
Proof.
  intros same new A fc W Z F N. change (A ++ NField fc :: W) with (A ++ [NField fc] ++ W). change (A ++ NField fc :: W ++ Z) with (A ++ [NField fc] ++ W ++ Z). rewrite !app_assoc, <- (app_assoc _ W Z).
  rewrite scan_white by (eapply Forall_impl; [|exact F]; auto). rewrite app_length. cbn [List.length]. rewrite Nat.add_1_r. cbn [place_loop]. rewrite <- app_assoc. cbn [app]. rewrite nth_middle'. cbn [is_field andb].
  assert (X : match nth_error (A ++ NField fc :: W ++ Z) (S (List.length A)) with Some next => negb (is_comma next) | None => true end = true).
  { change (A ++ NField fc :: W ++ Z) with (A ++ [NField fc] ++ W ++ Z). rewrite app_assoc, nth_error_app2 by (rewrite app_length; cbn; lia). rewrite app_length. cbn [List.length]. rewrite Nat.add_1_r, Nat.sub_diag.
    destruct F as [|c W C F]; cbn [app nth_error].
    - destruct Z as [|z Z]; [reflexivity|]. cbn. rewrite (N z Z eq_refl). reflexivity.
    - destruct C; reflexivity. }
  rewrite X. change (A ++ NField fc :: W ++ Z) with (A ++ [NField fc] ++ W ++ Z). rewrite app_assoc. replace (S (List.length A)) with (List.length (A ++ [NField fc])) by (rewrite app_length; cbn; lia).
  rewrite insert_middle, <- app_assoc. reflexivity.
Qed.
(** The loop starts at the closing brace. *)
Lemma place_starts : forall same new X, (forall w, In (NTok (TIgnored w)) X -> blanks w) -> exists Y V, NTok TOpenCurly :: X = Y ++ V /\ Forall white V /\
  place_loop true true same new (List.length (NTok TOpenCurly :: X ++ [NTok TCloseCurly])) (NTok TOpenCurly :: X ++ [NTok TCloseCurly]) =
  place_loop true true same new (List.length Y) (Y ++ new :: V ++ [NTok TCloseCurly]).
Proof.
  intros same new X Bl. assert (Bl' : forall w, In (NTok (TIgnored w)) (NTok TOpenCurly :: X) -> blanks w) by (intros w [K|K]; [discriminate|auto]).
  change (NTok TOpenCurly :: X ++ [NTok TCloseCurly]) with ((NTok TOpenCurly :: X) ++ [NTok TCloseCurly]). rewrite app_length. cbn [List.length]. rewrite Nat.add_1_r.
  change (S (List.length X)) with (List.length (NTok TOpenCurly :: X)). cbn [place_loop]. rewrite (nth_middle' (NTok TOpenCurly :: X) []). cbn [is_field andb is_close_curly].
  destruct (exists_last (l := NTok TOpenCurly :: X) ltac:(discriminate)) as [B1 [previous EB]]. rewrite EB in *. rewrite app_length. cbn [List.length]. rewrite Nat.add_1_r.
  rewrite <- app_assoc. cbn [app]. rewrite nth_middle'. 
  assert (Last : exists Y V, B1 ++ [previous] = Y ++ V /\ Forall white V /\
    place_loop true true same new (S (List.length B1)) (insert_at (S (List.length B1)) new (B1 ++ [previous; NTok TCloseCurly])) = place_loop true true same new (List.length Y) (Y ++ new :: V ++ [NTok TCloseCurly])).
  { exists (B1 ++ [previous]), []. split; [rewrite app_nil_r; reflexivity|]. split; [constructor|]. replace (S (List.length B1)) with (List.length (B1 ++ [previous])) by (rewrite app_length; cbn; lia).
    change [previous; NTok TCloseCurly] with ([previous] ++ [NTok TCloseCurly]). rewrite app_assoc, insert_middle. reflexivity. }
  destruct (is_newline previous) eqn:N1.
  { exists B1, [previous]. split; [reflexivity|]. split; [destruct previous as [[]| | | | | | | |]; try discriminate N1; repeat constructor|]. rewrite insert_middle. reflexivity. }
  destruct (is_blank_node previous) eqn:N2; [|exact Last].
  assert (Wp : white previous). { destruct previous as [[]| | | | | | | |]; try discriminate N2. constructor. apply Bl'. rewrite in_app_iff. right. left. reflexivity. }
  destruct (exists_last_or_nil _ B1) as [-> |[B2 [bp ->]]].
  { cbn [app] in EB. injection EB as <- _. discriminate N2. }
  rewrite app_length. cbn [List.length]. rewrite Nat.add_1_r. rewrite <- (app_assoc B2 [bp] [previous; NTok TCloseCurly]) in *. cbn [app] in *. rewrite nth_middle'.
  destruct same.
  { exists (B2 ++ [bp]), [previous]. split; [reflexivity|]. split; [repeat constructor; exact Wp|]. replace (S (List.length B2)) with (List.length (B2 ++ [bp])) by (rewrite app_length; cbn; lia).
    change (B2 ++ bp :: [previous; NTok TCloseCurly]) with (B2 ++ [bp] ++ [previous; NTok TCloseCurly]). rewrite app_assoc, insert_middle. reflexivity. }
  destruct (is_newline bp) eqn:N3.
  { exists B2, [bp; previous]. split; [rewrite <- ?app_assoc; reflexivity|]. split; [destruct bp as [[]| | | | | | | |]; try discriminate N3; repeat constructor; exact Wp|]. rewrite insert_middle. reflexivity. }
  rewrite app_length in Last. cbn [List.length] in Last. rewrite Nat.add_1_r in Last. exact Last.
Qed.

(** ** add_value_on_path *)
Lemma whites_members : forall l W st cs m, Forall white W -> (st = Open \/ st = Comma) -> members l st cs m -> members l st (W ++ cs) m.
Proof.
  intros l W st cs m F S M. induction F as [|c W C F IH]; [exact M|]. cbn [app]. apply me_line; [exact C|]. destruct S as [-> | ->]; exact IH.
Qed.
Lemma whites_closing : forall W, Forall white W -> closing (W ++ [NTok TCloseCurly]).
Proof. intros W F. induction F; [constructor|]. cbn [app]. constructor; assumption. Qed.
Lemma not_white_split : forall (c : node) A W Y V, c :: A ++ W = Y ++ V -> ~ white c -> Forall white V -> exists Y', Y = c :: Y' /\ A ++ W = Y' ++ V.
Proof.
  intros c A W Y V E N F. destruct Y as [|y Y]; [|injection E as -> E; eauto]. cbn [app] in E. subst V. inversion F. contradiction.
Qed.
Lemma field_split : forall A fc (W Y V : list node), A ++ NField fc :: W = Y ++ V -> Forall white V -> exists W', Y = A ++ NField fc :: W' /\ W = W' ++ V.
Proof.
  induction A as [|a A IH]; intros fc W Y V E F.
  - destruct Y as [|y Y]; cbn [app] in E; [subst V; inversion F as [|? ? X _]; inversion X|]. injection E as <- E. exists Y. auto.
  - destruct Y as [|y Y]; cbn [app] in E.
    + subst V. exfalso. rewrite Forall_forall in F. assert (X : white (NField fc)) by (apply F; right; apply in_or_app; right; left; reflexivity). inversion X.
    + injection E as <- E. destruct (IH _ _ _ _ E F) as [W' [-> ->]]. exists W'. auto.
Qed.
Lemma placed : forall same cs m fc k w, members' Open cs m -> field' fc k w ->
  exists cs', place_loop true true same (NField fc) (List.length (NTok TOpenCurly :: cs)) (NTok TOpenCurly :: cs) = Ok (NTok TOpenCurly :: cs') /\ members' Open cs' (m ++ [(k, w)]).
Proof.
  intros same cs m fc k w M F. destruct (members_close _ _ _ M) as [X EX]. subst cs.
  destruct (place_starts same (NField fc) X) as [Y [V [E [Wv P]]]]. { intros b I. eapply members_blank; [exact M|]. apply in_or_app. left. exact I. }
  rewrite P. clear P. destruct (not_white_split (NTok TOpenCurly) X [] Y V) as [Y' [-> E']]; [rewrite app_nil_r; exact E|intro K; inversion K|exact Wv|]. rewrite app_nil_r in E'. subst X. clear E.
  assert (New : forall st, st = Open \/ st = Comma -> members' st (NField fc :: V ++ [NTok TCloseCurly]) [(k, w)]).
  { intros st S. apply me_field; [exact S|exact F|]. apply closing_members; [apply whites_closing, Wv|discriminate]. }
  destruct (last_field _ _ _ M) as [[-> K]|[A [f [W [Ec [Ww T]]]]]].
  - destruct (closing_shape _ K) as [W [EW Ww]]. apply app_inj_tail in EW. destruct EW as [<- _]. apply Forall_app in Ww. destruct Ww as [Wy _].
    pose proof (scan_white same (NField fc) (NTok TOpenCurly :: Y') [] (NField fc :: V ++ [NTok TCloseCurly])) as Sc. cbn [app] in *. rewrite Sc.
    2:{ constructor; [right; reflexivity|]. eapply Forall_impl; [|exact Wy]. auto. }
    cbn [List.length place_loop]. eexists. split; [reflexivity|]. apply whites_members; auto.
  - change (A ++ NField f :: W ++ [NTok TCloseCurly]) with (A ++ (NField f :: W) ++ [NTok TCloseCurly]) in Ec. rewrite app_assoc in Ec. apply app_inj_tail in Ec. destruct Ec as [Ec _].
    destruct (field_split A f W Y' V (eq_sym Ec) Wv) as [W' [-> ->]]. apply Forall_app in Ww. destruct Ww as [Ww _].
    pose proof (scan_field same (NField fc) (NTok TOpenCurly :: A) f W' (NField fc :: V ++ [NTok TCloseCurly]) Ww) as Sc. cbn [app] in *. rewrite <- app_assoc. cbn [app]. rewrite Sc.
    2:{ intros z Z' Ez. injection Ez as <- _. reflexivity. }
    eexists. split; [reflexivity|]. apply T. apply me_comma; [reflexivity|]. apply whites_members; auto.
Qed.

Ltac first_rewrite E := match type of E with _ = ?y => match goal with |- context [path_node_first ?x] => let F := fresh in assert (F : path_node_first x = y) by exact E; rewrite F; clear F end end.
Ltac place_rewrite E := match type of E with _ = ?y => match goal with |- context [place_loop ?a ?b ?c ?d ?e ?f] => let F := fresh in assert (F : place_loop a b c d e f = y) by exact E; rewrite F; clear F end end.
Ltac below_rewrite E := match type of E with _ = ?y => match goal with |- context [add_below ?a ?b ?c ?d] => let F := fresh in assert (F : add_below a b c d = y) by exact E; rewrite F; clear F end end.
Ltac sub_rewrite E := match type of E with _ = ?y => match goal with |- context [path_node_sub_path ?a ?b] => let F := fresh in assert (F : path_node_sub_path a b = y) by exact E; rewrite F; clear F end end.
Ltac adds_rewrite E := match type of E with _ = ?y => match goal with |- context [add_value_n ?a ?b ?c ?d ?e] => let F := fresh in assert (F : add_value_n a b c d e = y) by exact E; rewrite F; clear F end end.
Lemma add_all : forall tk n p, p <> [] -> (List.length p <= n)%nat -> Forall (fine_key tk) p -> adds tk (add_value_n n JSON) p.
Proof.
  intro tk. induction n as [|n IH]; intros [|k p'] N L Q; try congruence; [cbn in L; lia|]. intros cs m v w D M G P O. cbn [add_value_n].
  inversion Q as [|? ? Qk Qp]; subst.
  destruct (members_indent cs m M) as [ind [Ei Hi]]. rewrite Ei. cbn [bind].
  assert (X : exists v', (match rev ind with back :: _ => if is_complex v then indent_text back v else Ok v | [] => Ok v end) = Ok v' /\ good' v' w).
  { destruct Hi as [-> |[b [B ->]]]; cbn [rev app].
    - destruct (is_complex v); [apply indent_good; [apply space_blanks|exact G]|eauto].
    - destruct (is_complex v); [apply indent_good; assumption|eauto]. }
  destruct X as [v' [Ev Gv]]. rewrite Ev. cbn [bind]. clear Ev.
  rewrite present_find in P by exact D.
  assert (Len : length (fst (key_node tk (k :: p'))) = Z.of_nat (List.length (k :: p'))) by (apply length_spec; discriminate). rewrite Len. clear Len.
  destruct (quoted_first tk k p' Qk) as [tl [Ef Htl]].
  assert (Fin : forall nv wv, good' nv wv -> exists cs', place_loop true true (match ind with c :: _ => negb (is_newline c) | [] => true end)
      (NField (ind ++ [NPath ([k], tk k :: tl); blank_node (lit " "); NTok TColon; blank_node (lit " "); nv])) (List.length (NTok TOpenCurly :: cs)) (NTok TOpenCurly :: cs) = Ok (NTok TOpenCurly :: cs') /\ members' Open cs' (m ++ [(k, wv)])).
  { intros nv wv Gn. apply placed; [exact M|].
    apply (a_field false ind k (tk k) tl [blank_node (lit " ")] [blank_node (lit " ")] nv wv); auto.
    - apply indent_whites, Hi.
    - exact (proj2 Qk).
    - repeat constructor; apply space_blanks.
    - repeat constructor; apply space_blanks. }
  destruct p' as [|k2 p'].
  - destruct (find_key k m) eqn:Fk; [discriminate P|]. change (Z.of_nat (List.length [k]) >? 1) with false. change (Z.of_nat (List.length [k]) =? 1) with true. cbn [bind]. first_rewrite Ef. cbn [bind is_json orb is_open_curly].
    destruct (Fin v' w Gv) as [cs' [E' M']]. place_rewrite E'. cbn [bind]. exists cs'. split; [reflexivity|exact M'].
  - replace (Z.of_nat (List.length (k :: k2 :: p')) >? 1) with true by (symmetry; apply Z.gtb_lt; cbn [List.length]; lia).
    replace (Z.of_nat (List.length (k :: k2 :: p')) =? 1) with false by (symmetry; apply Z.eqb_neq; cbn [List.length]; lia).
    assert (R : adds tk (add_value_n n JSON) (k2 :: p')) by (apply IH; [discriminate|cbn in *; lia|exact Qp]).
    cbn [add_below]. cbn [open_path add_m] in *.
    destruct (find_key k m) as [fv|] eqn:Fk.
    + destruct fv; try (exfalso; exact O). destruct (below_some tk _ _ _ _ _ _ Qk R G _ _ _ M D _ _ _ Fk P O) as [cs' [E' M']]. below_rewrite E'. cbn [bind]. eexists. split; [reflexivity|]. exact M'.
    + below_rewrite (below_none tk (add_value_n n JSON) k (k2 :: p') v _ _ _ M Fk). cbn [bind]. first_rewrite Ef. cbn [bind]. sub_rewrite (quoted_sub tk k k2 p' Qk). cbn [bind].
      assert (Mi : members' Open (ind ++ [NTok TCloseCurly]) []) by (apply closing_members; [apply whites_closing, indent_whites, Hi|discriminate]).
      destruct (R _ _ _ _ (NoDup_nil _ : NoDup (map fst (@nil (str * value)))) Mi Gv) as [ocs [Eo Mo]].
      { destruct p'; reflexivity. }
      { destruct p'; exact I. }
      replace (match ind with [] => [NTok TNewline] | _ :: _ => [] end) with (@nil node) by (destruct Hi as [-> |[b [B ->]]]; reflexivity). cbn [app].
      adds_rewrite Eo. cbn [bind is_json orb is_open_curly].
      destruct (Fin (NObject (NTok TOpenCurly :: ocs)) (new_object (add_m (k2 :: p') w []))) as [cs' [E' M']].
      { constructor; [|exact Mo]. apply add_nodup; try discriminate; [constructor|destruct p'; reflexivity|destruct p'; exact I]. }
      place_rewrite E'. cbn [bind]. exists cs'. split; [reflexivity|exact M'].
Qed.
