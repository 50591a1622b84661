(** Neat documents and values after an edit. *)
From Verif Require Import Base BaseLemmas Util_Model Num_Model Path_Model Path_Spec Path_Lemmas Token_Model Token_Spec Token_Lemmas Token_Lemmas2 PathParser_Model Doc_Model Edit_Model Value_Model Value_Spec Value_Lemmas Concat_Model Config_Lemmas ConfigParser_Model Json_Lemmas2 Render_Lemmas3 JsonEdit_Lemmas JsonEdit_Lemmas2 JsonEdit_Lemmas4 JsonEdit_Lemmas5 JsonEdit_Lemmas6 JsonEdit_Spec JsonEdit_Lemmas7.

(** ** Neat documents *)
Lemma whites_neat : forall W, Forall white W -> forallb neat W = true.
Proof. intros W F. induction F as [|c W C F IH]; [reflexivity|]. cbn [forallb]. rewrite IH. destruct C; reflexivity. Qed.
Definition closeness (p : place) : bool := match p with After b => b | _ => false end.
Definition alike (p q : place) : Prop := match p, q with After _, After _ => True | _, _ => p = q end.
Lemma alike_line : forall p q, alike p q -> alike (line p) (line q).
Proof. intros [|b|] [|c|] H; try discriminate H; try exact I; reflexivity. Qed.
Lemma alike_line_left : forall p q, alike p q -> alike (line p) q.
Proof. intros [|b|] [|c|] H; try discriminate H; try exact I; reflexivity. Qed.
Lemma neat_all :
  (forall n v, good true n v -> neat n = true -> good false n v) /\
  (forall p cs vs, elements true p cs vs -> forallb neat cs = true -> elements false p cs vs) /\
  (forall fc k v, field true fc k v -> forallb neat fc = true -> field false fc k v) /\
  (forall p cs m, members true p cs m -> forall q, alike p q -> commas_close (closeness q) cs = true -> forallb neat cs = true -> members false q cs m).
Proof.
  apply good_mutual.
  - intros s x R _. constructor. exact R.
  - intros cs vs _ IH N. cbn [neat forallb] in N. constructor. apply IH. exact N.
  - intros cs m D _ IH N. cbn [neat forallb commas_close] in N. apply andb_true_iff in N. destruct N as [N1 N2]. constructor; [exact D|]. apply IH; auto. reflexivity.
  - intros p c cs vs W _ IH N. cbn [forallb] in N. apply andb_true_iff in N. destruct N as [_ N]. apply el_white; auto.
  - intros b cs vs _ IH N. apply el_comma. apply IH. exact N.
  - intros p n v cs vs P _ IHn _ IH N. cbn [forallb] in N. apply andb_true_iff in N. destruct N as [N1 N2]. apply el_value; auto.
  - intros p P _. apply el_end, P.
  - intros pre k x tl w1 w2 n v Wp R T W1 W2 _ IH N. constructor; auto. apply IH. rewrite forallb_app in N. apply andb_true_iff in N. destruct N as [_ N]. cbn [forallb neat andb] in N.
    rewrite forallb_app in N. apply andb_true_iff in N. destruct N as [_ N]. cbn [forallb neat andb] in N. rewrite forallb_app in N. apply andb_true_iff in N. destruct N as [_ N]. cbn [forallb] in N. rewrite andb_true_r in N. exact N.
  - intros p w cs m W _ IH q A C N. cbn [forallb neat andb commas_close] in *. apply me_blank; auto.
  - intros p c cs m W _ IH q A C N. cbn [forallb] in N. apply andb_true_iff in N. destruct N as [_ N]. destruct W as [|w W|w W]; cbn [commas_close] in C.
    + apply me_line; [constructor|]. apply IH; [apply alike_line, A|destruct q; exact C|exact N].
    + apply me_blank; [exact W|]. apply IH; [apply alike_line_left, A|exact C|exact N].
    + apply me_line; [constructor; exact W|]. apply IH; [apply alike_line, A|destruct q; exact C|exact N].
  - intros b cs m _ _ IH q A C N. cbn [forallb neat andb commas_close] in *. apply andb_true_iff in C. destruct C as [C1 C2]. destruct q as [|c|]; try discriminate A. cbn [closeness] in C1. subst c.
    apply me_comma; [reflexivity|]. apply IH; auto. reflexivity.
  - intros p fc k v cs m P _ IHf _ IH q A C N. cbn [forallb neat commas_close] in *. apply andb_true_iff in N. destruct N as [N1 N2]. apply me_field; auto.
    + destruct P as [-> | ->]; cbn [alike] in A; subst q; auto.
    + apply IH; auto. exact I.
  - intros p P q A _ _. apply me_end. intro K. subst q. destruct p; cbn in A; congruence.
Qed.
Lemma neat_good : forall n v, good true n v -> neat n = true -> good false n v.
Proof. exact (proj1 neat_all). Qed.
Lemma neat_document : forall ns v, document true ns v -> forallb neat ns = true -> document false ns v.
Proof.
  intros ns v [pre [n [post [-> [Wp [Wq [C G]]]]]]] N. exists pre, n, post. repeat (split; [assumption || reflexivity|]). apply neat_good; [exact G|].
  rewrite forallb_app in N. apply andb_true_iff in N. destruct N as [_ N]. cbn [forallb] in N. apply andb_true_iff in N. exact (proj1 N).
Qed.

(** ** Values of an edit *)
Lemma good_keyed_all : forall l,
  (forall n v, good l n v -> well_keyed v) /\ (forall p cs vs, elements l p cs vs -> Forall well_keyed vs) /\
  (forall fc k v, field l fc k v -> well_keyed v) /\ (forall p cs m, members l p cs m -> Forall (fun kv => well_keyed (snd kv)) m).
Proof. intro l. apply good_mutual; intros; try assumption; try (constructor; assumption). Qed.
Lemma members_keyed : forall l cs m, NoDup (map fst m) -> members l Open cs m -> well_keyed (new_object m).
Proof. intros l cs m D M. constructor; [exact D|]. apply (good_keyed_all l) in M. exact M. Qed.
Lemma keyed_inner : forall r i m k v, well_keyed (VObj r i m) -> find_key k m = Some v -> well_keyed v.
Proof. intros r i m k v H F. inversion H as [| |? ? ? D A| | | |]; subst. apply find_key_in in F. rewrite Forall_forall in A. exact (A _ F). Qed.
Lemma keyed_object : forall r i m r' i', well_keyed (VObj r i m) -> well_keyed (VObj r' i' m).
Proof. intros r i m r' i' H. inversion H; subst. constructor; assumption. Qed.

Lemma find_change : forall k p' o m q, find_key q (change_m (k :: p') o m) =
  if str_eqb k q then match find_key k m with
    | Some v => match p' with [] => o | _ :: _ => Some (match v with VObj _ _ m' => new_object (change_m p' o m') | _ => v end) end
    | None => None end
  else find_key q m.
Proof.
  intros k p' o m q. induction m as [|[a v] m IH]; [cbn; destruct (str_eqb k q); reflexivity|]. rewrite change_m_cons. unfold change_entry. cbn [find_key].
  destruct (str_eqb k a) eqn:Ka.
  - apply str_eqb_eq in Ka. subst a. destruct p' as [|k2 p'].
    + destruct o as [w|]; cbn [app find_key].
      * rewrite (str_eqb_sym q k). destruct (str_eqb k q) eqn:Kq; [reflexivity|exact IH].
      * rewrite IH. rewrite (str_eqb_sym q k). destruct (str_eqb k q) eqn:Kq; [|reflexivity]. destruct (find_key k m); reflexivity.
    + cbn [app find_key]. rewrite (str_eqb_sym q k). destruct (str_eqb k q) eqn:Kq; [reflexivity|exact IH].
  - cbn [app find_key]. destruct (str_eqb q a) eqn:Qa.
    + destruct (str_eqb k q) eqn:Kq; [|reflexivity]. apply str_eqb_eq in Kq, Qa. subst. rewrite (proj2 (str_eqb_eq a a) eq_refl) in Ka. discriminate.
    + exact IH.
Qed.
Lemma present_get : forall p r i m, p <> [] -> well_keyed (VObj r i m) -> present p m = match get p (VObj r i m) with Some _ => true | None => false end.
Proof.
  induction p as [|k p IH]; intros r i m N K; [congruence|]. rewrite present_find by (inversion K; assumption). cbn [get]. destruct (find_key k m) as [v|] eqn:F; [|reflexivity].
  destruct p as [|k2 p]; [reflexivity|]. destruct v as [s|vs|r' i' m'|n p0 o l|vs|vs|vs]; try reflexivity. apply IH; [discriminate|]. eapply keyed_inner; eassumption.
Qed.
Lemma change_gets : forall p o m r i, p <> [] -> (exists u, get p (VObj r i m) = Some u) -> get p (new_object (change_m p o m)) = o.
Proof.
  induction p as [|k p IH]; intros o m r i N [u H]; [congruence|]. cbn [get new_object] in *. rewrite find_change, (proj2 (str_eqb_eq k k) eq_refl). destruct (find_key k m) as [v|] eqn:F; [|discriminate].
  destruct p as [|k2 p]; [destruct o; reflexivity|]. destruct v as [s|vs|r' i' m'|n p0 o' l|vs|vs|vs]; try discriminate H. eapply IH; [discriminate|eauto].
Qed.
Lemma change_gone : forall p m, p <> [] -> get p (new_object (change_m p None m)) = None.
Proof.
  induction p as [|k p IH]; intros m N; [congruence|]. cbn [get new_object]. rewrite find_change, (proj2 (str_eqb_eq k k) eq_refl). destruct (find_key k m) as [v|]; [|reflexivity].
  destruct p as [|k2 p]; [reflexivity|]. destruct v as [s|vs|r' i' m'|n p0 o' l|vs|vs|vs]; try reflexivity. apply IH. discriminate.
Qed.
Lemma apart_cons : forall k (p q : path), apart (k :: p) (k :: q) -> apart p q.
Proof. intros k p q [A B]. split; intros [r E]; [apply A|apply B]; exists r; rewrite E; reflexivity. Qed.
Lemma apart_nil : forall q : path, ~ apart [] q.
Proof. intros q [A _]. apply A. exists q. reflexivity. Qed.
Lemma apart_nil' : forall q : path, ~ apart q [].
Proof. intros q [_ A]. apply A. exists q. reflexivity. Qed.
Lemma change_apart : forall p o m q r i, apart p q -> get q (new_object (change_m p o m)) = get q (VObj r i m).
Proof.
  induction p as [|k p IH]; intros o m q r i A; [destruct (apart_nil _ A)|]. destruct q as [|j q]; [destruct (apart_nil' _ A)|]. cbn [get new_object]. rewrite find_change. destruct (str_eqb k j) eqn:E; [|reflexivity].
  apply str_eqb_eq in E. subst j. apply apart_cons in A. destruct (find_key k m) as [v|]; [|reflexivity]. destruct p as [|k2 p]; [destruct (apart_nil _ A)|].
  destruct v as [s|vs|r' i' m'|n p0 o' l|vs|vs|vs]; try reflexivity. apply IH, A.
Qed.
Lemma change_present : forall p w m, present p (change_m p (Some w) m) = present p m.
Proof.
  induction p as [|k p IH]; intros w m; [reflexivity|]. induction m as [|[a v] m IHm]; [reflexivity|]. rewrite change_m_cons.
  change (present (k :: p) ((a, v) :: m)) with ((str_eqb k a && match p with [] => true | _ :: _ => match v with VObj _ _ m' => present p m' | _ => false end end) || present (k :: p) m). rewrite <- IHm.
  unfold change_entry. destruct (str_eqb k a) eqn:E; [destruct p as [|k2 p]|].
  - cbn [app]. cbn [present existsb]. rewrite E. reflexivity.
  - cbn [app]. cbn [present existsb]. rewrite E. cbn [andb]. f_equal. destruct v as [s|vs|r' i' m'|n p0 o' l|vs|vs|vs]; try reflexivity. cbn [new_object]. exact (IH w m').
  - cbn [app]. cbn [present existsb]. rewrite E. reflexivity.
Qed.
Lemma change_open : forall p o m, open_path p m -> open_path p (change_m p o m).
Proof.
  induction p as [|k p IH]; intros o m H; [exact I|]. cbn [open_path] in *. destruct p as [|k2 p]; [exact I|]. rewrite find_change, (proj2 (str_eqb_eq k k) eq_refl). destruct (find_key k m) as [v|]; [|exact I].
  destruct v as [s|vs|r' i' m'|n p0 o' l|vs|vs|vs]; try (exfalso; exact H). cbn [new_object]. apply IH, H.
Qed.

Lemma find_set : forall (m : fields) k v q, find_key q (set_key m k v) = if str_eqb k q then match find_key k m with Some _ => Some v | None => None end else find_key q m.
Proof.
  intros m k v q. induction m as [|[a w] m IH]; [cbn; destruct (str_eqb k q); reflexivity|]. cbn [set_key find_key]. destruct (str_eqb k a) eqn:E; cbn [find_key].
  - apply str_eqb_eq in E. subst a. rewrite (str_eqb_sym q k). destruct (str_eqb k q); reflexivity.
  - destruct (str_eqb q a) eqn:Qa; [|exact IH]. destruct (str_eqb k q) eqn:Kq; [|reflexivity]. apply str_eqb_eq in Kq, Qa. subst. rewrite (proj2 (str_eqb_eq a a) eq_refl) in E. discriminate.
Qed.
Lemma find_last : forall (m : fields) k v q, find_key k m = None -> find_key q (m ++ [(k, v)]) = if str_eqb k q then Some v else find_key q m.
Proof.
  intros m k v q N. rewrite find_key_app. cbn [find_key]. rewrite (str_eqb_sym q k). destruct (str_eqb k q) eqn:E; [apply str_eqb_eq in E; subst q; rewrite N; reflexivity|]. destruct (find_key q m); reflexivity.
Qed.
Lemma find_add : forall k p' w m q, present (k :: p') m = false -> NoDup (map fst m) -> open_path (k :: p') m -> find_key q (add_m (k :: p') w m) =
  if str_eqb k q then Some (match p' with [] => w | _ :: _ => match find_key k m with Some (VObj _ _ m') => new_object (add_m p' w m') | _ => new_object (add_m p' w []) end end) else find_key q m.
Proof.
  intros k p' w m q P D O. rewrite present_find in P by exact D. cbn [add_m open_path] in *. destruct p' as [|k2 p'].
  - destruct (find_key k m) eqn:F; [discriminate P|]. apply find_last, F.
  - destruct (find_key k m) as [[s|vs|r' i' m'|n p0 o' l|vs|vs|vs]|] eqn:F; try (exfalso; exact O).
    + rewrite find_set, F. reflexivity.
    + apply find_last, F.
Qed.
Lemma add_gets : forall p w m r i, p <> [] -> well_keyed (VObj r i m) -> present p m = false -> open_path p m -> get p (new_object (add_m p w m)) = Some w.
Proof.
  induction p as [|k p IH]; intros w m r i N K P O; [congruence|]. assert (D : NoDup (map fst m)) by (inversion K; assumption). cbn [get new_object]. rewrite find_add, (proj2 (str_eqb_eq k k) eq_refl) by assumption.
  destruct p as [|k2 p]; [reflexivity|]. rewrite present_find in P by exact D. cbn [open_path] in O.
  assert (E : get (k2 :: p) (new_object (add_m (k2 :: p) w [])) = Some w). { apply (IH w [] true false); [discriminate|repeat constructor|destruct p; reflexivity|destruct p; exact I]. }
  destruct (find_key k m) as [[s|vs|r' i' m'|n p0 o' l|vs|vs|vs]|] eqn:F; try (exfalso; exact O); try exact E. apply (IH w m' r' i'); [discriminate|eapply keyed_inner; eassumption|exact P|exact O].
Qed.
Lemma add_apart : forall p w m q r i, well_keyed (VObj r i m) -> present p m = false -> open_path p m -> apart p q -> get q (new_object (add_m p w m)) = get q (VObj r i m).
Proof.
  induction p as [|k p IH]; intros w m q r i K P O A; [destruct (apart_nil _ A)|]. destruct q as [|j q]; [destruct (apart_nil' _ A)|]. assert (D : NoDup (map fst m)) by (inversion K; assumption).
  cbn [get new_object]. rewrite find_add by assumption. destruct (str_eqb k j) eqn:E; [|reflexivity]. apply str_eqb_eq in E. subst j. apply apart_cons in A. destruct p as [|k2 p]; [destruct (apart_nil _ A)|].
  rewrite present_find in P by exact D. cbn [open_path] in O. destruct (find_key k m) as [[s|vs|r' i' m'|n p0 o' l|vs|vs|vs]|] eqn:F; try (exfalso; exact O).
  - apply IH; [eapply keyed_inner; eassumption|exact P|exact O|exact A].
  - rewrite (IH w [] q true false); [|repeat constructor|destruct p; reflexivity|destruct p; exact I|exact A]. destruct q as [|j q]; [destruct (apart_nil' _ A)|reflexivity].
Qed.
Lemma way_open_path : forall p r i m, way_open p (VObj r i m) -> open_path p m.
Proof.
  induction p as [|k p IH]; intros r i m W; [exact I|]. cbn [open_path]. destruct p as [|k2 p]; [exact I|]. destruct (find_key k m) as [v|] eqn:F; [|exact I].
  destruct (W [k] (k2 :: p) v) as [r' [i' [m' ->]]]; try discriminate; [reflexivity|cbn [get]; rewrite F; reflexivity|]. apply (IH r' i'). intros a b u E Na Nb G. apply (W (k :: a) b u); try discriminate; auto; [rewrite E; reflexivity|]. cbn [get]. rewrite F. exact G.
Qed.

(** ** Setting and removing *)
Lemma set_members : forall tk (p : path) cs m n w, p <> [] -> Forall (fine_key tk) p -> NoDup (map fst m) -> members' Open cs m -> good' n w -> open_path p m ->
  exists cs' m', set_value_on_path (NTok TOpenCurly :: cs) (key_node tk p) n JSON = Ok (NTok TOpenCurly :: cs') /\ NoDup (map fst m') /\ members' Open cs' m' /\
    get p (new_object m') = Some w /\ forall q, apart p q -> get q (new_object m') = get q (new_object m).
Proof.
  intros tk p cs m n w N Q D M G O. pose proof (members_keyed _ _ _ D M) as K. unfold set_value_on_path. cbn [fst key_node]. unfold change_value_on_path.
  destruct (change_all (List.length p) p N (le_n _) cs m (Some n) (Some w) D M G) as [c1 [E1 M1]]. rewrite E1. cbn [bind]. unfold has_value. rewrite (has_all (List.length p) p N (le_n _) _ _ M1). cbn [bind].
  assert (D1 : NoDup (map fst (change_m p (Some w) m))) by (destruct p; [congruence|]; apply change_nodup, D). pose proof (members_keyed _ _ _ D1 M1) as K1.
  destruct (present p (change_m p (Some w) m)) eqn:P.
  - exists c1, (change_m p (Some w) m). repeat (split; [assumption || reflexivity|]). rewrite change_present in P. split.
    + apply (change_gets p (Some w) m (fields_resolved m) false N). rewrite (present_get p _ _ _ N K) in P. destruct (get p _); [eauto|discriminate].
    + intros q A. apply change_apart, A.
  - unfold add_value_on_path. cbn [fst key_node]. assert (O1 : open_path p (change_m p (Some w) m)) by (apply change_open, O).
    destruct (add_all tk (List.length p) p N (le_n _) Q c1 _ n w D1 M1 G P O1) as [c2 [E2 M2]]. change (p, key_tokens tk p) with (key_node tk p). rewrite E2.
    exists c2, (add_m p w (change_m p (Some w) m)). split; [reflexivity|]. split; [apply add_nodup; assumption|]. split; [exact M2|]. split.
    + apply (add_gets p w _ _ _ N K1 P O1).
    + intros q A. unfold new_object at 2. rewrite <- (change_apart p (Some w) m q (fields_resolved m) false A). apply (add_apart p w _ q _ _ K1 P O1 A).
Qed.
Lemma remove_members : forall (p : path) cs m, p <> [] -> NoDup (map fst m) -> members' Open cs m ->
  exists cs' m', change_value_on_path (NTok TOpenCurly :: cs) p None JSON = Ok (NTok TOpenCurly :: cs') /\ NoDup (map fst m') /\ members' Open cs' m' /\
    get p (new_object m') = None /\ forall q, apart p q -> get q (new_object m') = get q (new_object m).
Proof.
  intros p cs m N D M. unfold change_value_on_path. destruct (change_all (List.length p) p N (le_n _) cs m None None D M I) as [c1 [E1 M1]].
  exists c1, (change_m p None m). split; [exact E1|]. split; [destruct p; [congruence|]; apply change_nodup, D|]. split; [exact M1|]. split; [apply change_gone, N|]. intros q A. apply change_apart, A.
Qed.

(** ** Documents *)
Lemma root_object_set : forall (f : list node -> result (list node)) pre ocs post, Forall white pre ->
  rmap fst (on_root f (fun _ o rest => NObject o :: rest) (pre ++ NObject ocs :: post)) = rmap (fun o => pre ++ NObject o :: post) (f ocs).
Proof.
  intros f pre ocs post W. induction W as [|c pre C W IH]; [cbn [app on_root]; destruct (f ocs); reflexivity|].
  cbn [app]. assert (X : forall r : result (list node * list node), rmap fst ('(r0, a) <- r ;; Ok (c :: r0, a)) = rmap (cons c) (rmap fst r) :> result (list node)). { intros [[r0 a]|x|u]; reflexivity. }
  destruct C; cbn [on_root]; rewrite (X (on_root f _ _)), IH; destruct (f ocs); reflexivity.
Qed.
Lemma document_object : forall l ns r i m, document l ns (VObj r i m) -> exists pre cs post, ns = pre ++ NObject (NTok TOpenCurly :: cs) :: post /\ Forall white pre /\ Forall white post /\
  VObj r i m = new_object m /\ NoDup (map fst m) /\ members l Open cs m.
Proof.
  intros l ns r i m [pre [n [post [-> [Wp [Wq [C G]]]]]]]. pose proof (good_object_only _ _ _ G) as Go. destruct n; try (destruct (Go _ _ _ eq_refl); fail). destruct Go as [cs' [m' [-> [E [D M]]]]].
  injection E as -> -> ->. exists pre, cs', post. repeat (split; [assumption || reflexivity|]). exact M.
Qed.
Lemma object_document : forall l pre cs post m, Forall white pre -> Forall white post -> NoDup (map fst m) -> members l Open cs m -> document l (pre ++ NObject (NTok TOpenCurly :: cs) :: post) (new_object m).
Proof. intros l pre cs post m Wp Wq D M. exists pre, (NObject (NTok TOpenCurly :: cs)), post. repeat (split; [assumption || reflexivity|]). constructor; assumption. Qed.
Lemma not_object : forall (f : list node -> result (list node)) l ns v, document l ns v -> ~ simple_object v -> rmap fst (on_root f (fun _ o rest => NObject o :: rest) ns) = Throw EConfig.
Proof.
  intros f l ns v [pre [n [post [-> [Wp [Wq [C G]]]]]]] N.
  assert (A : exists cs, n = NArray cs). { destruct G; try discriminate C; [eauto|]. destruct N. exists (fields_resolved m), false, m. reflexivity. }
  destruct A as [cs ->]. induction Wp as [|c pre Cw Wp IH]; [reflexivity|]. cbn [app].
  assert (X : forall r : result (list node * list node), rmap fst ('(r0, a) <- r ;; Ok (c :: r0, a)) = rmap (cons c) (rmap fst r) :> result (list node)). { intros [[r0 a]|x|u]; reflexivity. }
  destruct Cw; cbn [on_root]; rewrite (X (on_root f _ _)), IH; reflexivity.
Qed.
Lemma set_document : forall ns v ps p n w, document false ns v -> simple_object v -> path_text ps p -> way_open p v -> good' n w ->
  exists ns' v', root_set_value ns ps (Some n) JSON = Ok ns' /\ document false ns' v' /\ simple_object v' /\ get p v' = Some w /\ forall q, apart p q -> get q v' = get q v.
Proof.
  intros ns v ps p n w Doc [r [i [m ->]]] T O G. destruct (text_parse ps p T) as [N [tk [Q Ep]]]. destruct (document_object _ _ _ _ _ Doc) as [pre [cs [post [-> [Wp [Wq [E [D M]]]]]]]]. rewrite E in *.
  destruct (set_members tk p cs m n w N Q D M G (way_open_path _ _ _ _ O)) as [cs' [m' [Es [D' [M' [Gp Ga]]]]]].
  unfold root_set_value. rewrite (root_object_set _ pre _ post Wp), Ep. cbn [bind]. rewrite Es. cbn [rmap bind].
  eexists. exists (new_object m'). split; [reflexivity|]. split; [apply object_document; assumption|]. split; [exists (fields_resolved m'), false, m'; reflexivity|]. split; [exact Gp|exact Ga].
Qed.
Lemma remove_document : forall ns v ps p, document false ns v -> simple_object v -> path_text ps p ->
  exists ns' v', root_set_value ns ps None JSON = Ok ns' /\ document false ns' v' /\ simple_object v' /\ get p v' = None /\ forall q, apart p q -> get q v' = get q v.
Proof.
  intros ns v ps p Doc [r [i [m ->]]] T. destruct (text_parse ps p T) as [N [tk [Q Ep]]]. destruct (document_object _ _ _ _ _ Doc) as [pre [cs [post [-> [Wp [Wq [E [D M]]]]]]]]. rewrite E in *.
  destruct (remove_members p cs m N D M) as [cs' [m' [Es [D' [M' [Gp Ga]]]]]].
  unfold root_set_value. rewrite (root_object_set _ pre _ post Wp), Ep. cbn [bind fst key_node]. rewrite Es. cbn [rmap bind].
  eexists. exists (new_object m'). split; [reflexivity|]. split; [apply object_document; assumption|]. split; [exists (fields_resolved m'), false, m'; reflexivity|]. split; [exact Gp|exact Ga].
Qed.
Lemma document_json : forall l ns v, document l ns v -> json_text (render_document ns) v.
Proof.
  intros l ns v D inc next. destruct (document_text _ _ _ D) as [ns' [E D']]. unfold parse_config, render_document. rewrite E. cbn [bind]. apply (document_root inc true). exact D'.
Qed.
Definition none_included : include_kind -> str -> nat -> result (value * nat) := fun _ _ _ => Throw EConfig.
Lemma json_text_one : forall s v v', json_text s v -> json_text s v' -> v = v'.
Proof. intros s v v' A B. specialize (A none_included 0%nat). specialize (B none_included 0%nat). rewrite A in B. injection B as ->. reflexivity. Qed.
Lemma value_text_good : forall text n w, no_nul text -> json_value_text text n w -> neat n = true -> good' n w.
Proof.
  intros text n w Nn [E M] Nt. destruct (parsed_value _ _ Nn E) as [n' [w' [En G]]]. injection En as <-.
  pose proof (good_means true none_included n w' G [] 0 0%nat) as X. rewrite (M none_included) in X. injection X as ->. apply neat_good; assumption.
Qed.
Lemma object_given : forall ns v ps o ns', document false ns v -> root_set_value ns ps o JSON = Ok ns' -> simple_object v.
Proof.
  intros ns v ps o ns' Doc H. destruct v as [s|vs|r i m|n p0 o0 l|vs|vs|vs]; try (unfold root_set_value in H; rewrite (not_object _ _ _ _ Doc) in H; [discriminate H|intros [? [? [? X]]]; discriminate X]). exists r, i, m. reflexivity.
Qed.
Lemma value_text_set : forall ns ps text n, parse_value_text JSON text = Ok (Some n) -> with_value_text JSON ns ps text = root_set_value ns ps (Some n) JSON.
Proof.
  intros ns ps text n E. unfold with_value_text. destruct text as [|c text]; [vm_compute in E; discriminate E|]. rewrite E. reflexivity.
Qed.
Lemma json_is_document : forall ns, json_document ns -> exists v, document false ns v.
Proof.
  intros ns H. induction H as [s ns Nn E Nt|ns ps p text n w v ns' H [v0 IH] J T O Nn V Nt E|ns ps p ns' H [v0 IH] T E].
  - destruct (parsed_document s ns Nn E) as [v D]. exists v. apply neat_document; assumption.
  - assert (v = v0) by (eapply json_text_one; [exact J|eapply document_json, IH]). subst v0. rewrite (value_text_set _ _ _ n (proj1 V)) in E.
    pose proof (object_given _ _ _ _ _ IH E) as S. destruct (set_document ns v ps p n w IH S T O (value_text_good _ _ _ Nn V Nt)) as [ns2 [v2 [E2 [D2 _]]]]. rewrite E in E2. injection E2 as ->. eauto.
  - unfold Edit_Model.without_path in E. pose proof (object_given _ _ _ _ _ IH E) as S. destruct (remove_document ns v0 ps p IH S T) as [ns2 [v2 [E2 [D2 _]]]]. rewrite E in E2. injection E2 as ->. eauto.
Qed.

(** ** The theorems *)
Lemma json_edits_text : forall ns, json_document ns -> exists v, json_text (render_document ns) v.
Proof. intros ns H. destruct (json_is_document ns H) as [v D]. exists v. eapply document_json. exact D. Qed.
Lemma json_set_meaning : forall ns v ps p text n w, json_document ns -> json_text (render_document ns) v -> simple_object v ->
  path_text ps p -> way_open p v -> ~ In (ch 0) text -> json_value_text text n w -> neat n = true ->
  exists ns' v', with_value_text JSON ns ps text = Ok ns' /\ json_document ns' /\ json_text (render_document ns') v' /\
    get p v' = Some w /\ forall q, apart p q -> get q v' = get q v.
Proof.
  intros ns v ps p text n w H J S T O Nn V Nt. destruct (json_is_document ns H) as [v0 D]. assert (v = v0) by (eapply json_text_one; [exact J|eapply document_json, D]). subst v0.
  destruct (set_document ns v ps p n w D S T O (value_text_good _ _ _ Nn V Nt)) as [ns' [v' [E [D' [_ [G A]]]]]]. rewrite <- (value_text_set _ _ _ n (proj1 V)) in E. exists ns', v'.
  split; [exact E|]. split; [eapply json_set; eassumption|]. split; [eapply document_json; exact D'|]. split; assumption.
Qed.
Lemma json_remove_meaning : forall ns v ps p, json_document ns -> json_text (render_document ns) v -> simple_object v -> path_text ps p ->
  exists ns' v', Edit_Model.without_path JSON ns ps = Ok ns' /\ json_document ns' /\ json_text (render_document ns') v' /\
    get p v' = None /\ forall q, apart p q -> get q v' = get q v.
Proof.
  intros ns v ps p H J S T. destruct (json_is_document ns H) as [v0 D]. assert (v = v0) by (eapply json_text_one; [exact J|eapply document_json, D]). subst v0.
  destruct (remove_document ns v ps p D S T) as [ns' [v' [E [D' [_ [G A]]]]]]. exists ns', v'.
  split; [exact E|]. split; [eapply json_removed; eassumption|]. split; [eapply document_json; exact D'|]. split; assumption.
Qed.
Lemma root_object_has : forall (f : list node -> result bool) pre ocs post, Forall white pre ->
  rmap snd (on_root f (fun n _ rest => n :: rest) (pre ++ NObject ocs :: post)) = f ocs.
Proof.
  intros f pre ocs post W. induction W as [|c pre C W IH]; [cbn [app on_root]; destruct (f ocs); reflexivity|].
  cbn [app]. assert (X : forall r : result (list node * bool), rmap snd ('(r0, a) <- r ;; Ok (c :: r0, a)) = rmap snd r). { intros [[r0 a]|x|u]; reflexivity. }
  destruct C; cbn [on_root]; rewrite (X (on_root f _ _)), IH; reflexivity.
Qed.
Lemma json_has_meaning : forall ns v ps p, json_document ns -> json_text (render_document ns) v -> simple_object v -> new_path ps = Ok p ->
  Edit_Model.has_path ns ps = Ok (match get p v with Some _ => true | None => false end).
Proof.
  intros ns v ps p H J [r [i [m ->]]] E. pose proof (Config_Lemmas.new_path_not_empty ps p E) as N. destruct (json_is_document ns H) as [v0 D]. assert (VObj r i m = v0) by (eapply json_text_one; [exact J|eapply document_json, D]). subst v0.
  destruct (document_object _ _ _ _ _ D) as [pre [cs [post [-> [Wp [Wq [En [Dm M]]]]]]]]. unfold Edit_Model.has_path, root_has_value. rewrite E. cbn [bind]. rewrite (root_object_has _ pre _ post Wp). unfold has_value.
  rewrite (has_all (List.length p) p N (le_n _) _ _ M). rewrite (present_get p r i m N); [reflexivity|]. rewrite En. eapply members_keyed; eassumption.
Qed.

(** ** What goes wrong *)
Lemma json_remove_refuted : exists s ns ns', parse_document JSON s = Ok ns /\ Edit_Model.without_path JSON ns (lit "b") = Ok ns' /\
  s = lit "{""a"":1,""b"":2" ++ [nl] ++ lit ",""c"":3}" /\ render_document ns' = lit "{""a"":1," ++ [nl] ++ lit ",""c"":3}" /\ forall v, ~ json_text (render_document ns') v.
Proof.
  eexists _, _, _. split; [|split; [|split; [reflexivity|split]]]; [vm_compute; reflexivity|vm_compute; reflexivity|vm_compute; reflexivity|]. intros v H. specialize (H none_included 0%nat). vm_compute in H. discriminate H.
Qed.
Lemma json_set_blocked : exists ns ns', parse_document JSON (lit "{""c"":3}") = Ok ns /\ with_value_text JSON ns (lit "c.d") (lit "1") = Ok ns' /\
  render_document ns' = lit "{""c"":3, ""c"" : { ""d"" : 1 }}" /\ forall v, ~ json_text (render_document ns') v.
Proof.
  eexists _, _. split; [|split; [|split]]; [vm_compute; reflexivity|vm_compute; reflexivity|vm_compute; reflexivity|]. intros v H. specialize (H none_included 0%nat). vm_compute in H. discriminate H.
Qed.
Lemma json_set_nullable : exists ns ns', parse_document JSON (lit "{""c"":3}") = Ok ns /\ with_value_text JSON ns (lit "nullable") (lit "1") = Ok ns' /\
  new_path (lit "nullable") = Ok [lit "nullable"] /\ render_document ns' = lit "{""c"":3, ""null""""able"" : 1}" /\ forall v, ~ json_text (render_document ns') v.
Proof.
  eexists _, _. split; [|split; [|split; [|split]]]; [vm_compute; reflexivity|vm_compute; reflexivity|vm_compute; reflexivity|vm_compute; reflexivity|]. intros v H. specialize (H none_included 0%nat). vm_compute in H. discriminate H.
Qed.
