(** Concatenation. *)
From Verif Require Import Base BaseLemmas Util_Model Num_Model Path_Model Token_Model Value_Model Value_Spec Value_Lemmas Value_Lemmas2 Duration_Model Config_Model Config_Spec Concat_Model Concat_Spec.

Lemma piece_text_spec : forall s, piece_text (VScalar s) = scalar_text s.
Proof. intros [|[]|z [|c t]|z [|c t]|d [|c t]|s q]; reflexivity. Qed.

Lemma plain_cases : forall v, plain v -> (exists s, v = VScalar s) \/ (exists vs, v = VList vs) \/ (exists i m, v = VObj true i m).
Proof. intros v H. inversion H; eauto 6. Qed.

Lemma join_scalar : forall s v, plain v -> scalar_text s <> [] ->
  join_values (VScalar s) v =
  match v with
  | VScalar t => match scalar_text t with [] => Throw EConfig | _ => Ok (Some (VScalar (SStr (scalar_text s ++ scalar_text t) true))) end
  | _ => Throw EConfig
  end.
Proof.
  intros s v Hv Hs. destruct (plain_cases v Hv) as [[t ->]|[[vs ->]|[i [m ->]]]]; unfold join_values; cbn [is_object is_list andb orb bind is_concat is_unmergeable transform_to_string].
  - destruct (scalar_text s); [congruence|]. destruct (scalar_text t); reflexivity.
  - destruct (scalar_text s); reflexivity.
  - destruct (scalar_text s); reflexivity.
Qed.

Lemma join_scalar_empty : forall s v, plain v -> scalar_text s = [] -> join_values (VScalar s) v = Throw EConfig.
Proof.
  intros s v Hv Hs. destruct (plain_cases v Hv) as [[t ->]|[[vs ->]|[i [m ->]]]]; unfold join_values; cbn [is_object is_list andb orb bind is_concat is_unmergeable transform_to_string]; rewrite Hs; reflexivity.
Qed.



Lemma run_scalar : forall rest s, Forall plain rest -> scalar_text s <> [] ->
  (Forall good_text rest -> join_all [VScalar s] rest =
     Ok [match rest with [] => VScalar s | _ => VScalar (SStr (scalar_text s ++ flat_map piece_text rest) true) end]) /\
  (~ Forall good_text rest -> join_all [VScalar s] rest = Throw EConfig).
Proof.
  intro rest. induction rest as [|v rest IH]; intros s Hp Hs.
  - split; [reflexivity|]. intro H. exfalso. apply H. constructor.
  - inversion Hp as [|? ? Hv Hr]; subst. cbn [join_all]. rewrite (join_scalar s v Hv Hs).
    destruct (plain_cases v Hv) as [[t ->]|[[vs ->]|[i [m ->]]]].
    + destruct (scalar_text t) as [|c x] eqn:T; cbn [bind].
      * split; [|reflexivity]. intro G. inversion G as [|? ? [_ Q] _]; subst. rewrite piece_text_spec, T in Q. congruence.
      * destruct (IH (SStr (scalar_text s ++ c :: x) true) Hr) as [I1 I2]; [cbn; destruct (scalar_text s); discriminate|]. split.
        -- intro G. inversion G as [|? ? _ G']; subst. rewrite (I1 G'). cbn [flat_map]. rewrite piece_text_spec, T. destruct rest as [|w rest]; [cbn [flat_map]; rewrite app_nil_r; reflexivity|].
           cbn [scalar_text]. rewrite <- app_assoc. reflexivity.
        -- intro G. apply I2. intro G'. apply G. constructor; [|exact G']. split; [exists t; reflexivity|]. rewrite piece_text_spec, T. discriminate.
    + cbn [bind]. split; [|reflexivity]. intro G. inversion G as [|? ? [[x Q] _] _]. discriminate.
    + cbn [bind]. split; [|reflexivity]. intro G. inversion G as [|? ? [[x Q] _] _]. discriminate.
Qed.

Lemma join_list : forall vs v, plain v ->
  join_values (VList vs) v =
  match v with
  | VList ws => Ok (Some (VList (vs ++ ws)))
  | VScalar (SStr _ false) => Ok (Some (VList vs))
  | _ => Throw EConfig
  end.
Proof.
  intros vs v Hv. destruct (plain_cases v Hv) as [[t ->]|[[ws ->]|[i [m ->]]]]; unfold join_values; cbn [is_object is_list andb orb bind is_concat is_unmergeable transform_to_string].
  - destruct t as [| | | | |x []]; reflexivity.
  - reflexivity.
  - reflexivity.
Qed.

Lemma run_list : forall rest vs, Forall plain rest ->
  (Forall (fun w => a_list w \/ unquoted w) rest -> join_all [VList vs] rest = Ok [VList (vs ++ elements rest)]) /\
  (~ Forall (fun w => a_list w \/ unquoted w) rest -> join_all [VList vs] rest = Throw EConfig).
Proof.
  intro rest. induction rest as [|v rest IH]; intros vs Hp.
  - split; [cbn; rewrite app_nil_r; reflexivity|]. intro H. exfalso. apply H. constructor.
  - inversion Hp as [|? ? Hv Hr]; subst. cbn [join_all]. rewrite (join_list vs v Hv).
    assert (Bad : (forall ws, v <> VList ws) -> (forall x, v <> VScalar (SStr x false)) -> ~ (a_list v \/ unquoted v)).
    { intros B1 B2 [[ws Q]|[x Q]]; [exact (B1 _ Q)|exact (B2 _ Q)]. }
    destruct (plain_cases v Hv) as [[t ->]|[[ws ->]|[i [m ->]]]].
    + assert (D : (exists x, t = SStr x false) \/ forall x, t <> SStr x false) by (destruct t as [| | | | |x []]; try (right; discriminate); left; eauto).
      destruct D as [[x ->]|D].
      * cbn [bind]. destruct (IH vs Hr) as [I1 I2]. split.
        -- intro G. inversion G as [|? ? _ G']; subst. rewrite (I1 G'). reflexivity.
        -- intro G. apply I2. intro G'. apply G. constructor; [right; exists x; reflexivity|exact G'].
      * assert (E : match t with SStr _ false => Ok (Some (VList vs)) | _ => Throw EConfig end = @Throw (option value) EConfig).
        { destruct t as [| | | | |x []]; try reflexivity. exfalso. exact (D x eq_refl). }
        rewrite E. cbn [bind]. split; [|reflexivity]. intro G. inversion G as [|? ? [[ws Q]|[x Q]] _]; [discriminate|]. injection Q as ->. exfalso. exact (D x eq_refl).
    + cbn [bind]. destruct (IH (vs ++ ws) Hr) as [I1 I2]. split.
      * intro G. inversion G as [|? ? _ G']; subst. rewrite (I1 G'). unfold elements. cbn [flat_map]. rewrite <- app_assoc. reflexivity.
      * intro G. apply I2. intro G'. apply G. constructor; [left; exists ws; reflexivity|exact G'].
    + cbn [bind]. split; [|reflexivity]. intro G. inversion G as [|? ? [[ws Q]|[x Q]] _]; discriminate.
Qed.

(** Objects *)
Lemma plain_merge_obj : forall i m v, plain (VObj true i m) -> plain v -> exists i' m', with_fallback (VObj true i m) v = Ok (VObj true i' m') /\ plain (VObj true i' m').
Proof.
  intros i m v H1 H2. destruct (plain_merge _ _ H1 H2) as [c [E P]]. rewrite E. destruct i.
  - rewrite fallback_ignored in E by reflexivity. injection E as <-. eauto.
  - rewrite with_fallback_eq in E. cbn [ignores_fallbacks] in E. rewrite (plain_mergeable _ H2) in E.
    destruct v as [s|vs|r2 i2 m2| | | |]; try (cbn in E; injection E as <-; eauto; fail). inv_bind E. injection Hk as <-.
    assert (Q : fields_resolved (a ++ only_fallback m m2) = true) by (inversion P; congruence). rewrite Q in *. eauto.
Qed.

Lemma with_fallbacks_cons : forall l o x, plain o -> plain x -> Forall plain l ->
  with_fallbacks o (x :: l) = (acc <- with_fallbacks x l ;; with_fallback o acc).
Proof.
  intro l. induction l as [|y l IH]; intros o x Ho Hx Hl.
  - cbn [with_fallbacks bind]. destruct (with_fallback o x); reflexivity.
  - inversion Hl as [|? ? Hy Hl']; subst. destruct (plain_merge o x Ho Hx) as [ox [E1 P1]].
    change (with_fallbacks o (x :: y :: l)) with (w <- with_fallback o x ;; with_fallbacks w (y :: l)). rewrite E1. cbn [bind].
    rewrite (IH ox y P1 Hy Hl'), (IH x y Hx Hy Hl'). clear IH.
    assert (W : exists acc, with_fallbacks y l = Ok acc /\ plain acc).
    { clear -Hy Hl'. revert y Hy. induction Hl' as [|z l Hz Hl IH]; intros y Hy; [exists y; split; [reflexivity|exact Hy]|].
      cbn [with_fallbacks]. destruct (plain_merge y z Hy Hz) as [w [E P]]. rewrite E. apply IH, P. }
    destruct W as [acc [-> Pa]]. cbn [bind]. destruct (plain_merge x acc Hx Pa) as [xa [E2 P2]]. rewrite E2. cbn [bind].
    exact (fallback_assoc o x acc ox xa Ho Hx Pa E1 E2).
Qed.

Lemma with_fallbacks_plain : forall l o, plain o -> Forall plain l -> exists w, with_fallbacks o l = Ok w /\ plain w.
Proof.
  intro l. induction l as [|x l IH]; intros o Ho Hl; [exists o; split; [reflexivity|exact Ho]|]. inversion Hl; subst.
  cbn [with_fallbacks]. destruct (plain_merge o x Ho H1) as [w [E P]]. rewrite E. apply (IH w P H2).
Qed.

Lemma join_object : forall i m v, plain (VObj true i m) -> plain v ->
  join_values (VObj true i m) v =
  match v with
  | VObj _ _ _ => w <- with_fallback v (VObj true i m) ;; Ok (Some w)
  | VScalar (SStr _ false) => Ok (Some (VObj true i m))
  | _ => Throw EConfig
  end.
Proof.
  intros i m v Ho Hv. destruct (plain_cases v Hv) as [[t ->]|[[ws ->]|[i' [m' ->]]]]; unfold join_values; cbn [is_object is_list andb orb bind is_concat is_unmergeable transform_to_string].
  - destruct t as [| | | | |x []]; reflexivity.
  - reflexivity.
  - reflexivity.
Qed.

Lemma run_object : forall rest os i m, Forall plain rest -> Forall plain os -> os <> [] -> plain (VObj true i m) ->
  stack_of (rev os) = Ok (VObj true i m) ->
  (Forall (fun w => is_object w = true \/ unquoted w) rest ->
     join_all [VObj true i m] rest = (o <- stack_of (rev (os ++ objects rest)) ;; Ok [o])) /\
  (~ Forall (fun w => is_object w = true \/ unquoted w) rest -> join_all [VObj true i m] rest = Throw EConfig).
Proof.
  intro rest. induction rest as [|v rest IH]; intros os i m Hp Ho Hne Pm St.
  - split; [cbn [objects List.filter]; rewrite app_nil_r, St; reflexivity|]. intro H. exfalso. apply H. constructor.
  - inversion Hp as [|? ? Hv Hr]; subst. cbn [join_all]. rewrite (join_object i m v Pm Hv).
    destruct (plain_cases v Hv) as [[t ->]|[[ws ->]|[i' [m' ->]]]].
    + assert (D : (exists x, t = SStr x false) \/ forall x, t <> SStr x false) by (destruct t as [| | | | |x []]; try (right; discriminate); left; eauto).
      destruct D as [[x ->]|D].
      * cbn [bind]. destruct (IH os i m Hr Ho Hne Pm St) as [I1 I2]. split.
        -- intro G. inversion G as [|? ? _ G']; subst. rewrite (I1 G'). reflexivity.
        -- intro G. apply I2. intro G'. apply G. constructor; [right; exists x; reflexivity|exact G'].
      * assert (E : match t with SStr _ false => Ok (Some (VObj true i m)) | _ => Throw EConfig end = @Throw (option value) EConfig).
        { destruct t as [| | | | |x []]; try reflexivity. exfalso. exact (D x eq_refl). }
        rewrite E. cbn [bind]. split; [|reflexivity]. intro G. inversion G as [|? ? [Q|[x Q]] _]; [discriminate|]. injection Q as ->. exfalso. exact (D x eq_refl).
    + cbn [bind]. split; [|reflexivity]. intro G. inversion G as [|? ? [Q|[x Q]] _]; discriminate.
    + destruct (plain_merge_obj i' m' _ Hv Pm) as [i2 [m2 [E P2]]]. rewrite E. cbn [bind].
      assert (St2 : stack_of (rev (os ++ [VObj true i' m'])) = Ok (VObj true i2 m2)).
      { rewrite rev_app_distr. cbn [rev app stack_of]. destruct (rev os) as [|x l] eqn:R; [apply (f_equal (@rev value)) in R; rewrite rev_involutive in R; contradiction|].
        assert (Hx : Forall plain (x :: l)) by (rewrite <- R; apply Forall_rev, Ho). inversion Hx; subst.
        rewrite (with_fallbacks_cons l _ x Hv H1 H2). cbn [stack_of] in St. rewrite St. exact E. }
      destruct (IH (os ++ [VObj true i' m']) i2 m2 Hr) as [I1 I2]; try assumption.
      * apply Forall_app. split; [exact Ho|constructor; [exact Hv|constructor]].
      * destruct os; discriminate.
      * split.
        -- intro G. inversion G as [|? ? _ G']; subst. rewrite (I1 G'). unfold objects. cbn [List.filter is_object]. rewrite <- app_assoc. reflexivity.
        -- intro G. apply I2. intro G'. apply G. constructor; [left; reflexivity|exact G'].
Qed.

Lemma flattened_plain : forall ps, Forall plain ps -> flattened ps = ps.
Proof. intros ps H. unfold flattened. induction H as [|v ps Hv H IH]; [reflexivity|]. cbn [flat_map]. rewrite IH. inversion Hv; reflexivity. Qed.

Lemma concatenate_plain : forall v w rest, Forall plain (v :: w :: rest) ->
  concatenate (v :: w :: rest) = (c <- join_all [v] (w :: rest) ;; match c with [] => Ok None | [x] => Ok (Some x) | _ => y <- new_concatenation c ;; Ok (Some y) end).
Proof. intros v w rest H. unfold concatenate, consolidate. rewrite (flattened_plain _ H). reflexivity. Qed.

Lemma Forall_dec' : forall (P : value -> Prop) l, (forall v, In v l -> P v \/ ~ P v) -> Forall P l \/ ~ Forall P l.
Proof.
  intros P l H. induction l as [|v l IH]; [left; constructor|]. destruct (H v (or_introl eq_refl)) as [Hv|Hv].
  - destruct IH as [I|I]; [intros w Hw; apply H; right; exact Hw|left; constructor; assumption|right; intro Q; inversion Q; contradiction].
  - right. intro Q. inversion Q; contradiction.
Qed.

Lemma concat_outcome : forall ps, Forall plain ps -> concatenation ps (concatenate ps).
Proof.
  intros ps H. destruct ps as [|v [|w rest]]; [constructor|constructor|]. rewrite (concatenate_plain v w rest H).
  inversion H as [|? ? Hv Hr]; subst. destruct (plain_cases v Hv) as [[s ->]|[[vs ->]|[i [m ->]]]].
  - assert (D : Forall good_text (w :: rest) \/ ~ Forall good_text (w :: rest)).
    { apply Forall_dec'. intros x Hx. rewrite Forall_forall in Hr. destruct (plain_cases x (Hr x Hx)) as [[t ->]|[[ws ->]|[i' [m' ->]]]].
      - destruct (piece_text (VScalar t)) as [|c y] eqn:T; [right; intros [_ Q]; congruence|left; split; [eexists; reflexivity|congruence]].
      - right. intros [[t Q] _]. discriminate.
      - right. intros [[t Q] _]. discriminate. }
    destruct (scalar_text s) as [|c x] eqn:T.
    + assert (E : join_all [VScalar s] (w :: rest) = Throw EConfig).
      { cbn [join_all]. rewrite (join_scalar_empty s w); [reflexivity| |exact T]. inversion Hr; assumption. }
      rewrite E. cbn [bind]. apply concat_mixed; [cbn; lia| | |].
      * intro G. inversion G as [|? ? [_ Q] _]; subst. rewrite piece_text_spec, T in Q. congruence.
      * intros [[ws Q] _]. discriminate.
      * intros [Q _]. discriminate.
    + destruct (run_scalar (w :: rest) s Hr) as [R1 R2]; [congruence|]. destruct D as [D|D].
      * rewrite (R1 D). cbn [bind]. replace (scalar_text s ++ flat_map piece_text (w :: rest)) with (flat_map piece_text (VScalar s :: w :: rest)) by (cbn [flat_map]; rewrite piece_text_spec; reflexivity).
        apply concat_texts; [cbn; lia|]. constructor; [|exact D]. split; [eexists; reflexivity|]. rewrite piece_text_spec, T. discriminate.
      * rewrite (R2 D). cbn [bind]. apply concat_mixed; [cbn; lia| | |].
        -- intro G. inversion G; contradiction.
        -- intros [[ws Q] _]. discriminate.
        -- intros [Q _]. discriminate.
  - assert (D : Forall (fun w => a_list w \/ unquoted w) (w :: rest) \/ ~ Forall (fun w => a_list w \/ unquoted w) (w :: rest)).
    { apply Forall_dec'. intros x Hx. rewrite Forall_forall in Hr. destruct (plain_cases x (Hr x Hx)) as [[t ->]|[[ws ->]|[i' [m' ->]]]].
      - destruct t as [| | | | |y []]; try (right; intros [[? Q]|[? Q]]; discriminate). left. right. eexists. reflexivity.
      - left. left. eexists. reflexivity.
      - right. intros [[? Q]|[? Q]]; discriminate. }
    destruct (run_list (w :: rest) vs Hr) as [R1 R2]. destruct D as [D|D].
    + rewrite (R1 D). cbn [bind]. apply (concat_lists (VList vs)); [discriminate|eexists; reflexivity|exact D].
    + rewrite (R2 D). cbn [bind]. apply concat_mixed; [cbn; lia| | |].
      * intro G. inversion G as [|? ? [[t Q] _] _]. discriminate.
      * intros [_ Q]. contradiction.
      * intros [Q _]. discriminate.
  - assert (D : Forall (fun w => is_object w = true \/ unquoted w) (w :: rest) \/ ~ Forall (fun w => is_object w = true \/ unquoted w) (w :: rest)).
    { apply Forall_dec'. intros x Hx. rewrite Forall_forall in Hr. destruct (plain_cases x (Hr x Hx)) as [[t ->]|[[ws ->]|[i' [m' ->]]]].
      - destruct t as [| | | | |y []]; try (right; intros [Q|[? Q]]; discriminate). left. right. eexists. reflexivity.
      - right. intros [Q|[? Q]]; discriminate.
      - left. left. reflexivity. }
    destruct (run_object (w :: rest) [VObj true i m] i m Hr) as [R1 R2]; [constructor; [exact Hv|constructor]|discriminate|exact Hv|reflexivity|]. destruct D as [D|D].
    + rewrite (R1 D). assert (E : forall r : result value, (c <- (o <- r ;; Ok [o]) ;; match c with [] => Ok None | [x] => Ok (Some x) | _ => y <- new_concatenation c ;; Ok (Some y) end) = (o <- r ;; Ok (Some o))).
      { intros []; reflexivity. }
      rewrite E. apply (concat_objects (VObj true i m)); [discriminate|reflexivity|exact D].
    + rewrite (R2 D). cbn [bind]. apply concat_mixed; [cbn; lia| | |].
      * intro G. inversion G as [|? ? [[t Q] _] _]. discriminate.
      * intros [[ws Q] _]. discriminate.
      * intros [_ Q]. contradiction.
Qed.

(** ** Grouping *)

Lemma join_all_app : forall xs b ys, b <> [] -> join_all b (xs ++ ys) = (c <- join_all b xs ;; join_all (rev c) ys).
Proof.
  intro xs. induction xs as [|x xs IH]; intros b ys Hb.
  - cbn [app join_all bind]. rewrite rev_involutive. reflexivity.
  - cbn [app join_all]. destruct b as [|l b]; [congruence|]. destruct (join_values l x) as [[j|]| |]; cbn [bind]; try reflexivity; apply IH; discriminate.
Qed.

(** Joining a first part beforehand makes no difference. *)
Lemma group_left : forall xs ys v, xs <> [] -> ys <> [] -> Forall plain xs -> Forall plain ys -> concatenate xs = Ok (Some v) ->
  concatenate (xs ++ ys) = concatenate (v :: ys).
Proof.
  intros xs ys v Hx Hy Px Py H. destruct xs as [|x [|x2 xs]]; [congruence|injection H as <-; reflexivity|].
  rewrite (concatenate_plain x x2 xs Px) in H.
  change ((x :: x2 :: xs) ++ ys) with (x :: x2 :: (xs ++ ys)). rewrite concatenate_plain by (change (Forall plain ((x :: x2 :: xs) ++ ys)); apply Forall_app; auto).
  change (x2 :: xs ++ ys) with ((x2 :: xs) ++ ys). rewrite join_all_app by discriminate. inv_bind H.
  (* the builder keeps a single value *)
  assert (One : exists v', a = [v'] /\ plain v').
  { assert (G : forall ps u, Forall plain ps -> plain u -> forall c, join_all [u] ps = Ok c -> exists v', c = [v'] /\ plain v').
    { intro ps. induction ps as [|p ps IH]; intros u Pp Pu c E; [injection E as <-; exists u; auto|]. inversion Pp as [|? ? Qp Qps]; subst. cbn [join_all] in E. inv_bind E.
      assert (Q : exists w, a0 = Some w /\ plain w).
      { destruct (plain_cases u Pu) as [[s ->]|[[vs ->]|[i [m ->]]]].
        - destruct (scalar_text s) eqn:T; [rewrite (join_scalar_empty s p Qp T) in Hb0; discriminate|]. rewrite (join_scalar s p Qp) in Hb0 by congruence.
          destruct p as [t| | | | | |]; try discriminate. destruct (scalar_text t); [discriminate|]. injection Hb0 as <-. eexists. split; [reflexivity|constructor].
        - rewrite (join_list vs p Qp) in Hb0. destruct p as [[| | | | |y []]|ws| | | | |]; try discriminate; injection Hb0 as <-; eexists; (split; [reflexivity|]); [exact Pu|].
          inversion Pu; inversion Qp; subst. constructor. apply Forall_app. auto.
        - rewrite (join_object i m p Pu Qp) in Hb0. destruct p as [[| | | | |y []]| |r' i' m'| | | |]; try discriminate; [injection Hb0 as <-; eexists; (split; [reflexivity|]); exact Pu|].
          inv_bind Hb0. injection Hk1 as <-. destruct (plain_merge _ _ Qp Pu) as [c' [E' P']]. rewrite E' in Hb1. injection Hb1 as <-. eauto. }
      destruct Q as [w [-> Pw]]. exact (IH w Qps Pw c Hk0). }
    inversion Px as [|? ? Qx Qxs]; subst. exact (G _ _ Qxs Qx _ Hb). }
  destruct One as [v' [-> Pv]]. injection Hk as ->. rewrite Hb. cbn [bind rev app]. destruct ys as [|y ys]; [congruence|].
  rewrite concatenate_plain; [reflexivity|]. constructor; [exact Pv|exact Py].
Qed.

(** Joining a last part beforehand makes no difference for texts, for lists and for objects. *)
Lemma group_right_texts : forall xs ys v, xs <> [] -> ys <> [] -> Forall good_text (xs ++ ys) -> concatenate ys = Ok (Some v) ->
  concatenate (xs ++ ys) = concatenate (xs ++ [v]).
Proof.
  intros xs ys v Hx Hy G H. assert (Pl : forall l, Forall good_text l -> Forall plain l).
  { intros l Hl. eapply Forall_impl; [|exact Hl]. intros a [[s ->] _]. constructor. }
  assert (Run : forall l, (2 <= List.length l)%nat -> Forall good_text l -> concatenate l = Ok (Some (VScalar (SStr (flat_map piece_text l) true)))).
  { intros [|a [|b l]] L Gl; cbn in L; try lia. rewrite (concatenate_plain a b l (Pl _ Gl)). inversion Gl as [|? ? [[s ->] T] Gr]; subst. rewrite piece_text_spec in T.
    destruct (run_scalar (b :: l) s (Pl _ Gr) T) as [R _]. rewrite (R Gr). cbn [bind flat_map]. rewrite piece_text_spec. reflexivity. }
  apply Forall_app in G. destruct G as [Gx Gy]. destruct ys as [|y [|y2 ys]]; [congruence|injection H as <-; reflexivity|].
  rewrite (Run (y :: y2 :: ys)) in H by (cbn; lia || exact Gy). injection H as <-.
  rewrite (Run (xs ++ y :: y2 :: ys)); [|rewrite app_length; cbn; lia|apply Forall_app; auto].
  rewrite (Run (xs ++ [_])).
  - rewrite !flat_map_app. f_equal. f_equal. f_equal. f_equal. f_equal. cbn [flat_map]. rewrite piece_text_spec. cbn [scalar_text]. rewrite app_nil_r. reflexivity.
  - rewrite app_length. destruct xs; [congruence|]. cbn. lia.
  - apply Forall_app. split; [exact Gx|]. constructor; [|constructor]. split; [eexists; reflexivity|]. rewrite piece_text_spec. cbn [scalar_text flat_map].
    inversion Gy as [|? ? [_ T] _]; subst. destruct (piece_text y); [congruence|discriminate].
Qed.

Lemma elements_plain : forall l, Forall plain l -> Forall a_list l -> Forall plain (elements l).
Proof.
  intros l Py Ly. unfold elements. induction Py as [|a l Pa Pl IH]; [constructor|].
  inversion Ly as [|? ? [vs ->] Lr]; subst. cbn [flat_map]. apply Forall_app. split; [inversion Pa; assumption|exact (IH Lr)].
Qed.

Lemma group_right_lists : forall xs ys v, xs <> [] -> ys <> [] -> Forall plain (xs ++ ys) -> Forall a_list (xs ++ ys) -> concatenate ys = Ok (Some v) ->
  concatenate (xs ++ ys) = concatenate (xs ++ [v]).
Proof.
  intros xs ys v Hx Hy P L H.
  assert (Run : forall l, (2 <= List.length l)%nat -> Forall plain l -> Forall a_list l -> concatenate l = Ok (Some (VList (elements l)))).
  { intros [|a [|b l]] Le Pl Ll; cbn in Le; try lia. rewrite (concatenate_plain a b l Pl). inversion Ll as [|? ? [vs ->] Lr]; inversion Pl as [|? ? Q1 Q2]; subst.
    destruct (run_list (b :: l) vs Q2) as [R _]. rewrite R; [reflexivity|]. eapply Forall_impl; [|exact Lr]. auto. }
  apply Forall_app in P, L. destruct P as [Px Py], L as [Lx Ly]. destruct ys as [|y [|y2 ys]]; [congruence|injection H as <-; reflexivity|].
  rewrite (Run (y :: y2 :: ys)) in H by (cbn; lia || assumption). injection H as <-.
  rewrite (Run (xs ++ y :: y2 :: ys)); [|rewrite app_length; cbn; lia|apply Forall_app; auto|apply Forall_app; auto].
  rewrite (Run (xs ++ [_])).
  - unfold elements. rewrite !flat_map_app. f_equal. f_equal. f_equal. f_equal. cbn [flat_map]. rewrite app_nil_r. reflexivity.
  - rewrite app_length. destruct xs; [congruence|]. cbn. lia.
  - apply Forall_app. split; [exact Px|]. constructor; [|constructor]. constructor. exact (elements_plain _ Py Ly).
  - apply Forall_app. split; [exact Lx|]. constructor; [eexists; reflexivity|constructor].
Qed.

Lemma stack_of_app : forall a b v, b <> [] -> Forall plain a -> Forall plain b -> stack_of b = Ok v -> stack_of (a ++ b) = stack_of (a ++ [v]).
Proof.
  intro a. induction a as [|x a IH]; intros b v Hb Pa Pb H; [cbn [app]; rewrite H; reflexivity|]. inversion Pa as [|? ? Qx Qa]; subst. cbn [app].
  assert (Pv : plain v).
  { destruct b as [|y b]; [congruence|]. cbn [stack_of] in H. inversion Pb as [|? ? Qy Qb]; subst. destruct (with_fallbacks_plain b y Qy Qb) as [w [E P]]. rewrite E in H. injection H as <-. exact P. }
  assert (C : forall l, l <> [] -> Forall plain l -> stack_of (x :: l) = (acc <- stack_of l ;; with_fallback x acc)).
  { intros [|y l] Hl Pl; [congruence|]. inversion Pl; subst. cbn [stack_of]. apply with_fallbacks_cons; assumption. }
  rewrite (C (a ++ b)), (C (a ++ [v])).
  - rewrite (IH b v Hb Qa Pb H). reflexivity.
  - destruct a; discriminate.
  - apply Forall_app. split; [assumption|constructor; [exact Pv|constructor]].
  - destruct a; [exact Hb|discriminate].
  - apply Forall_app. auto.
Qed.

Lemma group_right_objects : forall xs ys v, xs <> [] -> ys <> [] -> Forall plain (xs ++ ys) -> Forall (fun w => is_object w = true) (xs ++ ys) -> concatenate ys = Ok (Some v) ->
  concatenate (xs ++ ys) = concatenate (xs ++ [v]).
Proof.
  intros xs ys v Hx Hy P L H.
  assert (Fo : forall l, Forall (fun w => is_object w = true) l -> objects l = l).
  { intros l Hl. unfold objects. induction Hl as [|a l Ha Hl IH]; [reflexivity|]. cbn [List.filter]. rewrite Ha, IH. reflexivity. }
  assert (Run : forall l, l <> [] -> Forall plain l -> Forall (fun w => is_object w = true) l -> concatenate l = (o <- stack_of (rev l) ;; Ok (Some o))).
  { intros [|a [|b l]] Le Pl Ll; [congruence|reflexivity|]. rewrite (concatenate_plain a b l Pl). inversion Ll as [|? ? La Lr]; inversion Pl as [|? ? Pa Pr]; subst.
    destruct (plain_cases a Pa) as [[s ->]|[[vs ->]|[i [m ->]]]]; try discriminate.
    destruct (run_object (b :: l) [VObj true i m] i m Pr) as [R _]; [constructor; [exact Pa|constructor]|discriminate|exact Pa|reflexivity|].
    rewrite R; [|eapply Forall_impl; [|exact Lr]; auto]. rewrite (Fo (b :: l) Lr). change ([VObj true i m] ++ b :: l) with (VObj true i m :: b :: l).
    destruct (stack_of (rev (VObj true i m :: b :: l))); reflexivity. }
  apply Forall_app in P, L. destruct P as [Px Py], L as [Lx Ly].
  rewrite (Run ys Hy Py Ly) in H. inv_bind H. injection Hk as ->.
  assert (Q : plain v /\ is_object v = true).
  { destruct (rev ys) as [|y l] eqn:R; [apply (f_equal (@rev value)) in R; rewrite rev_involutive in R; contradiction|].
    assert (Pr : Forall plain (y :: l)) by (rewrite <- R; apply Forall_rev, Py). assert (Lr : Forall (fun w => is_object w = true) (y :: l)) by (rewrite <- R; apply Forall_rev, Ly).
    inversion Pr as [|? ? Qy Ql]; inversion Lr as [|? ? Oy Ol]; subst. cbn [stack_of] in Hb. clear R Pr Lr Ol. destruct (plain_cases y Qy) as [[s ->]|[[vs ->]|[i [m ->]]]]; try discriminate.
    clear Oy. revert i m Qy Hb. induction Ql as [|z l Hz Hl IH]; intros i m Qy Hb; [injection Hb as <-; split; [exact Qy|reflexivity]|].
    cbn [with_fallbacks] in Hb. destruct (plain_merge_obj i m z Qy Hz) as [i' [m' [E P']]]. rewrite E in Hb. exact (IH i' m' P' Hb). }
  destruct Q as [Pv Ov]. rewrite (Run (xs ++ ys)), (Run (xs ++ [v])).
  - rewrite !rev_app_distr. cbn [rev app].
    assert (S2 : stack_of (rev ys ++ rev xs) = stack_of (v :: rev xs)).
    { destruct (rev ys) as [|y l] eqn:R; [apply (f_equal (@rev value)) in R; rewrite rev_involutive in R; contradiction|]. cbn [app stack_of] in *.
      assert (W : forall l1 l2 u w, with_fallbacks u l1 = Ok w -> with_fallbacks u (l1 ++ l2) = with_fallbacks w l2).
      { intro l1. induction l1 as [|a l1 IH]; intros l2 u w E; [injection E as ->; reflexivity|]. cbn [with_fallbacks app] in *. destruct (with_fallback u a) as [c| |]; try discriminate. exact (IH l2 c w E). }
      exact (W _ _ _ _ Hb). }
    rewrite S2. reflexivity.
  - destruct xs; discriminate.
  - apply Forall_app. split; [exact Px|constructor; [exact Pv|constructor]].
  - apply Forall_app. split; [exact Lx|constructor; [exact Ov|constructor]].
  - destruct xs; [congruence|discriminate].
  - apply Forall_app. auto.
  - apply Forall_app. auto.
Qed.

Lemma group_right : forall xs ys v, xs <> [] -> ys <> [] -> Forall plain (xs ++ ys) ->
  Forall good_text (xs ++ ys) \/ Forall a_list (xs ++ ys) \/ Forall (fun w => is_object w = true) (xs ++ ys) ->
  concatenate ys = Ok (Some v) -> concatenate (xs ++ ys) = concatenate (xs ++ [v]).
Proof.
  intros xs ys v Hx Hy P [G|[G|G]] H; [apply group_right_texts|apply group_right_lists|apply group_right_objects]; assumption.
Qed.

(** ** Substitutions among simple values: what is joined early is joined the same way later *)



Lemma early_join : forall (f : nat -> value) ps cs, Forall text_or_ref ps -> (forall n, good_text (f n)) ->
  consolidate ps = Ok cs ->
  Forall text_or_ref cs /\ flat_map piece_text (map (replaced f) cs) = flat_map piece_text (map (replaced f) ps).
Proof.
  intros f ps cs G Hf. assert (Fl : flattened ps = ps).
  { unfold flattened. induction G as [|v l Hv Hl IH]; [reflexivity|]. cbn [flat_map]. rewrite IH. destruct Hv as [[[s ->] _]|[n [p [o [l' ->]]]]]; reflexivity. }
  assert (J : forall l b c, Forall text_or_ref l -> Forall text_or_ref b -> join_all b l = Ok c ->
            Forall text_or_ref c /\ flat_map piece_text (map (replaced f) c) = flat_map piece_text (map (replaced f) (rev b ++ l))).
  { intro l. induction l as [|v l IH]; intros b c Gl Gb E; cbn [join_all] in E.
    - injection E as <-. split; [apply Forall_rev, Gb|]. rewrite app_nil_r. reflexivity.
    - inversion Gl as [|? ? Gv Gr]; subst. destruct b as [|w b].
      + apply IH in E; [|exact Gr|constructor; [exact Gv|constructor]]. exact E.
      + inversion Gb as [|? ? Gw Gb']; subst. inv_bind E.
        assert (Hj : (a = None) \/ exists s t, w = VScalar s /\ v = VScalar t /\ scalar_text s <> [] /\ a = Some (VScalar (SStr (scalar_text s ++ scalar_text t) true))).
        { destruct Gw as [[[s ->] T]|[n [p [o [l' ->]]]]]; destruct Gv as [[[t ->] T']|[n' [p' [o' [l'' ->]]]]]; try rewrite piece_text_spec in *.
          - right. exists s, t. rewrite (join_scalar s (VScalar t)) in Hb by (constructor || exact T). destruct (scalar_text t); [discriminate|]. injection Hb as <-. auto.
          - left. cbn in Hb. injection Hb as <-. reflexivity.
          - left. cbn in Hb. injection Hb as <-. reflexivity.
          - left. cbn in Hb. injection Hb as <-. reflexivity. }
        destruct Hj as [->|[s [t [-> [-> [Ts ->]]]]]].
        * apply IH in Hk; [|exact Gr|constructor; [exact Gv|exact Gb]]. destruct Hk as [K1 K2]. split; [exact K1|]. rewrite K2. cbn [rev]. rewrite <- !app_assoc. reflexivity.
        * apply IH in Hk; [|exact Gr|].
          -- destruct Hk as [K1 K2]. split; [exact K1|]. rewrite K2. cbn [rev]. rewrite <- !app_assoc. cbn [app]. rewrite !map_app, !flat_map_app. f_equal.
             cbn [map replaced flat_map]. rewrite !piece_text_spec. cbn [scalar_text]. rewrite app_assoc. reflexivity.
          -- constructor; [|exact Gb']. left. split; [eexists; reflexivity|]. rewrite piece_text_spec. cbn [scalar_text]. destruct (scalar_text s); [congruence|discriminate]. }
  intro H. unfold consolidate in H. rewrite Fl in H. destruct ps as [|v [|w ps]]; [injection H as <-; split; [exact G|reflexivity]|injection H as <-; split; [exact G|reflexivity]|].
  exact (J _ [] cs G (Forall_nil _) H).
Qed.

Lemma early_join_same : forall (f : nat -> value) ps cs, Forall text_or_ref ps -> (forall n, good_text (f n)) -> (2 <= List.length cs)%nat ->
  consolidate ps = Ok cs -> concatenate (map (replaced f) cs) = concatenate (map (replaced f) ps).
Proof.
  intros f ps cs G Hf L H. destruct (early_join f ps cs G Hf H) as [Gc E].
  assert (Gm : forall l, Forall text_or_ref l -> Forall good_text (map (replaced f) l)).
  { intros l Hl. induction Hl as [|v l Hv Hl IH]; [constructor|]. cbn [map]. constructor; [|exact IH]. destruct Hv as [[[s ->] T]|[n [p [o [l' ->]]]]]; [split; [eexists; reflexivity|exact T]|apply Hf]. }
  assert (Run : forall l, (2 <= List.length l)%nat -> Forall good_text l -> concatenate l = Ok (Some (VScalar (SStr (flat_map piece_text l) true)))).
  { intros [|a [|b l]] Le Gl; cbn in Le; try lia. assert (Pl : Forall plain (a :: b :: l)) by (eapply Forall_impl; [|exact Gl]; intros x [[s ->] _]; constructor).
    rewrite (concatenate_plain a b l Pl). inversion Gl as [|? ? [[s ->] T] Gr]; inversion Pl; subst. rewrite piece_text_spec in T.
    destruct (run_scalar (b :: l) s) as [R _]; [assumption|exact T|]. rewrite (R Gr). cbn [bind flat_map]. rewrite piece_text_spec. reflexivity. }
  rewrite (Run (map (replaced f) cs)); [|rewrite map_length; exact L|apply Gm, Gc]. rewrite (Run (map (replaced f) ps)); [rewrite E; reflexivity| |apply Gm, G].
  rewrite map_length. destruct ps as [|v [|w ps]]; [injection H as <-; cbn in L; lia|injection H as <-; cbn in L; lia|cbn; lia].
Qed.
