(** Equality and editing of values. *)
From Coq Require Import Lia.
From Verif Require Import Base BaseLemmas Util_Model Num_Model Path_Model Path_Spec Path_Lemmas PathParser_Model Value_Model Value_Spec Value_Lemmas Value_Lemmas2.

(** ** Sizes *)

Lemma size_list : forall vs v, In v vs -> (size v < size (VList vs))%nat.
Proof.
  intros vs v H. cbn [size]. induction vs as [|w vs IH]; [destruct H|]. cbn [fold_right]. destruct H as [->|H]; [lia|]. specialize (IH H). lia.
Qed.

Lemma size_field : forall r i m k v, In (k, v) m -> (size v < size (VObj r i m))%nat.
Proof.
  intros r i m k v H. cbn [size]. induction m as [|[k' w] m IH]; [destruct H|]. cbn [fold_right snd]. destruct H as [E|H].
  - injection E as -> ->. lia.
  - specialize (IH H). lia.
Qed.

(** ** Numbers *)

Lemma feq_sym : forall a b, SFeqb a b = SFeqb b a.
Proof.
  intros a b. unfold SFeqb. destruct a as [x|x| |x m e], b as [y|y| |y n f]; cbn; try (destruct x; reflexivity); try (destruct y; reflexivity); try (destruct x, y; reflexivity); try reflexivity.
  change (Pos.compare_cont Eq m n) with (Pos.compare m n). change (Pos.compare_cont Eq n m) with (Pos.compare n m).
  destruct x, y; try reflexivity; rewrite (Z.compare_antisym e f), (Pos.compare_antisym m n);
    destruct (Z.compare e f); cbn; try reflexivity; destruct (Pos.compare m n); reflexivity.
Qed.

Lemma feq_cases : forall a b, SFeqb a b = true ->
  (exists x y, a = S754_zero x /\ b = S754_zero y) \/ (a = b /\ a <> S754_nan).
Proof.
  intros a b. unfold SFeqb. destruct a as [x|x| |x m e], b as [y|y| |y n f]; cbn; intro H;
    try discriminate; try (destruct x; discriminate); try (destruct y; discriminate).
  - left. eauto.
  - right. destruct x, y; try discriminate; (split; [reflexivity|discriminate]).
  - right. split; [|discriminate]. change (Pos.compare_cont Eq m n) with (Pos.compare m n) in H. destruct x, y; try discriminate; destruct (Z.compare e f) eqn:E1; try discriminate; destruct (Pos.compare m n) eqn:E2; cbn in H;
      try discriminate; try (apply Z.compare_eq in E1; apply Pos.compare_eq in E2; subst; reflexivity).
Qed.

Lemma feq_trans : forall a b c, SFeqb a b = true -> SFeqb b c = true -> SFeqb a c = true.
Proof.
  intros a b c H1 H2. destruct (feq_cases _ _ H1) as [[x [y [-> ->]]]|[-> _]]; [|exact H2].
  destruct (feq_cases _ _ H2) as [[x' [y' [_ ->]]]|[<- _]]; [reflexivity|reflexivity].
Qed.

Lemma same_number_sym : forall a b, same_number a b -> same_number b a.
Proof. intros a b [H1 [H2 [l [H3 [H4 H5]]]]]. split; [exact H2|]. split; [exact H1|]. exists l. rewrite feq_sym. auto. Qed.

Lemma same_number_trans : forall a b c, same_number a b -> same_number b c -> same_number a c.
Proof.
  intros a b c [H1 [H2 [l [H3 [H4 H5]]]]] [G1 [G2 [l' [G3 [G4 G5]]]]]. split; [exact H1|]. split; [exact G2|]. exists l.
  rewrite H4 in G3. injection G3 as <-. split; [exact H3|]. split; [exact G4|]. exact (feq_trans _ _ _ H5 G5).
Qed.

Lemma scalar_eq_num : forall a b, same_number a b -> scalar_eq a b = Ok true.
Proof.
  intros a b [H1 [H2 [l [H3 [H4 H5]]]]].
  assert (E : scalar_eq a b = (l1 <- long_value a ;; l2 <- long_value b ;; Ok ((l1 =? l2) && SFeqb (double_value a) (double_value b)))).
  { destruct a, b; try discriminate; reflexivity. }
  rewrite E, H3. cbn [bind]. rewrite H4. cbn [bind]. rewrite Z.eqb_refl, H5. reflexivity.
Qed.

(** ** Equal contents compare equal *)

Lemma contents_bijection : forall m m', NoDup (map fst m) -> NoDup (map fst m') -> List.length m = List.length m' ->
  (forall k v, find_key k m = Some v -> exists w, find_key k m' = Some w /\ same_contents v w) ->
  forall k w, find_key k m' = Some w -> exists v, find_key k m = Some v /\ same_contents v w.
Proof.
  intros m m' N N' L H k w F.
  assert (I : incl (map fst m') (map fst m)).
  { apply NoDup_length_incl; [exact N|rewrite !map_length, L; apply le_n|]. intros x Hx.
    destruct (find_key x m) as [v|] eqn:E; [|apply find_key_none in E; contradiction].
    destruct (H x v E) as [u [Fu _]]. apply find_key_in in Fu. apply (in_map fst) in Fu. exact Fu. }
  assert (Hk : In k (map fst m)) by (apply I; apply find_key_in in F; apply (in_map fst) in F; exact F).
  destruct (find_key k m) as [v|] eqn:E; [|apply find_key_none in E; contradiction].
  exists v. split; [reflexivity|]. destruct (H k v E) as [u [Fu S]]. rewrite F in Fu. injection Fu as ->. exact S.
Qed.

Lemma list_eq_true : forall f x y, Forall2 (fun a b => f a b = Ok true) x y -> list_eq f x y = Ok true.
Proof. intros f x y H. induction H as [|a b x y H1 H2 IH]; [reflexivity|]. cbn [list_eq]. rewrite H1. exact IH. Qed.

Lemma fields_eq_true : forall f m m' e, (m = [] -> e = true) ->
  (forall k v, In (k, v) m -> exists w, find_key k m' = Some w /\ f w v = Ok true) -> fields_eq f e m m' = Ok true.
Proof.
  intros f m m'. induction m as [|[k v] m IH]; intros e He H; cbn [fields_eq].
  - rewrite He by reflexivity. reflexivity.
  - destruct (H k v) as [w [F E]]; [left; reflexivity|]. rewrite F, E. cbn [bind]. apply IH; [reflexivity|]. intros k' v' Hi. apply H. right. exact Hi.
Qed.

Lemma Forall2_in : forall A B (P : A -> B -> Prop) (Q : A -> B -> Prop) x y, Forall2 P x y ->
  (forall a b, In a x -> In b y -> P a b -> Q a b) -> Forall2 Q x y.
Proof.
  intros A B P Q x y H. induction H as [|a b x y H1 H2 IH]; intro HQ; constructor.
  - apply HQ; [left; reflexivity|left; reflexivity|exact H1].
  - apply IH. intros a' b' Ha Hb. apply HQ; right; assumption.
Qed.

Lemma Forall2_length : forall A B (P : A -> B -> Prop) x y, Forall2 P x y -> List.length x = List.length y.
Proof. intros A B P x y H. induction H; [reflexivity|]. cbn. f_equal. assumption. Qed.

Lemma Forall2_flip : forall A B (P : A -> B -> Prop) x y, Forall2 P x y -> Forall2 (fun b a => P a b) y x.
Proof. intros A B P x y H. induction H; constructor; assumption. Qed.

Lemma contents_equal_n : forall n a b, (size a + size b <= n)%nat -> well_keyed a -> well_keyed b -> same_contents a b ->
  value_eq_n n a b = Ok true /\ value_eq_n n b a = Ok true.
Proof.
  intro n. induction n as [|n IH]; intros a b Hs Ka Kb H.
  - exfalso. destruct a; cbn in Hs; lia.
  - inversion H as [|x|s q q'|x y Hn|vs ws Hl|r i m r' i' m' L Hm]; subst; cbn [value_eq_n].
    + split; reflexivity.
    + cbn. rewrite Bool.eqb_reflx. split; reflexivity.
    + cbn. rewrite str_eqb_refl. split; reflexivity.
    + split; apply scalar_eq_num; [exact Hn|apply same_number_sym, Hn].
    + rewrite (Forall2_length _ _ _ _ _ Hl), Nat.eqb_refl. cbn [negb].
      assert (E : Forall2 (fun a b => value_eq_n n a b = Ok true /\ value_eq_n n b a = Ok true) vs ws).
      { apply (Forall2_in _ _ _ _ _ _ Hl). intros a b Ha Hb Hc. inversion Ka as [|? F1| | | | |]; inversion Kb as [|? F2| | | | |]; subst.
        rewrite Forall_forall in F1, F2. apply IH; auto. pose proof (size_list _ _ Ha). pose proof (size_list _ _ Hb). lia. }
      split; apply list_eq_true; [|apply Forall2_flip]; apply (Forall2_in _ _ _ _ _ _ E); tauto.
    + rewrite L, Nat.eqb_refl. cbn [negb]. inversion Ka as [| |? ? ? N1 F1| | | |]; inversion Kb as [| |? ? ? N2 F2| | | |]; subst.
      rewrite Forall_forall in F1, F2. split; apply fields_eq_true; try reflexivity; intros k v Hi.
      * destruct (Hm k v (find_key_unique _ _ _ _ N1 Hi)) as [w [F S]]. exists w. split; [exact F|]. apply find_key_in in F.
        apply (IH v w); [|exact (F1 _ Hi)|exact (F2 _ F)|exact S].
        pose proof (size_field r i _ _ _ Hi). pose proof (size_field r' i' _ _ _ F). lia.
      * destruct (contents_bijection m m' N1 N2 L Hm k v (find_key_unique _ _ _ _ N2 Hi)) as [w [F S]]. exists w. split; [exact F|]. apply find_key_in in F.
        apply (IH w v); [|exact (F1 _ F)|exact (F2 _ Hi)|exact S].
        pose proof (size_field r i _ _ _ F). pose proof (size_field r' i' _ _ _ Hi). lia.
Qed.

Lemma contents_equal : forall a b, well_keyed a -> well_keyed b -> same_contents a b -> value_eq a b = Ok true /\ value_eq b a = Ok true.
Proof.
  intros a b Ka Kb H. unfold value_eq. rewrite (Nat.add_comm (size b) (size a)). apply contents_equal_n; auto.
Qed.

(** ** Values without objects *)

Lemma scalar_eq_free : forall x y lx ly, long_value x = Ok lx -> long_value y = Ok ly ->
  exists e, scalar_eq x y = Ok e /\ (e = true <-> same_contents (VScalar x) (VScalar y)).
Proof.
  intros x y lx ly Hx Hy. destruct (is_number x && is_number y) eqn:Hn.
  - apply andb_prop in Hn. destruct Hn as [N1 N2].
    exists ((lx =? ly) && SFeqb (double_value x) (double_value y)). split.
    { assert (E : scalar_eq x y = (l1 <- long_value x ;; l2 <- long_value y ;; Ok ((l1 =? l2) && SFeqb (double_value x) (double_value y)))).
      { destruct x, y; try discriminate; reflexivity. }
      rewrite E, Hx. cbn [bind]. rewrite Hy. reflexivity. }
    split.
    + intro H. apply andb_prop in H. destruct H as [H1 H2]. apply Z.eqb_eq in H1. subst ly. apply same_num. split; [exact N1|]. split; [exact N2|]. exists lx. auto.
    + intro H. inversion H as [E1 E2|b E1 E2|s q q' E1 E2|a b [_ [_ [l [L1 [L2 L3]]]]] E1 E2| |]; subst; try discriminate.
      rewrite Hx in L1. rewrite Hy in L2. injection L1 as ->. injection L2 as ->. rewrite Z.eqb_refl, L3. reflexivity.
  - destruct x as [|b1|z1 t1|z1 t1|d1 t1|s1 q1], y as [|b2|z2 t2|z2 t2|d2 t2|s2 q2]; try discriminate Hn;
      try (exists false; split; [reflexivity|]; split; [discriminate|]; intro H; inversion H as [| | |? ? [N1 [N2 _]]| |]; subst; discriminate).
    + exists true. split; [reflexivity|]. split; [constructor|reflexivity].
    + exists (Bool.eqb b1 b2). split; [reflexivity|]. split.
      * intro H. apply Bool.eqb_prop in H. subst. constructor.
      * intro H. inversion H as [| | |? ? [N1 _]| |]; subst; [apply Bool.eqb_reflx|discriminate].
    + exists (str_eqb s1 s2). split; [reflexivity|]. split.
      * intro H. apply str_eqb_eq in H. subst. constructor.
      * intro H. inversion H as [| | |? ? [N1 _]| |]; subst; [apply str_eqb_refl|discriminate].
Qed.

Lemma list_eq_free : forall f x y, List.length x = List.length y ->
  (forall a b, In a x -> In b y -> exists e, f a b = Ok e /\ (e = true <-> same_contents a b)) ->
  exists e, list_eq f x y = Ok e /\ (e = true <-> Forall2 same_contents x y).
Proof.
  intros f x. induction x as [|a x IH]; intros [|b y] L H; try discriminate.
  - exists true. split; [reflexivity|]. split; [constructor|reflexivity].
  - cbn in L. injection L as L. destruct (H a b) as [e [E1 E2]]; [left; reflexivity|left; reflexivity|]. cbn [list_eq]. rewrite E1. cbn [bind].
    destruct e.
    + destruct (IH y L) as [e [E3 E4]]; [intros; apply H; right; assumption|]. exists e. split; [exact E3|]. split.
      * intro He. constructor; [apply E2; reflexivity|apply E4, He].
      * intro He. inversion He; subst. apply E4. assumption.
    + exists false. split; [reflexivity|]. split; [discriminate|]. intro He. inversion He; subst. exfalso. assert (false = true) by (apply E2; assumption). discriminate.
Qed.

Lemma free_eq_n : forall n a b, (size a + size b <= n)%nat -> object_free a -> object_free b ->
  exists e, value_eq_n n a b = Ok e /\ (e = true <-> same_contents a b).
Proof.
  intro n. induction n as [|n IH]; intros a b Hs Ha Hb.
  - exfalso. destruct a; cbn in Hs; lia.
  - inversion Ha as [x lx Lx Nx|x Fx]; inversion Hb as [y ly Ly Ny|y Fy]; subst; cbn [value_eq_n].
    + exact (scalar_eq_free x y lx ly Lx Ly).
    + exists false. split; [reflexivity|]. split; [discriminate|]. intro H; inversion H.
    + exists false. split; [reflexivity|]. split; [discriminate|]. intro H; inversion H.
    + destruct (List.length x =? List.length y)%nat eqn:L; cbn [negb].
      * apply Nat.eqb_eq in L. destruct (list_eq_free (value_eq_n n) x y L) as [e [E1 E2]].
        { intros a b Hia Hib. rewrite Forall_forall in Fx, Fy. apply IH; auto. pose proof (size_list _ _ Hia). pose proof (size_list _ _ Hib). lia. }
        exists e. split; [exact E1|]. rewrite E2. split; [intro; constructor; assumption|]. intro H. inversion H; subst; assumption.
      * exists false. split; [reflexivity|]. split; [discriminate|]. intro H. inversion H as [| | | |? ? F|]; subst. apply Forall2_length in F. rewrite F, Nat.eqb_refl in L. discriminate.
Qed.

Lemma free_refl : forall a, object_free a -> same_contents a a.
Proof.
  intro a. induction a as [s|vs IH|r i m IH|n p o l|vs IH|vs IH|vs IH] using value_induction; intro H; inversion H as [x lx Lx Nx|x Fx]; subst.
  - destruct s; try constructor; (split; [reflexivity|]; split; [reflexivity|]; exists lx; auto).
  - constructor. clear H. induction vs as [|v vs IHv]; constructor; inversion IH; inversion Fx; subst; auto.
Qed.

Lemma free_sym : forall a b, object_free a -> same_contents a b -> same_contents b a.
Proof.
  intro a. induction a as [s|vs IH|r i m IH|n p o l|vs IH|vs IH|vs IH] using value_induction; intros b H S; inversion H as [x lx Lx Nx|x Fx]; subst.
  - inversion S; subst; try constructor. apply same_number_sym. assumption.
  - inversion S as [| | | |? ws F|]; subst. constructor. clear S H. induction F as [|v w vs ws Hv Hf IHf]; constructor; inversion IH; inversion Fx; subst; auto.
Qed.

Lemma free_trans : forall a b c, object_free a -> same_contents a b -> same_contents b c -> same_contents a c.
Proof.
  intro a. induction a as [s|vs IH|r i m IH|n p o l|vs IH|vs IH|vs IH] using value_induction; intros b c H S T; inversion H as [x lx Lx Nx|x Fx]; subst.
  - inversion S as [|x|t q q'|x y Hn| |]; subst; inversion T as [|x'|t' q1 q1'|x' y' Hn'| |]; subst; try constructor; try assumption;
      try (destruct Hn' as [D _]; discriminate); try (destruct Hn as [_ [D _]]; discriminate).
    exact (same_number_trans _ _ _ Hn Hn').
  - inversion S as [| | | |? ws F|]; subst. inversion T as [| | | |? us G|]; subst. constructor. clear S T H.
    revert us G. induction F as [|v w vs ws Hv Hf IHf]; intros us G; inversion G; subst; constructor; inversion IH; inversion Fx; subst; eauto.
Qed.

Lemma equality_free : forall a b, object_free a -> object_free b ->
  (exists e, value_eq a b = Ok e /\ (e = true <-> same_contents a b)) /\
  value_eq a a = Ok true /\ value_eq b a = value_eq a b /\
  (forall c, object_free c -> value_eq a b = Ok true -> value_eq b c = Ok true -> value_eq a c = Ok true).
Proof.
  assert (I : forall a b, object_free a -> object_free b -> exists e, value_eq a b = Ok e /\ (e = true <-> same_contents a b)).
  { intros a b Ha Hb. apply free_eq_n; auto. }
  intros a b Ha Hb. split; [apply I; assumption|]. split; [|split].
  - destruct (I a a Ha Ha) as [e [E1 E2]]. rewrite E1. f_equal. apply E2, free_refl, Ha.
  - destruct (I a b Ha Hb) as [e [E1 E2]]. destruct (I b a Hb Ha) as [f [F1 F2]]. rewrite E1, F1. f_equal.
    destruct e, f; try reflexivity.
    + apply F2, free_sym; [exact Ha|]. apply E2. reflexivity.
    + symmetry. apply E2, free_sym; [exact Hb|]. apply F2. reflexivity.
  - intros c Hc H1 H2. destruct (I a b Ha Hb) as [e [E1 E2]]. destruct (I b c Hb Hc) as [f [F1 F2]]. destruct (I a c Ha Hc) as [g [G1 G2]].
    rewrite G1. f_equal. apply G2. apply (free_trans a b c Ha); [apply E2; congruence|apply F2; congruence].
Qed.

(** ** Editing *)

Lemma find_key_emplace : forall m k v k', find_key k' (emplace m k v) =
  match find_key k' m with Some w => Some w | None => if str_eqb k' k then Some v else None end.
Proof.
  intros m k v k'. unfold emplace. destruct (find_key k m) as [x|] eqn:F.
  - destruct (find_key k' m) as [w|] eqn:F'; [reflexivity|]. destruct (str_eqb k' k) eqn:E; [|reflexivity]. apply str_eqb_eq in E. subst. congruence.
  - rewrite find_key_app. cbn [find_key]. reflexivity.
Qed.

Lemma with_value_new : forall r i m k v, find_key k m = None ->
  exists w, with_value (VObj r i m) [k] v = Ok w /\ get [k] w = Some v /\ forall p, apart [k] p -> get p w = get p (VObj r i m).
Proof.
  intros r i m k v F. cbn [with_value with_value_key]. eexists. split; [reflexivity|]. split.
  - cbn [get]. rewrite find_key_emplace, F, str_eqb_refl. reflexivity.
  - intros p [A1 A2]. destruct p as [|k' p]; [exfalso; apply A2; exists [k]; reflexivity|]. cbn [get]. rewrite find_key_emplace.
    destruct (find_key k' m); [reflexivity|]. destruct (str_eqb k' k) eqn:E; [|reflexivity]. apply str_eqb_eq in E. subst. exfalso. apply A1. exists p. reflexivity.
Qed.

(** Nothing that was there is changed. *)
Lemma with_value_keeps : forall p this v w, with_value this p v = Ok w ->
  forall q x, q <> [] -> get q this = Some x -> get q w = Some x.
Proof.
  intro p. induction p as [|k p IH]; intros this v w H q x Hq G; [discriminate|]. cbn [with_value] in H.
  destruct this as [| |r i m| | | |]; try discriminate.
  assert (K : forall k u, get q (VObj r i (emplace m k u)) = Some x).
  { intros k0 u. destruct q as [|k' q]; [congruence|]. cbn [get] in G |- *. rewrite find_key_emplace. destruct (find_key k' m); [exact G|discriminate]. }
  destruct p as [|k2 p].
  - cbn [with_value_key] in H. injection H as <-. apply K.
  - destruct (find_key k m) as [child|] eqn:F.
    + destruct (is_object child).
      * cbn [with_value_key bind] in H. apply (IH _ _ _ H q x Hq). apply K.
      * inv_bind H. unfold at_path in Hb. destruct (last (k2 :: p)); discriminate.
    + inv_bind H. unfold at_path in Hb. destruct (last (k2 :: p)); discriminate.
Qed.

Lemma find_key_filter : forall (m : fields) k k', find_key k' (filter (fun kv => negb (str_eqb (fst kv) k)) m) =
  if str_eqb k' k then None else find_key k' m.
Proof.
  intros m k k'. induction m as [|[k0 v] m IH]; cbn [filter find_key fst]; [destruct (str_eqb k' k); reflexivity|].
  destruct (str_eqb k0 k) eqn:E0; cbn [negb]; [|cbn [find_key]]; rewrite IH.
  - destruct (str_eqb k' k) eqn:E; [reflexivity|]. destruct (str_eqb k' k0) eqn:E'; [|reflexivity].
    apply str_eqb_eq in E0, E'. subst. rewrite str_eqb_refl in E. discriminate.
  - destruct (str_eqb k' k0) eqn:E'; [|reflexivity]. apply str_eqb_eq in E'. subst. rewrite E0. reflexivity.
Qed.

Lemma filter_plain : forall i m k, plain (VObj true i m) ->
  plain (VObj (fields_resolved (filter (fun kv => negb (str_eqb (fst kv) k)) m)) i (filter (fun kv => negb (str_eqb (fst kv) k)) m)).
Proof.
  intros i m k H. inversion H as [| |? ? N F]; subst. assert (F' : Forall (fun kv => plain (snd kv)) (filter (fun kv => negb (str_eqb (fst kv) k)) m)).
  { apply Forall_forall. intros x Hx. apply filter_In in Hx. rewrite Forall_forall in F. apply F, Hx. }
  rewrite (plain_fields_resolved _ F'). constructor; [|exact F']. clear F F' H. induction m as [|[k0 v] m IH]; [constructor|].
  cbn [map fst] in N. inversion N as [|? ? Hx Hn]; subst. cbn [filter fst]. destruct (negb (str_eqb k0 k)); [|apply IH, Hn]. cbn [map fst]. constructor; [|apply IH, Hn].
  intro Hi. apply Hx. apply in_map_iff in Hi. destruct Hi as [y [E Hy]]. apply filter_In in Hy. subst. apply in_map, Hy.
Qed.

Lemma without_path_gone : forall p this, p <> [] -> plain this -> simple_object this ->
  exists w, without_path this p = Ok w /\ plain w /\ simple_object w /\ get p w = None.
Proof.
  intro p. induction p as [|k p IH]; intros this Hp Ht Hs; [congruence|]. destruct Hs as [r [i [m ->]]]. cbn [without_path get].
  assert (Hr : r = true) by (inversion Ht; reflexivity). subst r.
  destruct (find_key k m) as [v|] eqn:F.
  - destruct p as [|k2 p].
    + eexists. split; [reflexivity|]. split; [apply filter_plain, Ht|]. split; [repeat eexists|]. rewrite find_key_filter, str_eqb_refl. reflexivity.
    + assert (Pv : plain v) by exact (plain_find _ _ _ _ _ Ht F). destruct (is_object v) eqn:O.
      * assert (Sv : simple_object v) by (destruct v; try discriminate; [repeat eexists|inversion Pv]).
        destruct (IH v) as [w [E [Pw [Sw G]]]]; [discriminate|exact Pv|exact Sv|]. rewrite E. cbn [bind]. eexists. split; [reflexivity|].
        assert (R : fields_resolved [(k, w)] = true) by (cbn; rewrite (plain_resolved w Pw); reflexivity). rewrite R. split.
        { constructor; [constructor; [intros []|constructor]|]. constructor; [exact Pw|constructor]. }
        split; [repeat eexists|]. cbn [find_key]. rewrite str_eqb_refl. exact G.
      * eexists. split; [reflexivity|]. split; [exact Ht|]. split; [repeat eexists|]. rewrite F. destruct v; try reflexivity. discriminate.
  - exists (VObj true i m). split; [destruct p; reflexivity|]. split; [exact Ht|]. split; [repeat eexists|]. rewrite F. reflexivity.
Qed.

Lemma is_prefix_cons : forall A (x y : A) p q, is_prefix (x :: p) (y :: q) <-> x = y /\ is_prefix p q.
Proof.
  intros A x y p q. split.
  - intros [r H]. cbn in H. injection H as -> ->. split; [reflexivity|]. exists r. reflexivity.
  - intros [-> [r ->]]. exists r. reflexivity.
Qed.

Lemma without_path_siblings : forall parent k q this w, without_path this (parent ++ [k]) = Ok w ->
  ~ is_prefix [k] q -> q <> [] -> get (parent ++ q) w = get (parent ++ q) this.
Proof.
  intro parent. induction parent as [|k0 parent IH]; intros k q this w H Hq Hn; cbn [app without_path] in H.
  - destruct this as [| |r i m| | | |]; try discriminate. destruct q as [|k' q]; [congruence|]. cbn [app get].
    destruct (find_key k m) as [v|] eqn:F.
    + injection H as <-. rewrite find_key_filter. destruct (str_eqb k' k) eqn:E; [|reflexivity]. apply str_eqb_eq in E. subst. exfalso. apply Hq. exists q. reflexivity.
    + injection H as <-. reflexivity.
  - destruct this as [| |r i m| | | |]; try discriminate. destruct (parent ++ [k]) as [|k1 t] eqn:Ep; [destruct parent; discriminate|].
    cbn [app get]. destruct (find_key k0 m) as [v|] eqn:F.
    + destruct (is_object v).
      * inv_bind H. injection Hk as <-. cbn [find_key]. rewrite str_eqb_refl. rewrite <- Ep in Hb. exact (IH k q v a Hb Hq Hn).
      * injection H as <-. rewrite F. reflexivity.
    + injection H as <-. rewrite F. reflexivity.
Qed.

Lemma only_path_null : forall p this o, with_only_path_or_null this p = Ok o -> o = None.
Proof.
  intro p. induction p as [|k p IH]; intros this o H; cbn [with_only_path_or_null] in H; [discriminate|].
  destruct this as [| |r i m| | | |]; try discriminate. inv_bind H. destruct a as [x|]; [|injection Hk as <-; reflexivity].
  exfalso. destruct p as [|k2 p]; [discriminate|]. destruct (find_key k m) as [v|]; [|discriminate]. destruct (is_object v); [|discriminate].
  apply IH in Hb. discriminate.
Qed.

Lemma with_only_path_empty : forall this p w, with_only_path this p = Ok w -> forall q, q <> [] -> get q w = None.
Proof.
  intros this p w H q Hq. unfold with_only_path in H. destruct this as [| |r i m| | | |]; try discriminate. inv_bind H.
  apply only_path_null in Hb. subst a. injection Hk as <-. destruct q as [|k q]; [congruence|]. reflexivity.
Qed.

(** ** What the code gets wrong *)

Definition ni (z : Z) : value := VScalar (SInt z []).
Definition ob (m : fields) : value := VObj true false m.

Lemma equality_bad :
  (exists a b, plain a /\ plain b /\ value_eq a b = Ok true /\ ~ same_contents a b) /\
  (exists a b, plain a /\ plain b /\ value_eq a b = Ok true /\ value_eq b a = Ok false) /\
  (exists a b, plain a /\ plain b /\ value_eq a b = Throw EOutOfRange).
Proof.
  assert (N : forall k1 k2 : str, str_eqb k1 k2 = false -> NoDup [k1; k2]).
  { intros k1 k2 H. constructor; [|constructor; [intros []|constructor]]. intros [->|[]]. rewrite str_eqb_refl in H. discriminate. }
  assert (P : forall k1 k2 v1 v2, str_eqb k1 k2 = false -> plain (ob [(k1, ni v1); (k2, ni v2)])).
  { intros. constructor; [apply N; assumption|]. repeat constructor. }
  split; [|split].
  - exists (ob [(lit "a", ni 1); (lit "b", ni 2)]), (ob [(lit "a", ni 3); (lit "b", ni 2)]).
    split; [apply P; reflexivity|]. split; [apply P; reflexivity|]. split; [vm_compute; reflexivity|].
    intro H. inversion H as [| | | | |r i m r' i' m' L Hm]; subst. destruct (Hm (lit "a") (ni 1) eq_refl) as [w [F S]]. injection F as <-.
    inversion S as [| | |x y [_ [_ [l [L1 [L2 _]]]]]| |]; subst. cbn in L1, L2. congruence.
  - exists (ob [(lit "a", ni 1); (lit "b", ni 2)]), (ob [(lit "b", ni 2); (lit "a", ni 3)]).
    split; [apply P; reflexivity|]. split; [apply P; reflexivity|]. split; vm_compute; reflexivity.
  - exists (ob [(lit "a", ni 1)]), (ob [(lit "b", ni 1)]).
    split; [|split; [|vm_compute; reflexivity]]; (constructor; [constructor; [intros []|constructor]|repeat constructor]).
Qed.

Lemma single_plain : forall k v, plain v -> plain (ob [(k, v)]).
Proof. intros k v H. constructor; [constructor; [intros []|constructor]|]. constructor; [exact H|constructor]. Qed.

Lemma with_value_bad :
  (exists this k v w, plain this /\ with_value this [k] v = Ok w /\ get [k] w <> Some v) /\
  (exists this k1 k2 v w, plain this /\ with_value this [k1; k2] v = Ok w /\ get [k1; k2] w = None /\ get [k2] this = None /\ get [k2] w = Some v) /\
  (exists this k1 k2 v, plain this /\ simple_object this /\ with_value this [k1; k2] v = Throw EBadWeakPtr).
Proof.
  split; [|split].
  - exists (ob [(lit "a", ni 1)]), (lit "a"), (ni 2). eexists. split; [apply single_plain; constructor|]. split; [vm_compute; reflexivity|].
    vm_compute. intro H. discriminate.
  - exists (ob [(lit "a", ob [])]), (lit "a"), (lit "b"), (ni 2). eexists. split; [apply single_plain; repeat constructor|].
    repeat (split; [vm_compute; reflexivity|]). vm_compute. reflexivity.
  - exists (ob []), (lit "a"), (lit "b"), (ni 2). split; [repeat constructor|]. split; [repeat eexists|]. vm_compute. reflexivity.
Qed.

Lemma without_path_bad : exists this p q x w, plain this /\ ~ is_prefix p q /\ get q this = Some x /\
  without_path this p = Ok w /\ get q w = None.
Proof.
  exists (ob [(lit "a", ob [(lit "b", ni 1)]); (lit "c", ni 2)]), [lit "a"; lit "b"], [lit "c"]. eexists. eexists.
  split. { constructor; [constructor; [intros [H|[]]; discriminate|constructor; [intros []|constructor]]|]. constructor; [apply single_plain; constructor|repeat constructor]. }
  split; [intros [r H]; discriminate|]. repeat (split; [vm_compute; reflexivity|]). vm_compute. reflexivity.
Qed.

Lemma with_only_path_bad :
  (exists this p x w, plain this /\ get p this = Some x /\ with_only_path this p = Ok w /\ get p w = None) /\
  (exists this p, plain this /\ simple_object this /\ p <> [] /\ with_only_path this p = Stuck UNullDeref).
Proof.
  split.
  - exists (ob [(lit "a", ni 1)]), [lit "a"]. eexists. eexists. split; [apply single_plain; constructor|].
    repeat (split; [vm_compute; reflexivity|]). vm_compute. reflexivity.
  - exists (ob [(lit "a", ni 1)]), [lit "x"; lit "y"]. split; [apply single_plain; constructor|]. split; [repeat eexists|]. split; [discriminate|].
    vm_compute. reflexivity.
Qed.

Lemma at_path_bad : forall v k p, p <> [] -> at_key v k = Throw EBadWeakPtr /\ at_path v p = Throw EBadWeakPtr.
Proof.
  intros v k p Hp. split; [reflexivity|]. unfold at_path. assert (E : exists x, last p = Some x).
  { destruct (exists_last Hp) as [q [x ->]]. exists x. apply last_spec. }
  destruct E as [x ->]. reflexivity.
Qed.

(** Merging with substitutions is not associative: the second way the merge gets nested. *)
Lemma merge_unresolved_bad : exists a b c ab bc l r,
  with_fallback a b = Ok ab /\ with_fallback b c = Ok bc /\ with_fallback ab c = Ok l /\ with_fallback a bc = Ok r /\ l <> r.
Proof.
  exists (VRef 0 [lit "x"] false 0), (ob [(lit "a", ni 1)]), (ob [(lit "b", ni 1)]).
  eexists. eexists. eexists. eexists. repeat (split; [vm_compute; reflexivity|]). vm_compute. intro H. discriminate.
Qed.
