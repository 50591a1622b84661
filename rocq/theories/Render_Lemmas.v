(** The order of keys in rendered text. *)
From Verif Require Import Base BaseLemmas Util_Model Num_Model Path_Model Token_Model Value_Model Value_Spec Value_Lemmas Render_Model Render_Spec.
From Coq Require Import Permutation Sorted.

(** ** The order of strings *)
Lemma byte_inj : forall c d, byte_of c = byte_of d -> c = d.
Proof.
  intros c d H. unfold byte_of in H. apply Nat2Z.inj in H. apply (f_equal ascii_of_nat) in H. rewrite !ascii_nat_embedding in H. exact H.
Qed.
Lemma ltb_irrefl : forall a, str_ltb a a = false.
Proof. induction a as [|c a IH]; [reflexivity|]. cbn. rewrite Z.ltb_irrefl. exact IH. Qed.
Lemma ltb_total : forall a b, str_ltb a b = false -> str_ltb b a = false -> a = b.
Proof.
  induction a as [|c a IH]; intros [|d b] H1 H2; try discriminate; [reflexivity|]. cbn in H1, H2.
  destruct (byte_of c <? byte_of d) eqn:E1; [discriminate|]. destruct (byte_of d <? byte_of c) eqn:E2; [discriminate|].
  f_equal; [apply byte_inj; lia|auto].
Qed.
Lemma ltb_trans : forall a b c, str_ltb a b = true -> str_ltb b c = true -> str_ltb a c = true.
Proof.
  induction a as [|x a IH]; intros [|y b] [|z c] H1 H2; try discriminate; [reflexivity|]. cbn in *.
  destruct (byte_of x <? byte_of y) eqn:E1; destruct (byte_of y <? byte_of z) eqn:E2.
  - replace (byte_of x <? byte_of z) with true by lia. reflexivity.
  - destruct (byte_of z <? byte_of y) eqn:E3; [discriminate|]. replace (byte_of x <? byte_of z) with true by lia. reflexivity.
  - destruct (byte_of y <? byte_of x) eqn:E3; [discriminate|]. replace (byte_of x <? byte_of z) with true by lia. reflexivity.
  - destruct (byte_of y <? byte_of x) eqn:E3; [discriminate|]. destruct (byte_of z <? byte_of y) eqn:E4; [discriminate|].
    replace (byte_of x <? byte_of z) with false by lia. replace (byte_of z <? byte_of x) with false by lia. eauto.
Qed.
Lemma ltb_asym : forall a b, str_ltb a b = true -> str_ltb b a = false.
Proof. intros a b H. destruct (str_ltb b a) eqn:E; [|reflexivity]. rewrite <- (ltb_trans _ _ _ H E). apply ltb_irrefl. Qed.

(** ** The order of keys *)
Lemma compare_total : forall a b, a <> b -> compare_keys a b = negb (compare_keys b a).
Proof.
  intros a b N. unfold compare_keys. rewrite (andb_comm (all_digits b)). destruct (all_digits a), (all_digits b); cbn; try reflexivity.
  - destruct (str_ltb a b) eqn:E; [rewrite (ltb_asym _ _ E); reflexivity|]. destruct (str_ltb b a) eqn:E2; [reflexivity|]. destruct (N (ltb_total _ _ E E2)).
  - destruct (str_ltb a b) eqn:E; [rewrite (ltb_asym _ _ E); reflexivity|]. destruct (str_ltb b a) eqn:E2; [reflexivity|]. destruct (N (ltb_total _ _ E E2)).
Qed.
Lemma compare_trans : forall a b c, compare_keys a b = true -> compare_keys b c = true -> compare_keys a c = true.
Proof.
  intros a b c. unfold compare_keys. destruct (all_digits a) eqn:Da, (all_digits b) eqn:Db, (all_digits c) eqn:Dc; cbn; try reflexivity; try discriminate.
  - intros H1 H2. apply negb_true_iff in H1, H2. apply negb_true_iff. destruct (str_ltb a c) eqn:E; [|reflexivity].
    destruct (str_ltb c b) eqn:E2; [rewrite (ltb_trans _ _ _ E E2) in H1; discriminate|]. rewrite (ltb_total _ _ H2 E2) in H1. congruence.
  - apply ltb_trans.
Qed.

Lemma compare_self : forall a, forallb isdigit a = true <-> compare_keys a a = true.
Proof.
  intro a. unfold compare_keys, all_digits. destruct (forallb isdigit a); cbn [andb]; rewrite ltb_irrefl; split; auto.
Qed.

(** ** Sorting *)
Section Sorting.
Context {A : Type}.
Implicit Types l : list (str * A).
Definition upto (x y : str * A) : Prop := compare_keys (fst x) (fst y) = true.

Lemma insert_perm : forall x l, Permutation (x :: l) (insert_key x l).
Proof.
  intros x l. induction l as [|y l IH]; [reflexivity|]. cbn [insert_key]. destruct (compare_keys (fst x) (fst y)); [reflexivity|].
  rewrite perm_swap. constructor. exact IH.
Qed.
Lemma sort_perm : forall l, Permutation l (sort_keys l).
Proof. induction l as [|x l IH]; [reflexivity|]. cbn. rewrite <- insert_perm. constructor. exact IH. Qed.
Lemma insert_sorted : forall x l, ~ In (fst x) (map fst l) -> StronglySorted upto l -> StronglySorted upto (insert_key x l).
Proof.
  intros x l. induction l as [|y l IH]; intros N S; [constructor; constructor|]. cbn [insert_key]. inversion S as [|? ? S1 S2]; subst.
  destruct (compare_keys (fst x) (fst y)) eqn:E.
  - constructor; [exact S|]. constructor; [exact E|]. eapply Forall_impl; [|exact S2]. intros z Z. exact (compare_trans _ _ _ E Z).
  - cbn in N. constructor; [apply IH; tauto|]. rewrite <- insert_perm. constructor; [|exact S2].
    unfold upto. rewrite compare_total by tauto. rewrite E. reflexivity.
Qed.
Lemma sort_sorted : forall l, NoDup (map fst l) -> StronglySorted upto (sort_keys l).
Proof.
  induction l as [|x l IH]; intro N; [constructor|]. cbn [map] in N. inversion N as [|? ? N1 N2]; subst. cbn. apply insert_sorted; [|exact (IH N2)].
  intro H. apply N1. eapply Permutation_in; [|exact H]. apply Permutation_map. symmetry. apply sort_perm.
Qed.
Lemma sorted_unique : forall l l', StronglySorted upto l -> StronglySorted upto l' -> Permutation l l' -> NoDup (map fst l) -> l = l'.
Proof.
  induction l as [|x l IH]; intros l' S S' P N; [apply Permutation_nil in P; auto|].
  destruct l' as [|y l']; [apply Permutation_sym, Permutation_nil in P; discriminate|].
  assert (x = y) as <-.
  { inversion S as [|? ? S1 S2]; subst. inversion S' as [|? ? S1' S2']; subst.
    assert (Hx : In x (y :: l')) by (eapply Permutation_in; [exact P|left; reflexivity]). destruct Hx as [<-|Hx]; [reflexivity|].
    assert (Hy : In y (x :: l)) by (eapply Permutation_in; [symmetry; exact P|left; reflexivity]). destruct Hy as [<-|Hy]; [reflexivity|]. exfalso.
    rewrite Forall_forall in S2, S2'. pose proof (S2 _ Hy) as C1. pose proof (S2' _ Hx) as C2. unfold upto in *.
    inversion N as [|? ? N1 N2]; subst. rewrite compare_total in C1; [rewrite C2 in C1; discriminate|]. intro E. apply N1. rewrite E. apply in_map, Hy. }
  f_equal. inversion S; inversion S'; inversion N; subst. apply IH; auto. eapply Permutation_cons_inv, P.
Qed.
Lemma sort_same : forall l l', Permutation l l' -> NoDup (map fst l) -> sort_keys l = sort_keys l'.
Proof.
  intros l l' P N. assert (N' : NoDup (map fst l')) by (eapply Permutation_NoDup; [apply Permutation_map, P|exact N]).
  apply sorted_unique; auto using sort_sorted.
  - rewrite <- !sort_perm. exact P.
  - eapply Permutation_NoDup; [apply Permutation_map, sort_perm|exact N].
Qed.
End Sorting.

(** ** Rendering *)
Section Render.
Variables (o : options) (ns : notes).

(** The parts of a list, of a concatenation, of a merge and of an object *)
Definition list_items (at_ : list place) (indent : nat) (at_root : bool) : nat -> list value -> list (result str) :=
  fix items (i : nat) (vs : list value) : list (result str) :=
    match vs with
    | [] => []
    | w :: vs' =>
        (b <- before_element o ns indent (at_ ++ [InList i]) ;;
         t <- render o ns w [] (at_ ++ [InList i]) (indent + 1) at_root ;;
         Ok (b ++ t ++ lit "," ++ (if formatted o then [nl] else []))) :: items (S i) vs'
    end.
Definition concat_items (at_ : list place) (indent : nat) (at_root : bool) : nat -> list value -> list (result str) :=
  fix items (i : nat) (vs : list value) : list (result str) :=
    match vs with [] => [] | w :: vs' => render o ns w [] (at_ ++ [InList i]) indent at_root :: items (S i) vs' end.
Definition merge_items (n : nat) (k : str) (at_ : list place) (indent : nat) (at_root : bool) : nat -> list value -> list (result str) :=
  fix items (i : nat) (vs : list value) : list (result str) :=
    match vs with
    | [] => []
    | w :: vs' =>
        (b <- before_layer o ns (n - 1 - i) indent k (at_ ++ [InList i]) ;;
         t <- render o ns w [] (at_ ++ [InList i]) indent at_root ;;
         Ok (b ++ t ++ lit "," ++ (if formatted o then [nl] else []))) :: items (S i) vs'
    end.
Definition field_item (at_ : list place) (indent inner_indent : nat) (kv : str * value) : result str :=
  b <- before_field o ns indent inner_indent (at_ ++ [InField (fst kv)]) ;;
  t <- render o ns (snd kv) (fst kv) (at_ ++ [InField (fst kv)]) inner_indent false ;;
  Ok (b ++ t ++ field_end o).
Definition object_items (at_ : list place) (indent inner_indent : nat) (m : fields) : list (str * result str) :=
  map (fun kv => (fst kv, field_item at_ indent inner_indent kv)) m.

Lemma render_list : forall vs k at_ indent at_root, render o ns (VList vs) k at_ indent at_root =
  match vs with
  | [] => Ok (key_text o k (VList vs) ++ lit "[]")
  | _ :: _ =>
      t <- sequence (list_items at_ indent at_root 0 vs) ;;
      Ok (key_text o k (VList vs) ++ lit "[" ++ (if formatted o then [nl] else []) ++
          (if formatted o then chop 2 t ++ [nl] ++ indent_text o indent else chop 1 t) ++ lit "]")
  end.
Proof. intros. reflexivity. Qed.
Lemma render_object : forall r i m k at_ indent at_root, render o ns (VObj r i m) k at_ indent at_root =
  (t <- (match m with
         | [] => Ok (lit "{}")
         | _ :: _ =>
             t <- sequence (map snd (sort_keys (object_items at_ indent (if json o || negb at_root then (indent + 1)%nat else indent) m))) ;;
             let t' := chop (List.length (field_end o)) t in
             Ok (if json o || negb at_root then
                   lit "{" ++ (if formatted o then [nl] else []) ++ t' ++
                   (if formatted o then [nl] ++ indent_text o indent else []) ++ lit "}"
                 else t')
         end) ;;
   Ok (key_text o k (VObj r i m) ++ t ++ (if at_root && formatted o then [nl] else []))).
Proof.
  intros r i m k at_ indent at_root. cbn [render]. set (inner := if json o || negb at_root then (indent + 1)%nat else indent).
  assert (E : forall m', (fix items (m : list (str * value)) : list (str * result str) :=
        match m with
        | [] => []
        | (key, w) :: m' =>
            (key, (b <- before_field o ns indent inner (at_ ++ [InField key]) ;;
                   t <- render o ns w key (at_ ++ [InField key]) inner false ;;
                   Ok (b ++ t ++ field_end o))) :: items m'
        end) m' = object_items at_ indent inner m').
  { induction m' as [|[key w] m' IH]; [reflexivity|]. cbn [object_items map]. rewrite IH. reflexivity. }
  destruct m as [|[? ?] m]; [reflexivity|]. rewrite E. reflexivity.
Qed.
Lemma render_concat : forall vs k at_ indent at_root, render o ns (VConcat vs) k at_ indent at_root =
  (t <- sequence (concat_items at_ indent at_root 0 vs) ;; Ok (key_text o k (VConcat vs) ++ t)).
Proof. intros. reflexivity. Qed.
Definition merge_text (stack : list value) (k : str) (at_ : list place) (indent : nat) (at_root : bool) : result str :=
  t <- sequence (rev (merge_items (List.length stack) k at_ indent at_root 0 stack)) ;;
  Ok (merge_head o (List.length stack) indent k ++ (if formatted o then chop 2 t ++ [nl] else chop 1 t) ++
      (if comments o then indent_text o indent ++ lit "# ) end of unresolved merge" ++ [nl] else [])).
Lemma render_merge : forall vs k at_ indent at_root, render o ns (VMerge vs) k at_ indent at_root = merge_text vs k at_ indent at_root.
Proof. intros. reflexivity. Qed.
Lemma render_merge_obj : forall vs k at_ indent at_root, render o ns (VMergeObj vs) k at_ indent at_root = merge_text vs k at_ indent at_root.
Proof. intros. reflexivity. Qed.

Definition renders_alike (v w : value) : Prop := forall k at_ indent at_root, render o ns v k at_ indent at_root = render o ns w k at_ indent at_root.

Lemma list_items_alike : forall vs ws, Forall2 renders_alike vs ws -> forall at_ indent at_root i, list_items at_ indent at_root i vs = list_items at_ indent at_root i ws.
Proof. intros vs ws F. induction F as [|v w vs ws H F IH]; intros; [reflexivity|]. cbn. rewrite (H [] _ _ _). f_equal. apply IH. Qed.
Lemma concat_items_alike : forall vs ws, Forall2 renders_alike vs ws -> forall at_ indent at_root i, concat_items at_ indent at_root i vs = concat_items at_ indent at_root i ws.
Proof. intros vs ws F. induction F as [|v w vs ws H F IH]; intros; [reflexivity|]. cbn. rewrite (H [] _ _ _). f_equal. apply IH. Qed.
Lemma merge_items_alike : forall vs ws, Forall2 renders_alike vs ws -> forall n k at_ indent at_root i, merge_items n k at_ indent at_root i vs = merge_items n k at_ indent at_root i ws.
Proof. intros vs ws F. induction F as [|v w vs ws H F IH]; intros; [reflexivity|]. cbn. rewrite (H [] _ _ _). f_equal. apply IH. Qed.

Lemma Forall2_length : forall A B (R : A -> B -> Prop) l l', Forall2 R l l' -> List.length l = List.length l'.
Proof. intros A B R l l' F. induction F; cbn; congruence. Qed.

Lemma render_alike : forall v w, well_keyed v -> reordered v w -> renders_alike v w.
Proof.
  assert (L : forall vs, Forall (fun v => forall w, well_keyed v -> reordered v w -> renders_alike v w) vs ->
    forall ws, Forall well_keyed vs -> Forall2 reordered vs ws -> Forall2 renders_alike vs ws).
  { intros vs F. induction F as [|v vs H F IH]; intros ws K R; inversion R; subst; [constructor|]. inversion K; subst. constructor; auto. }
  intro v. induction v as [s|vs IH|r i m IH|n p q l|vs IH|vs IH|vs IH] using value_induction; intros w K R; inversion R as [|? ws R1|? ? ? r' i' m' m'' R1 R2|? n' ? ? ? l'|? ws R1|? ws R1|? ws R1]; subst; intros k at_ indent at_root; inversion K; subst.
  - reflexivity.
  - rewrite !render_list. rewrite (list_items_alike _ _ (L _ IH _ H0 R1)). destruct R1; reflexivity.
  - rewrite !render_object. set (inner := if json o || negb at_root then (indent + 1)%nat else indent).
    assert (E : sort_keys (object_items at_ indent inner m) = sort_keys (object_items at_ indent inner m'')).
    { assert (E1 : object_items at_ indent inner m' = object_items at_ indent inner m'').
      { assert (F : Forall (fun kv => (forall w, well_keyed (snd kv) -> reordered (snd kv) w -> renders_alike (snd kv) w) /\ well_keyed (snd kv)) m').
        { rewrite <- R1. apply Forall_and; assumption. }
        clear - R2 F. induction R2 as [|[a v] [b w] m' m'' [E R] R2 IH]; [reflexivity|]. inversion F as [|? ? [F1 F2] F3]; subst. cbn in E, R, F1, F2. subst b.
        cbn [object_items map fst]. f_equal; [|exact (IH F3)]. f_equal. unfold field_item. cbn [fst snd]. rewrite (F1 _ F2 R a _ _ _). reflexivity. }
      rewrite <- E1. apply sort_same; [apply Permutation_map, R1|]. unfold object_items. rewrite map_map. cbn [fst]. exact H1. }
    rewrite E. assert (Le : List.length m = List.length m'') by (rewrite (Permutation_length R1); exact (Forall2_length _ _ _ _ _ R2)).
    destruct m as [|x m], m'' as [|y m'']; try discriminate Le; reflexivity.
  - reflexivity.
  - rewrite !render_concat. rewrite (concat_items_alike _ _ (L _ IH _ H0 R1)). reflexivity.
  - rewrite !render_merge. unfold merge_text. rewrite <- (Forall2_length _ _ _ _ _ R1). rewrite (merge_items_alike _ _ (L _ IH _ H0 R1)). reflexivity.
  - rewrite !render_merge_obj. unfold merge_text. rewrite <- (Forall2_length _ _ _ _ _ R1). rewrite (merge_items_alike _ _ (L _ IH _ H0 R1)). reflexivity.
Qed.
End Render.
