(** Property C46: the persistent list. *)
From Verif Require Import Base FList_Model FList_Spec FList_Lemmas.

Definition three : heap * ptr := from_it [] [3; 1; 3].
Example three_holds : holds (fst three) (snd three) [3; 1; 3] /\ ordered (fst three).
Proof.
  split; [repeat (econstructor; [reflexivity|]); constructor|].
  intros [|[|[|a]]] v b H; cbn in H; try discriminate; try (injection H as <- <-; lia). destruct a; discriminate.
Qed.

(** C46.  On any heap, every operation gives the elements a list should have, and whatever was a list
    before still is the same list.  Missing: removed1, and insertion
    beyond the end; both are refuted below. *)
Theorem functional_list_laws_partial : forall A (eqb : A -> A -> bool) (h : @heap A) p q l m v, ordered h -> holds h p l -> holds h q m ->
  gives h (Ok (cons_ h v p)) (v :: l) /\
  (forall x l', l = x :: l' -> front h p = Ok x /\ exists t, popped_front h p = Ok t /\ holds h t l') /\
  (is_empty p = true <-> l = []) /\
  gives h (concat h p q) (l ++ m) /\
  gives h (reversed h p) (rev l) /\
  (forall n, gives h (take h p n) (firstn (Z.to_nat n) l)) /\
  (forall i, (i <= List.length l)%nat -> gives h (inserted_at h p (Z.of_nat i) v) (firstn i l ++ v :: skipn i l)) /\
  gives h (removed eqb h p v) (List.filter (fun x => negb (eqb v x)) l) /\
  member eqb h p v = Ok (existsb (eqb v) l) /\
  (forall g, all h p g = Ok (forallb g l)) /\
  (forall keep, gives h (filter keep h p) (List.filter keep l)) /\
  (forall U (g : A -> U -> U) acc, foldr g acc h p = Ok (fold_right g acc l)) /\
  gives h (set_diff eqb h p q) (List.filter (fun x => negb (existsb (fun y => eqb y x) m)) l) /\
  gives h (set_union eqb h p q) (List.filter (fun x => negb (existsb (fun y => eqb y x) l)) m ++ l) /\
  (forall k, gives h (Ok (from_it h k)) k) /\
  (forall g x n, gives h (Ok (iterate h g x n)) (iterates g x (Z.to_nat n))).
Proof. exact list_laws. Qed.
Print Assumptions functional_list_laws_partial.

(** C46.  fmap, into a list of another type. *)
Theorem functional_list_map : forall A B (g : A -> B) (h : @heap A) (hb : @heap B) p l, ordered h -> holds h p l -> ordered hb ->
  gives hb (fmap g h hb p) (map g l).
Proof. exact fmap_law. Qed.
Print Assumptions functional_list_map.

Example functional_list_ex :
  (let '(h, p) := three in '(h1, r) <- removed Z.eqb h p 3 ;; x <- front h1 r ;; t <- popped_front h1 r ;; y <- front h1 p ;; Ok (x, is_empty t, y)) =
  Ok (1, true, 3).
Proof. vm_compute. reflexivity. Qed.

(** C46, refuted for removed1: it removes every later occurrence when the first element is another one. *)
Theorem remove_one_refuted : exists (h : @heap Z) p l v h' p' l', ordered h /\ holds h p l /\
  removed1 Z.eqb h p v = Ok (h', p') /\ holds h' p' l' /\ l' <> remove_first Z.eqb v l.
Proof.
  exists (fst (from_it [] [1; 3; 3])), (snd (from_it [] [1; 3; 3])), [1; 3; 3], 3. eexists. exists (Some 3%nat), [1].
  split; [|split; [|split; [vm_compute; reflexivity|split]]].
  - intros [|[|[|a]]] v b H; cbn in H; try discriminate; try (injection H as <- <-; lia). destruct a; discriminate.
  - repeat (econstructor; [reflexivity|]); constructor.
  - econstructor; [reflexivity|constructor].
  - discriminate.
Qed.
Print Assumptions remove_one_refuted.

(** C46, refuted: inserting beyond the end dereferences null. *)
Theorem insert_beyond_end_refuted : forall A (h : @heap A) p l v i, ordered h -> holds h p l -> Z.of_nat (List.length l) < i ->
  inserted_at h p i v = Stuck UNullDeref.
Proof. exact insert_outside. Qed.
Print Assumptions insert_beyond_end_refuted.
