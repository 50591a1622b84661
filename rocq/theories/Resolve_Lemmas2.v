(** More fuel does not change a result. *)
From Verif Require Import Base BaseLemmas Util_Model Num_Model Path_Model Token_Model Value_Model Value_Spec Value_Lemmas Value_Lemmas2
  Duration_Model Config_Model Concat_Model Concat_Lemmas Resolve_Model Resolve_Spec Resolve_Lemmas.

(** [r] is unfinished, or the same as [r'] *)
Definition below {A} (r r' : result A) : Prop := r = Stuck UFuel \/ r = r'.

Lemma below_refl : forall A (r : result A), below r r.
Proof. right. reflexivity. Qed.
Lemma below_bind : forall A B (r r' : result A) (k k' : A -> result B), below r r' -> (forall x, below (k x) (k' x)) -> below (bind r k) (bind r' k').
Proof. intros A B r r' k k' [->| ->] H; [left; reflexivity|]. destruct r'; cbn [bind]; [apply H|right; reflexivity|right; reflexivity]. Qed.
Lemma below_attempt : forall A (r r' : result A), below r r' -> below (attempt r) (attempt r').
Proof. intros A r r' [->| ->]; [left; reflexivity|right; reflexivity]. Qed.

Section Monotone.
Variables allow use : bool.
Variable env : list (str * str).
Variables rec rec' : context -> value -> source -> result (option value * context).
Hypothesis Rec : forall c v s, below (rec c v s) (rec' c v s).

Ltac mono := repeat first
  [ apply below_refl
  | apply below_bind
  | apply below_attempt
  | apply Rec
  | match goal with
    | |- forall _, _ => intro
    | |- below (let '(_, _) := ?x in _) _ => destruct x
    | |- below (match ?x with _ => _ end) _ => destruct x
    | |- below (if ?x then _ else _) _ => destruct x
    end ].

Lemma find_below : forall obj c p, below (find_in_object rec obj c p) (find_in_object rec' obj c p).
Proof. intros. unfold find_in_object. mono. Qed.
Lemma lookup_below : forall c p l s, below (lookup_subst use env rec c p l s) (lookup_subst use env rec' c p l s).
Proof.
  intros. unfold lookup_subst. apply below_bind; [apply find_below|]. intros [[w c1] ps]. destruct w; [apply below_refl|]. cbn zeta. apply below_bind; [destruct (0 <? l); [apply find_below|apply below_refl]|].
  intros [[w c2] ps2]. destruct w; [apply below_refl|]. destruct use; [apply find_below|apply below_refl].
Qed.
Lemma reference_below : forall id p o l c s, below (resolve_reference allow use env rec id p o l c s) (resolve_reference allow use env rec' id p o l c s).
Proof.
  intros. unfold resolve_reference. destruct (is_marked c id); [apply below_refl|]. apply below_bind; [apply below_attempt, lookup_below|]. intros [[[[v|] c1] ps]|]; try apply below_refl.
  apply below_bind; [apply below_attempt, Rec|]. intros x. apply below_refl.
Qed.
Lemma pieces_below : forall ps c s, below (resolve_pieces rec ps c s) (resolve_pieces rec' ps c s).
Proof. intro ps. induction ps as [|p ps IH]; intros c s; [apply below_refl|]. cbn [resolve_pieces]. apply below_bind; [apply Rec|]. intros [r c1]. apply below_bind; [apply IH|]. intro. apply below_refl. Qed.
Lemma concatenation_below : forall ps c s, below (resolve_concatenation allow rec ps c s) (resolve_concatenation allow rec' ps c s).
Proof. intros. unfold resolve_concatenation. apply below_bind; [apply pieces_below|]. intro. apply below_refl. Qed.
Lemma stack_below : forall self stack ends count merged c s, below (resolve_stack rec self stack ends count merged c s) (resolve_stack rec' self stack ends count merged c s).
Proof.
  intros self stack ends. induction ends as [|e ends IH]; intros; [apply below_refl|]. cbn [resolve_stack]. destruct (is_delayed e); [apply below_refl|]. apply below_bind; [apply below_refl|]. intro s'.
  apply below_bind; [apply Rec|]. intros [r c1]. apply below_bind; [apply below_refl|]. intro. apply IH.
Qed.
Lemma field_below : forall k v c s, below (resolve_field rec k v c s) (resolve_field rec' k v c s).
Proof. intros. unfold resolve_field. mono. Qed.
Lemma fields_below : forall m c s, below (resolve_fields rec m c s) (resolve_fields rec' m c s).
Proof. intro m. induction m as [|[k v] m IH]; intros c s; [apply below_refl|]. cbn [resolve_fields]. apply below_bind; [apply field_below|]. intros [r c1]. apply below_bind; [apply IH|]. intro. apply below_refl. Qed.
Lemma object_below : forall r i m c s, below (resolve_object rec r i m c s) (resolve_object rec' r i m c s).
Proof. intros. unfold resolve_object. destruct r; [apply below_refl|]. apply below_bind; [apply fields_below|]. intro. apply below_refl. Qed.
Lemma elements_below : forall rest before init changed c s, below (resolve_elements rec before rest init changed c s) (resolve_elements rec' before rest init changed c s).
Proof. intro rest. induction rest as [|v rest IH]; intros; [apply below_refl|]. cbn [resolve_elements]. apply below_bind; [apply Rec|]. intros [r c1]. apply IH. Qed.
Lemma list_below : forall vs c s, below (resolve_list allow rec vs c s) (resolve_list allow rec' vs c s).
Proof. intros. unfold resolve_list. destruct (forallb is_resolved vs); [apply below_refl|]. destruct (is_restricted c); [apply below_refl|]. apply below_bind; [apply elements_below|]. intro. apply below_refl. Qed.
Lemma substitutions_below : forall v c s, below (resolve_substitutions allow use env rec v c s) (resolve_substitutions allow use env rec' v c s).
Proof.
  intros v c s. destruct v; cbn [resolve_substitutions]; [apply below_refl|apply list_below|apply object_below|apply reference_below|apply concatenation_below|apply stack_below|apply stack_below].
Qed.
Lemma step_below : forall c v s, below (resolve_step allow use env rec c v s) (resolve_step allow use env rec' c v s).
Proof.
  intros. unfold resolve_step. destruct (find_memo (memos c) v) as [[w|]|]; [apply below_refl| |]; (destruct (match v with VRef id _ _ _ => is_marked c id | _ => false end); [apply below_refl|];
    apply below_bind; [apply substitutions_below|intro; apply below_refl]).
Qed.
End Monotone.

Lemma resolve_below : forall allow use env n m c v s, (n <= m)%nat -> below (resolve_n allow use env n c v s) (resolve_n allow use env m c v s).
Proof.
  intros allow use env n. induction n as [|n IH]; intros m c v s H; [left; reflexivity|]. destruct m as [|m]; [lia|]. cbn [resolve_n]. apply step_below. intros. apply IH. lia.
Qed.

(** A family of results indexed by fuel *)
Definition growing {A} (f : nat -> result A) : Prop := forall n m, (n <= m)%nat -> below (f n) (f m).
Definition ends {A} (f : nat -> result A) : Prop := exists n, f n <> Stuck UFuel.

Lemma ends_const : forall A (r : result A), r <> Stuck UFuel -> ends (fun _ => r).
Proof. intros A r H. exists 0%nat. exact H. Qed.
Lemma ends_bind : forall A B (f : nat -> result A) (g : A -> nat -> result B), growing f -> (forall x, growing (g x)) -> ends f -> (forall n x, f n = Ok x -> ends (g x)) -> ends (fun n => bind (f n) (fun x => g x n)).
Proof.
  intros A B f g Gf Gg [n N] H. destruct (f n) as [x|e|u] eqn:E.
  - destruct (H n x E) as [k K]. exists (Nat.max n k). destruct (Gf n (Nat.max n k) ltac:(lia)) as [Q|Q]; [congruence|]. rewrite <- Q, E. cbn [bind].
    destruct (Gg x k (Nat.max n k) ltac:(lia)) as [R|R]; [congruence|]. rewrite <- R. exact K.
  - exists n. rewrite E. discriminate.
  - exists n. rewrite E. cbn. congruence.
Qed.
Lemma growing_bind : forall A B (f : nat -> result A) (g : A -> nat -> result B), growing f -> (forall x, growing (g x)) -> growing (fun n => bind (f n) (fun x => g x n)).
Proof. intros A B f g Gf Gg n m H. apply below_bind; [apply Gf, H|]. intro x. apply Gg, H. Qed.
Lemma growing_attempt : forall A (f : nat -> result A), growing f -> growing (fun n => attempt (f n)).
Proof. intros A f G n m H. apply below_attempt, G, H. Qed.
Lemma ends_attempt : forall A (f : nat -> result A), ends f -> ends (fun n => attempt (f n)).
Proof. intros A f [n N]. exists n. destruct (f n) as [x|e|u]; cbn; [discriminate|destruct e; discriminate|congruence]. Qed.
