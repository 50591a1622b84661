(** General lemmas about [Base]. *)
From Verif Require Import Base.
From Coq Require Import ZifyBool.

Definition all_ascii : list ascii := map ascii_of_nat (seq 0 256).

Lemma in_all_ascii : forall c, In c all_ascii.
Proof.
  intro c. unfold all_ascii. apply in_map_iff. exists (nat_of_ascii c). split.
  - apply ascii_nat_embedding.
  - apply in_seq. pose proof (nat_ascii_bounded c). lia.
Qed.

(** Decide a property of all bytes by computation. *)
Lemma forall_byte : forall P : ascii -> bool, forallb P all_ascii = true -> forall c, P c = true.
Proof.
  intros P H c. rewrite forallb_forall in H. apply H. apply in_all_ascii.
Qed.

Lemma forall_byte2 : forall P : ascii -> ascii -> bool,
  forallb (fun a => forallb (P a) all_ascii) all_ascii = true -> forall a b, P a b = true.
Proof.
  intros P H a b. rewrite forallb_forall in H. specialize (H a (in_all_ascii a)).
  rewrite forallb_forall in H. apply H. apply in_all_ascii.
Qed.

Lemma str_eqb_spec : forall a b, reflect (a = b) (str_eqb a b).
Proof.
  intros a b. unfold str_eqb. destruct (list_eq_dec ascii_dec a b); constructor; auto.
Qed.

Lemma str_eqb_eq : forall a b, str_eqb a b = true <-> a = b.
Proof. intros. destruct (str_eqb_spec a b); split; intro H; auto; discriminate. Qed.

Lemma str_eqb_refl : forall a, str_eqb a a = true.
Proof. intro a. apply str_eqb_eq. reflexivity. Qed.

Lemma str_eqb_neq : forall a b, str_eqb a b = false <-> a <> b.
Proof.
  intros. destruct (str_eqb_spec a b); split; intro H; auto; try discriminate. contradiction.
Qed.

Lemma str_eqb_sym : forall a b, str_eqb a b = str_eqb b a.
Proof.
  intros. destruct (str_eqb_spec a b) as [e|n].
  - subst. symmetry. apply str_eqb_refl.
  - symmetry. apply str_eqb_neq. congruence.
Qed.

Lemma bind_ok : forall A B (r : result A) (f : A -> result B) b,
  bind r f = Ok b <-> exists a, r = Ok a /\ f a = Ok b.
Proof.
  intros A B r f b. destruct r as [a|e|u]; cbn; split.
  - intro H. exists a. auto.
  - intros [a' [H1 H2]]. injection H1 as ->. exact H2.
  - discriminate.
  - intros [a' [H1 _]]. discriminate.
  - discriminate.
  - intros [a' [H1 _]]. discriminate.
Qed.

Lemma bind_throw : forall A B (r : result A) (f : A -> result B) e,
  bind r f = Throw e <-> r = Throw e \/ exists a, r = Ok a /\ f a = Throw e.
Proof.
  intros A B r f e. destruct r as [a|e'|u]; cbn; split.
  - intro H. right. exists a. auto.
  - intros [H|[a' [H1 H2]]]; [discriminate|]. injection H1 as ->. exact H2.
  - intro H. left. congruence.
  - intros [H|[a' [H1 H2]]]; [congruence|discriminate].
  - discriminate.
  - intros [H|[a' [H1 H2]]]; discriminate.
Qed.

Lemma bind_stuck : forall A B (r : result A) (f : A -> result B) u,
  bind r f = Stuck u <-> r = Stuck u \/ exists a, r = Ok a /\ f a = Stuck u.
Proof.
  intros A B r f u. destruct r as [a|e'|u']; cbn; split.
  - intro H. right. exists a. auto.
  - intros [H|[a' [H1 H2]]]; [discriminate|]. injection H1 as ->. exact H2.
  - discriminate.
  - intros [H|[a' [H1 H2]]]; discriminate.
  - intro H. left. congruence.
  - intros [H|[a' [H1 H2]]]; [congruence|discriminate].
Qed.

Lemma safe_bind : forall A B (r : result A) (f : A -> result B),
  safe r -> (forall a, r = Ok a -> safe (f a)) -> safe (bind r f).
Proof. intros A B [a|e|u] f H1 H2; cbn in *; auto. Qed.

(** Split a [bind ... = Ok _] hypothesis into its steps. *)
Ltac inv_bind H :=
  apply bind_ok in H;
  let a := fresh "a" in let H1 := fresh "Hb" in let H2 := fresh "Hk" in
  destruct H as [a [H1 H2]].

Lemma mem_true : forall c s, mem c s = true <-> In c s.
Proof.
  intros c s. unfold mem. rewrite existsb_exists. split.
  - intros [x [H1 H2]]. apply Ascii.eqb_eq in H2. subst. exact H1.
  - intro H. exists c. split; [exact H|]. apply Ascii.eqb_eq. reflexivity.
Qed.

Lemma Ok_inj : forall A (a b : A), Ok a = Ok b -> a = b.
Proof. intros A a b H. congruence. Qed.
