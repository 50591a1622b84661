(** Durations. *)
From Coq Require Import ZifyBool.
From Verif Require Import Base BaseLemmas Util_Model Num_Model Path_Model PathParser_Model PathParser_Lemmas Duration_Model Duration_Spec.

Ltac Zify.zify_post_hook ::= Z.to_euclidean_division_equations.

Lemma int64_cases : forall z, (in_int64 z = true /\ int64 z = Ok z) \/ (in_int64 z = false /\ int64 z = Stuck UOverflow).
Proof. intro z. unfold int64. destruct (in_int64 z); auto. Qed.

Lemma in_int64_iff : forall z, in_int64 z = true <-> -9223372036854775808 <= z <= 9223372036854775807.
Proof. intro z. unfold in_int64. change int64_min with (-9223372036854775808). change int64_max with 9223372036854775807. lia. Qed.

Lemma in_int64_false : forall z, in_int64 z = false <-> (z < -9223372036854775808 \/ 9223372036854775807 < z).
Proof. intro z. unfold in_int64. change int64_min with (-9223372036854775808). change int64_max with 9223372036854775807. lia. Qed.

(** convert(int64_t, time_unit) in full. *)
Lemma convert_long_full : forall n u, in_int64 n = true ->
  match convert_long n u with
  | Ok d => total d = n * nanos_in u /\ normal_duration d
  | Throw e => e = EConfig /\ - second < n * nanos_in u < 0
  | Stuck v => v = UOverflow /\ in_int64 (Z.quot (n * nanos_in u) second) = false
  end.
Proof.
  intros n u Hn. apply in_int64_iff in Hn. unfold convert_long, mul64.
  destruct u; cbn [bind];
    try match goal with |- context [int64 ?z] => destruct (int64_cases z) as [[E ->]|[E ->]]; cbn [bind] end;
    try (split; [reflexivity|]; apply in_int64_false in E; apply in_int64_false; unfold nanos_in, second; lia);
    match goal with |- context [if negb (Bool.eqb ?a ?b) then _ else _] => destruct a eqn:B1; destruct b eqn:B2 end; cbn [negb Bool.eqb];
    unfold normal_duration, total, nanos_in, second; cbn [fst snd]; try rewrite in_int64_iff; try apply in_int64_iff in E;
    try (split; [reflexivity|]); lia.
Qed.

Lemma in_unit_full : forall d u, normal_duration d ->
  match in_unit d u with
  | Ok r => r = Z.quot (total d) (nanos_in u)
  | Throw e => e = EConfig /\ total d < 0 /\ (- nanos_in u < total d \/ - second < total d)
  | Stuck v => v = UOverflow /\ in_int64 (Z.quot (total d) (nanos_in u)) = false
  end.
Proof.
  intros [s n] u [H1 [H2 [H3 H4]]]. cbn [fst snd] in *. apply in_int64_iff in H1. unfold second in H2. unfold in_unit, mul64, add64, total. cbn [fst snd].
  destruct u; cbn [bind];
    try match goal with |- context [int64 ?z] => destruct (int64_cases z) as [[E ->]|[E ->]]; cbn [bind] end;
    try match goal with |- context [int64 ?z] => destruct (int64_cases z) as [[E' ->]|[E' ->]]; cbn [bind] end;
    try (split; [reflexivity|]; try apply in_int64_iff in E; try apply in_int64_false in E; try apply in_int64_false in E'; apply in_int64_false; unfold nanos_in, second; lia);
    match goal with |- context [if negb (Bool.eqb ?a ?b) then _ else _] => destruct a eqn:B1; destruct b eqn:B2 end; cbn [negb Bool.eqb];
    unfold nanos_in, second; try (split; [reflexivity|]); lia.
Qed.

(** ** The text of a duration *)

Lemma dec_from_spec : forall s acc, dec_from acc s = acc * 10 ^ Z.of_nat (List.length s) + digits_value s.
Proof.
  intro s. induction s as [|c s IH]; intro acc; cbn [dec_from digits_value List.length].
  - change (10 ^ Z.of_nat 0) with 1. lia.
  - rewrite IH. rewrite Nat2Z.inj_succ, Z.pow_succ_r by lia. unfold digit_val, digit, byte_of. lia.
Qed.

Lemma dec_spec : forall s, dec s = digits_value s.
Proof. intro s. unfold dec. rewrite dec_from_spec. lia. Qed.

Lemma digit_not_sign : forall c, isdigit c = true -> Ascii.eqb c "-" = false /\ Ascii.eqb c "+" = false.
Proof.
  intros c H. split; apply Ascii.eqb_neq; intros ->; vm_compute in H; discriminate.
Qed.

(** lexical_cast<int64_t> reads exactly the decimal integers that fit. *)
Lemma lexical_int_spec : forall s z, lexical_cast_int64 s = Some z <-> decimal s z /\ in_int64 z = true.
Proof.
  intros s z. unfold lexical_cast_int64.
  assert (T : forall (neg : bool) (ds : str), (match ds with [] => None | _ :: _ =>
       if forallb isdigit ds then let v := if neg then - dec ds else dec ds in if in_int64 v then Some v else None else None end = Some z)
     <-> ds <> [] /\ Forall (fun c => isdigit c = true) ds /\ z = (if neg then - digits_value ds else digits_value ds) /\ in_int64 z = true).
  { intros neg ds. rewrite dec_spec. destruct ds as [|c ds]; [split; [discriminate|intros [H _]; congruence]|].
    destruct (forallb isdigit (c :: ds)) eqn:F.
    - assert (Fa : Forall (fun c => isdigit c = true) (c :: ds)) by (apply Forall_forall; apply forallb_forall; exact F). cbv zeta.
      destruct (in_int64 (if neg then - digits_value (c :: ds) else digits_value (c :: ds))) eqn:I; split; intro H.
      + injection H as <-. repeat split; try assumption. discriminate.
      + destruct H as [_ [_ [-> _]]]. reflexivity.
      + discriminate.
      + destruct H as [_ [_ [-> H]]]. congruence.
    - split; [discriminate|]. intros [_ [Fa _]]. exfalso. rewrite Forall_forall in Fa. assert (forallb isdigit (c :: ds) = true) by (apply forallb_forall; exact Fa). congruence. }
  destruct (take_sign s) as [neg ds] eqn:E. rewrite T. clear T. unfold take_sign in E. destruct s as [|c s].
  - injection E as <- <-. split; [intros [H _]; congruence|]. intros [H _]. inversion H; subst; congruence.
  - destruct (Ascii.eqb c "-") eqn:M; [|destruct (Ascii.eqb c "+") eqn:P]; injection E as <- <-.
    + apply Ascii.eqb_eq in M. subst c. split.
      * intros [H1 [H2 [-> H3]]]. split; [constructor; assumption|exact H3].
      * intros [H1 H2]. inversion H1 as [ds Hn Hf|ds Hn Hf|ds Hn Hf]; subst; [|auto].
        inversion Hf as [|? ? Hd _]; subst. vm_compute in Hd. discriminate.
    + apply Ascii.eqb_eq in P. subst c. split.
      * intros [H1 [H2 [-> H3]]]. split; [constructor; assumption|exact H3].
      * intros [H1 H2]. inversion H1 as [ds Hn Hf|ds Hn Hf|ds Hn Hf]; subst; [|auto].
        inversion Hf as [|? ? Hd _]; subst. vm_compute in Hd. discriminate.
    + split.
      * intros [H1 [H2 [-> H3]]]. split; [constructor; assumption|exact H3].
      * intros [H1 H2]. inversion H1 as [ds Hn Hf|ds Hn Hf|ds Hn Hf]; subst; auto; vm_compute in M, P; discriminate.
Qed.

Definition edge (s : str) : Prop :=
  match s with c :: _ => isspace c = false | [] => False end /\ match rev s with c :: _ => isspace c = false | [] => False end.

Lemma trim_left_spaces : forall w s, spaces w -> trim_left (w ++ s) = trim_left s.
Proof. intros w s H. induction H as [|c w Hc Hw IH]; [reflexivity|]. cbn [app trim_left]. rewrite Hc. exact IH. Qed.

Lemma trim_left_edge : forall s, match s with c :: _ => isspace c = false | [] => False end -> forall r, trim_left (s ++ r) = s ++ r.
Proof. intros [|c s] H r; [destruct H|]. cbn [app trim_left]. rewrite H. reflexivity. Qed.

Lemma trim_edges : forall w1 s w2, spaces w1 -> spaces w2 -> edge s -> trim (w1 ++ s ++ w2) = s.
Proof.
  intros w1 s w2 H1 H2 [E1 E2]. unfold trim. rewrite trim_left_spaces by exact H1. rewrite trim_left_edge by exact E1.
  rewrite rev_app_distr, trim_left_spaces.
  - rewrite <- (app_nil_r (rev s)), trim_left_edge, app_nil_r, rev_involutive by exact E2. reflexivity.
  - unfold spaces in *. rewrite Forall_forall in *. intros x Hx. apply H2, in_rev. exact Hx.
Qed.

Lemma edge_app : forall a b c, edge a -> edge c -> edge (a ++ b ++ c).
Proof.
  intros a b c [A1 A2] [C1 C2]. split.
  - destruct a as [|x a]; [destruct A1|exact A1].
  - rewrite !rev_app_distr. destruct (rev c) as [|x r]; [destruct C2|exact C2].
Qed.

Lemma byte_class : forall c, isdigit c = true -> isalpha c = false /\ isspace c = false.
Proof. intros c H. unfold isdigit, isalpha, isupper, islower, isspace in *. lia. Qed.
Lemma space_not_alpha : forall c, isspace c = true -> isalpha c = false.
Proof. intros c H. unfold isdigit, isalpha, isupper, islower, isspace in *. lia. Qed.

Lemma decimal_edge : forall t n, decimal t n -> edge t.
Proof.
  intros t n H.
  assert (D : forall ds, ds <> [] -> Forall (fun c => isdigit c = true) ds -> edge ds).
  { intros ds Hn Hf. split.
    - destruct ds as [|c ds]; [congruence|]. inversion Hf; subst. apply byte_class. assumption.
    - destruct (rev ds) as [|c r] eqn:E.
      + apply (f_equal (@rev ascii)) in E. rewrite rev_involutive in E. exact (Hn E).
      + rewrite Forall_forall in Hf. apply byte_class, Hf. apply in_rev. rewrite E. left. reflexivity. }
  destruct H as [ds Hn Hf|ds Hn Hf|ds Hn Hf]; destruct (D ds Hn Hf) as [D1 D2]; [split; assumption| |]; (split; [reflexivity|]); cbn [rev]; destruct (rev ds) as [|c r]; [destruct D2|exact D2|destruct D2|exact D2].
Qed.

Lemma decimal_no_alpha : forall t n, decimal t n -> Forall (fun c => isalpha c = false) t.
Proof.
  intros t n H. destruct H as [ds Hn Hf|ds Hn Hf|ds Hn Hf]; try (constructor; [reflexivity|]); (eapply Forall_impl; [|exact Hf]); intros c Hc; apply byte_class, Hc.
Qed.

Lemma from_alpha_skip : forall a b, Forall (fun c => isalpha c = false) a -> from_alpha (a ++ b) = from_alpha b.
Proof. intros a b H. induction H as [|c a Hc Ha IH]; [reflexivity|]. cbn [app from_alpha]. rewrite Hc. exact IH. Qed.

Lemma spaces_no_alpha : forall w, spaces w -> Forall (fun c => isalpha c = false) w.
Proof. intros w H. eapply Forall_impl; [|exact H]. intros c Hc. apply space_not_alpha, Hc. Qed.

Lemma parse_duration_general : forall w1 t w2 name w3 n, spaces w1 -> spaces w2 -> spaces w3 -> decimal t n -> in_int64 n = true ->
  name = [] \/ edge name /\ from_alpha name = name ->
  parse_duration (w1 ++ t ++ w2 ++ name ++ w3) = (u <- get_units (unit_plural name) ;; convert_long n u).
Proof.
  intros w1 t w2 name w3 n H1 H2 H3 Ht Hn Hname. assert (L : lexical_cast_int64 t = Some n) by (apply lexical_int_spec; auto).
  assert (Et : edge t) by exact (decimal_edge _ _ Ht). assert (t <> []) by (intros ->; destruct Et as [[] _]).
  unfold parse_duration. destruct Hname as [->|[E F]].
  - cbn [app]. rewrite (trim_edges w1 t (w2 ++ w3) H1 (proj2 (Forall_app _ _ _) (conj H2 H3)) Et).
    assert (A : from_alpha t = []) by (rewrite <- (app_nil_r t), from_alpha_skip by exact (decimal_no_alpha _ _ Ht); reflexivity).
    rewrite A. cbn [List.length].
    rewrite Nat.sub_0_r, firstn_all. pose proof (trim_edges [] t [] (Forall_nil _) (Forall_nil _) Et) as T. cbn [app] in T. rewrite app_nil_r in T. rewrite T.
    destruct t as [|c t]; [congruence|]. rewrite L. reflexivity.
  - replace (w1 ++ t ++ w2 ++ name ++ w3) with (w1 ++ (t ++ w2 ++ name) ++ w3) by (rewrite <- !app_assoc; reflexivity).
    rewrite (trim_edges w1 (t ++ w2 ++ name) w3 H1 H3 (edge_app _ _ _ Et E)).
    assert (A : from_alpha (t ++ w2 ++ name) = name).
    { rewrite from_alpha_skip by exact (decimal_no_alpha _ _ Ht). rewrite from_alpha_skip by exact (spaces_no_alpha _ H2). exact F. }
    rewrite A. replace (firstn (List.length (t ++ w2 ++ name) - List.length name) (t ++ w2 ++ name)) with (t ++ w2).
    + pose proof (trim_edges [] t w2 (Forall_nil _) H2 Et) as T. cbn [app] in T. rewrite T.
      destruct t as [|c t]; [congruence|]. rewrite L. reflexivity.
    + rewrite app_assoc. rewrite app_length. replace (List.length (t ++ w2) + List.length name - List.length name)%nat with (List.length (t ++ w2)) by lia.
      rewrite firstn_app, Nat.sub_diag. rewrite firstn_all. cbn [firstn]. rewrite app_nil_r. reflexivity.
Qed.

Lemma duration_text : forall w1 t w2 name w3 n u, spaces w1 -> spaces w2 -> spaces w3 -> decimal t n -> in_int64 n = true ->
  In name (unit_names u) -> parse_duration (w1 ++ t ++ w2 ++ lit name ++ w3) = convert_long n u.
Proof.
  intros w1 t w2 name w3 n u H1 H2 H3 Ht Hn Hi. rewrite (parse_duration_general w1 t w2 (lit name) w3 n); try assumption.
  - destruct u; cbn in Hi; repeat (destruct Hi as [<-|Hi]; [reflexivity|]); destruct Hi.
  - destruct u; cbn in Hi; repeat (destruct Hi as [<-|Hi]; [first [left; reflexivity|right; split; [split; reflexivity|reflexivity]]|]); destruct Hi.
Qed.
