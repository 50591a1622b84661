(** Decimal numbers as doubles. *)
From Coq Require Import ZArith Lia Bool List.
From Coq Require Import Floats.SpecFloat.
From Verif Require Import Base Util_Model Num_Model Value_Model Value_Spec Path_Model PathParser_Model Config_Model Config_Spec Config_Lemmas Duration_Model Duration_Spec Duration_Lemmas Round_Spec Round_Lemmas Round_Lemmas2 Round_Lemmas3 Round_Lemmas6 Round_Lemmas9.
Local Open Scope Z_scope.

(** ** Rounding a quotient *)
Definition up (e : Z) : Z := 2 ^ Z.max e 0.
Definition down (e : Z) : Z := 2 ^ Z.max (- e) 0.
Lemma up_pos : forall e, 0 < up e.
Proof. intro e. apply Z.pow_pos_nonneg; lia. Qed.
Lemma down_pos : forall e, 0 < down e.
Proof. intro e. apply Z.pow_pos_nonneg; lia. Qed.
Lemma up_down : forall e k, 0 <= k -> 2 ^ k * up e * down (e + k) = up (e + k) * down e.
Proof. intros e k H. unfold up, down. rewrite <- !Z.pow_add_r by lia. f_equal. lia. Qed.
Definition quotient_near (d : double) (s : bool) (p q : Z) : Prop :=
  match d with
  | S754_zero s' => s' = s /\ 2 ^ 1075 * p <= q
  | S754_finite s' m e => s' = s /\ Zpos m < 2 ^ 53 /\ -1074 <= e <= 971 /\ (2 ^ 52 <= Zpos m \/ e = -1074) /\
      2 * Z.abs (Zpos m * up e * q - p * down e) <= up e * q
  | S754_infinity s' => s' = s /\ (2 ^ 54 - 1) * 2 ^ 970 * q <= p
  | S754_nan => False
  end.
Lemma cancel_le : forall a b c, 0 < c -> a * c <= b * c -> a <= b.
Proof. intros a b c H. apply (proj2 (Z.mul_le_mono_pos_r a b c H)). Qed.
Lemma abs_cancel : forall a b c y, 0 < y -> 2 * Z.abs (a * y - b * y) <= c * y -> 2 * Z.abs (a - b) <= c.
Proof. intros a b c y Hy H. apply (cancel_le _ _ y Hy). rewrite <- Z.mul_assoc, abs_scale, Z.mul_sub_distr_r by exact Hy. exact H. Qed.
Lemma abs_times : forall a b c y, 0 < y -> 2 * Z.abs (a - b) <= c -> 2 * Z.abs (a * y - b * y) <= c * y.
Proof. intros a b c y Hy H. rewrite <- Z.mul_sub_distr_r, <- abs_scale, Z.mul_assoc by exact Hy. apply Z.mul_le_mono_nonneg_r; lia. Qed.

Lemma round_near : forall s m e l N K p q, 0 <= m -> 0 < N -> 0 < K -> located N K (shr_record_of_loc m l) -> 2 ^ 52 <= m \/ e <= -1074 ->
  0 < q -> N * up e * q = p * K * down e -> quotient_near (binary_round_aux prec64 emax64 s m e l) s p q.
Proof.
  intros s m e l N K p q Hm HN HK HL HC Hq R. destruct (rounded s m e l N K Hm HN HK HL) as [Q [k [j [K0 [J [Q1 [Q2 [Q3 [Q4 [_ Q6]]]]]]]]]].
  assert (Pu := up_pos e). assert (Pd := down_pos e). assert (Pk : 0 < 2 ^ k) by (apply Z.pow_pos_nonneg; lia).
  assert (Q7 : -1074 < e + k -> 2 ^ 52 * (K * 2 ^ k) <= N /\ 2 ^ 52 <= Q). { intro G. apply Q4; [|exact G]. destruct HC as [HC|HC]; [right; exact HC|left; lia]. } clear Q4.
  assert (H1 : 2 * Z.abs (Q * (2 ^ k * up e * q) - p * down e) <= 2 ^ k * up e * q).
  { apply (abs_cancel _ _ _ K HK). replace (p * down e * K) with (N * (up e * q)) by (rewrite Z.mul_assoc, R; ring). replace (Q * (2 ^ k * up e * q) * K) with (Q * (K * 2 ^ k) * (up e * q)) by ring.
    replace (2 ^ k * up e * q * K) with (K * 2 ^ k * (up e * q)) by ring. apply abs_times; [apply Z.mul_pos_pos; lia|exact Q1]. }
  destruct (binary_round_aux prec64 emax64 s m e l) as [s'|s'| |s' m' e'].
  - destruct Q6 as [-> ->]. split; [reflexivity|]. assert (E : e + k = -1074). { destruct (Z_lt_le_dec (-1074) (e + k)) as [G|G]; [destruct (Q7 G); lia|lia]. }
    assert (H2 : 2 * (p * down e) <= 2 ^ k * up e * q) by (clear - H1; lia). apply (cancel_le _ _ (down e) Pd). replace (q * down e) with (2 ^ k * up e * q * 2 ^ 1074).
    + change (2 ^ 1075) with (2 * 2 ^ 1074). replace (2 * 2 ^ 1074 * p * down e) with (2 * (p * down e) * 2 ^ 1074) by ring. apply Z.mul_le_mono_nonneg_r; [apply Z.pow_nonneg; lia|exact H2].
    + assert (U := up_down e k K0). rewrite E in U. change (up (-1074)) with 1 in U. change (down (-1074)) with (2 ^ 1074) in U. rewrite Z.mul_1_l in U. rewrite <- U. ring.
  - destruct Q6 as [-> [G [Qp Qj]]]. split; [reflexivity|]. assert (G1 : -1074 < e + k) by lia. destruct (Q7 G1) as [Q9 Q8].
    assert (U := up_down e k K0). assert (D1 : down (e + k) = 1). { unfold down. rewrite Z.max_r by lia. reflexivity. } rewrite D1, Z.mul_1_r in U. rewrite U in H1.
    assert (H0 : 2 ^ 52 * (up (e + k) * down e * q) <= p * down e).
    { rewrite <- U. apply (cancel_le _ _ K HK). replace (p * down e * K) with (N * (up e * q)) by (rewrite Z.mul_assoc, R; ring). replace (2 ^ 52 * (2 ^ k * up e * q) * K) with (2 ^ 52 * (K * 2 ^ k) * (up e * q)) by ring.
      apply Z.mul_le_mono_nonneg_r; [apply Z.mul_nonneg_nonneg; lia|exact Q9]. }
    assert (Pw : 0 < down e * q) by (apply Z.mul_pos_pos; lia).
    assert (Y : (2 ^ 54 - 1) * 2 ^ 971 * (down e * q) <= 2 * (p * down e)).
    { rewrite <- !Z.mul_assoc in H0, H1. set (w := down e * q) in *. unfold up in H0, H1. rewrite Z.max_l in H0, H1 by lia. destruct J as [-> | ->].
      - assert (V : 2 ^ 972 * w <= 2 ^ (e + k) * w) by (apply Z.mul_le_mono_nonneg_r; [lia|apply Z.pow_le_mono_r; lia]). change (2 ^ 972) with (2 * 2 ^ 971) in V. assert (W : 0 < 2 ^ 971 * w) by (apply Z.mul_pos_pos; [reflexivity|exact Pw]).
        rewrite <- !Z.mul_assoc in *. set (a := 2 ^ 971 * w) in *. set (b := 2 ^ (e + k) * w) in *. set (c := p * down e) in *. clearbody a b c. clear - H0 V W. lia.
      - rewrite (Qj eq_refl) in H1. assert (V : 2 ^ 971 * w <= 2 ^ (e + k) * w) by (apply Z.mul_le_mono_nonneg_r; [lia|apply Z.pow_le_mono_r; lia]).
        rewrite <- !Z.mul_assoc in *. set (a := 2 ^ 971 * w) in *. set (b := 2 ^ (e + k) * w) in *. set (c := p * down e) in *. clearbody a b c. clear - H1 V. lia. }
    apply (cancel_le _ _ (2 * down e)); [lia|]. replace (p * (2 * down e)) with (2 * (p * down e)) by ring.
    replace ((2 ^ 54 - 1) * 2 ^ 970 * q * (2 * down e)) with ((2 ^ 54 - 1) * (2 * 2 ^ 970) * (down e * q)) by ring. exact Y.
  - exact Q6.
  - destruct Q6 as [-> [EQ [-> [M1 [M2 M3]]]]]. split; [reflexivity|]. split; [exact M1|]. split; [lia|]. split.
    { destruct J as [-> | ->]; [|left; rewrite M3 by reflexivity; lia]. rewrite Z.mul_1_r in EQ. destruct (Z_lt_le_dec (-1074) (e + k)) as [G|G]; [left; destruct (Q7 G); lia|right; lia]. }
    assert (U := up_down e (k + j) ltac:(lia)). rewrite Z.add_assoc, Z.pow_add_r in U by lia. set (e' := e + k + j) in *. assert (Pd' := down_pos e').
    apply (abs_cancel _ _ _ (down e) Pd). replace (Zpos m' * up e' * q * down e) with (Q * (2 ^ k * up e * q) * down e').
    2:{ rewrite EQ. replace (Zpos m' * up e' * q * down e) with (Zpos m' * q * (up e' * down e)) by ring. rewrite <- U. ring. }
    replace (p * down e' * down e) with (p * down e * down e') by ring. eapply Z.le_trans; [apply (abs_times _ _ _ (down e') Pd' H1)|]. replace (up e' * q * down e) with (2 ^ k * up e * q * down e' * 2 ^ j).
    2:{ replace (up e' * q * down e) with (q * (up e' * down e)) by ring. rewrite <- U. ring. }
    rewrite <- (Z.mul_1_r (2 ^ k * up e * q * down e')) at 1. apply Z.mul_le_mono_nonneg_l; [|destruct J as [-> | ->]; lia]. apply Z.mul_nonneg_nonneg; [|lia]. apply Z.mul_nonneg_nonneg; [apply Z.mul_nonneg_nonneg|]; lia.
Qed.

(** ** Decimal numbers *)
Lemma normalize_near : forall s p, quotient_near (binary_round prec64 emax64 s p 0) s (Zpos p) 1.
Proof.
  intros s p. unfold binary_round. destruct (digits_spec (Zpos p)) as [D [L U]]; [lia|]. cbn [Zdigits2] in *. set (dg := Zpos (digits2_pos p)) in *. rewrite Z.add_0_r, fexp_eq.
  unfold shl_align. rewrite Z.sub_0_r. destruct (Z_lt_le_dec dg 53) as [G|G].
  - rewrite Z.max_l by lia. destruct (dg - 53) as [|d|d] eqn:E; try lia.
    apply (round_near s _ _ _ (Zpos (shift_pos d p)) 1); try lia; [apply located_exact; lia| |].
    + left. rewrite shift_pos_eq. replace 52 with ((dg - 1) + Zpos d) by lia. rewrite Z.pow_add_r by lia. apply Z.mul_le_mono_nonneg_r; [apply Z.pow_nonneg; lia|exact L].
    + rewrite shift_pos_eq. change (up (Zneg d)) with 1. change (down (Zneg d)) with (2 ^ Zpos d). lia.
  - assert (A : forall t, (match Z.max (dg - 53) (-1074) with Zneg d => t d | _ => (p, 0) end) = (p, 0)) by (intro t; destruct (Z.max (dg - 53) (-1074)) eqn:E; [reflexivity|reflexivity|lia]).
    rewrite A. apply (round_near s _ _ _ (Zpos p) 1); try lia; [apply located_exact; lia| |change (up 0) with 1; change (down 0) with 1; lia]. left. apply Z.le_trans with (2 ^ (dg - 1)); [apply Z.pow_le_mono_r; lia|exact L].
Qed.

Lemma dec_near : forall s n x, 0 < n -> quotient_near (dec_to_double s n x) s (upper n x) (lower_part x).
Proof.
  intros s n x Hn. unfold dec_to_double. destruct n as [|n0|n0] eqn:En; try lia. rewrite <- En in *. unfold upper, lower_part. destruct (Z.leb_spec 0 x) as [X|X].
  - rewrite Z.max_l, Z.max_r by lia. change (10 ^ 0) with 1. assert (P : 0 < n * 10 ^ x) by (apply Z.mul_pos_pos; [lia|apply Z.pow_pos_nonneg; lia]).
    destruct (n * 10 ^ x) as [|p|p]; try lia. pose proof (normalize_near s p) as H. destruct s; exact H.
  - rewrite Z.max_r, Z.max_l by lia. change (10 ^ 0) with 1. rewrite Z.mul_1_r. assert (K0 : 0 < 10 ^ (- x)) by (apply Z.pow_pos_nonneg; lia). set (K := 10 ^ (- x)) in *.
    destruct (div_core n 0 K 0) as [l [Eq [Lc T0]]]; [lia|lia|]. set (t := 0 - 0 - _) in *. rewrite Eq. clear Eq. destruct (digits_spec n Hn) as [A1 [A2 A3]]. destruct (digits_spec K K0) as [B1 [B2 B3]].
    set (d1 := Zdigits2 n) in *. set (d2 := Zdigits2 K) in *. assert (Tm : t = Z.max (- Z.max (d1 - d2 - 53) (-1074)) 0) by (unfold t; rewrite fexp_eq; lia). clearbody t. clear En.
    assert (Pt : 0 < 2 ^ t) by (apply Z.pow_pos_nonneg; lia). apply (round_near s _ _ _ (n * 2 ^ t) K); try lia.
    + apply Z.div_pos; [apply Z.mul_nonneg_nonneg; lia|exact K0].
    + exact Lc.
    + destruct (Z_le_gt_dec 1074 t) as [G|G]; [right; lia|left]. apply Z.div_le_lower_bound; [exact K0|]. apply Z.le_trans with (2 ^ d2 * 2 ^ 52); [apply Z.mul_le_mono_nonneg_r; lia|]. apply Z.le_trans with (2 ^ (d1 - 1) * 2 ^ t); [|apply Z.mul_le_mono_nonneg_r; lia].
      rewrite <- !Z.pow_add_r by lia. apply Z.pow_le_mono_r; lia.
    + replace (0 - 0 - t) with (- t) by lia. unfold up, down. rewrite Z.opp_involutive, Z.max_r, Z.max_l by lia. ring.
Qed.

(** ** Texts *)
Lemma digits_nonneg : forall l, all_digits l -> 0 <= digits_value l.
Proof.
  intros l Hl. induction Hl as [|c l Hc Hl IH]; [cbn; lia|]. cbn [digits_value]. assert (0 <= digit c). { unfold digit. unfold isdigit, byte_of in Hc. lia. }
  assert (0 <= 10 ^ Z.of_nat (List.length l)) by (apply Z.pow_nonneg; lia). nia.
Qed.
Definition unsigned (s : str) : Prop := match s with [] => True | c :: _ => Ascii.eqb c "-" = false /\ Ascii.eqb c "+" = false end.
Lemma sign_taken : forall sg neg r, sign_text sg neg -> unsigned r -> take_sign (sg ++ r) = (neg, r).
Proof. intros sg neg r [| |] H; [|reflexivity|reflexivity]. destruct r as [|c r]; [reflexivity|]. destruct H as [H1 H2]. cbn [app take_sign]. rewrite H1, H2. reflexivity. Qed.
Lemma digits_unsigned : forall l, all_digits l -> unsigned l.
Proof. intros l [|c l' Hc _]; [exact I|]. exact (digit_not_sign c Hc). Qed.
Definition no_digit (s : str) : Prop := match s with c :: _ => isdigit c = false | [] => True end.
Lemma exponent_read : forall ex x, exponent_text ex x -> take_exponent ex = Some (x, []).
Proof.
  intros ex x [|c sg neg ds C S D N]; [reflexivity|]. assert (E : Ascii.eqb c "e" || Ascii.eqb c "E" = true) by (destruct C as [-> | ->]; reflexivity).
  cbn [take_exponent]. rewrite E, (sign_taken sg neg ds S (digits_unsigned ds D)). pose proof (span_all ds [] D I) as Sp. rewrite app_nil_r in Sp. rewrite Sp, !dec_spec. destruct ds; [congruence|reflexivity].
Qed.
Lemma exponent_start : forall ex x, exponent_text ex x -> no_digit ex /\ (ex = [] /\ x = 0 \/ exists c r, ex = c :: r /\ isdigit c = false /\ Ascii.eqb c "." = false).
Proof. intros ex x [|c sg neg ds [-> | ->] _ _ _]; [split; [exact I|left; auto]| |]; (split; [reflexivity|right; do 2 eexists; split; [reflexivity|split; reflexivity]]). Qed.

(** How a number is read as an integer and as a double. *)
Lemma numeral_read : forall t n x, numeral t n x -> exists s z, 0 <= z /\ n = signed s z /\ parse_inf_nan t = None /\
  (lexical_cast_int64 t = None \/ lexical_cast_int64 t = Some n /\ x = 0) /\
  lexical_cast_double t = match dec_to_double s z x with S754_infinity _ => None | d => Some d end.
Proof.
  intros t n x [sg neg ip pt fp ex e S Di Pt N Ex]. exists neg, (digits_value (ip ++ fp)). assert (Df : all_digits fp) by (destruct Pt; [constructor|assumption]).
  assert (Dv : all_digits (ip ++ fp)) by (apply Forall_app; split; assumption). destruct (exponent_start ex e Ex) as [Nx Ex0].
  assert (F : exists c r, ip ++ pt ++ ex = c :: r /\ isalpha c = false /\ (Ascii.eqb c "-" = false /\ Ascii.eqb c "+" = false)).
  { destruct Di as [|c l Hc _]; [|exists c, (l ++ pt ++ ex); split; [reflexivity|split; [apply byte_class, Hc|exact (digit_not_sign c Hc)]]]. destruct Pt; [elim N; reflexivity|]. exists "."%char, (fp ++ ex). split; [reflexivity|split; [reflexivity|split; reflexivity]]. }
  destruct F as [c [r [Ec [Ac Uc]]]]. assert (T : take_sign (sg ++ ip ++ pt ++ ex) = (neg, ip ++ pt ++ ex)) by (apply sign_taken; [exact S|rewrite Ec; exact Uc]).
  split; [apply digits_nonneg, Dv|]. split; [reflexivity|]. split; [apply (no_word _ neg c r); [rewrite T, Ec; reflexivity|exact Ac]|]. split.
  - unfold lexical_cast_int64. rewrite T, Ec. cbv beta iota. destruct (forallb isdigit (c :: r)) eqn:Fa; [|left; reflexivity]. rewrite <- Ec in Fa |- *.
    rewrite !forallb_app in Fa. apply andb_true_iff in Fa. destruct Fa as [_ Fa]. apply andb_true_iff in Fa. destruct Fa as [F1 F2].
    destruct Pt as [|fp Hf]; [|discriminate F1]. destruct Ex0 as [[-> ->]|[c' [r' [-> [Hc' _]]]]]; [|cbn in F2; rewrite Hc' in F2; discriminate]. cbn [app]. rewrite !app_nil_r, dec_spec. cbv zeta.
    destruct (in_int64 _); [right; split; reflexivity|left; reflexivity].
  - unfold lexical_cast_double. rewrite T.
    assert (Sp : span_digits (ip ++ pt ++ ex) = (ip, pt ++ ex)). { apply span_all; [exact Di|]. destruct Pt; [|reflexivity]. exact Nx. } rewrite Sp.
    pose proof (exponent_read ex e Ex) as Ee. destruct Pt as [|fp Hf]; cbn [app].
    + destruct Ex0 as [[X ->]|[c' [r' [X [_ Hd]]]]]; rewrite X in Ee |- *; cbv beta iota; [|rewrite Hd; cbv beta iota]; rewrite Ee, dec_spec; (destruct (ip ++ []) as [|c0 l0] eqn:E0; [elim N; reflexivity|]); cbv zeta; destruct (dec_to_double _ _ _); reflexivity.
    + change (Ascii.eqb "." ".") with true. cbv beta iota. rewrite (span_all fp ex Hf Nx), Ee, dec_spec. destruct (ip ++ fp) as [|c0 l0] eqn:E0; [elim N; reflexivity|]. cbv zeta. destruct (dec_to_double _ _ _); reflexivity.
Qed.

Lemma near_unit : forall d s n x, 0 < n -> quotient_near d s (upper n x) (lower_part x) ->
  match d with S754_infinity _ => beyond (signed s n) x | _ => half_unit d (signed s n) x end.
Proof.
  intros d s n x Hn H. assert (A : Z.abs (signed s n) = n) by (destruct s; cbn [signed]; lia). destruct d as [s'|s'| |s' m e]; cbn [quotient_near half_unit] in *; unfold beyond; rewrite ?A.
  - apply H.
  - apply H.
  - exact H.
  - destruct H as [-> H]. split; [destruct s; cbn [signed]; split; intro; try reflexivity; try lia; discriminate|]. exact H.
Qed.
Lemma zero_unit : forall s x, half_unit (S754_zero s) 0 x.
Proof. intros s x. cbn [half_unit]. unfold upper, lower_part. change (Z.abs 0) with 0. rewrite Z.mul_0_l, Z.mul_0_r. apply Z.pow_nonneg. lia. Qed.
Lemma integer_unit : forall n, Z.abs n < 2 ^ 64 -> half_unit (int_to_double n) n 0.
Proof.
  intros n B. unfold int_to_double. destruct n as [|p|p]; [apply zero_unit| |].
  - assert (H := near_unit (binary_round prec64 emax64 false p 0) false (Zpos p) 0 ltac:(lia)). unfold upper, lower_part in H. change (10 ^ Z.max 0 0) with 1 in H. change (10 ^ Z.max (- 0) 0) with 1 in H. rewrite Z.mul_1_r in H. specialize (H (normalize_near false p)).
    cbn [binary_normalize]. destruct (binary_round prec64 emax64 false p 0); try exact H. exfalso. unfold beyond, upper, lower_part in H. cbn [signed] in H. change (10 ^ Z.max 0 0) with 1 in H. change (10 ^ Z.max (- 0) 0) with 1 in H. assert (2 ^ 64 <= (2 ^ 54 - 1) * 2 ^ 970) by (vm_compute; discriminate). lia.
  - assert (H := near_unit (binary_round prec64 emax64 true p 0) true (Zpos p) 0 ltac:(lia)). unfold upper, lower_part in H. change (10 ^ Z.max 0 0) with 1 in H. change (10 ^ Z.max (- 0) 0) with 1 in H. rewrite Z.mul_1_r in H. specialize (H (normalize_near true p)).
    cbn [binary_normalize]. destruct (binary_round prec64 emax64 true p 0); try exact H. exfalso. unfold beyond, upper, lower_part in H. cbn [signed] in H. change (10 ^ Z.max 0 0) with 1 in H. change (10 ^ Z.max (- 0) 0) with 1 in H. assert (2 ^ 64 <= (2 ^ 54 - 1) * 2 ^ 970) by (vm_compute; discriminate). lia.
Qed.
Lemma numeral_double : forall t n x, numeral t n x -> match lexical_cast_double t with Some d => half_unit d n x | None => beyond n x end.
Proof.
  intros t n x H. destruct (numeral_read t n x H) as [s [z [Z0 [-> [_ [_ ->]]]]]]. destruct (Z.eq_dec z 0) as [->|N]; [destruct s; apply zero_unit|].
  assert (Q := near_unit _ s z x ltac:(lia) (dec_near s z x ltac:(lia))). destruct (dec_to_double s z x); exact Q.
Qed.
Lemma get_double_numeral : forall self ps p v t n x, plain self -> simple_object self -> new_path ps = Ok p -> get p self = Some v -> numeral t n x ->
  ((exists q, v = VScalar (SStr t q)) \/ (exists d, v = VScalar (SDouble d t) /\ lexical_cast_double t = Some d)) ->
  match get_double self ps with
  | Ok d => half_unit d n x
  | Throw e => e = EConfig /\ beyond n x
  | Stuck _ => False
  end.
Proof.
  intros self ps p v t n x H1 H2 Hp G Nm V. assert (D := numeral_double t n x Nm). rewrite (get_double_spec self ps p H1 H2 Hp), G. destruct V as [[q ->]|[d' [-> L]]]; cbn [outcome is_null Config_Spec.as_double].
  - destruct (numeral_read t n x Nm) as [s [z [Z0 [En [W [Li _]]]]]]. destruct Li as [->|[Li ->]].
    + unfold text_to_double. rewrite W. destruct (lexical_cast_double t); [exact D|split; [reflexivity|exact D]].
    + rewrite Li. apply integer_unit. unfold lexical_cast_int64 in Li. destruct (take_sign t) as [neg ds]. destruct ds as [|c l]; [discriminate|]. destruct (forallb isdigit (c :: l)); [|discriminate]. destruct (in_int64 _) eqn:I; [|discriminate]. injection Li as Ev. rewrite Ev in I. unfold in_int64, int64_min, int64_max in I. clear - I. apply andb_true_iff in I. destruct I as [I1 I2]. apply Z.leb_le in I1. apply Z.leb_le in I2. lia.
  - rewrite L in D. exact D.
Qed.
