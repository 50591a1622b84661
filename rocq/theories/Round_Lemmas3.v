(** Quotients and remainders of doubles. *)
From Coq Require Import ZArith Lia Bool List.
From Coq Require Import Floats.SpecFloat.
From Verif Require Import Base Num_Model Duration_Model Duration_Spec Round_Lemmas Round_Lemmas2.
Local Open Scope Z_scope.

Lemma location_spec : forall N K, 0 <= N -> 0 < K -> located N K (shr_record_of_loc (N / K) (new_location K (N mod K))).
Proof.
  intros N K HN HK. assert (B := Z.mod_pos_bound N K HK). set (r := N mod K) in *. unfold located. fold r.
  assert (G : forall l, l = new_location K r -> shr_m (shr_record_of_loc (N / K) l) = N / K) by (intros [|[]] _; reflexivity).
  split; [apply (G _ eq_refl)|]. unfold new_location, new_location_even, new_location_odd. assert (Z0 := Zeq_is_eq_bool r 0).
  destruct (Zeq_bool r 0) eqn:E.
  - assert (R : r = 0) by (apply Z0; reflexivity). rewrite R. destruct (Z.even K); rewrite <- ?R, ?E; rewrite ?R; cbn [shr_record_of_loc shr_r shr_s]; (split; [symmetry; apply Z.leb_gt; lia|reflexivity]).
  - assert (R : r <> 0) by (intro R; apply Z0 in R; discriminate). assert (Rb : (r =? 0) = false) by (apply Z.eqb_neq; exact R). destruct (Z.even K) eqn:Ev; cbv beta iota; rewrite ?E.
    + destruct (Z.compare_spec (2 * r) K) as [C|C|C]; cbn [shr_record_of_loc shr_r shr_s].
      * split; [symmetry; apply Z.leb_le; lia|]. rewrite C, Z.eqb_refl. reflexivity.
      * split; [symmetry; apply Z.leb_gt; lia|]. rewrite Rb. reflexivity.
      * split; [symmetry; apply Z.leb_le; lia|]. replace (2 * r =? K) with false by (symmetry; apply Z.eqb_neq; lia). reflexivity.
    + assert (Od : Z.odd K = true) by (rewrite <- Z.negb_even, Ev; reflexivity). apply Z.odd_spec in Od. destruct Od as [t T].
      destruct (Z.compare_spec (2 * r + 1) K) as [C|C|C]; cbn [shr_record_of_loc shr_r shr_s].
      * split; [symmetry; apply Z.leb_gt; lia|]. rewrite Rb. reflexivity.
      * split; [symmetry; apply Z.leb_gt; lia|]. rewrite Rb. reflexivity.
      * split; [symmetry; apply Z.leb_le; lia|]. replace (2 * r =? K) with false by (symmetry; apply Z.eqb_neq; lia). reflexivity.
Qed.
(** The quotient of the mantissas, with all digits needed. *)
Lemma div_core : forall m1 e1 m2 e2, 0 < m1 -> 0 < m2 -> let t := e1 - e2 - Z.min (fexp64 (Zdigits2 m1 + e1 - (Zdigits2 m2 + e2))) (e1 - e2) in
  exists l, SFdiv_core_binary prec64 emax64 m1 e1 m2 e2 = (m1 * 2 ^ t / m2, e1 - e2 - t, l) /\ located (m1 * 2 ^ t) m2 (shr_record_of_loc (m1 * 2 ^ t / m2) l) /\ 0 <= t.
Proof.
  intros m1 e1 m2 e2 H1 H2 t. assert (T : 0 <= t) by (unfold t; lia). unfold SFdiv_core_binary. fold t.
  assert (Sh : match t with Zpos _ => Z.shiftl m1 t | Z0 => m1 | Zneg _ => 0 end = m1 * 2 ^ t). { destruct t as [|p|p] eqn:E; [cbn; lia|apply Z.shiftl_mul_pow2; lia|lia]. }
  rewrite Sh. assert (P : 0 <= m1 * 2 ^ t) by (apply Z.mul_nonneg_nonneg; [lia|apply Z.pow_nonneg; lia]).
  assert (Q := location_spec (m1 * 2 ^ t) m2 P H2). unfold Z.div, Z.modulo in Q |- *. destruct (Z.div_eucl (m1 * 2 ^ t) m2) as [q r]. cbn [fst snd] in *.
  exists (new_location m2 r). split; [f_equal; f_equal; unfold t; lia|]. split; [exact Q|exact T].
Qed.

(** The parts of a double: m * 2^e = top / 2^low. *)
Definition top (m : positive) (e : Z) : Z := Zpos m * 2 ^ Z.max e 0.
Definition low (e : Z) : Z := Z.max (- e) 0.
Lemma fmod_zero : forall s m e c, 0 < c -> top m e mod (c * 2 ^ low e) = 0 -> exists s', fmod (S754_finite s m e) c = S754_zero s'.
Proof.
  intros s m e c Hc H. unfold fmod, top, low in *. destruct (0 <=? e) eqn:E.
  - apply Z.leb_le in E. rewrite Z.max_l, Z.max_r in H by lia. rewrite Z.mul_1_r in H. rewrite H. exists s. destruct s; reflexivity.
  - apply Z.leb_gt in E. rewrite Z.max_r, Z.max_l, Z.mul_1_r in H by lia. rewrite H. exists s. destruct s; reflexivity.
Qed.
Lemma fmod_part : forall s m e c g, 2 ^ 52 <= Zpos m < 2 ^ 53 -> -1074 <= e -> 0 < c < 2 ^ 53 -> top m e mod (c * 2 ^ low e) = Zpos g ->
  fmod (S754_finite s m e) c = binary_round prec64 emax64 s g (- low e) /\ Zpos g < 2 ^ 53 /\ (2 ^ 52 <= Zpos g \/ -1000 <= - low e) /\ Zpos g < c * 2 ^ low e.
Proof.
  intros s m e c g Hm He Hc H. assert (P : 0 < 2 ^ low e) by (apply Z.pow_pos_nonneg; unfold low; lia).
  assert (B := Z.mod_pos_bound (top m e) (c * 2 ^ low e)). rewrite H in B. unfold fmod, top, low in *. destruct (0 <=? e) eqn:E.
  - apply Z.leb_le in E. rewrite Z.max_l, Z.max_r in * by lia. rewrite Z.mul_1_r in *. rewrite H. split; [destruct s; reflexivity|]. split; [lia|]. split; [lia|lia].
  - apply Z.leb_gt in E. rewrite Z.max_r, Z.max_l in * by lia. rewrite Z.mul_1_r in H. rewrite H, Z.opp_involutive. split; [destruct s; reflexivity|].
    assert (Le : Zpos g <= Zpos m) by (rewrite <- H; apply Z.mod_le; lia). split; [lia|]. split; [|lia]. destruct (Z_lt_le_dec e (-1000)) as [X|X]; [|lia]. left.
    rewrite Z.mod_small in H; [lia|]. split; [lia|]. apply Z.lt_le_trans with (2 ^ 53); [lia|]. apply Z.le_trans with (2 ^ (- e)); [apply Z.pow_le_mono_r; lia|]. rewrite <- (Z.mul_1_l (2 ^ (- e))) at 1; apply Z.mul_le_mono_nonneg_r; lia.
Qed.

(** The whole seconds. *)
Lemma trunc_parts : forall s m e, double_trunc (S754_finite s m e) = Some (signed s (top m e / 2 ^ low e)).
Proof.
  intros s m e. unfold double_trunc, top, low. destruct (0 <=? e) eqn:E; [apply Z.leb_le in E|apply Z.leb_gt in E].
  - rewrite Z.max_l, Z.max_r by lia. rewrite Z.div_1_r. reflexivity.
  - rewrite Z.max_r, Z.max_l by lia. rewrite Z.mul_1_r. reflexivity.
Qed.
(** The arithmetic of the quotient. *)
Lemma floor_kept : forall A B P H q m c', 0 < B -> 0 < P -> 0 <= H -> A = m * P -> B = c' * P -> m < 2 ^ 53 ->
  2 * Z.abs (q * B - A * 2 ^ H) <= B -> 2 ^ 52 * B <= A * 2 ^ H -> q / 2 ^ H = A / B.
Proof.
  intros A B P H q m c' HB HP HH EA EB Hm U1 U2. assert (PH : 0 < 2 ^ H) by (apply Z.pow_pos_nonneg; lia). set (X := 2 ^ H) in *. clearbody X. clear HH H.
  set (T := A / B). assert (D1 : A = B * T + A mod B) by (apply Z.div_mod; lia). assert (D2 := Z.mod_pos_bound A B HB). clearbody T.
  assert (V : P <= (T + 1) * B - A). { assert (G : (T + 1) * B - A = ((T + 1) * c' - m) * P) by (rewrite EA, EB; ring). assert (0 < (T + 1) * B - A) by lia. rewrite G in H |- *.
    assert (0 < (T + 1) * c' - m) by (apply Z.mul_pos_cancel_r with P; assumption). rewrite <- (Z.mul_1_l P) at 1. apply Z.mul_le_mono_nonneg_r; lia. }
  assert (W : A < 2 ^ 53 * P) by (rewrite EA; apply Z.mul_lt_mono_pos_r; assumption).
  assert (TB : T * B <= A) by lia. clear D1 D2 EA EB. symmetry. apply (Z.div_unique_pos q X T (q - X * T)); [|ring].
  assert (L : T * X <= q). { destruct (Z_lt_le_dec q (T * X)) as [L|L]; [exfalso|exact L]. assert (L1 : (q + 1) * B <= T * X * B) by (apply Z.mul_le_mono_nonneg_r; lia). assert (L2 : T * B * X <= A * X) by (apply Z.mul_le_mono_nonneg_r; lia).
    replace (T * X * B) with (T * B * X) in L1 by ring. rewrite Z.mul_add_distr_r in L1. set (a := q * B) in *. set (b := A * X) in *. set (d := T * B * X) in *. clearbody a b d. clear - HB U1 L1 L2. lia. }
  assert (R : q < (T + 1) * X). { destruct (Z_lt_le_dec q ((T + 1) * X)) as [R|R]; [exact R|exfalso]. assert (R1 : (T + 1) * X * B <= q * B) by (apply Z.mul_le_mono_nonneg_r; lia). assert (R2 : P * X <= ((T + 1) * B - A) * X) by (apply Z.mul_le_mono_nonneg_r; lia).
    assert (R3 : A * X < 2 ^ 53 * P * X) by (apply Z.mul_lt_mono_pos_r; assumption). rewrite Z.mul_sub_distr_r in R2. replace ((T + 1) * X * B) with ((T + 1) * B * X) in R1 by ring. rewrite <- Z.mul_assoc in R3.
    set (a := q * B) in *. set (b := A * X) in *. set (d := (T + 1) * B * X) in *. set (f := P * X) in *. clearbody a b d f. clear - HB U1 U2 R1 R2 R3. change (2 ^ 53) with (2 * 2 ^ 52) in R3. lia. }
  split; [|]; clear - L R; replace ((T + 1) * X) with (X * T + X) in R by ring; replace (T * X) with (X * T) in L by ring; set (a := X * T) in *; clearbody a; lia.
Qed.
Lemma wide : forall m cm t, 0 < m < 2 ^ 53 -> 2 ^ 52 <= cm -> 0 <= t <= 53 -> 0 <= m * 2 ^ t / cm < 2 ^ 54.
Proof.
  intros m cm t Hm Hc Ht. assert (0 < 2 ^ t) by (apply Z.pow_pos_nonneg; lia). split; [apply Z.div_pos; [apply Z.mul_nonneg_nonneg; lia|lia]|]. apply Z.div_lt_upper_bound; [lia|].
  apply Z.lt_le_trans with (2 ^ 53 * 2 ^ t); [apply Z.mul_lt_mono_pos_r; lia|]. apply Z.le_trans with (2 ^ 52 * 2 ^ 54); [|apply Z.mul_le_mono_nonneg_r; lia].
  apply Z.le_trans with (2 ^ 53 * 2 ^ 53); [apply Z.mul_le_mono_nonneg_l; [lia|apply Z.pow_le_mono_r; lia]|discriminate].
Qed.
Lemma wide_room : forall M E, 0 <= M < 2 ^ 54 -> room M E <= Z.max (- 1074 - E) 1.
Proof.
  intros M E [M0 M1]. unfold room. rewrite fexp_eq. destruct (Z.eq_dec M 0) as [->|N]; [change (Zdigits2 0) with 0; lia|]. destruct (digits_spec M) as [W1 [W2 W3]]; [lia|].
  assert (Zdigits2 M - 1 < 54) by (apply (Z.pow_lt_mono_r_iff 2); lia). lia.
Qed.
Lemma abs_scale : forall x w, 0 < w -> Z.abs x * w = Z.abs (x * w).
Proof. intros x w H. rewrite Z.abs_mul, (Z.abs_eq w) by lia. reflexivity. Qed.
Lemma quotient : forall s m e c cm z, 2 ^ 52 <= Zpos m < 2 ^ 53 -> -1074 <= e -> as_double c cm z -> (2 ^ Z.max e 0 | c) -> top m e < 2 ^ 32 * (c * 2 ^ low e) ->
  let y := ddiv (S754_finite s m e) c in
  (isnormal y = true -> double_trunc y = Some (signed s (top m e / (c * 2 ^ low e)))) /\ (isnormal y = false -> e < -900).
Proof.
  intros s m e c cm z Hm He [Ic [Cm [Cb [Zb Cp]]]] Dv Hb y. unfold y, ddiv. rewrite Ic. clear y. cbn [SFdiv]. rewrite xorb_false_r.
  destruct (div_core (Zpos m) e (Zpos cm) (- z)) as [l [Eq [Lc T0]]]; [lia|lia|]. set (t := e - - z - _) in *. rewrite Eq. clear Eq.
  assert (Dm : Zdigits2 (Zpos m) = 53) by (apply digits_unique; lia). assert (Dc : Zdigits2 (Zpos cm) = 53) by (apply digits_unique; lia).
  assert (Tm : t = Z.min 53 (e + z + 1074)). { unfold t. rewrite Dm, Dc, fexp_eq. lia. } clearbody t.
  assert (Pt : 0 < 2 ^ t) by (apply Z.pow_pos_nonneg; lia). set (E := e - - z - t) in *. set (N := Zpos m * 2 ^ t) in *. assert (N0 : 0 < N) by (unfold N; apply Z.mul_pos_pos; lia).
  assert (MW : 0 <= N / Zpos cm < 2 ^ 54) by (apply wide; lia).
  destruct (rounded s (N / Zpos cm) E l N (Zpos cm)) as [q [k [j [K0 [J [Q1 [Q2 [Q3 [Q4 [Q5 Q6]]]]]]]]]]; [apply MW|lia|lia|exact Lc|]. clear Lc.
  assert (KR := wide_room _ E MW). rewrite <- Q5 in KR.
  set (A := top m e) in *. set (B := c * 2 ^ low e) in *. set (H := - (E + k)).
  assert (PL : 0 < 2 ^ low e) by (apply Z.pow_pos_nonneg; unfold low; lia). assert (PM : 0 < 2 ^ Z.max e 0) by (apply Z.pow_pos_nonneg; lia). assert (PB : 0 < B) by (unfold B; apply Z.mul_pos_pos; lia).
  assert (Pk : 0 < 2 ^ k) by (apply Z.pow_pos_nonneg; lia). assert (Pz : 0 < 2 ^ z) by (apply Z.pow_pos_nonneg; lia).
  destruct (Z_lt_le_dec e (-900)) as [Tiny|Big].
  { split; [|intros _; exact Tiny]. intro Nm. assert (Az : A / B = 0).
    { apply Z.div_small. unfold A, B, top, low. rewrite Z.max_r, Z.max_l by lia. rewrite Z.mul_1_r. split; [lia|]. apply Z.lt_le_trans with (2 ^ 53); [lia|]. apply Z.le_trans with (2 ^ (- e)); [apply Z.pow_le_mono_r; lia|]. assert (0 < 2 ^ (- e)) by (apply Z.pow_pos_nonneg; lia). rewrite <- (Z.mul_1_l (2 ^ (- e))) at 1. apply Z.mul_le_mono_nonneg_r; lia. }
    rewrite Az. destruct (binary_round_aux prec64 emax64 s (N / Zpos cm) E l) as [s'|s'| |s' m' e'] eqn:Rd; try discriminate Nm. destruct Q6 as [-> [Qq [Ee [Mb [_ Jb]]]]]. rewrite trunc_parts. do 2 f_equal.
    apply Z.div_small. unfold top, low. assert (e' < -60) by (unfold E in *; lia). rewrite Z.max_r, Z.max_l by lia. rewrite Z.mul_1_r. split; [lia|]. apply Z.lt_le_trans with (2 ^ 53); [lia|]. apply Z.pow_le_mono_r; lia. }
  assert (T53 : t = 53) by lia. assert (Em : E = e + z - 53) by (unfold E; lia). assert (KB : k <= 1) by lia. clearbody E.
  assert (M0 : 2 ^ 52 <= N / Zpos cm).
  { apply Z.div_le_lower_bound; [lia|]. unfold N. rewrite T53. apply Z.le_trans with (2 ^ 53 * 2 ^ 52); [apply Z.mul_le_mono_nonneg_r; lia|]. rewrite Z.mul_comm. apply Z.mul_le_mono_nonneg_r; lia. }
  destruct (Q4 (or_intror M0) ltac:(lia)) as [Q7 Q8]. clear Q4.
  assert (A52 : 2 ^ 52 * 2 ^ Z.max e 0 <= A) by (unfold A, top; apply Z.mul_le_mono_nonneg_r; lia).
  assert (EZ : e + z < 33).
  { assert (X : 2 ^ 52 * 2 ^ Z.max e 0 * 2 ^ z < 2 ^ 32 * 2 ^ 53 * 2 ^ low e).
    { apply Z.le_lt_trans with (A * 2 ^ z); [apply Z.mul_le_mono_nonneg_r; lia|]. apply Z.lt_le_trans with (2 ^ 32 * B * 2 ^ z); [apply Z.mul_lt_mono_pos_r; lia|]. unfold B. replace (2 ^ 32 * (c * 2 ^ low e) * 2 ^ z) with (2 ^ 32 * (c * 2 ^ z) * 2 ^ low e) by ring. apply Z.mul_le_mono_nonneg_r; lia. }
    rewrite <- !Z.pow_add_r in X by (unfold low; lia). apply Z.pow_lt_mono_r_iff in X; unfold low in *; lia. }
  (* the same without the common factors *)
  assert (H0 : 0 <= H) by (unfold H; lia). assert (H2 : j < H) by (unfold H; lia). assert (HE : E + k = - H) by (unfold H; lia). clearbody H.
  set (W := 2 ^ (z + k)). assert (PW : 0 < W) by (apply Z.pow_pos_nonneg; lia). assert (PH : 0 < 2 ^ H) by (apply Z.pow_pos_nonneg; [reflexivity|exact H0]).
  assert (NA : N * 2 ^ low e = A * 2 ^ H * W). { unfold N, A, top, W. rewrite T53, <- !Z.mul_assoc. f_equal. clear - HE Em H0 K0 T0 Zb T53. rewrite <- !Z.pow_add_r by (unfold low; lia). f_equal. unfold low. lia. }
  assert (NB : Zpos cm * 2 ^ k * 2 ^ low e = B * W). { unfold B, W. rewrite Cm, Z.pow_add_r by lia. ring. }
  assert (U1 : 2 * Z.abs (q * B - A * 2 ^ H) <= B).
  { apply (proj2 (Z.mul_le_mono_pos_r _ _ W PW)). rewrite <- NB. replace (2 * Z.abs (q * B - A * 2 ^ H) * W) with (2 * Z.abs (q * (Zpos cm * 2 ^ k) - N) * 2 ^ low e); [apply Z.mul_le_mono_nonneg_r; lia|].
    rewrite <- !Z.mul_assoc. f_equal. rewrite !abs_scale by assumption. f_equal.
    rewrite !Z.mul_sub_distr_r. rewrite NA. f_equal. rewrite <- !Z.mul_assoc. f_equal. rewrite <- NB. ring. }
  assert (U2 : 2 ^ 52 * B <= A * 2 ^ H). { apply (proj2 (Z.mul_le_mono_pos_r _ _ W PW)). rewrite <- NA, <- Z.mul_assoc, <- NB, Z.mul_assoc. apply Z.mul_le_mono_nonneg_r; lia. }
  assert (Tq : q / 2 ^ H = A / B).
  { destruct Dv as [c' Dv]. apply (floor_kept A B (2 ^ Z.max e 0) H q (Zpos m) (c' * 2 ^ low e)); try assumption; [reflexivity| |apply Hm]. unfold B. rewrite Dv. ring. }
  clearbody A B N W. clear - Q6 Tq Q8 H0 H2 HE J. destruct (binary_round_aux prec64 emax64 s (N / Zpos cm) E l) as [s'|s'| |s' m' e'] eqn:Rd.
  - destruct Q6; lia.
  - destruct Q6; lia.
  - destruct Q6.
  - destruct Q6 as [-> [Qq [Ee [Mb [_ Jb]]]]]. assert (Nm : 2 ^ 52 <= Zpos m'). { destruct J as [-> | ->]; [rewrite Z.mul_1_r in Qq; lia|rewrite Jb by reflexivity; lia]. }
    split; [intros _|intro X; cbn [isnormal] in X; apply Z.leb_gt in X; lia]. rewrite trunc_parts, <- Tq. do 2 f_equal. unfold top, low. rewrite Z.max_r, Z.max_l by (clear - HE Ee H0 H2; lia). rewrite Z.mul_1_r.
    rewrite Qq. replace H with (- e' + j) by (clear - HE Ee; lia). rewrite Z.pow_add_r by (clear - HE Ee H2 H0 J; lia). symmetry. apply Z.div_mul_cancel_r; apply Z.pow_nonzero; lia.
Qed.
