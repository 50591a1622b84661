(** Rounding of doubles (Coq's SpecFloat), in integers. *)
From Coq Require Import ZArith Lia Bool List.
From Coq Require Import Floats.SpecFloat.
From Verif Require Import Base Num_Model.
Local Open Scope Z_scope.

(** ** Digits *)
Lemma digits_pos : forall p, 2 ^ (Zpos (digits2_pos p) - 1) <= Zpos p < 2 ^ Zpos (digits2_pos p).
Proof.
  assert (S : forall d, 2 ^ Zpos (Pos.succ d) = 2 * 2 ^ Zpos d). { intro d. rewrite Pos2Z.inj_succ, Z.pow_succ_r by lia. reflexivity. }
  assert (T : forall d, 2 ^ Zpos d = 2 * 2 ^ (Zpos d - 1)). { intro d. rewrite <- Z.pow_succ_r by lia. f_equal. lia. }
  intro p. induction p as [p IH|p IH|]; cbn [digits2_pos]; [| |cbn; lia].
  - rewrite S. replace (Zpos (Pos.succ (digits2_pos p)) - 1) with (Zpos (digits2_pos p)) by lia. rewrite (T (digits2_pos p)) in IH |- *. lia.
  - rewrite S. replace (Zpos (Pos.succ (digits2_pos p)) - 1) with (Zpos (digits2_pos p)) by lia. rewrite (T (digits2_pos p)) in IH |- *. lia.
Qed.
Lemma digits_spec : forall m, 0 < m -> 0 < Zdigits2 m /\ 2 ^ (Zdigits2 m - 1) <= m < 2 ^ Zdigits2 m.
Proof. intros [|p|p] H; try lia. cbn [Zdigits2]. split; [lia|apply digits_pos]. Qed.
Lemma digits_unique : forall m d, 0 < d -> 2 ^ (d - 1) <= m < 2 ^ d -> Zdigits2 m = d.
Proof.
  intros m d D [H1 H2]. assert (0 < 2 ^ (d - 1)) by (apply Z.pow_pos_nonneg; lia). destruct (digits_spec m) as [E [G1 G2]]; [lia|].
  assert (d - 1 < Zdigits2 m) by (apply (Z.pow_lt_mono_r_iff 2); lia). assert (Zdigits2 m - 1 < d) by (apply (Z.pow_lt_mono_r_iff 2); lia). lia.
Qed.

(** ** Shifting *)
Lemma iter_pos_nat : forall A (f : A -> A) n x, iter_pos f n x = Nat.iter (Pos.to_nat n) f x.
Proof.
  intros A f n. assert (P : forall a b x, Nat.iter (a + b) f x = Nat.iter a f (Nat.iter b f x)). { intros a b x. induction a as [|a IH]; cbn; [reflexivity|]. f_equal. exact IH. }
  induction n as [n IH|n IH|]; intro x; cbn [iter_pos].
  - rewrite !IH. rewrite Pos2Nat.inj_xI. replace (S (2 * Pos.to_nat n)) with (Pos.to_nat n + (Pos.to_nat n + 1))%nat by lia. rewrite !P. reflexivity.
  - rewrite !IH. rewrite Pos2Nat.inj_xO. replace (2 * Pos.to_nat n)%nat with (Pos.to_nat n + Pos.to_nat n)%nat by lia. rewrite !P. reflexivity.
  - reflexivity.
Qed.
(** The quotient N/K, whether the rest is at least a half, and whether it is neither nothing nor a half. *)
Definition located (N K : Z) (x : shr_record) : Prop :=
  shr_m x = N / K /\ shr_r x = (K <=? 2 * (N mod K)) /\ shr_s x = negb (if shr_r x then 2 * (N mod K) =? K else N mod K =? 0).
Lemma shr_1_spec : forall m r s, 0 <= m -> shr_1 (Build_shr_record m r s) = Build_shr_record (m / 2) (Z.odd m) (r || s).
Proof. intros [|p|p] r s H; [reflexivity| |lia]. destruct p; cbn [shr_1 Z.odd]; rewrite <- Z.div2_div; reflexivity. Qed.
Lemma shift_step : forall N K x, 0 <= N -> 0 < K -> located N K x -> located N (K * 2) (shr_1 x).
Proof.
  intros N K [m r s] HN HK [H1 [H2 H3]]. cbn [shr_m shr_r shr_s] in *. assert (0 <= m) by (subst; apply Z.div_pos; lia). rewrite shr_1_spec by assumption.
  assert (R : N mod (K * 2) = N mod K + K * (m mod 2)). { rewrite Z.rem_mul_r by lia. rewrite H1. reflexivity. }
  assert (B := Z.mod_pos_bound N _ HK). assert (O : m mod 2 = if Z.odd m then 1 else 0) by apply Zmod_odd.
  split; [cbn [shr_m]; rewrite <- Z.div_div by lia; rewrite H1; reflexivity|]. cbn [shr_r shr_s]. rewrite R, O.
  assert (Z0 : r || s = negb (N mod K =? 0)).
  { destruct (N mod K =? 0) eqn:E; [apply Z.eqb_eq in E|apply Z.eqb_neq in E].
    - rewrite E in *. replace (K <=? 2 * 0) with false in H2 by (symmetry; apply Z.leb_gt; lia). subst r s. reflexivity.
    - destruct r; [reflexivity|]. apply Z.eqb_neq in E. rewrite ?E in H3. subst s. cbn. rewrite ?E. reflexivity. }
  split.
  - destruct (Z.odd m); symmetry; [apply Z.leb_le|apply Z.leb_gt]; lia.
  - rewrite Z0. f_equal. destruct (Z.odd m); [|f_equal; lia]. destruct (N mod K =? 0) eqn:E; symmetry; [apply Z.eqb_eq in E; apply Z.eqb_eq; lia|apply Z.eqb_neq in E; apply Z.eqb_neq; lia].
Qed.
Lemma shift_iter : forall N K x k, 0 <= N -> 0 < K -> located N K x -> located N (K * 2 ^ Z.of_nat k) (Nat.iter k shr_1 x).
Proof.
  intros N K x k HN HK H. induction k as [|k IH]; [cbn [Nat.iter]; change (2 ^ Z.of_nat 0) with 1; rewrite Z.mul_1_r; exact H|]. cbn [Nat.iter].
  rewrite Nat2Z.inj_succ, Z.pow_succ_r, (Z.mul_comm 2), Z.mul_assoc by lia. apply shift_step; [exact HN| |exact IH]. apply Z.mul_pos_pos; [exact HK|]. apply Z.pow_pos_nonneg; lia.
Qed.
Lemma located_exact : forall M, 0 <= M -> located M 1 (Build_shr_record M false false).
Proof. intros M H. split; [cbn; rewrite Z.div_1_r; reflexivity|]. cbn [shr_r shr_s]. rewrite Z.mod_1_r. split; reflexivity. Qed.

(** The nearest integer. *)
Lemma nearest : forall N K x, 0 <= N -> 0 < K -> located N K x -> let q := round_nearest_even (shr_m x) (loc_of_shr_record x) in
  N / K <= q <= N / K + 1 /\ 2 * Z.abs (q * K - N) <= K.
Proof.
  intros N K [m r s] HN HK [H1 [H2 H3]] q. cbn [shr_m shr_r shr_s] in *. assert (B := Z.mod_pos_bound N _ HK). assert (E := Z.div_mod N K). rewrite <- H1 in *. set (rem := N mod K) in *.
  assert (C : q = m /\ 2 * rem <= K \/ q = m + 1 /\ K <= 2 * rem).
  { unfold q. destruct r; symmetry in H2; [apply Z.leb_le in H2|apply Z.leb_gt in H2]; destruct s; cbn [round_nearest_even loc_of_shr_record]; try (left; split; [reflexivity|lia]); try (right; split; [reflexivity|lia]).
    assert (T : 2 * rem = K) by (apply Z.eqb_eq; destruct (2 * rem =? K) eqn:X; [reflexivity|discriminate H3]). destruct (Z.even m); [left|right]; split; try reflexivity; lia. }
  split; [destruct C as [[-> _]|[-> _]]; lia|]. assert (F : m * K = N - rem) by lia. destruct C as [[-> C]|[-> C]]; [rewrite F; lia|]. replace ((m + 1) * K - N) with (K - rem) by lia. lia.
Qed.

(** ** Rounding *)
Definition bits (d : double) : Prop := match d with S754_finite _ m e => Zpos m < 2 ^ 53 /\ -1074 <= e <= 971 | _ => True end.
Notation fexp64 := (fexp prec64 emax64).
Lemma fexp_eq : forall e, fexp64 e = Z.max (e - 53) (-1074).
Proof. reflexivity. Qed.

(** Shifting by what the exponent needs. *)
Definition room (m e : Z) : Z := Z.max 0 (fexp64 (Zdigits2 m + e) - e).
Lemma shr_room : forall m e l N K, 0 <= N -> 0 < K -> located N K (shr_record_of_loc m l) ->
  exists x, shr_fexp prec64 emax64 m e l = (x, e + room m e) /\ located N (K * 2 ^ room m e) x.
Proof.
  intros m e l N K HN HK H. unfold shr_fexp, room. destruct (fexp64 (Zdigits2 m + e) - e) as [|p|p] eqn:E; cbn [shr].
  - eexists. split; [f_equal; lia|]. rewrite Z.max_id, Z.mul_1_r. exact H.
  - eexists. split; [f_equal; lia|]. rewrite Z.max_r by lia. rewrite iter_pos_nat. replace (Z.pos p) with (Z.of_nat (Pos.to_nat p)) by lia. apply shift_iter; assumption.
  - eexists. split; [f_equal; lia|]. rewrite Z.max_l by lia. rewrite Z.mul_1_r. exact H.
Qed.
Lemma room_bits : forall m e, 0 <= m -> 0 <= room m e /\ -1074 <= e + room m e /\ m / 2 ^ room m e < 2 ^ 53 /\ (-1074 < e + room m e -> 0 < room m e -> 2 ^ 52 <= m / 2 ^ room m e).
Proof.
  intros m e H0. destruct (Z.eq_dec m 0) as [->|H1].
  { unfold room. rewrite fexp_eq. change (Zdigits2 0) with 0. set (k := Z.max 0 _). split; [lia|]. split; [lia|]. rewrite Z.div_0_l by (apply Z.pow_nonzero; lia). split; [lia|]. intros. lia. }
  assert (H : 0 < m) by lia. destruct (digits_spec m H) as [D [L U]]. assert (R := fexp_eq (Zdigits2 m + e)). unfold room in *. rewrite R. clear R. set (k := Z.max 0 _). set (d := Zdigits2 m) in *.
  assert (0 <= k) by lia. split; [assumption|]. split; [lia|]. split.
  - apply Z.div_lt_upper_bound; [apply Z.pow_pos_nonneg; lia|]. rewrite <- Z.pow_add_r by lia. apply Z.lt_le_trans with (2 ^ d); [exact U|]. apply Z.pow_le_mono_r; lia.
  - intros G1 G2. apply Z.div_le_lower_bound; [apply Z.pow_pos_nonneg; lia|]. rewrite <- Z.pow_add_r by lia. apply Z.le_trans with (2 ^ (d - 1)); [|exact L]. apply Z.pow_le_mono_r; lia.
Qed.
(** The second shift, after rounding up to a power of two, loses nothing. *)
Lemma settle : forall s q e, 0 <= q <= 2 ^ 53 -> -1074 <= e ->
  exists j, (j = 0 \/ j = 1) /\ (match (let '(x, e') := shr_fexp prec64 emax64 q e loc_Exact in
     match shr_m x with Z0 => S754_zero s | Zpos m => if Zle_bool e' (emax64 - prec64) then S754_finite s m e' else S754_infinity s | _ => S754_nan end) with
   | S754_zero s' => s' = s /\ q = 0
   | S754_finite s' m e' => s' = s /\ q = Zpos m * 2 ^ j /\ e' = e + j /\ Zpos m < 2 ^ 53 /\ e' <= 971 /\ (j = 1 -> Zpos m = 2 ^ 52)
   | S754_infinity s' => s' = s /\ 971 < e + j /\ 0 < q /\ (j = 1 -> q = 2 ^ 53)
   | S754_nan => False
   end).
Proof.
  intros s q e H He. destruct (shr_room q e loc_Exact q 1) as [x [E [L _]]]; [lia|lia|apply located_exact; lia|]. rewrite E. rewrite L, Z.mul_1_l. destruct (Z.eq_dec q 0) as [->|N].
  - exists 0. split; [auto|]. rewrite Z.div_0_l by (apply Z.pow_nonzero; [lia|unfold room; lia]). auto.
  - assert (Q : 0 < q) by lia. assert (J : exists j, (j = 0 \/ j = 1) /\ room q e = j /\ q = q / 2 ^ j * 2 ^ j /\ q / 2 ^ j < 2 ^ 53 /\ (j = 1 -> q / 2 ^ j = 2 ^ 52)).
    { destruct (Z.eq_dec q (2 ^ 53)) as [->|N2].
      - exists 1. split; [auto|]. split; [unfold room; rewrite fexp_eq; rewrite (digits_unique (2 ^ 53) 54) by lia; lia|]. split; [reflexivity|]. split; [reflexivity|]. reflexivity.
      - exists 0. split; [auto|]. split; [|rewrite Z.pow_0_r, Z.div_1_r; lia]. unfold room. rewrite fexp_eq. destruct (digits_spec q Q) as [D [G1 G2]].
        assert (Zdigits2 q - 1 < 53) by (apply (Z.pow_lt_mono_r_iff 2); lia). lia. }
    destruct J as [j [J1 [J2 [J3 [J4 J5]]]]]. rewrite J2. exists j. split; [exact J1|]. destruct (q / 2 ^ j) as [|m|m] eqn:M.
    + lia.
    + change (emax64 - prec64) with 971. destruct (Zle_bool (e + j) 971) eqn:Le; [apply Z.leb_le in Le|apply Z.leb_gt in Le]; repeat split; try lia; try exact J5. intro j1. rewrite (J5 j1), j1 in J3. rewrite J3. reflexivity.
    + assert (0 <= q / 2 ^ j) by (apply Z.div_pos; [lia|destruct J1 as [-> | ->]; lia]). lia.
Qed.
(** The rounded N/K * 2^e: a number q * 2^(e+k) for the q that is nearest to N/K/2^k, where k is no larger than needed. *)
Lemma rounded : forall s m e l N K, 0 <= m -> 0 < N -> 0 < K -> located N K (shr_record_of_loc m l) ->
  exists q k j, 0 <= k /\ (j = 0 \/ j = 1) /\ 2 * Z.abs (q * (K * 2 ^ k) - N) <= K * 2 ^ k /\ 0 <= q <= 2 ^ 53 /\
    -1074 <= e + k /\ (0 < k \/ 2 ^ 52 <= m -> -1074 < e + k -> 2 ^ 52 * (K * 2 ^ k) <= N /\ 2 ^ 52 <= q) /\ k = room m e /\
    match binary_round_aux prec64 emax64 s m e l with
    | S754_zero s' => s' = s /\ q = 0
    | S754_finite s' m' e' => s' = s /\ q = Zpos m' * 2 ^ j /\ e' = e + k + j /\ Zpos m' < 2 ^ 53 /\ e' <= 971 /\ (j = 1 -> Zpos m' = 2 ^ 52)
    | S754_infinity s' => s' = s /\ 971 < e + k + j /\ 0 < q /\ (j = 1 -> q = 2 ^ 53)
    | S754_nan => False
    end.
Proof.
  intros s m e l N K Hm HN HK H. destruct (shr_room m e l N K) as [x [E L]]; [lia|lia|exact H|]. destruct (room_bits m e Hm) as [R1 [R2 [R3 R4]]]. set (k := room m e) in *.
  assert (P : 0 < 2 ^ k) by (apply Z.pow_pos_nonneg; lia). assert (PK : 0 < K * 2 ^ k) by (apply Z.mul_pos_pos; assumption).
  destruct (nearest N (K * 2 ^ k) x) as [Q1 Q2]; [lia|lia|exact L|]. set (q := round_nearest_even (shr_m x) (loc_of_shr_record x)) in *.
  assert (M : m = N / K). { destruct H as [H _]. rewrite <- H. destruct l as [|[]]; reflexivity. }
  assert (D : N / (K * 2 ^ k) = m / 2 ^ k). { rewrite M. rewrite Z.div_div by lia. reflexivity. }
  assert (Q0 : 0 <= N / (K * 2 ^ k)) by (apply Z.div_pos; lia).
  destruct (settle s q (e + k)) as [j [J S]]; [lia|lia|]. exists q, k, j. split; [exact R1|]. split; [exact J|]. split; [exact Q2|]. split; [lia|]. split; [exact R2|]. split.
  { intros G1 G2. assert (R5 : 2 ^ 52 <= m / 2 ^ k). { destruct (Z.eq_dec k 0) as [K0|K0]; [|apply R4; lia]. rewrite K0, Z.div_1_r. lia. } clear R4. rename R5 into R4. rewrite <- D in R4. split; [|lia]. apply Z.le_trans with (K * 2 ^ k * (N / (K * 2 ^ k))); [nia|]. apply Z.mul_div_le. lia. }
  split; [reflexivity|].
  unfold binary_round_aux. rewrite E. fold q. exact S.
Qed.
