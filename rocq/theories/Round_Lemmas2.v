(** The seconds and nanoseconds of a double. *)
From Coq Require Import ZArith Lia Bool List.
From Coq Require Import Floats.SpecFloat.
From Verif Require Import Base Num_Model Duration_Model Duration_Spec Round_Lemmas.
Local Open Scope Z_scope.

Lemma shift_pos_eq : forall d m, Zpos (shift_pos d m) = Zpos m * 2 ^ Zpos d.
Proof. intros d m. rewrite shift_pos_correct, Zpower_pos_nat. rewrite Zpower_nat_Z. rewrite positive_nat_Z. lia. Qed.

(** Numbers with few digits are not changed. *)
Lemma normalized : forall s m e, Zpos m < 2 ^ 53 -> -1074 <= e <= 971 -> (2 ^ 52 <= Zpos m \/ -1000 <= e) ->
  exists m' d, 0 <= d /\ Zpos m' = Zpos m * 2 ^ d /\ 2 ^ 52 <= Zpos m' < 2 ^ 53 /\ -1074 <= e - d /\ binary_round prec64 emax64 s m e = S754_finite s m' (e - d).
Proof.
  intros s m e Hm He Hn. destruct (digits_spec (Zpos m)) as [D [L U]]; [lia|]. cbn [Zdigits2] in *. set (dg := Zpos (digits2_pos m)) in *.
  assert (G : dg - 1 < 53) by (apply (Z.pow_lt_mono_r_iff 2); lia).
  assert (Fe : fexp64 (dg + e) = dg + e - 53). { rewrite fexp_eq. destruct Hn as [Hn|Hn]; [|lia]. assert (52 < dg) by (apply (Z.pow_lt_mono_r_iff 2); lia). lia. }
  set (d := 53 - dg). assert (D0 : 0 <= d) by lia. assert (Lo : -1074 <= e - d) by (rewrite fexp_eq in Fe; lia).
  assert (A : exists m', shl_align m e (fexp64 (dg + e)) = (m', e - d) /\ Zpos m' = Zpos m * 2 ^ d).
  { unfold shl_align. rewrite Fe. replace (dg + e - 53 - e) with (- d) by lia. destruct d as [|p|p] eqn:Ed; [|cbn [Z.opp]|lia].
    - cbn. exists m. split; [f_equal; lia|lia].
    - exists (shift_pos p m). split; [f_equal; lia|apply shift_pos_eq]. }
  destruct A as [m' [A1 A2]].
  assert (B : 2 ^ 52 <= Zpos m' < 2 ^ 53).
  { rewrite A2. assert (P : 0 < 2 ^ d) by (apply Z.pow_pos_nonneg; lia). split.
    - replace 52 with (dg - 1 + d) by lia. rewrite Z.pow_add_r by lia. apply Z.mul_le_mono_nonneg_r; lia.
    - replace 53 with (dg + d) at 1 by lia. rewrite Z.pow_add_r by lia. apply Z.mul_lt_mono_pos_r; lia. }
  exists m', d. split; [exact D0|]. split; [exact A2|]. split; [exact B|]. split; [exact Lo|]. unfold binary_round. fold dg. rewrite A1.
  assert (Dg : Zdigits2 (Zpos m') = 53) by (apply digits_unique; lia).
  assert (Sh : forall z, z = Zpos m' -> shr_fexp prec64 emax64 z (e - d) loc_Exact = (Build_shr_record z false false, e - d)).
  { intros z ->. unfold shr_fexp. rewrite Dg. rewrite fexp_eq. replace (Z.max (53 + (e - d) - 53) (-1074) - (e - d)) with 0 by lia. reflexivity. }
  unfold binary_round_aux. rewrite Sh by reflexivity. cbn [shr_m loc_of_shr_record round_nearest_even]. rewrite Sh by reflexivity. cbn [shr_m].
  change (emax64 - prec64) with 971. destruct (Zle_bool (e - d) 971) eqn:Le; [reflexivity|]. apply Z.leb_gt in Le. lia.
Qed.

(** A number below c, given by few digits, times p, where c * p is a thousand million. *)
Definition signed (s : bool) (z : Z) : Z := if s then - z else z.
Definition as_double (p : Z) (pm : positive) (z : Z) : Prop := int_to_double p = S754_finite false pm (- z) /\ Zpos pm = p * 2 ^ z /\ 2 ^ 52 <= Zpos pm < 2 ^ 53 /\ 0 <= z <= 51 /\ 0 < p.
Lemma nanos_fraction : forall s g h c p pm z, Zpos g < 2 ^ 53 -> -1074 <= h <= 0 -> (2 ^ 52 <= Zpos g \/ -1000 <= h) -> c * p = 1000000000 -> as_double p pm z ->
  let D := 2 ^ (- h) in Zpos g < c * D ->
  let y := dmul (binary_round prec64 emax64 s g h) p in
  isnormal y = true /\ exists n, double_trunc y = Some (signed s n) /\ 0 <= n < 1000000000 /\ - 2 * D < n * D - Zpos g * p < 2 * D.
Proof.
  intros s g h c p pm z Hg Hh Hn CP [Ip [Pm [Pb [Zb Pp]]]] D Hc y. assert (PD : 0 < D) by (apply Z.pow_pos_nonneg; lia).
  destruct (normalized s g h Hg ltac:(lia) Hn) as [mz [d [D0 [Mz [Bz [Lo Rz]]]]]].
  unfold y, dmul. rewrite Rz, Ip. clear y. cbn [SFmul]. rewrite xorb_false_r. set (M := Zpos (mz * pm)). set (E := h - d + - z).
  assert (HM : M = Zpos mz * Zpos pm) by (unfold M; lia).
  destruct (rounded s M E loc_Exact M 1) as [q [k [j [K0 [J [Q1 [Q2 [Q3 [Q4 [Q5 Q6]]]]]]]]]]; [lia|lia|lia|apply located_exact; lia|]. rewrite Z.mul_1_l in *.
  assert (Kp : 52 <= k).
  { rewrite Q5. unfold room. rewrite fexp_eq. destruct (digits_spec M) as [Dp [_ X]]; [lia|]. assert (104 < Zdigits2 M).
    { apply (Z.pow_lt_mono_r_iff 2); [lia|lia|]. apply Z.le_lt_trans with M; [|exact X]. rewrite HM. change (2 ^ 104) with (2 ^ 52 * 2 ^ 52). apply Z.mul_le_mono_nonneg; lia. }
    lia. }
  assert (Ek : -1074 < E + k) by (unfold E; lia).
  destruct (Q4 ltac:(lia) Ek) as [Q7 Q8]. clear Q4 Q5 Rz.
  set (F := - (E + k)). set (G := 2 ^ (z + d)). assert (PG : 0 < G) by (apply Z.pow_pos_nonneg; lia). assert (Pk : 0 < 2 ^ k) by (apply Z.pow_pos_nonneg; lia).
  assert (MG : M = Zpos g * p * G). { rewrite HM, Mz, Pm. unfold G. rewrite Z.pow_add_r by lia. ring. }
  assert (GD : G * D = 2 ^ (z + d - h)). { unfold G, D. rewrite <- Z.pow_add_r by lia. f_equal; lia. }
  assert (Fk : z + d - h = F + k) by (unfold F, E; lia).
  assert (Gp : Zpos g * p <= 1000000000 * D - p). { rewrite <- CP. assert (Zpos g * p <= (c * D - 1) * p) by (apply Z.mul_le_mono_nonneg_r; lia). lia. }
  assert (F22 : 22 < F).
  { assert (X : 2 ^ (52 + k) < 2 ^ (30 + (F + k))). { rewrite Z.pow_add_r by lia. rewrite Z.pow_add_r by lia. rewrite <- Fk, <- GD. apply Z.le_lt_trans with M; [lia|]. rewrite MG. change (2 ^ 30) with 1073741824.
      assert (Zpos g * p * G <= (1000000000 * D - p) * G) by (apply Z.mul_le_mono_nonneg_r; lia). assert (0 < G * D) by (apply Z.mul_pos_pos; lia). assert (0 < p * G) by (apply Z.mul_pos_pos; lia). lia. }
    apply Z.pow_lt_mono_r_iff in X; lia. }
  assert (FG : G * D = 2 ^ F * 2 ^ k) by (rewrite GD, Fk; apply Z.pow_add_r; lia).
  assert (PF : 2 ^ 23 <= 2 ^ F) by (apply Z.pow_le_mono_r; lia).
  destruct (binary_round_aux prec64 emax64 s M E loc_Exact) as [s'|s'| |s' m' e'] eqn:Rd.
  { destruct Q6. lia. }
  { destruct Q6 as [_ [X _]]. assert (971 < E + k + 1) by lia. unfold F in F22. lia. }
  { destruct Q6. }
  destruct Q6 as [-> [Qq [Ee [Mb [_ Jb]]]]].
  assert (M52 : 2 ^ 52 <= Zpos m'). { destruct J as [-> | ->]; [lia|]. rewrite Jb; lia. }
  split; [apply Z.leb_le; exact M52|].
  assert (En : 0 <= - e') by (unfold F in F22; lia). assert (Ez : (0 <=? e') = false) by (apply Z.leb_gt; unfold F in F22; lia).
  exists (q / 2 ^ F). cbn [double_trunc]. rewrite Ez.
  assert (Tr : Zpos m' / 2 ^ (- e') = q / 2 ^ F). { rewrite Qq. replace F with (- e' + j) by (unfold F; lia). rewrite Z.pow_add_r by lia. rewrite Z.div_mul_cancel_r; [reflexivity| |]; apply Z.pow_nonzero; lia. }
  rewrite Tr. split; [destruct s; reflexivity|]. set (n := q / 2 ^ F).
  assert (N0 : 0 <= n) by (apply Z.div_pos; lia). assert (N1 : n * 2 ^ F <= q). { unfold n. rewrite Z.mul_comm. apply Z.mul_div_le. lia. } assert (N2 : q < (n + 1) * 2 ^ F). { unfold n. rewrite Z.mul_comm. apply Z.mul_succ_div_gt. lia. }
  assert (U1 : n * (G * D) <= q * 2 ^ k) by (rewrite FG, Z.mul_assoc; apply Z.mul_le_mono_nonneg_r; lia). assert (U2 : q * 2 ^ k < (n + 1) * (G * D)) by (rewrite FG, Z.mul_assoc; apply Z.mul_lt_mono_pos_r; lia).
  assert (Er : 2 ^ 23 * 2 ^ k <= G * D) by (rewrite FG; apply Z.mul_le_mono_nonneg_r; lia).
  assert (V1 : 2 ^ 24 * (n * D - Zpos g * p) <= D).
  { apply (Z.mul_le_mono_pos_r _ _ G PG). replace (2 ^ 24 * (n * D - Zpos g * p) * G) with (2 ^ 24 * (n * (G * D) - M)) by (rewrite MG; ring). rewrite (Z.mul_comm D G).
    generalize dependent (n * (G * D)). intros a U1. generalize dependent (q * 2 ^ k). intros b U1 U2 U3. generalize dependent (2 ^ k). intros T. intros. change (2 ^ 23) with 8388608 in *. change (2 ^ 24) with 16777216. lia. }
  assert (V2 : 2 ^ 24 * (Zpos g * p - (n + 1) * D) < D).
  { apply (Z.mul_lt_mono_pos_r G _ _ PG). replace (2 ^ 24 * (Zpos g * p - (n + 1) * D) * G) with (2 ^ 24 * (M - (n + 1) * (G * D))) by (rewrite MG; ring). rewrite (Z.mul_comm D G).
    generalize dependent ((n + 1) * (G * D)). intros a U2. change (2 ^ 23) with 8388608 in *. change (2 ^ 24) with 16777216. lia. }
  change (2 ^ 24) with 16777216 in *.
  split; [split; [exact N0|]|lia].
  apply (Z.mul_lt_mono_pos_r D); [exact PD|]. change (2 ^ 53) with 9007199254740992 in *. destruct (Z_lt_le_dec D (16777216 * p)) as [X|X]; [lia|].
  assert (Zpos g * p <= 9007199254740991 * p) by (apply Z.mul_le_mono_nonneg_r; lia). lia.
Qed.
