(** Doubles as durations. *)
From Coq Require Import ZArith Lia Bool List.
From Coq Require Import Floats.SpecFloat.
From Verif Require Import Base Num_Model Duration_Model Duration_Spec Round_Lemmas Round_Lemmas2 Round_Lemmas3 Round_Lemmas4.
Local Open Scope Z_scope.

Lemma product : forall s m e p pm z, 2 ^ 52 <= Zpos m < 2 ^ 53 -> -900 <= e <= 60 -> as_double p pm z ->
  exists m' e', dmul (S754_finite s m e) p = S754_finite s m' e' /\ 2 ^ 52 <= Zpos m' < 2 ^ 53 /\ -1000 <= e' /\ 2 ^ 53 * Z.abs (grains m' e' - grains m e * p) <= grains m e * p.
Proof.
  intros s m e p pm z Hm He [Ip [Pm [Pb [Zb Pp]]]]. unfold dmul. rewrite Ip. cbn [SFmul]. rewrite xorb_false_r. set (N := Zpos m * Zpos pm).
  change (Zpos (m * pm)) with N. assert (N1 : 2 ^ 104 <= N < 2 ^ 106). { change (2 ^ 104) with (2 ^ 52 * 2 ^ 52). change (2 ^ 106) with (2 ^ 53 * 2 ^ 53). unfold N. split; [apply Z.mul_le_mono_nonneg; lia|apply Z.mul_lt_mono_nonneg; lia]. }
  destruct (rounded s N (e + - z) loc_Exact N 1) as [q [k [j [K0 [J [Q1 [Q2 [Q3 [Q4 [Q5 Q6]]]]]]]]]]; [lia|lia|lia|apply located_exact; lia|].
  rewrite !Z.mul_1_l in *. destruct (Q4 ltac:(right; lia) ltac:(lia)) as [Q7 Q8]. clear Q4 Q5. assert (Pk : 0 < 2 ^ k) by (apply Z.pow_pos_nonneg; lia).
  assert (Kb : k < 54). { apply (Z.pow_lt_mono_r_iff 2); [lia|lia|]. change (2 ^ 54) with (2 ^ 106 / 2 ^ 52). apply Z.lt_le_trans with (2 ^ 106 / 2 ^ 52 ); [|lia]. change (2 ^ 106 / 2 ^ 52) with (2 ^ 54). change (2 ^ 106) with (2 ^ 52 * 2 ^ 54) in N1. lia. }
  assert (Npm : grains m e * p = N * 2 ^ (1100 + (e + - z))). { unfold grains, N. rewrite Pm. replace (1100 + e) with (1100 + (e + - z) + z) by lia. rewrite Z.pow_add_r by lia. ring. }
  rewrite Npm. clearbody N. clear Hm Pb Pm Npm Ip. destruct (binary_round_aux prec64 emax64 s N (e + - z) loc_Exact) as [s'|s'| |s' m' e'].
  - destruct Q6; lia.
  - destruct Q6; lia.
  - destruct Q6.
  - destruct Q6 as [-> [Qq [Ee [Mb [_ Jb]]]]]. exists m', e'. split; [reflexivity|].
    split; [split; [destruct J as [-> | ->]; [rewrite Z.mul_1_r in Qq; lia|rewrite Jb by reflexivity; lia]|exact Mb]|]. split; [lia|].
    assert (G : grains m' e' = q * 2 ^ k * 2 ^ (1100 + (e + - z))).
    { unfold grains. rewrite Qq, Ee. replace (1100 + (e + - z + k + j)) with (j + (k + (1100 + (e + - z)))) by lia. rewrite (Z.pow_add_r 2 j), (Z.pow_add_r 2 k) by lia. ring. }
    rewrite G, <- Z.mul_sub_distr_r. assert (Y : 0 < 2 ^ (1100 + (e + - z))) by (apply Z.pow_pos_nonneg; lia). rewrite <- abs_scale by exact Y. rewrite Z.mul_assoc. apply Z.mul_le_mono_nonneg_r; [lia|].
    clear - Q1 Q7. set (a := q * 2 ^ k) in *. clearbody a. change (2 ^ 53) with (2 ^ 52 * 2). lia.
Qed.

Definition near (s : bool) (V : Z) (r : result duration) : Prop :=
  match r with
  | Ok t => normal_duration t /\ 2 ^ 53 * Z.abs (total t * grain - signed s V) <= 2 ^ 54 * grain + V
  | Throw x => x = EConfig /\ exists w, 2 ^ 53 * Z.abs (w * second * grain - signed s V) <= V
  | Stuck _ => False
  end.
Lemma near_exact : forall s V r, 0 <= V -> match r with
  | Ok t => normal_duration t /\ Z.abs (total t * grain - signed s V) < 2 * grain
  | Throw x => x = EConfig /\ exists w, w * second * grain = signed s V
  | Stuck _ => False end -> near s V r.
Proof.
  intros s V r HV H. destruct r as [t|x|u]; [| |exact H]; cbn [near].
  - destruct H as [Nt H]. split; [exact Nt|]. set (a := Z.abs _) in *. clearbody a. change (2 ^ 54) with (2 ^ 53 * 2). lia.
  - destruct H as [-> [w H]]. split; [reflexivity|]. exists w. rewrite H, Z.sub_diag. cbn. exact HV.
Qed.
Lemma near_shift : forall s V V' r, 0 <= V -> 2 ^ 53 * Z.abs (V' - V) <= V -> match r with
  | Ok t => normal_duration t /\ Z.abs (total t * grain - signed s V') < 2 * grain
  | Throw x => x = EConfig /\ exists w, w * second * grain = signed s V'
  | Stuck _ => False end -> near s V r.
Proof.
  intros s V V' r HV HW H. assert (G := grain_pos). destruct r as [t|x|u]; [| |exact H]; cbn [near].
  - destruct H as [Nt H]. split; [exact Nt|]. change (2 ^ 54) with (2 ^ 53 * 2). set (X := total t * grain) in *. clearbody X. destruct s; cbn [signed] in *; lia.
  - destruct H as [-> [w H]]. split; [reflexivity|]. exists w. rewrite H. destruct s; cbn [signed]; lia.
Qed.

Lemma trunc_whole : forall s m e, double_trunc (S754_finite s m e) = Some (signed s (top m e / (1 * 2 ^ low e))).
Proof. intros. rewrite Z.mul_1_l. apply trunc_parts. Qed.
Lemma convert_joined : forall d u, convert_double d u =
  match u with
  | NANOSECONDS => joined (ddiv d second) (fmod d second)
  | MICROSECONDS => joined (ddiv d 1000000) (dmul (fmod d 1000000) 1000)
  | MILLISECONDS => joined (ddiv d 1000) (dmul (fmod d 1000) 1000000)
  | SECONDS => joined d (dmul (fmod d 1) second)
  | MINUTES => joined (dmul d 60) (dmul (fmod (dmul d 60) 1) second)
  | HOURS => joined (dmul d 3600) (dmul (fmod (dmul d 3600) 1) second)
  | DAYS => joined (dmul d 86400) (dmul (fmod (dmul d 86400) 1) second)
  end.
Proof. intros d []; reflexivity. Qed.
Ltac literal_double := split; [vm_compute; reflexivity|]; vm_compute; repeat split; congruence.
Lemma double_second : exists pm z, as_double second pm z.
Proof. exists 8388608000000000%positive, 23. literal_double. Qed.
Lemma double_million : exists pm z, as_double 1000000 pm z.
Proof. exists 8589934592000000%positive, 33. literal_double. Qed.
Lemma double_thousand : exists pm z, as_double 1000 pm z.
Proof. exists 8796093022208000%positive, 43. literal_double. Qed.
Lemma double_60 : exists pm z, as_double 60 pm z.
Proof. exists 8444249301319680%positive, 47. literal_double. Qed.
Lemma double_3600 : exists pm z, as_double 3600 pm z.
Proof. exists 7916483719987200%positive, 41. literal_double. Qed.
Lemma double_86400 : exists pm z, as_double 86400 pm z.
Proof. exists 5937362789990400%positive, 36. literal_double. Qed.

Lemma bound_top : forall m e p c, -1074 <= e -> 0 < p -> c * p = second -> grains m e * p < 2 ^ 32 * second * grain -> top m e < 2 ^ 32 * (c * 2 ^ low e).
Proof.
  intros m e p c He Pp CP H. assert (G := grain_pos). assert (L := low_pos e). assert (T := grains_top m e He).
  apply (proj2 (Z.mul_lt_mono_pos_r (p * grain) _ _ ltac:(apply Z.mul_pos_pos; assumption))).
  replace (top m e * (p * grain)) with (grains m e * p * 2 ^ low e). 2:{ transitivity (grains m e * 2 ^ low e * p); [ring|rewrite <- T; ring]. }
  replace (2 ^ 32 * (c * 2 ^ low e) * (p * grain)) with (2 ^ 32 * second * grain * 2 ^ low e) by (rewrite <- CP; ring). apply Z.mul_lt_mono_pos_r; assumption.
Qed.
Lemma small_exponent : forall m e c, 2 ^ 52 <= Zpos m -> 0 < c -> top m e < 2 ^ 32 * (c * 2 ^ low e) -> 0 <= e -> 2 ^ 20 * 2 ^ e < c.
Proof.
  intros m e c Hm Hc H He. unfold top, low in H. rewrite Z.max_l, Z.max_r in H by lia. rewrite Z.mul_1_r in H. assert (P : 0 < 2 ^ e) by (apply Z.pow_pos_nonneg; lia).
  assert (X : 2 ^ 52 * 2 ^ e <= Zpos m * 2 ^ e) by (apply Z.mul_le_mono_nonneg_r; lia). change (2 ^ 52) with (2 ^ 32 * 2 ^ 20) in X. set (a := 2 ^ e) in *. clearbody a. set (b := Zpos m * a) in *. clearbody b. lia.
Qed.
Lemma seconds_bound : forall m e c, 0 < c -> top m e < 2 ^ 32 * (c * 2 ^ low e) -> top m e / (c * 2 ^ low e) < 2 ^ 62.
Proof.
  intros m e c Hc H. assert (L := low_pos e). apply Z.lt_trans with (2 ^ 32); [|reflexivity]. apply Z.div_lt_upper_bound; [apply Z.mul_pos_pos; assumption|]. rewrite Z.mul_comm. exact H.
Qed.
Lemma no_exponent : forall m e c, 2 ^ 52 <= Zpos m -> 0 < c < 2 ^ 20 -> top m e < 2 ^ 32 * (c * 2 ^ low e) -> (2 ^ Z.max e 0 | c).
Proof.
  intros m e c Hm Hc H. destruct (Z_lt_le_dec e 0) as [E|E]; [rewrite Z.max_r by lia; apply Z.divide_1_l|]. assert (X := small_exponent m e c Hm ltac:(lia) H E).
  assert (P : 0 < 2 ^ e) by (apply Z.pow_pos_nonneg; lia). lia.
Qed.
Lemma exponent_of_second : forall m e, 2 ^ 52 <= Zpos m -> top m e < 2 ^ 32 * (second * 2 ^ low e) -> (2 ^ Z.max e 0 | second).
Proof.
  intros m e Hm H. destruct (Z_lt_le_dec e 0) as [E|E]; [rewrite Z.max_r by lia; apply Z.divide_1_l|]. assert (X := small_exponent m e second Hm ltac:(reflexivity) H E). rewrite Z.max_l by exact E.
  assert (Y : e < 10). { apply (Z.pow_lt_mono_r_iff 2); [lia|lia|]. unfold second in X. lia. }
  apply Z.divide_trans with (2 ^ 9); [|exists 1953125; reflexivity]. replace 9 with (e + (9 - e)) by lia. rewrite Z.pow_add_r by lia. apply Z.divide_factor_l.
Qed.
Lemma exponent_bound : forall m e, 2 ^ 52 <= Zpos m -> top m e < 2 ^ 32 * (second * 2 ^ low e) -> e <= 60.
Proof.
  intros m e Hm H. destruct (Z_lt_le_dec e 0) as [E|E]; [lia|]. assert (X := small_exponent m e second Hm ltac:(reflexivity) H E).
  assert (Y : e < 10). { apply (Z.pow_lt_mono_r_iff 2); [lia|lia|]. unfold second in X. lia. } lia.
Qed.

(** Seconds: of the double itself, or of one multiplied before. *)
Lemma seconds_near : forall s m e, 2 ^ 52 <= Zpos m < 2 ^ 53 -> -1074 <= e -> top m e < 2 ^ 62 * 2 ^ low e ->
  match joined (S754_finite s m e) (dmul (fmod (S754_finite s m e) 1) second) with
  | Ok t => normal_duration t /\ Z.abs (total t * grain - signed s (grains m e * second)) < 2 * grain
  | Throw x => x = EConfig /\ exists w, w * second * grain = signed s (grains m e * second)
  | Stuck _ => False
  end.
Proof.
  intros s m e Hm He Hb. destruct double_second as [pm [z Hp]]. apply (part_times s m e 1 second pm z); try assumption; [lia|reflexivity|cbn [isnormal]; apply Z.leb_le; lia|apply trunc_whole|].
  rewrite Z.mul_1_l. apply Z.div_lt_upper_bound; [apply low_pos|]. rewrite Z.mul_comm. exact Hb.
Qed.
Lemma times_near : forall s m e p pm z, 2 ^ 52 <= Zpos m < 2 ^ 53 -> -900 <= e <= 60 -> as_double p pm z -> grains m e * (p * second) < 2 ^ 32 * second * grain ->
  near s (grains m e * (p * second)) (joined (dmul (S754_finite s m e) p) (dmul (fmod (dmul (S754_finite s m e) p) 1) second)).
Proof.
  intros s m e p pm z Hm He Hp Hb. destruct (product s m e p pm z Hm He Hp) as [m' [e' [-> [Hm' [He' Hd]]]]]. destruct Hp as [_ [_ [_ [_ Pp]]]]. assert (G := grain_pos). assert (G1 := grains_pos m e ltac:(lia)).
  assert (P1 : 0 < grains m e * p) by (apply Z.mul_pos_pos; assumption). rewrite Z.mul_assoc in *. set (V := grains m e * p) in *. clearbody V.
  apply (near_shift s (V * second) (grains m' e' * second)); [unfold second; lia|rewrite <- Z.mul_sub_distr_r, <- abs_scale, Z.mul_assoc by reflexivity; apply Z.mul_le_mono_nonneg_r; [discriminate|exact Hd]|].
  apply seconds_near; [exact Hm'|lia|]. assert (L := low_pos e'). apply (proj2 (Z.mul_lt_mono_pos_r grain _ _ G)). rewrite grains_top by lia. rewrite <- Z.mul_assoc, (Z.mul_comm (2 ^ low e')), Z.mul_assoc. apply Z.mul_lt_mono_pos_r; [exact L|].
  assert (V < 2 ^ 32 * grain). { apply (proj2 (Z.mul_lt_mono_pos_r second _ _ ltac:(reflexivity))). replace (2 ^ 32 * grain * second) with (2 ^ 32 * second * grain) by ring. exact Hb. }
  set (Y := grains m' e') in *. clearbody Y. clear - H Hd P1 G. lia.
Qed.

Lemma convert_near : forall s m e u, 2 ^ 52 <= Zpos m < 2 ^ 53 -> -900 <= e -> grains m e * nanos_in u < 2 ^ 32 * second * grain ->
  near s (grains m e * nanos_in u) (convert_double (S754_finite s m e) u).
Proof.
  intros s m e u Hm He Hb. assert (G1 := grains_pos m e ltac:(lia)).
  assert (E60 : e <= 60). { apply (exponent_bound m); [lia|]. apply (bound_top m e 1); [lia|lia|reflexivity|]. apply Z.le_lt_trans with (2 := Hb). apply Z.mul_le_mono_nonneg_l; [lia|]. destruct u; cbn; unfold second; lia. }
  assert (Q : forall c p cm z, as_double c cm z -> 0 < p -> c * p = second -> grains m e * p < 2 ^ 32 * second * grain -> (top m e < 2 ^ 32 * (c * 2 ^ low e) -> (2 ^ Z.max e 0 | c)) ->
    isnormal (ddiv (S754_finite s m e) c) = true /\ double_trunc (ddiv (S754_finite s m e) c) = Some (signed s (top m e / (c * 2 ^ low e))) /\ top m e / (c * 2 ^ low e) < 2 ^ 62).
  { intros c p cm z Hc Pp CP Hb' Dv. assert (T := bound_top m e p c ltac:(lia) Pp CP Hb'). assert (C0 : 0 < c) by apply Hc. destruct (quotient s m e c cm z Hm ltac:(lia) Hc (Dv T) T) as [Q1 Q2].
    destruct (isnormal (ddiv (S754_finite s m e) c)); [|specialize (Q2 eq_refl); lia]. split; [reflexivity|]. split; [exact (Q1 eq_refl)|exact (seconds_bound m e c C0 T)]. }
  rewrite convert_joined. destruct u; cbn [nanos_in] in *.
  - destruct double_second as [cm [z Hc]]. destruct (Q second 1 cm z) as [Q1 [Q2 Q3]]; [exact Hc|lia|reflexivity|exact Hb|apply exponent_of_second; lia|]. apply near_exact; [lia|]. apply part_plain; try assumption. lia.
  - destruct double_million as [cm [z Hc]]. destruct double_thousand as [pm [y Hp]]. destruct (Q 1000000 1000 cm z) as [Q1 [Q2 Q3]]; [exact Hc|lia|reflexivity|exact Hb|apply no_exponent; lia|]. apply near_exact; [lia|]. apply (part_times s m e _ _ pm y); try assumption; [lia|lia|reflexivity].
  - destruct double_thousand as [cm [z Hc]]. destruct double_million as [pm [y Hp]]. destruct (Q 1000 1000000 cm z) as [Q1 [Q2 Q3]]; [exact Hc|lia|reflexivity|exact Hb|apply no_exponent; lia|]. apply near_exact; [lia|]. apply (part_times s m e _ _ pm y); try assumption; [lia|lia|reflexivity].
  - apply near_exact; [unfold second; lia|]. apply seconds_near; [exact Hm|lia|]. assert (T := bound_top m e second 1 ltac:(lia) ltac:(reflexivity) ltac:(reflexivity) Hb). assert (L := low_pos e). lia.
  - destruct double_60 as [pm [y Hp]]. apply (times_near s m e 60 pm y); [exact Hm|lia|exact Hp|exact Hb].
  - destruct double_3600 as [pm [y Hp]]. apply (times_near s m e 3600 pm y); [exact Hm|lia|exact Hp|exact Hb].
  - destruct double_86400 as [pm [y Hp]]. apply (times_near s m e 86400 pm y); [exact Hm|lia|exact Hp|exact Hb].
Qed.
