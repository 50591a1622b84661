(** Durations of configured values with fractions. *)
From Coq Require Import ZArith Lia Bool List.
From Verif Require Import Base Util_Model Num_Model Value_Model Value_Spec Path_Model PathParser_Model Config_Model Config_Spec Config_Lemmas Duration_Model Duration_Spec Duration_Lemmas Round_Spec Round_Lemmas Round_Lemmas2 Round_Lemmas3 Round_Lemmas4 Round_Lemmas5 Round_Lemmas6.
Local Open Scope Z_scope.

Lemma close_small : forall t n k b, close_to t n k -> 0 <= b -> Z.abs n <= b * 10 ^ Z.of_nat k -> Z.abs t <= b + b / 2 ^ 50 + 3.
Proof.
  intros t n k b H Hb Hn. unfold close_to in H. assert (K0 : 0 < 10 ^ Z.of_nat k) by (apply Z.pow_pos_nonneg; lia). set (K := 10 ^ Z.of_nat k) in *. clearbody K.
  assert (T : Z.abs (t * K) = Z.abs t * K) by (rewrite <- abs_scale by exact K0; reflexivity).
  assert (X : 2 ^ 50 * (Z.abs t * K) <= 2 ^ 50 * (2 * K) + 2 ^ 50 * (b * K) + b * K).
  { rewrite <- T. set (a := t * K) in *. set (c := b * K) in *. clearbody a c. clear T. lia. }
  assert (Y : 2 ^ 50 * Z.abs t <= 2 ^ 50 * 2 + 2 ^ 50 * b + b). { apply (proj2 (Z.mul_le_mono_pos_r _ _ K K0)). replace ((2 ^ 50 * 2 + 2 ^ 50 * b + b) * K) with (2 ^ 50 * (2 * K) + 2 ^ 50 * (b * K) + b * K) by ring. replace (2 ^ 50 * Z.abs t * K) with (2 ^ 50 * (Z.abs t * K)) by ring. exact X. }
  assert (D := Z.div_mod b (2 ^ 50) ltac:(discriminate)). assert (M := Z.mod_pos_bound b (2 ^ 50) ltac:(reflexivity)). lia.
Qed.

Lemma fraction_duration : forall self ps p v n k u unit, plain self -> simple_object self -> new_path ps = Ok p -> get p self = Some v ->
  ((exists t d, v = VScalar (SDouble d t) /\ lexical_cast_double t = Some d /\ fraction t n k) /\ u = MILLISECONDS \/
   (exists w1 t w2 name w3 q, v = VScalar (SStr (w1 ++ t ++ w2 ++ lit name ++ w3) q) /\
      spaces w1 /\ spaces w2 /\ spaces w3 /\ fraction t n k /\ In name (unit_names u))) ->
  (k <= 200)%nat -> Z.abs (n * nanos_in u) <= 2 ^ 31 * second * 10 ^ Z.of_nat k ->
  match get_duration self ps unit with
  | Ok r => exists t, close_to t (n * nanos_in u) k /\ r = Z.quot t (nanos_in unit)
  | Throw e => e = EConfig /\ ((exists w, close_to (w * second) (n * nanos_in u) k) \/
                               (exists t, close_to t (n * nanos_in u) k /\ t < 0 /\ (- second < t \/ - nanos_in unit < t)))
  | Stuck _ => False
  end.
Proof.
  intros self ps p v n k u unit H1 H2 Hp G Hv Hk Hb. assert (P : 0 < nanos_in u) by (destruct u; reflexivity).
  assert (Hb' : Z.abs n * nanos_in u <= 2 ^ 31 * second * 10 ^ Z.of_nat k) by (rewrite abs_scale by exact P; exact Hb).
  assert (T : spans n k u (get_timespan self ps)).
  { destruct Hv as [[[t [d [-> [L F]]]] ->]|[w1 [t [w2 [name [w3 [q [-> [S1 [S2 [S3 [F I]]]]]]]]]]]].
    - unfold get_timespan. rewrite (find_value self ps p H1 H2 Hp), G. exact (fraction_value t n k MILLISECONDS d F Hk Hb' L).
    - destruct (timespan_spec self ps p _ H1 H2 Hp G) as [_ T2]. rewrite (T2 _ q eq_refl). exact (fraction_text w1 t w2 name w3 n k u S1 S2 S3 F I Hk Hb'). }
  unfold get_duration. destruct (get_timespan self ps) as [d|e|x]; cbn [bind spans] in *; [| |exact T].
  - destruct T as [T1 T2]. pose proof (in_unit_full d unit T1) as U. destruct (in_unit d unit) as [r|e|x].
    + exists (total d). split; [exact T2|exact U].
    + destruct U as [-> [U1 U2]]. split; [reflexivity|]. right. exists (total d). split; [exact T2|]. split; [exact U1|lia].
    + destruct U as [_ U]. assert (C := close_small _ _ _ (2 ^ 31 * second) T2 ltac:(unfold second; lia) Hb).
      assert (B : Z.abs (Z.quot (total d) (nanos_in unit)) < 2 ^ 62).
      { assert (Pu : 0 < nanos_in unit) by (destruct unit; reflexivity). rewrite <- Z.quot_abs by lia. apply Z.le_lt_trans with (Z.abs (total d)); [|change (2 ^ 31 * second + 2 ^ 31 * second / 2 ^ 50 + 3) with 2147483648000001910 in C; lia].
        rewrite (Z.abs_eq (nanos_in unit)) by lia. apply Z.quot_le_upper_bound; [exact Pu|]. rewrite <- (Z.mul_1_l (Z.abs (total d))) at 1. apply Z.mul_le_mono_nonneg_r; lia. }
      rewrite in_int64_small in U by lia. discriminate.
  - destruct T as [-> T]. split; [reflexivity|]. left. exact T.
Qed.
