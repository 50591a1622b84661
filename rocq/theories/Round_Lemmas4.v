(** Fractions of units of time. *)
From Coq Require Import ZArith Lia Bool List.
From Coq Require Import Floats.SpecFloat.
From Verif Require Import Base Num_Model Duration_Model Duration_Spec Round_Lemmas Round_Lemmas2 Round_Lemmas3.
Local Open Scope Z_scope.

(** A double as an integer count of a unit smaller than all doubles. *)
Definition grain : Z := 2 ^ 1100.
Lemma grain_pos : 0 < grain.
Proof. reflexivity. Qed.
Definition grains (m : positive) (e : Z) : Z := Zpos m * 2 ^ (1100 + e).
Lemma grains_top : forall m e, -1074 <= e -> top m e * grain = grains m e * 2 ^ low e.
Proof.
  intros m e H. unfold top, grains, grain, low. rewrite <- !Z.mul_assoc. f_equal. rewrite <- !Z.pow_add_r by lia. f_equal. lia.
Qed.
Lemma grain_eq : grain = 2 ^ 1100.
Proof. reflexivity. Qed.
Global Opaque grain.
Lemma grains_pos : forall m e, -1074 <= e -> 0 < grains m e.
Proof. intros. apply Z.mul_pos_pos; [lia|apply Z.pow_pos_nonneg; lia]. Qed.
Lemma low_pos : forall e, 0 < 2 ^ low e.
Proof. intro e. apply Z.pow_pos_nonneg; unfold low; lia. Qed.

Lemma in_int_small : forall n, - 1000000000 < n < 1000000000 -> in_int n = true.
Proof. intros n H. unfold in_int, int_min, int_max. apply andb_true_intro. split; apply Z.leb_le; lia. Qed.
Lemma in_int64_small : forall n, - 2 ^ 62 < n < 2 ^ 62 -> in_int64 n = true.
Proof. intros n H. unfold in_int64, int64_min, int64_max. apply andb_true_intro. split; apply Z.leb_le; lia. Qed.
Lemma signed_bound : forall s n b, 0 <= n < b -> - b < signed s n < b.
Proof. intros [] n b H; cbn [signed]; lia. Qed.

(** Seconds and the rest, as a whole. *)
Definition joined (sec nan : double) : result duration :=
  if negb (isnormal sec) || negb (isnormal nan) then Throw EConfig else s <- cast_int64 sec ;; n <- cast_int nan ;; Ok (s, n).
Lemma joined_near : forall s A D B p c T n sec nan, 0 < D -> B = c * D -> c * p = second -> T = A / B -> 0 <= A -> 0 < B -> T < 2 ^ 62 ->
  double_trunc sec = Some (signed s T) -> isnormal sec = true ->
  isnormal nan = true -> double_trunc nan = Some (signed s n) -> 0 <= n < second -> - 2 * D < n * D - A mod B * p < 2 * D ->
  exists t, joined sec nan = Ok t /\ normal_duration t /\ Z.abs (total t * D - signed s (A * p)) < 2 * D.
Proof.
  intros s A D B p c T n sec nan HD EB CP ET HA HB HT Ts Is In Tn Hn Hd. unfold joined. rewrite Is, In. cbn [negb orb]. unfold cast_int64, cast_int. rewrite Ts, Tn.
  assert (T0 : 0 <= T) by (rewrite ET; apply Z.div_pos; lia). unfold second in *. rewrite in_int64_small by (apply signed_bound; lia). cbn [bind]. rewrite in_int_small by (apply (signed_bound s n 1000000000); lia). cbn [bind].
  eexists. split; [reflexivity|]. split.
  - unfold normal_duration. cbn [fst snd]. unfold second. split; [apply in_int64_small, signed_bound; lia|]. split; [apply (signed_bound s n 1000000000); lia|]. destruct s; cbn [signed]; lia.
  - unfold total, second. cbn [fst snd]. assert (Dv : A = B * T + A mod B) by (rewrite ET; apply Z.div_mod; lia).
    assert (E : A * p = T * 1000000000 * D + A mod B * p). { rewrite Dv at 1. rewrite EB, <- CP. ring. }
    rewrite E. set (r := A mod B * p) in *. clearbody r. replace ((signed s T * 1000000000 + signed s n) * D - signed s (T * 1000000000 * D + r)) with (signed s (n * D - r)) by (destruct s; cbn [signed]; ring).
    destruct s; cbn [signed]; lia.
Qed.

(** One unit of [c] to the second, [p] nanoseconds each. *)
Lemma part_near : forall s m e c p sec nan, 2 ^ 52 <= Zpos m < 2 ^ 53 -> -1074 <= e -> 0 < c < 2 ^ 53 -> c * p = second ->
  isnormal sec = true -> double_trunc sec = Some (signed s (top m e / (c * 2 ^ low e))) -> top m e / (c * 2 ^ low e) < 2 ^ 62 ->
  (top m e mod (c * 2 ^ low e) = 0 -> isnormal nan = false) ->
  (forall g, top m e mod (c * 2 ^ low e) = Zpos g -> Zpos g < 2 ^ 53 -> (2 ^ 52 <= Zpos g \/ -1000 <= - low e) -> Zpos g < c * 2 ^ low e ->
     isnormal nan = true /\ exists n, double_trunc nan = Some (signed s n) /\ 0 <= n < second /\ - 2 * 2 ^ low e < n * 2 ^ low e - Zpos g * p < 2 * 2 ^ low e) ->
  match joined sec nan with
  | Ok t => normal_duration t /\ Z.abs (total t * grain - signed s (grains m e * p)) < 2 * grain
  | Throw x => x = EConfig /\ exists w, w * second * grain = signed s (grains m e * p)
  | Stuck _ => False
  end.
Proof.
  intros s m e c p sec nan Hm He Hc CP Is Ts Tb Z0 P. assert (PL := low_pos e). set (D := 2 ^ low e) in *. set (A := top m e) in *. set (B := c * D) in *.
  assert (PB : 0 < B) by (unfold B; apply Z.mul_pos_pos; lia). assert (GT := grains_top m e He). fold A D in GT. assert (GP := grain_pos).
  assert (A0 : 0 <= A) by (unfold A, top; apply Z.mul_nonneg_nonneg; [lia|apply Z.pow_nonneg; lia]).
  assert (Mb := Z.mod_pos_bound A B PB). destruct (A mod B) as [|g|g] eqn:R; [| |lia].
  - unfold joined. rewrite (Z0 eq_refl), Is. cbn [negb orb]. split; [reflexivity|]. assert (Dv : A = B * (A / B)) by (rewrite (Z.div_mod A B) at 1 by lia; rewrite R; ring).
    exists (signed s (A / B)). apply (proj1 (Z.mul_cancel_r _ _ D ltac:(lia))). set (T := A / B) in *. clearbody T.
    replace (signed s (grains m e * p) * D) with (signed s (grains m e * D * p)) by (destruct s; cbn [signed]; ring). rewrite <- GT, Dv. unfold B. rewrite <- CP. destruct s; cbn [signed]; ring.
  - destruct (fmod_part s m e c g Hm He Hc R) as [_ [G1 [G2 G3]]]. destruct (P g eq_refl G1 G2 G3) as [In [n [Tn [Hn Hd]]]]. rewrite <- R in Hd.
    destruct (joined_near s A D B p c (A / B) n sec nan) as [t [Ej [Nt Ht]]]; try assumption; try reflexivity. rewrite Ej. split; [exact Nt|].
    apply (proj2 (Z.mul_lt_mono_pos_r D _ _ PL)). rewrite abs_scale by exact PL.
    replace ((total t * grain - signed s (grains m e * p)) * D) with ((total t * D - signed s (A * p)) * grain).
    + rewrite <- abs_scale by exact GP. replace (2 * grain * D) with (2 * D * grain) by ring. apply Z.mul_lt_mono_pos_r; assumption.
    + rewrite !Z.mul_sub_distr_r. f_equal; [ring|]. destruct s; cbn [signed]; [rewrite !Z.mul_opp_l; f_equal|]; transitivity (A * grain * p); [ring|rewrite GT; ring|ring|rewrite GT; ring].
Qed.
Lemma zero_nan : forall s p, isnormal (dmul (S754_zero s) p) = false.
Proof. intros s p. unfold dmul. destruct (int_to_double p); reflexivity. Qed.
Lemma part_times : forall s m e c p pm z sec, 2 ^ 52 <= Zpos m < 2 ^ 53 -> -1074 <= e -> 0 < c < 2 ^ 53 -> c * p = second -> as_double p pm z ->
  isnormal sec = true -> double_trunc sec = Some (signed s (top m e / (c * 2 ^ low e))) -> top m e / (c * 2 ^ low e) < 2 ^ 62 ->
  match joined sec (dmul (fmod (S754_finite s m e) c) p) with
  | Ok t => normal_duration t /\ Z.abs (total t * grain - signed s (grains m e * p)) < 2 * grain
  | Throw x => x = EConfig /\ exists w, w * second * grain = signed s (grains m e * p)
  | Stuck _ => False
  end.
Proof.
  intros s m e c p pm z sec Hm He Hc CP Hp Is Ts Tb. apply (part_near s m e c p); try assumption.
  - intro R. destruct (fmod_zero s m e c) as [s' ->]; [apply Hc|exact R|]. apply zero_nan.
  - intros g R G1 G2 G3. destruct (fmod_part s m e c g Hm He Hc R) as [-> _].
    assert (Q := nanos_fraction s g (- low e) c p pm z G1 ltac:(unfold low; lia) G2 CP Hp). cbv zeta in Q. rewrite Z.opp_involutive in Q. exact (Q G3).
Qed.
Lemma part_plain : forall s m e sec, 2 ^ 52 <= Zpos m < 2 ^ 53 -> -1074 <= e ->
  isnormal sec = true -> double_trunc sec = Some (signed s (top m e / (second * 2 ^ low e))) -> top m e / (second * 2 ^ low e) < 2 ^ 62 ->
  match joined sec (fmod (S754_finite s m e) second) with
  | Ok t => normal_duration t /\ Z.abs (total t * grain - signed s (grains m e * 1)) < 2 * grain
  | Throw x => x = EConfig /\ exists w, w * second * grain = signed s (grains m e * 1)
  | Stuck _ => False
  end.
Proof.
  intros s m e sec Hm He Is Ts Tb. apply (part_near s m e second 1); try assumption; try reflexivity; [unfold second; lia| |].
  - intro R. destruct (fmod_zero s m e second) as [s' ->]; [reflexivity|exact R|]. reflexivity.
  - intros g R G1 G2 G3. destruct (fmod_part s m e second g Hm He ltac:(unfold second; lia) R) as [-> _].
    destruct (normalized s g (- low e) G1 ltac:(unfold low; lia) G2) as [m' [d [D0 [Em [Bm [Lo ->]]]]]]. split; [cbn [isnormal]; apply Z.leb_le; lia|].
    rewrite trunc_parts. exists (top m' (- low e - d) / 2 ^ low (- low e - d)). assert (PL := low_pos e). assert (L0 : 0 <= low e) by (unfold low; lia).
    assert (Q : top m' (- low e - d) / 2 ^ low (- low e - d) = Zpos g / 2 ^ low e).
    { unfold top. unfold low at 2. rewrite Z.max_r, Z.max_l by lia. rewrite Z.mul_1_r, Em. replace (- (- low e - d)) with (low e + d) by lia. rewrite Z.pow_add_r by lia. apply Z.div_mul_cancel_r; apply Z.pow_nonzero; lia. }
    rewrite Q. split; [reflexivity|]. split.
    + split; [apply Z.div_pos; lia|]. apply Z.div_lt_upper_bound; [exact PL|]. rewrite Z.mul_comm. exact G3.
    + assert (Dv := Z.div_mod (Zpos g) (2 ^ low e) ltac:(lia)). assert (Mb := Z.mod_pos_bound (Zpos g) (2 ^ low e) PL). set (r := Zpos g mod 2 ^ low e) in *. set (T := Zpos g / 2 ^ low e) in *. clearbody r T. set (D := 2 ^ low e) in *. clearbody D. rewrite Z.mul_comm in Dv. lia.
Qed.
