(** Decimal fractions as durations. *)
From Coq Require Import ZArith Lia Bool List.
From Coq Require Import Floats.SpecFloat.
From Verif Require Import Base Util_Model Num_Model Duration_Model Duration_Spec Duration_Lemmas Round_Spec Round_Lemmas Round_Lemmas2 Round_Lemmas3 Round_Lemmas4 Round_Lemmas5.
Local Open Scope Z_scope.

Lemma dec_core : forall s n k, 0 < n -> 0 < k <= 200 -> n < 2 ^ 62 * 10 ^ k ->
  exists m e, dec_to_double s n (- k) = S754_finite s m e /\ 2 ^ 52 <= Zpos m < 2 ^ 53 /\ -900 <= e /\ 2 ^ 53 * Z.abs (grains m e * 10 ^ k - n * grain) <= n * grain.
Proof.
  intros s n k Hn Hk Hb. unfold dec_to_double. destruct n as [|n0|n0] eqn:En; try lia. rewrite <- En in *. replace (0 <=? - k) with false by (symmetry; apply Z.leb_gt; lia). rewrite Z.opp_involutive.
  assert (K0 : 0 < 10 ^ k) by (apply Z.pow_pos_nonneg; lia). set (K := 10 ^ k) in *.
  assert (K8 : K < 2 ^ 800). { apply Z.le_lt_trans with (10 ^ 200); [apply Z.pow_le_mono_r; lia|reflexivity]. }
  destruct (div_core n 0 K 0) as [l [Eq [Lc T0]]]; [lia|lia|]. set (t := 0 - 0 - _) in *. rewrite Eq. clear Eq. destruct (digits_spec n Hn) as [A1 [A2 A3]]. destruct (digits_spec K K0) as [B1 [B2 B3]].
  set (d1 := Zdigits2 n) in *. set (d2 := Zdigits2 K) in *. assert (D2 : d2 <= 800). { assert (d2 - 1 < 800) by (apply (Z.pow_lt_mono_r_iff 2); lia). lia. }
  assert (Tm : t = Z.max (53 - d1 + d2) 0). { unfold t. rewrite fexp_eq. lia. } clearbody t. clear En.
  assert (Pt : 0 < 2 ^ t) by (apply Z.pow_pos_nonneg; lia).
  assert (M0 : 2 ^ 52 <= n * 2 ^ t / K).
  { apply Z.div_le_lower_bound; [exact K0|]. apply Z.le_trans with (2 ^ d2 * 2 ^ 52); [apply Z.mul_le_mono_nonneg_r; lia|]. apply Z.le_trans with (2 ^ (d1 - 1) * 2 ^ t); [|apply Z.mul_le_mono_nonneg_r; lia].
    rewrite <- !Z.pow_add_r by lia. apply Z.pow_le_mono_r; lia. }
  assert (N0 : 0 < n * 2 ^ t) by (apply Z.mul_pos_pos; assumption).
  destruct (rounded s (n * 2 ^ t / K) (0 - 0 - t) l (n * 2 ^ t) K) as [q [k' [j [K1 [J [Q1 [Q2 [Q3 [Q4 [Q5 Q6]]]]]]]]]]; [lia|exact N0|exact K0|exact Lc|]. clear Lc Q5.
  destruct (Q4 (or_intror M0) ltac:(lia)) as [Q7 Q8]. clear Q4. assert (Pk : 0 < 2 ^ k') by (apply Z.pow_pos_nonneg; lia).
  assert (Kb : 52 + k' < 62 + t).
  { apply (Z.pow_lt_mono_r_iff 2); [lia|lia|]. rewrite !Z.pow_add_r by lia. apply (proj2 (Z.mul_lt_mono_pos_r K _ _ K0)). replace (2 ^ 52 * 2 ^ k' * K) with (2 ^ 52 * (K * 2 ^ k')) by ring. apply Z.le_lt_trans with (1 := Q7).
    replace (2 ^ 62 * 2 ^ t * K) with (2 ^ 62 * K * 2 ^ t) by ring. apply Z.mul_lt_mono_pos_r; assumption. }
  assert (Z1 : 0 - 0 - t = - t) by lia. rewrite Z1 in *. clear Z1 A2 A3 B2 B3 K8 M0 Hb. destruct (binary_round_aux prec64 emax64 s (n * 2 ^ t / K) (- t) l) as [s'|s'| |s' m' e'].
  - destruct Q6; lia.
  - destruct Q6; lia.
  - destruct Q6.
  - destruct Q6 as [-> [Qq [Ee [Mb [_ Jb]]]]]. exists m', e'. split; [reflexivity|].
    split; [split; [destruct J as [-> | ->]; [rewrite Z.mul_1_r in Qq; lia|rewrite Jb by reflexivity; lia]|exact Mb]|]. split; [lia|].
    assert (Y : 0 < 2 ^ (1100 - t)) by (apply Z.pow_pos_nonneg; lia).
    assert (G : grains m' e' * K = q * (K * 2 ^ k') * 2 ^ (1100 - t)).
    { unfold grains. rewrite Qq, Ee. replace (1100 + (- t + k' + j)) with (j + (k' + (1100 - t))) by lia. rewrite (Z.pow_add_r 2 j), (Z.pow_add_r 2 k') by lia. ring. }
    assert (G2 : n * grain = n * 2 ^ t * 2 ^ (1100 - t)). { rewrite grain_eq. rewrite <- Z.mul_assoc, <- Z.pow_add_r by lia. do 2 f_equal. lia. }
    rewrite G, G2, <- Z.mul_sub_distr_r, <- abs_scale, Z.mul_assoc by exact Y. apply Z.mul_le_mono_nonneg_r; [lia|].
    clear - Q1 Q7. set (a := q * (K * 2 ^ k')) in *. clearbody a. set (b := K * 2 ^ k') in *. clearbody b. set (c := n * 2 ^ t) in *. clearbody c. change (2 ^ 53) with (2 ^ 52 * 2). lia.
Qed.

(** Two errors in a row. *)
Lemma error_sum : forall s T V x n K, 0 < K -> 0 <= n -> 0 < x -> 2 ^ 53 * Z.abs (V * K - n * x) <= n * x -> 0 <= V ->
  2 ^ 53 * Z.abs (T * x - signed s V) <= 2 ^ 54 * x + V -> 2 ^ 50 * Z.abs (T * K - signed s n) <= 2 ^ 50 * (2 * K) + n.
Proof.
  intros s T V x n K HK Hn Hx H1 HV H2. apply (proj2 (Z.mul_le_mono_pos_r _ _ x Hx)).
  assert (H3 : 2 ^ 53 * Z.abs (T * x * K - signed s (V * K)) <= 2 ^ 54 * (x * K) + V * K).
  { replace (T * x * K - signed s (V * K)) with ((T * x - signed s V) * K) by (destruct s; cbn [signed]; ring). rewrite <- abs_scale by exact HK. rewrite !Z.mul_assoc, <- Z.mul_add_distr_r. apply Z.mul_le_mono_nonneg_r; lia. }
  replace (2 ^ 50 * Z.abs (T * K - signed s n) * x) with (2 ^ 50 * Z.abs (T * x * K - signed s (n * x))). 2:{ rewrite <- (Z.mul_assoc (2 ^ 50)), abs_scale by exact Hx. do 2 f_equal. destruct s; cbn [signed]; ring. }
  replace ((2 ^ 50 * (2 * K) + n) * x) with (2 ^ 51 * (x * K) + n * x) by ring. assert (H0 : 0 <= n * x) by (apply Z.mul_nonneg_nonneg; lia). assert (H4 : 0 <= V * K) by (apply Z.mul_nonneg_nonneg; lia). assert (H5 : 0 < x * K) by (apply Z.mul_pos_pos; lia).
  clear H2. set (a := T * x * K) in *. set (b := V * K) in *. set (c := n * x) in *. set (d := x * K) in *. clearbody a b c d. destruct s; cbn [signed] in *; lia.
Qed.
Lemma error_whole : forall s W V x n K, 0 < K -> 0 <= n -> 0 < x -> 2 ^ 53 * Z.abs (V * K - n * x) <= n * x -> 0 <= V ->
  2 ^ 53 * Z.abs (W * x - signed s V) <= V -> 2 ^ 50 * Z.abs (W * K - signed s n) <= 2 ^ 50 * (2 * K) + n.
Proof. intros s W V x n K HK Hn Hx H1 HV H2. apply (error_sum s W V x n K); try assumption. lia. Qed.

Lemma convert_fraction : forall s n k u, 0 <= n -> (0 < k <= 200)%nat -> n * nanos_in u <= 2 ^ 31 * second * 10 ^ Z.of_nat k ->
  match convert_double (dec_to_double s n (- Z.of_nat k)) u with
  | Ok t => normal_duration t /\ close_to (total t) (signed s n * nanos_in u) k
  | Throw x => x = EConfig /\ exists w, close_to (w * second) (signed s n * nanos_in u) k
  | Stuck _ => False
  end.
Proof.
  intros s n k u Hn Hk Hb. assert (P : 0 < nanos_in u) by (destruct u; reflexivity). assert (K0 : 0 < 10 ^ Z.of_nat k) by (apply Z.pow_pos_nonneg; lia). assert (G := grain_pos).
  destruct (Z.eq_dec n 0) as [->|N0].
  { assert (E : convert_double (dec_to_double s 0 (- Z.of_nat k)) u = Throw EConfig) by (destruct s, u; reflexivity). rewrite E. split; [reflexivity|]. exists 0. unfold close_to. replace (signed s 0 * nanos_in u) with 0 by (destruct s; reflexivity). replace (0 * second * 10 ^ Z.of_nat k - 0) with 0 by ring. change (Z.abs 0) with 0. lia. }
  set (K := 10 ^ Z.of_nat k) in *. destruct (dec_core s n (Z.of_nat k)) as [m [e [-> [Hm [He Hd]]]]]; [lia|lia| |].
  { fold K. assert (n <= n * nanos_in u). { rewrite <- (Z.mul_1_r n) at 1. apply Z.mul_le_mono_nonneg_l; lia. } unfold second in Hb. lia. }
  fold K in Hd. assert (Gp := grains_pos m e ltac:(lia)). set (V := grains m e) in *.
  assert (Hd' : 2 ^ 53 * Z.abs (V * nanos_in u * K - n * nanos_in u * grain) <= n * nanos_in u * grain).
  { replace (V * nanos_in u * K - n * nanos_in u * grain) with ((V * K - n * grain) * nanos_in u) by ring. rewrite <- abs_scale, Z.mul_assoc by exact P. replace (n * nanos_in u * grain) with (n * grain * nanos_in u) by ring. apply Z.mul_le_mono_nonneg_r; lia. }
  assert (V0 : 0 < V * nanos_in u) by (apply Z.mul_pos_pos; assumption). assert (N1 : 0 < n * nanos_in u) by (apply Z.mul_pos_pos; lia).
  assert (S1 : signed s n * nanos_in u = signed s (n * nanos_in u)) by (destruct s; cbn [signed]; ring). assert (S2 : Z.abs (signed s (n * nanos_in u)) = n * nanos_in u) by (destruct s; cbn [signed]; lia).
  assert (B : V * nanos_in u < 2 ^ 32 * second * grain).
  { apply (proj2 (Z.mul_lt_mono_pos_r K _ _ K0)). assert (X : n * nanos_in u * grain <= 2 ^ 31 * second * K * grain) by (apply Z.mul_le_mono_nonneg_r; lia).
    replace (2 ^ 32 * second * grain * K) with (2 * (2 ^ 31 * second * K * grain)) by ring. assert (0 < n * nanos_in u * grain) by (apply Z.mul_pos_pos; lia).
    set (a := n * nanos_in u * grain) in *. set (b := V * nanos_in u * K) in *. set (c := 2 ^ 31 * second * K * grain) in *. clearbody a b c. clear - X H Hd'. lia. }
  assert (C := convert_near s m e u Hm He B). fold V in C. unfold close_to. fold K. rewrite S1, S2. destruct (convert_double (S754_finite s m e) u) as [t|x|y]; cbn [near] in C; [| |exact C].
  - destruct C as [C1 C2]. split; [exact C1|]. apply (error_sum s (total t) (V * nanos_in u) grain (n * nanos_in u) K); try assumption; lia.
  - destruct C as [-> [w C]]. split; [reflexivity|]. exists w. apply (error_whole s (w * second) (V * nanos_in u) grain (n * nanos_in u) K); try assumption; lia.
Qed.

(** ** Texts *)
Lemma span_all : forall a b, Forall (fun c => isdigit c = true) a -> match b with c :: _ => isdigit c = false | [] => True end -> span_digits (a ++ b) = (a, b).
Proof.
  intros a b H Hb. induction H as [|c a Hc Ha IH].
  - destruct b as [|c b]; [reflexivity|]. cbn [app span_digits]. rewrite Hb. reflexivity.
  - cbn [app span_digits]. rewrite Hc, IH. reflexivity.
Qed.
Lemma take_sign_point : forall ip fp, Forall (fun c => isdigit c = true) ip -> take_sign (ip ++ "."%char :: fp) = (false, ip ++ "."%char :: fp).
Proof.
  intros [|c ip] fp H; [reflexivity|]. inversion H as [|? ? Hc _]; subst. destruct (digit_not_sign c Hc) as [M P]. cbn [app take_sign]. rewrite M, P. reflexivity.
Qed.
Lemma fraction_read : forall t n k, fraction t n k -> exists s z, 0 <= z /\ n = signed s z /\ (0 < k)%nat /\ lexical_cast_int64 t = None /\
  lexical_cast_double t = match dec_to_double s z (- Z.of_nat k) with S754_infinity _ => None | d => Some d end.
Proof.
  assert (B : forall neg ip fp r, Forall (fun c => isdigit c = true) (ip ++ fp) -> fp <> [] -> take_sign r = (neg, ip ++ "."%char :: fp) ->
    0 <= digits_value (ip ++ fp) /\ (0 < List.length fp)%nat /\ lexical_cast_int64 r = None /\
    lexical_cast_double r = match dec_to_double neg (digits_value (ip ++ fp)) (- Z.of_nat (List.length fp)) with S754_infinity _ => None | d => Some d end).
  { intros neg ip fp r F N T. assert (D0 : forall l, Forall (fun c => isdigit c = true) l -> 0 <= digits_value l).
    { intros l Hl. induction Hl as [|c l Hc Hl IH]; [cbn; lia|]. cbn [digits_value]. assert (0 <= digit c). { unfold digit. unfold isdigit, byte_of in Hc. lia. } assert (0 <= 10 ^ Z.of_nat (List.length l)) by (apply Z.pow_nonneg; lia). nia. }
    split; [exact (D0 _ F)|]. split; [destruct fp; [congruence|cbn; lia]|]. pose proof (proj1 (Forall_app _ _ _) F) as [Fi Ff]. split.
    - unfold lexical_cast_int64. rewrite T. assert (Fa : forallb isdigit (ip ++ "."%char :: fp) = false) by (rewrite forallb_app; cbn; apply andb_false_r). rewrite Fa. destruct (ip ++ "."%char :: fp); reflexivity.
    - unfold lexical_cast_double. rewrite T, (span_all ip ("."%char :: fp) Fi) by reflexivity. cbv beta iota. change (Ascii.eqb "."%char "."%char) with true. cbv beta iota.
      pose proof (span_all fp [] Ff I) as S. rewrite app_nil_r in S. rewrite S. cbn [take_exponent]. rewrite Z.sub_0_l, dec_spec. destruct (ip ++ fp) as [|c l] eqn:E; [destruct ip, fp; try discriminate; congruence|]. cbv zeta. destruct (dec_to_double _ _ _); reflexivity. }
  intros t n k [ip fp F N|ip fp F N|ip fp F N].
  - destruct (B false ip fp _ F N (take_sign_point ip fp (proj1 (proj1 (Forall_app _ _ _) F)))) as [B1 [B2 [B3 B4]]]. exists false, (digits_value (ip ++ fp)). repeat split; assumption.
  - destruct (B false ip fp ("+"%char :: ip ++ "."%char :: fp) F N eq_refl) as [B1 [B2 [B3 B4]]]. exists false, (digits_value (ip ++ fp)). repeat split; assumption.
  - destruct (B true ip fp ("-"%char :: ip ++ "."%char :: fp) F N eq_refl) as [B1 [B2 [B3 B4]]]. exists true, (digits_value (ip ++ fp)). repeat split; assumption.
Qed.
Lemma fraction_edge : forall t n k, fraction t n k -> edge t /\ Forall (fun c => isalpha c = false) t.
Proof.
  assert (L : forall a fp, fp <> [] -> Forall (fun c => isdigit c = true) fp -> match rev (a ++ "."%char :: fp) with c :: _ => isspace c = false | [] => False end).
  { intros a fp N F. rewrite rev_app_distr. cbn [rev]. destruct (rev fp) as [|c r] eqn:E; [apply (f_equal (@rev ascii)) in E; rewrite rev_involutive in E; exfalso; exact (N E)|]. cbn [app]. rewrite Forall_forall in F. apply byte_class, F, in_rev. rewrite E. left. reflexivity. }
  assert (A : forall ip fp, Forall (fun c => isdigit c = true) (ip ++ fp) -> Forall (fun c => isalpha c = false) (ip ++ "."%char :: fp)).
  { intros ip fp F. apply Forall_app in F. destruct F as [F1 F2]. apply Forall_app. split; [|constructor; [reflexivity|]]; (eapply Forall_impl; [|eassumption]); intros c Hc; apply byte_class, Hc. }
  intros t n k [ip fp F N|ip fp F N|ip fp F N]; pose proof (proj1 (Forall_app _ _ _) F) as [F1 F2].
  - split; [|exact (A ip fp F)]. split; [|exact (L ip fp N F2)]. destruct F1 as [|c ip Hc _]; [reflexivity|]. apply byte_class, Hc.
  - split; [|constructor; [reflexivity|exact (A ip fp F)]]. split; [reflexivity|exact (L ("+"%char :: ip) fp N F2)].
  - split; [|constructor; [reflexivity|exact (A ip fp F)]]. split; [reflexivity|exact (L ("-"%char :: ip) fp N F2)].
Qed.
Lemma parse_double_general : forall w1 t w2 name w3 d, spaces w1 -> spaces w2 -> spaces w3 -> edge t -> Forall (fun c => isalpha c = false) t -> lexical_cast_int64 t = None -> lexical_cast_double t = Some d ->
  name = [] \/ edge name /\ from_alpha name = name ->
  parse_duration (w1 ++ t ++ w2 ++ name ++ w3) = (u <- get_units (unit_plural name) ;; convert_double d u).
Proof.
  intros w1 t w2 name w3 d H1 H2 H3 Et At Li Ld Hname. assert (t <> []) by (intros ->; destruct Et as [[] _]).
  unfold parse_duration. destruct Hname as [->|[E F]].
  - cbn [app]. rewrite (trim_edges w1 t (w2 ++ w3) H1 (proj2 (Forall_app _ _ _) (conj H2 H3)) Et).
    assert (A : from_alpha t = []) by (rewrite <- (app_nil_r t), from_alpha_skip by exact At; reflexivity). rewrite A. cbn [List.length].
    rewrite Nat.sub_0_r, firstn_all. pose proof (trim_edges [] t [] (Forall_nil _) (Forall_nil _) Et) as T. cbn [app] in T. rewrite app_nil_r in T. rewrite T.
    destruct t as [|c t]; [congruence|]. rewrite Li, Ld. reflexivity.
  - replace (w1 ++ t ++ w2 ++ name ++ w3) with (w1 ++ (t ++ w2 ++ name) ++ w3) by (rewrite <- !app_assoc; reflexivity).
    rewrite (trim_edges w1 (t ++ w2 ++ name) w3 H1 H3 (edge_app _ _ _ Et E)).
    assert (A : from_alpha (t ++ w2 ++ name) = name). { rewrite from_alpha_skip by exact At. rewrite from_alpha_skip by exact (spaces_no_alpha _ H2). exact F. }
    rewrite A. replace (firstn (List.length (t ++ w2 ++ name) - List.length name) (t ++ w2 ++ name)) with (t ++ w2).
    + pose proof (trim_edges [] t w2 (Forall_nil _) H2 Et) as T. cbn [app] in T. rewrite T. destruct t as [|c t]; [congruence|]. rewrite Li, Ld. reflexivity.
    + rewrite app_assoc. rewrite app_length. replace (List.length (t ++ w2) + List.length name - List.length name)%nat with (List.length (t ++ w2)) by lia.
      rewrite firstn_app, Nat.sub_diag. rewrite firstn_all. cbn [firstn]. rewrite app_nil_r. reflexivity.
Qed.

(** What reading a fraction as a duration yields. *)
Definition spans (n : Z) (k : nat) (u : time_unit) (r : result duration) : Prop :=
  match r with
  | Ok t => normal_duration t /\ close_to (total t) (n * nanos_in u) k
  | Throw x => x = EConfig /\ exists w, close_to (w * second) (n * nanos_in u) k
  | Stuck _ => False
  end.
Lemma fraction_finite : forall s z k u, 0 <= z -> (0 < k <= 200)%nat -> z * nanos_in u <= 2 ^ 31 * second * 10 ^ Z.of_nat k ->
  exists d, dec_to_double s z (- Z.of_nat k) = d /\ match d with S754_infinity _ => None | _ => Some d end = Some d.
Proof.
  intros s z k u Hz Hk Hb. eexists. split; [reflexivity|]. destruct (Z.eq_dec z 0) as [->|N]; [reflexivity|].
  destruct (dec_core s z (Z.of_nat k)) as [m [e [-> _]]]; [lia|lia| |reflexivity].
  assert (z <= z * nanos_in u). { rewrite <- (Z.mul_1_r z) at 1. apply Z.mul_le_mono_nonneg_l; [lia|]. destruct u; cbn; unfold second; lia. } assert (0 < 10 ^ Z.of_nat k) by (apply Z.pow_pos_nonneg; lia). unfold second in Hb. lia.
Qed.
Lemma signed_abs : forall s z, 0 <= z -> Z.abs (signed s z) = z.
Proof. intros [] z H; cbn [signed]; lia. Qed.
Lemma fraction_value : forall t n k u d, fraction t n k -> (k <= 200)%nat -> Z.abs n * nanos_in u <= 2 ^ 31 * second * 10 ^ Z.of_nat k -> lexical_cast_double t = Some d -> spans n k u (convert_double d u).
Proof.
  intros t n k u d F Hk Hb L. destruct (fraction_read t n k F) as [s [z [Z0 [-> [K0 [_ E]]]]]]. rewrite signed_abs in Hb by exact Z0.
  destruct (fraction_finite s z k u Z0 ltac:(lia) Hb) as [d' [E1 E2]]. rewrite E1 in E. assert (d = d') by (destruct d'; congruence). subst d. rewrite <- E1. exact (convert_fraction s z k u Z0 ltac:(lia) Hb).
Qed.
Lemma fraction_text : forall w1 t w2 name w3 n k u, spaces w1 -> spaces w2 -> spaces w3 -> fraction t n k -> In name (unit_names u) ->
  (k <= 200)%nat -> Z.abs n * nanos_in u <= 2 ^ 31 * second * 10 ^ Z.of_nat k -> spans n k u (parse_duration (w1 ++ t ++ w2 ++ lit name ++ w3)).
Proof.
  intros w1 t w2 name w3 n k u H1 H2 H3 F Hi Hk Hb. destruct (fraction_edge t n k F) as [E A]. destruct (fraction_read t n k F) as [s [z [Z0 [En [K0 [Li Ld]]]]]].
  destruct (fraction_finite s z k u Z0 ltac:(lia)) as [d [E1 E2]]; [rewrite <- (signed_abs s z Z0), <- En; exact Hb|]. rewrite E1 in Ld. assert (Ld' : lexical_cast_double t = Some d) by (rewrite Ld, <- E2; destruct d; reflexivity). clear Ld. rename Ld' into Ld.
  rewrite (parse_double_general w1 t w2 (lit name) w3 d); try assumption.
  - assert (G : get_units (unit_plural (lit name)) = Ok u) by (destruct u; cbn in Hi; repeat (destruct Hi as [<-|Hi]; [reflexivity|]); destruct Hi). rewrite G. cbn [bind]. exact (fraction_value t n k u d F Hk Hb Ld).
  - destruct u; cbn in Hi; repeat (destruct Hi as [<-|Hi]; [first [left; reflexivity|right; split; [split; reflexivity|reflexivity]]|]); destruct Hi.
Qed.
