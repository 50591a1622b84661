(** Numbers in documents. *)
From Coq Require Import ZArith Lia Bool List.
From Coq Require Import Floats.SpecFloat.
From Verif Require Import Base Util_Model Num_Model Token_Model Token_Spec Value_Model Value_Spec Path_Model PathParser_Model PathParser_Spec Doc_Model Concat_Model ConfigParser_Model
  Config_Model Config_Spec Config_Lemmas Duration_Model Duration_Spec Duration_Lemmas Render_Model Render_Lemmas3 Round_Spec Round_Lemmas Round_Lemmas2 Round_Lemmas3 Round_Lemmas6 Round_Lemmas9 Round_Lemmas10.
Local Open Scope Z_scope.

Lemma equal_unit : forall a b n x, SFeqb a b = true -> half_unit b n x -> half_unit a n x.
Proof.
  intros a b n x E H. assert (Q : match SFcompare a b with Some Eq => true | _ => false end = true) by exact E. clear E.
  destruct a as [s1|s1| |s1 m1 e1], b as [s2|s2| |s2 m2 e2]; cbn [SFcompare half_unit] in *; try exact H; try contradiction; try discriminate; try (destruct s1; discriminate); try (destruct s2; discriminate).
  assert (X : s1 = s2 /\ e1 = e2 /\ m1 = m2).
  { destruct s1, s2; try discriminate; (destruct (Z.compare_spec e1 e2) as [He|He|He]; try discriminate); (split; [reflexivity|split; [exact He|]]).
    - unfold CompOpp in Q. change (Pos.compare_cont Eq m1 m2) with (Pos.compare m1 m2) in Q. destruct (Pos.compare_spec m1 m2); try discriminate; assumption.
    - change (Pos.compare_cont Eq m1 m2) with (Pos.compare m1 m2) in Q. destruct (Pos.compare_spec m1 m2); try discriminate; assumption. }
  destruct X as [-> [-> ->]]. exact H.
Qed.

Lemma unit_small : forall d n x, half_unit d n x -> upper (Z.abs n) x < (2 ^ 63 - 1024) * lower_part x -> exists z, cast_int64 d = Ok z.
Proof.
  intros d n x H B. unfold cast_int64, double_trunc. destruct d as [s|s| |s m e]; cbn [half_unit] in H; try contradiction; [exists 0; reflexivity|]. destruct H as [_ [M1 [E [M2 H]]]]. fold (up e) in H. fold (down e) in H.
  assert (L0 : 0 < lower_part x) by (apply Z.pow_pos_nonneg; lia). set (L := lower_part x) in *. clearbody L. set (P := upper (Z.abs n) x) in *. clearbody P. assert (Pu := up_pos e). assert (Pd := down_pos e).
  assert (A : Zpos m * up e < 2 ^ 63 * down e).
  { destruct M2 as [M2|M2].
    - apply (proj2 (Z.mul_lt_mono_pos_r L _ _ L0)). assert (X : P * down e < (2 ^ 63 - 1024) * L * down e) by (apply Z.mul_lt_mono_pos_r; assumption).
      assert (W : e <= 11 -> up e * L <= 2048 * (L * down e)).
      { intro G. assert (up e <= 2048 * down e). { unfold up. apply Z.le_trans with (2 ^ 11); [apply Z.pow_le_mono_r; lia|]. change (2 ^ 11) with 2048. lia. } replace (2048 * (L * down e)) with (2048 * down e * L) by ring. apply Z.mul_le_mono_nonneg_r; lia. }
      assert (Y : 2 ^ 52 * (up e * L) <= Zpos m * (up e * L)) by (apply Z.mul_le_mono_nonneg_r; [apply Z.mul_nonneg_nonneg; lia|exact M2]).
      assert (V : 12 <= e -> 4096 * (L * down e) <= up e * L).
      { intro G. assert (down e = 1) by (unfold down; rewrite Z.max_r by lia; reflexivity). assert (4096 <= up e). { unfold up. change 4096 with (2 ^ 12). apply Z.pow_le_mono_r; lia. } rewrite H0. replace (4096 * (L * 1)) with (4096 * L) by ring. apply Z.mul_le_mono_nonneg_r; lia. }
      replace (Zpos m * up e * L) with (Zpos m * (up e * L)) in * by ring. replace (2 ^ 63 * down e * L) with (2 ^ 63 * (L * down e)) by ring. replace ((2 ^ 63 - 1024) * L * down e) with ((2 ^ 63 - 1024) * (L * down e)) in X by ring.
      assert (D0 : 0 < L * down e) by (apply Z.mul_pos_pos; assumption).
      set (a := Zpos m * (up e * L)) in *. set (b := up e * L) in *. set (c := P * down e) in *. set (f := L * down e) in *. clearbody a b c f. clear - H X Y W V D0. lia.
    - assert (U1 : up e = 1) by (rewrite M2; reflexivity). rewrite U1, Z.mul_1_r. apply Z.lt_le_trans with (2 ^ 63 * 1); [clear - M1; lia|]. apply Z.mul_le_mono_nonneg_l; [discriminate|]. clear - Pd. lia. }
  assert (T : 0 <= (if 0 <=? e then Zpos m * 2 ^ e else Zpos m / 2 ^ (- e)) < 2 ^ 63).
  { destruct (Z.leb_spec 0 e) as [G|G]; unfold up, down in A.
    - rewrite Z.max_l, Z.max_r in A by lia. split; [apply Z.mul_nonneg_nonneg; [lia|apply Z.pow_nonneg; lia]|lia].
    - rewrite Z.max_r, Z.max_l in A by lia. assert (0 < 2 ^ (- e)) by (apply Z.pow_pos_nonneg; lia). split; [apply Z.div_pos; lia|]. apply Z.div_lt_upper_bound; [assumption|]. lia. }
  set (a := if 0 <=? e then _ else _) in *. clearbody a. assert (I : in_int64 (if s then - a else a) = true). { unfold in_int64, int64_min, int64_max. destruct s; apply andb_true_iff; split; apply Z.leb_le; lia. }
  cbv zeta. rewrite I. eexists. reflexivity.
Qed.

(** The token of a number. *)
Definition reads_as (v : scalar) (t : str) (n x : Z) : Prop := is_number v = true /\ scalar_text v = t /\ half_unit (double_value v) n x.
Lemma new_int_reads : forall z t n x, t <> [] -> half_unit (int_to_double z) n x -> reads_as (new_number_int z t) t n x.
Proof. intros z t n x N H. unfold new_number_int. destruct (in_int z); (split; [reflexivity|split; [destruct t; [congruence|reflexivity]|exact H]]). Qed.

Lemma number_chars_of : forall t n x, numeral t n x -> Forall (fun c => mem c number_chars = true) t.
Proof.
  assert (D : forall l, all_digits l -> Forall (fun c => mem c number_chars = true) l).
  { intros l H. eapply Forall_impl; [|exact H]. intros c Hc. apply Render_Lemmas2.digit_facts in Hc. apply Hc. }
  assert (S : forall sg neg, sign_text sg neg -> Forall (fun c => mem c number_chars = true) sg) by (intros sg neg []; repeat constructor).
  intros t n x [sg neg ip pt fp ex e Sg Di Pt N Ex]. apply Forall_app. split; [exact (S sg neg Sg)|]. apply Forall_app. split; [exact (D ip Di)|]. apply Forall_app. split.
  - destruct Pt; [constructor|]. constructor; [reflexivity|]. apply D; assumption.
  - destruct Ex as [|c sg' neg' ds C Sg' Dd _]; [constructor|]. constructor; [destruct C as [-> | ->]; reflexivity|]. apply Forall_app. split; [exact (S _ _ Sg')|exact (D ds Dd)].
Qed.
(** Without point and exponent it is an integer. *)
Lemma whole_numeral : forall c more n x, numeral (c :: more) n x -> mem c first_number_chars = true -> has_decimal_or_e more = false -> x = 0 /\ (in_int64 n = true -> lexical_cast_int64 (c :: more) = Some n).
Proof.
  intros c more n x Nm F P. assert (A : forall d, In d (c :: more) -> Ascii.eqb d "." || Ascii.eqb d "e" || Ascii.eqb d "E" = false).
  { intros d [<-|Hd].
    - unfold mem in F. apply existsb_exists in F. destruct F as [d [Hd F]]. apply Ascii.eqb_eq in F. subst d. cbn in Hd. repeat (destruct Hd as [<-|Hd]; [reflexivity|]). destruct Hd.
    - unfold has_decimal_or_e in P. destruct (Ascii.eqb d "." || Ascii.eqb d "e" || Ascii.eqb d "E") eqn:E; [|reflexivity]. assert (existsb (fun c => Ascii.eqb c "." || Ascii.eqb c "e" || Ascii.eqb c "E") more = true) by (apply existsb_exists; exists d; split; assumption). congruence. }
  remember (c :: more) as t eqn:Et. destruct Nm as [sg neg ip pt fp ex e Sg Di Pt N Ex].
  destruct Pt as [|fp Df]. 2:{ specialize (A "."%char). discriminate A. apply in_or_app. right. apply in_or_app. right. left. reflexivity. }
  destruct Ex as [|c' sg' neg' ds C Sg' Dd Nd]. 2:{ exfalso. specialize (A c'). destruct C as [-> | ->]; (discriminate A; apply in_or_app; right; apply in_or_app; right; left; reflexivity). }
  cbn [app] in *. rewrite !app_nil_r in *. split; [reflexivity|]. intro I. unfold lexical_cast_int64. rewrite (sign_taken sg neg ip Sg (digits_unsigned ip Di)). destruct ip as [|d ip]; [congruence|].
  assert (Fa : forallb isdigit (d :: ip) = true). { apply forallb_forall. intros y Hy. unfold all_digits in Di. rewrite Forall_forall in Di. exact (Di y Hy). } rewrite Fa, dec_spec. cbv zeta. rewrite I. reflexivity.
Qed.

Lemma number_token_reads : forall c more n x, numeral (c :: more) n x -> mem c first_number_chars = true -> upper (Z.abs n) x < (2 ^ 63 - 1024) * lower_part x ->
  exists v, number_token more (c :: more) = Ok (TValue v (c :: more)) /\ reads_as v (c :: more) n x /\ (has_decimal_or_e more = false -> v = new_number_int n (c :: more)).
Proof.
  intros c more n x Nm F B. assert (L0 : 0 < lower_part x) by (apply Z.pow_pos_nonneg; lia). unfold number_token. destruct (has_decimal_or_e more) eqn:P.
  - assert (D := numeral_double _ _ _ Nm). destruct (lexical_cast_double (c :: more)) as [d|].
    + destruct (unit_small d n x D B) as [z Z]. unfold new_number_double. rewrite Z. cbn [bind]. destruct (SFeqb (int_to_double z) d) eqn:E.
      * assert (R := new_int_reads z (c :: more) n x ltac:(discriminate) (equal_unit _ _ _ _ E D)). exists (new_number_int z (c :: more)). split; [|split; [exact R|discriminate]]. unfold value_token. destruct R as [_ [-> _]]. reflexivity.
      * exists (SDouble d (c :: more)). split; [reflexivity|]. split; [|discriminate]. split; [reflexivity|]. split; [reflexivity|]. exact D.
    + exfalso. unfold beyond in D. assert ((2 ^ 63 - 1024) * lower_part x <= (2 ^ 54 - 1) * 2 ^ 970 * lower_part x) by (apply Z.mul_le_mono_nonneg_r; [lia|vm_compute; discriminate]). lia.
  - assert (U : Z.abs n <= upper (Z.abs n) x). { unfold upper. rewrite <- (Z.mul_1_r (Z.abs n)) at 1. apply Z.mul_le_mono_nonneg_l; [lia|]. assert (0 < 10 ^ Z.max x 0) by (apply Z.pow_pos_nonneg; lia). lia. }
    assert (X0 : x = 0 -> Z.abs n < 2 ^ 63 - 1024). { intros ->. change (lower_part 0) with 1 in B. lia. }
    assert (X1 : x = 0). { apply (whole_numeral c more n x Nm F P). }
    assert (I : in_int64 n = true). { specialize (X0 X1). unfold in_int64, int64_min, int64_max. apply andb_true_iff. split; apply Z.leb_le; lia. }
    rewrite (proj2 (whole_numeral c more n x Nm F P) I). assert (R := new_int_reads n (c :: more) n x ltac:(discriminate)). subst x. specialize (R (integer_unit n ltac:(specialize (X0 eq_refl); lia))).
    exists (new_number_int n (c :: more)). split; [|split; [exact R|reflexivity]]. unfold value_token. destruct R as [_ [-> _]]. reflexivity.
Qed.

(** A document of one number. *)
Definition key_k : token := TValue (SStr (lit "k") true) (render_json_string (lit "k")).
Definition number_tokens (v : scalar) (t : str) : list token := [TOpenCurly; key_k; TColon; TValue v t; TCloseCurly].
Definition number_text (t : str) : str := lit "{" ++ render_json_string (lit "k") ++ lit ":" ++ t ++ lit "}".
Lemma number_lexes : forall ac v c more, mem c first_number_chars = true -> Forall (fun c => mem c number_chars = true) more -> number_token more (c :: more) = Ok (TValue v (c :: more)) ->
  lex ac (number_text (c :: more)) = (TStart :: number_tokens v (c :: more) ++ [TEnd], LEnd).
Proof.
  intros ac v c more F M T. assert (L : lexes ac false (number_text (c :: more)) (number_tokens v (c :: more) ++ [TEnd])).
  { apply (lex_one ac TOpenCurly); [apply reads_mark; cbn; tauto|]. cbn [is_simple_value]. apply (lex_one ac key_k); [apply reads_string; [constructor; [left; vm_compute; split; discriminate|constructor]|cbn; try reflexivity; try discriminate]|].
    apply (lex_one ac TColon); [apply reads_mark; cbn; tauto|]. apply (lex_one ac (TValue v (c :: more))); [apply reads_number; try assumption; reflexivity|].
    apply (lex_one ac TCloseCurly (@nil ascii)); [apply reads_mark; cbn; tauto|]. apply lexes_nil. }
  unfold lex, saver_init. rewrite L by lia. reflexivity.
Qed.
Lemma number_parses : forall f inc next v c more, is_number v = true -> mem c first_number_chars = true -> Forall (fun c => mem c number_chars = true) more -> number_token more (c :: more) = Ok (TValue v (c :: more)) ->
  parse_config f inc (number_text (c :: more)) next = Ok (Some (VObj true false [(lit "k", VScalar v)]), next).
Proof.
  intros f inc next v c more N F M T. unfold parse_config, parse_document, after_start. rewrite (number_lexes _ v c more F M T). cbn [delivered].
  destruct f, v as [|b|z u|z u|d u|s q]; try discriminate N; vm_compute; reflexivity.
Qed.
Lemma k_getters : forall v t n x, reads_as v t n x -> let root := VObj true false [(lit "k", VScalar v)] in
  get_string root (lit "k") = Ok (scalar_text v) /\ get_double root (lit "k") = Ok (double_value v) /\ get_long root (lit "k") = long_value v.
Proof. intros v t n x [N _]. destruct v as [|b|z u|z u|d u|s q]; try discriminate N; repeat split; reflexivity. Qed.

Lemma number_document : forall f inc next c more n x, numeral (c :: more) n x -> (isdigit c = true \/ c = "-"%char) -> upper (Z.abs n) x < (2 ^ 63 - 1024) * lower_part x ->
  exists root d, parse_config f inc (lit "{""k"":" ++ (c :: more) ++ lit "}") next = Ok (Some root, next) /\
    get_string root (lit "k") = Ok (c :: more) /\ get_double root (lit "k") = Ok d /\ half_unit d n x /\
    ((forall a, In a more -> a <> "."%char /\ a <> "e"%char /\ a <> "E"%char) -> get_long root (lit "k") = Ok n).
Proof.
  intros f inc next c more n x Nm C B. assert (F : mem c first_number_chars = true) by (destruct C as [C| ->]; [apply Render_Lemmas2.digit_facts in C; apply C|reflexivity]).
  destruct (number_token_reads c more n x Nm F B) as [v [T [R W]]]. assert (M := number_chars_of _ _ _ Nm). inversion M; subst. destruct (k_getters v _ n x R) as [G1 [G2 G3]]. exists (VObj true false [(lit "k", VScalar v)]), (double_value v).
  split; [exact (number_parses f inc next v c more (proj1 R) F H2 T)|]. destruct R as [N [S D]]. rewrite S in G1. split; [exact G1|]. split; [exact G2|]. split; [exact D|].
  intro P. rewrite G3, W; [unfold new_number_int; destruct (in_int n); reflexivity|]. unfold has_decimal_or_e. destruct (existsb _ more) eqn:E; [|reflexivity]. apply existsb_exists in E. destruct E as [a [Ha E]]. destruct (P a Ha) as [P1 [P2 P3]].
  apply orb_true_iff in E. destruct E as [E|E]; [apply orb_true_iff in E; destruct E as [E|E]|]; apply Ascii.eqb_eq in E; congruence.
Qed.

Lemma integer_document : forall f inc next c more n, numeral (c :: more) n 0 -> (isdigit c = true \/ c = "-"%char) -> (forall a, In a more -> a <> "."%char /\ a <> "e"%char /\ a <> "E"%char) -> - 2 ^ 63 <= n < 2 ^ 63 ->
  exists root, parse_config f inc (lit "{""k"":" ++ (c :: more) ++ lit "}") next = Ok (Some root, next) /\ get_string root (lit "k") = Ok (c :: more) /\ get_long root (lit "k") = Ok n.
Proof.
  intros f inc next c more n Nm C P B. assert (F : mem c first_number_chars = true) by (destruct C as [C| ->]; [apply Render_Lemmas2.digit_facts in C; apply C|reflexivity]).
  assert (I : in_int64 n = true) by (unfold in_int64, int64_min, int64_max; apply andb_true_iff; split; apply Z.leb_le; lia).
  assert (Hd : has_decimal_or_e more = false). { unfold has_decimal_or_e. destruct (existsb _ more) eqn:E; [|reflexivity]. apply existsb_exists in E. destruct E as [a [Ha E]]. destruct (P a Ha) as [P1 [P2 P3]]. apply orb_true_iff in E. destruct E as [E|E]; [apply orb_true_iff in E; destruct E as [E|E]|]; apply Ascii.eqb_eq in E; congruence. }
  assert (S : scalar_text (new_number_int n (c :: more)) = c :: more) by (unfold new_number_int; destruct (in_int n); reflexivity).
  assert (T : number_token more (c :: more) = Ok (TValue (new_number_int n (c :: more)) (c :: more))). { unfold number_token. rewrite Hd, (proj2 (whole_numeral c more n 0 Nm F Hd) I). unfold value_token. rewrite S. reflexivity. }
  assert (N : is_number (new_number_int n (c :: more)) = true) by (unfold new_number_int; destruct (in_int n); reflexivity).
  assert (M := number_chars_of _ _ _ Nm). inversion M; subst. exists (VObj true false [(lit "k", VScalar (new_number_int n (c :: more)))]). split; [exact (number_parses f inc next _ c more N F H2 T)|].
  unfold new_number_int. destruct (in_int n); split; reflexivity.
Qed.
