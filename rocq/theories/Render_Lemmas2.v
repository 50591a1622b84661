(** Numbers written and read back. *)
From Verif Require Import Base BaseLemmas Util_Model Num_Model Path_Model Token_Model Value_Model Value_Spec.

(** ** No number read is a NaN *)
Lemma shr_1_nonneg : forall mrs, 0 <= shr_m mrs -> 0 <= shr_m (shr_1 mrs).
Proof. intros [m r s] H. cbn in *. destruct m as [|p|p]; cbn; try lia. destruct p; cbn; lia. Qed.
Lemma iter_nonneg : forall p mrs, 0 <= shr_m mrs -> 0 <= shr_m (iter_pos shr_1 p mrs).
Proof. induction p as [p IH|p IH|]; intros mrs H; cbn [iter_pos]; auto using shr_1_nonneg. Qed.
Lemma fexp_nonneg : forall m e l, 0 <= m -> 0 <= shr_m (fst (shr_fexp prec64 emax64 m e l)).
Proof.
  intros m e l H. unfold shr_fexp, shr. destruct (fexp prec64 emax64 (Zdigits2 m + e) - e); cbn [fst].
  - destruct l as [|[]]; exact H.
  - apply iter_nonneg. destruct l as [|[]]; exact H.
  - destruct l as [|[]]; exact H.
Qed.
Lemma nearest_nonneg : forall m l, 0 <= m -> 0 <= round_nearest_even m l.
Proof. intros m l H. unfold round_nearest_even. destruct l as [|[]]; try destruct (Z.even m); lia. Qed.
Definition a_number (d : double) : Prop := d <> S754_nan.
Lemma number_self : forall d, a_number d -> SFeqb d d = true.
Proof.
  intros d H. unfold SFeqb. destruct d as [s|s| |s m e]; cbn; [reflexivity|destruct s; reflexivity|destruct (H eq_refl)|].
  rewrite Z.compare_refl, Pos.compare_cont_refl. destruct s; reflexivity.
Qed.
Lemma aux_number : forall s m e l, 0 <= m -> a_number (binary_round_aux prec64 emax64 s m e l).
Proof.
  intros s m e l H. unfold binary_round_aux. pose proof (fexp_nonneg m e l H) as H1. destruct (shr_fexp prec64 emax64 m e l) as [mrs e']. cbn [fst] in H1.
  pose proof (fexp_nonneg (round_nearest_even (shr_m mrs) (loc_of_shr_record mrs)) e' loc_Exact (nearest_nonneg _ _ H1)) as H2.
  destruct (shr_fexp prec64 emax64 (round_nearest_even (shr_m mrs) (loc_of_shr_record mrs)) e' loc_Exact) as [mrs2 e2]. cbn [fst] in H2.
  destruct (shr_m mrs2) as [|p|p]; [discriminate| |lia]. destruct (e2 <=? emax64 - prec64); discriminate.
Qed.
Lemma integer_number : forall z, a_number (int_to_double z).
Proof.
  intro z. unfold int_to_double, binary_normalize. destruct z as [|p|p]; [discriminate| |]; unfold binary_round; match goal with |- context [let (_, _) := ?X in _] => destruct X as [mz ez] end; apply aux_number; lia.
Qed.
Lemma cast_number : forall d z, cast_int64 d = Ok z -> a_number d.
Proof. intros d z H ->. discriminate. Qed.

(** ** Decimal texts *)
Definition digits_go := fix go (fuel : nat) (z : Z) (acc : str) : str :=
  match fuel with
  | O => acc
  | S n => let acc' := ch (48 + Z.to_nat (z mod 10)) :: acc in
           if z / 10 =? 0 then acc' else go n (z / 10) acc'
  end.
Lemma digit_char : forall d, 0 <= d < 10 -> isdigit (ch (48 + Z.to_nat d)) = true /\ digit_val (ch (48 + Z.to_nat d)) = d.
Proof.
  intros d H. assert (E : d = 0 \/ d = 1 \/ d = 2 \/ d = 3 \/ d = 4 \/ d = 5 \/ d = 6 \/ d = 7 \/ d = 8 \/ d = 9) by lia.
  repeat (destruct E as [->|E]); subst; split; reflexivity.
Qed.
Lemma dec_from_app : forall a b acc, dec_from acc (a ++ b) = dec_from (dec_from acc a) b.
Proof. induction a as [|c a IH]; intros b acc; [reflexivity|]. cbn. apply IH. Qed.
Lemma go_shape : forall fuel z acc, 0 <= z < 2 ^ Z.of_nat fuel -> (0 < fuel)%nat ->
  exists ds, digits_go fuel z acc = ds ++ acc /\ ds <> [] /\ forallb isdigit ds = true /\ dec ds = z.
Proof.
  induction fuel as [|n IH]; intros z acc H F; [lia|]. cbn [digits_go]. pose proof (digit_char (z mod 10) ltac:(apply Z.mod_pos_bound; lia)) as [D1 D2].
  assert (Hz : z = 10 * (z / 10) + z mod 10) by (apply Z.div_mod; lia). set (c := ch (48 + Z.to_nat (z mod 10))) in *.
  destruct (Z.eqb_spec (z / 10) 0) as [E|E].
  - exists [c]. split; [reflexivity|]. split; [discriminate|]. cbn [forallb]. rewrite D1. split; [reflexivity|]. unfold dec. cbn. lia.
  - assert (B : 0 <= z / 10 < 2 ^ Z.of_nat n).
    { split; [apply Z.div_pos; lia|]. apply Z.div_lt_upper_bound; [lia|]. rewrite Nat2Z.inj_succ, Z.pow_succ_r in H by lia. lia. }
    destruct n as [|n]; [cbn in B; lia|]. destruct (IH (z / 10) (c :: acc) B ltac:(lia)) as [ds [G1 [G2 [G3 G4]]]].
    exists (ds ++ [c]). rewrite G1, <- app_assoc. split; [reflexivity|]. split; [destruct ds; discriminate|].
    rewrite forallb_app, G3. cbn [forallb]. rewrite D1. split; [reflexivity|]. unfold dec in *. rewrite dec_from_app, G4. cbn. lia.
Qed.
Lemma pos_size_bound : forall p, Zpos p < 2 ^ Z.of_nat (Pos.size_nat p).
Proof.
  induction p as [p IH|p IH|]; cbn [Pos.size_nat]; try (rewrite Nat2Z.inj_succ, Z.pow_succ_r by lia; lia).
Qed.
Lemma pos_text : forall p, string_of_pos p <> [] /\ forallb isdigit (string_of_pos p) = true /\ dec (string_of_pos p) = Zpos p.
Proof.
  intro p. assert (S : (0 < Pos.size_nat p)%nat) by (destruct p; cbn; lia).
  destruct (go_shape (Pos.size_nat p) (Zpos p) [] ltac:(pose proof (pos_size_bound p); lia) S) as [ds [G1 [G2 [G3 G4]]]].
  change (string_of_pos p) with (digits_go (Pos.size_nat p) (Zpos p) []). rewrite G1, app_nil_r. auto.
Qed.
(** The text of an integer: perhaps a minus sign, then digits. *)
Lemma integer_text : forall z, exists sign ds, string_of_Z z = sign ++ ds /\ (sign = [] \/ sign = lit "-") /\ ds <> [] /\ forallb isdigit ds = true /\
  z = if match sign with [] => false | _ => true end then - dec ds else dec ds.
Proof.
  intros [|p|p].
  - exists [], (lit "0"). repeat split; auto. discriminate.
  - destruct (pos_text p) as [H1 [H2 H3]]. exists [], (string_of_pos p). repeat split; auto.
  - destruct (pos_text p) as [H1 [H2 H3]]. exists (lit "-"), (string_of_pos p). repeat split; auto. rewrite H3. reflexivity.
Qed.
Lemma digit_facts : forall c, isdigit c = true -> Ascii.eqb c "-" = false /\ Ascii.eqb c "+" = false /\ mem c number_chars = true /\ mem c first_number_chars = true
  /\ (Ascii.eqb c "." || Ascii.eqb c "e" || Ascii.eqb c "E") = false.
Proof. intros c. destruct c as [[] [] [] [] [] [] [] []]; vm_compute; intro H; try discriminate; auto 10. Qed.
Lemma digits_plain : forall ds, forallb isdigit ds = true -> Forall (fun c => mem c number_chars = true) ds /\ has_decimal_or_e ds = false.
Proof.
  induction ds as [|c ds IH]; intro H; [split; [constructor|reflexivity]|]. cbn in H. apply andb_prop in H. destruct H as [H1 H2].
  destruct (digit_facts c H1) as [_ [_ [N [_ D]]]]. destruct (IH H2) as [I1 I2]. split; [constructor; assumption|].
  unfold has_decimal_or_e in *. cbn [existsb]. rewrite D, I2. reflexivity.
Qed.

(** A text written with the digits of an integer is read as that integer. *)
Lemma read_integer : forall sign ds z, (sign = [] \/ sign = lit "-") -> ds <> [] -> forallb isdigit ds = true ->
  z = (if match sign with [] => false | _ => true end then - dec ds else dec ds) -> in_int64 z = true ->
  exists c more, sign ++ ds = c :: more /\ mem c first_number_chars = true /\ Forall (fun c => mem c number_chars = true) more /\
    number_token more (sign ++ ds) = Ok (value_token (new_number_int z (sign ++ ds))).
Proof.
  intros sign ds z S N D Z I. destruct (digits_plain ds D) as [P1 P2].
  destruct ds as [|d ds]; [congruence|]. cbn [forallb] in D. apply andb_prop in D. destruct D as [D1 D2]. destruct (digit_facts d D1) as [M [Q [_ [F _]]]].
  destruct S as [->| ->].
  - exists d, ds. split; [reflexivity|]. split; [exact F|]. inversion P1; subst. split; [assumption|].
    unfold number_token. destruct (digits_plain ds D2) as [_ ->]. unfold lexical_cast_int64. cbn [app take_sign]. rewrite M, Q. cbn [forallb]. rewrite D1, D2. cbn [andb].
    rewrite I. reflexivity.
  - exists "-"%char, (d :: ds). split; [reflexivity|]. split; [reflexivity|]. split; [exact P1|].
    unfold number_token. rewrite P2. unfold lexical_cast_int64. cbn [lit app list_ascii_of_string take_sign]. rewrite Ascii.eqb_refl. cbn [forallb]. rewrite D1, D2. cbn [andb].
    change (z = - dec (d :: ds)) in Z. rewrite <- Z, I. reflexivity.
Qed.
