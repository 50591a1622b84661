(** Escapes of quoted strings are decoded. *)
From Verif Require Import Base BaseLemmas Util_Model Num_Model Token_Model Token_Spec Token_Lemmas Token_Lemmas2 Escape_Spec.

(** The lines of [hex_digit], computably. *)
Definition hex_char (c : ascii) : Prop :=
  is_xdigit c = true /\ isspace c = false /\ Ascii.eqb c (ch 0) = false /\
  Ascii.eqb c "+" = false /\ Ascii.eqb c "-" = false /\ Ascii.eqb c "x" = false /\ Ascii.eqb c "X" = false.

Lemma hex_digit_val : forall c d, hex_digit c d -> hex_char c /\ xdigit_val c = d /\ 0 <= d < 16.
Proof.
  intros c d [[H Hd]|[H Hd]].
  - assert (L : (Z.to_nat d < 16)%nat).
    { apply (proj1 (nth_error_Some (lit "0123456789abcdef") (Z.to_nat d))). congruence. }
    assert (Q : d = Z.of_nat (Z.to_nat d)) by lia. revert Q.
    generalize dependent (Z.to_nat d). intros n H L ->. clear Hd.
    do 16 (destruct n as [|n]; [injection H as <-; vm_compute; repeat split; discriminate|]). lia.
  - assert (L : (Z.to_nat d < 16)%nat).
    { apply (proj1 (nth_error_Some (lit "0123456789ABCDEF") (Z.to_nat d))). congruence. }
    assert (Q : d = Z.of_nat (Z.to_nat d)) by lia. revert Q.
    generalize dependent (Z.to_nat d). intros n H L ->. clear Hd.
    do 16 (destruct n as [|n]; [injection H as <-; vm_compute; repeat split; discriminate|]). lia.
Qed.

Lemma scan_hex : forall c1 c2 c3 c4 d1 d2 d3 d4,
  hex_digit c1 d1 -> hex_digit c2 d2 -> hex_digit c3 d3 -> hex_digit c4 d4 ->
  sscanf_hx [c1; c2; c3; c4] = Ok (((d1 * 16 + d2) * 16 + d3) * 16 + d4) /\ c_string [c1; c2; c3; c4] = [c1; c2; c3; c4].
Proof.
  intros c1 c2 c3 c4 d1 d2 d3 d4 H1 H2 H3 H4.
  apply hex_digit_val in H1, H2, H3, H4.
  destruct H1 as [[X1 [S1 [Z1 [P1 [M1 [x1 x1']]]]]] [V1 R1]].
  destruct H2 as [[X2 [S2 [Z2 [P2 [M2 [x2 x2']]]]]] [V2 R2]].
  destruct H3 as [[X3 [S3 [Z3 [P3 [M3 [x3 x3']]]]]] [V3 R3]].
  destruct H4 as [[X4 [S4 [Z4 [P4 [M4 [x4 x4']]]]]] [V4 R4]].
  assert (C : c_string [c1; c2; c3; c4] = [c1; c2; c3; c4]).
  { cbn [c_string]. rewrite Z1, Z2, Z3, Z4. reflexivity. }
  split; [|exact C]. unfold sscanf_hx. rewrite C. cbn [skip_space]. rewrite S1.
  unfold take_sign. rewrite P1, M1. cbv iota beta zeta. rewrite x2, x2'. rewrite andb_false_r.
  cbn [span_xdigits]. rewrite X1, X2, X3, X4. cbn [bind fold_left]. rewrite V1, V2, V3, V4.
  f_equal. clear - R1 R2 R3 R4. rewrite Z.mod_small by lia. lia.
Qed.

Lemma ch_byte : forall a, ch (Z.to_nat (byte_of a)) = a.
Proof. intro a. unfold ch, byte_of. rewrite Nat2Z.id. apply ascii_nat_embedding. Qed.

Lemma utf8_encodes : forall z bs, 0 < z -> ~ surrogate z -> encodes z bs -> utf8 z = Ok bs.
Proof.
  intros z bs Hz Hs H. unfold utf8. destruct (Z.eqb_spec z 0); [lia|].
  destruct H as [a Ha Hl|a b x y Ha Hx [Hb Hy] E Hl|a b c x y w Ha Hx [Hb Hy] [Hc Hw] E Hl].
  - destruct (Z.ltb_spec z 128); [|lia]. rewrite <- Ha, ch_byte. reflexivity.
  - destruct (Z.ltb_spec z 128); [lia|]. destruct (Z.ltb_spec z 2048); [|lia].
    replace (z / 64) with x by (apply Z.div_unique with y; lia).
    replace (z mod 64) with y by (apply Z.mod_unique with x; lia).
    rewrite <- Ha, <- Hb, !ch_byte. reflexivity.
  - destruct (Z.ltb_spec z 128); [lia|]. destruct (Z.ltb_spec z 2048); [lia|].
    unfold surrogate in Hs.
    replace ((55296 <=? z) && (z <=? 57343)) with false
      by (symmetry; apply andb_false_iff; destruct (Z.leb_spec 55296 z); [right|left; reflexivity]; apply Z.leb_gt; lia).
    replace (z / 4096) with x by (apply Z.div_unique with (y * 64 + w); lia).
    replace (z / 64) with (x * 64 + y) by (apply Z.div_unique with w; lia).
    replace ((x * 64 + y) mod 64) with y by (apply Z.mod_unique with x; lia).
    replace (z mod 64) with w by (apply Z.mod_unique with (x * 64 + y); lia).
    rewrite <- Ha, <- Hb, <- Hc, !ch_byte. reflexivity.
Qed.

Lemma short_pulled : forall e c r, In (e, c) short_escapes -> pull_escape_sequence (e :: r) = Ok ([c], [ch 92; e], r).
Proof.
  intros e c r H. cbn [short_escapes In] in H.
  repeat (destruct H as [H|H]; [injection H as <- <-; reflexivity|]). contradiction.
Qed.

Lemma not_control : forall c, 32 <= byte_of c <= 127 -> is_C0_control c = false.
Proof.
  intros c H. destruct (is_C0_control c) eqn:E; [|reflexivity]. exfalso.
  revert H E. clear. destruct c as [[] [] [] [] [] [] [] []]; vm_compute; intros [H1 H2] E; try discriminate E; try (apply H1; reflexivity); apply H2; reflexivity.
Qed.

Lemma loop_decodes : forall w v, stands_for w v -> forall n p o r, (List.length (w ++ ch 34 :: r) < n)%nat ->
  quoted_loop n p o (w ++ ch 34 :: r) = Ok (p ++ v, o ++ w ++ [ch 34], r).
Proof.
  induction 1 as [|c w v Hc Hq Hb H IH|e c w v Hi H IH|c1 c2 c3 c4 d1 d2 d3 d4 bs w v H1 H2 H3 H4 z Hz Hs He H IH];
    intros n p o r Hn; (destruct n as [|n]; [lia|]); cbn [app List.length] in *; cbn [quoted_loop].
  - change (Ascii.eqb (ch 34) (ch 92)) with false. rewrite Ascii.eqb_refl, app_nil_r. reflexivity.
  - destruct (Ascii.eqb_spec c (ch 92)); [contradiction|]. destruct (Ascii.eqb_spec c (ch 34)); [contradiction|].
    rewrite (not_control c Hc). rewrite IH by lia. rewrite <- !app_assoc. reflexivity.
  - rewrite Ascii.eqb_refl. rewrite (short_pulled e c _ Hi). cbn [bind]. rewrite IH by lia. rewrite <- !app_assoc. reflexivity.
  - rewrite Ascii.eqb_refl. destruct (scan_hex c1 c2 c3 c4 d1 d2 d3 d4 H1 H2 H3 H4) as [E C].
    unfold pull_escape_sequence.
    change (Ascii.eqb "u" (ch 34)) with false. change (Ascii.eqb "u" (ch 92)) with false.
    change (Ascii.eqb "u" "/") with false. change (Ascii.eqb "u" "b") with false. change (Ascii.eqb "u" "f") with false.
    change (Ascii.eqb "u" "n") with false. change (Ascii.eqb "u" "r") with false. change (Ascii.eqb "u" "t") with false.
    change (Ascii.eqb "u" "u") with true. cbv iota zeta.
    rewrite E. cbn [bind]. fold z. rewrite (utf8_encodes z bs Hz Hs He). cbn [bind]. rewrite C.
    rewrite IH by lia. rewrite <- !app_assoc. reflexivity.
Qed.

Lemma encodes_some : forall z bs, encodes z bs -> bs <> [].
Proof. intros z bs []; discriminate. Qed.

Lemma stands_nil : forall w, stands_for w [] -> w = [].
Proof.
  intros w H. inversion H as [| | |c1 c2 c3 c4 d1 d2 d3 d4 bs w' v H1 H2 H3 H4 z Hz Hs He Hw E1 E2]; subst; [reflexivity|].
  apply app_eq_nil in E2. destruct E2 as [E2 _]. apply encodes_some in He. contradiction.
Qed.

Lemma escaped_next : forall n ac ls w v r, stands_for w v ->
  (v = [] -> match r with c :: _ => c <> ch 34 | [] => True end) ->
  pull_next_token (S n) ac ([], ls) ([ch 34] ++ w ++ [ch 34] ++ r)
    = Ok (TValue (SStr v true) ([ch 34] ++ w ++ [ch 34]), ([], ls), r).
Proof.
  intros n ac ls w v r H Hr. cbn [app]. cbn [pull_next_token next_char_after_whitespace].
  change (is_whitespace_not_newline (ch 34)) with false. cbv iota.
  change (Ascii.eqb (ch 34) nl) with false. cbv iota.
  assert (Hs : forall z, start_of_comment ac (ch 34) z = false) by (intro z; destruct ac; reflexivity).
  rewrite Hs, Ascii.eqb_refl. unfold pull_quoted_string. rewrite (loop_decodes w v H) by lia. cbn [bind app].
  destruct v as [|c v]; [|reflexivity]. destruct r as [|c r]; [reflexivity|]. specialize (Hr eq_refl).
  destruct (Ascii.eqb_spec c (ch 34)); [contradiction|]. reflexivity.
Qed.

Lemma escaped_read : forall ac w v, stands_for w v ->
  tokenize ac ([ch 34] ++ w ++ [ch 34]) = Ok [TStart; TValue (SStr v true) ([ch 34] ++ w ++ [ch 34]); TEnd].
Proof.
  intros ac w v H. unfold tokenize, lex, saver_init. cbn [lex_loop].
  pose proof (escaped_next (List.length ([ch 34] ++ w ++ [ch 34])) ac false w v [] H (fun _ => I)) as Hp.
  rewrite app_nil_r in Hp. rewrite Hp.
  rewrite saver_check_eq. cbn [is_simple_value app].
  cbn [List.length]. rewrite lex_end_only. reflexivity.
Qed.
