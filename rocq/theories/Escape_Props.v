(** C68: escapes in quoted strings are decoded. *)
From Verif Require Import Base Util_Model Num_Model Token_Model Token_Spec Escape_Spec Escape_Lemmas.

(** C68.  Whatever mixture of characters, short escapes and \uXXXX escapes a quoted string is written with,
    it is read as the bytes it stands for, and its spelling is kept. *)
Theorem escapes_decoded_partial : forall ac w v, stands_for w v ->
  tokenize ac ([ch 34] ++ w ++ [ch 34]) = Ok [TStart; TValue (SStr v true) ([ch 34] ++ w ++ [ch 34]); TEnd].
Proof. exact escaped_read. Qed.
Print Assumptions escapes_decoded_partial.

Example escapes_decoded_ex :
  stands_for (lit "caf\u00e9 \t\u20Ac") (lit "caf" ++ [ch 195; ch 169; " "%char; ch 9; ch 226; ch 130; ch 172]).
Proof.
  do 3 (apply s_plain; [vm_compute; split; discriminate|discriminate|discriminate|]).
  change ([ch 195; ch 169; " "%char; ch 9; ch 226; ch 130; ch 172]) with ([ch 195; ch 169] ++ [" "%char; ch 9; ch 226; ch 130; ch 172]).
  apply s_unicode with 0 0 14 9; try (left; split; [reflexivity|discriminate]).
  1: reflexivity.
  1: unfold surrogate; intros [H _]; apply H; reflexivity.
  1: apply two_bytes with 3 41; vm_compute; repeat split; discriminate.
  apply s_plain; [vm_compute; split; discriminate|discriminate|discriminate|].
  apply s_short; [vm_compute; tauto|].
  change ([ch 226; ch 130; ch 172]) with ([ch 226; ch 130; ch 172] ++ []).
  apply s_unicode with 2 0 10 12; try (left; split; [reflexivity|discriminate]); try (right; split; [reflexivity|discriminate]).
  1: reflexivity.
  1: unfold surrogate; intros [H _]; apply H; reflexivity.
  1: apply three_bytes with 2 2 44; vm_compute; repeat split; discriminate.
  apply s_end.
Qed.

(** C68, refuted for the code point zero, whose escape is read as nothing at all: before a quote, even the
    end of the string is then missed. *)
Theorem zero_escape_refuted : 
  tokenize false ([ch 34] ++ lit "a\u0000b" ++ [ch 34]) = Ok [TStart; TValue (SStr (lit "ab") true) ([ch 34] ++ lit "a\u0000b" ++ [ch 34]); TEnd] /\
  tokenize false ([ch 34] ++ lit "\u0000" ++ [ch 34; ch 34] ++ lit "x" ++ [ch 34; ch 34; ch 34])
    = Ok [TStart; TValue (SStr (lit "x") true) ([ch 34] ++ lit "\u0000" ++ [ch 34; ch 34] ++ lit "x" ++ [ch 34; ch 34; ch 34]); TEnd].
Proof. split; vm_compute; reflexivity. Qed.
Print Assumptions zero_escape_refuted.

(** C68, refuted for escapes that do not have four hexadecimal digits: some are accepted, and others read a
    variable that was never set. *)
Theorem bad_escape_refuted :
  tokenize false ([ch 34] ++ lit "\u-001" ++ [ch 34]) =
    Ok [TStart; TValue (SStr [ch 239; ch 191; ch 191] true) ([ch 34] ++ lit "\u-001" ++ [ch 34]); TEnd] /\
  tokenize false ([ch 34] ++ lit "\u4zzz" ++ [ch 34]) =
    Ok [TStart; TValue (SStr [ch 4] true) ([ch 34] ++ lit "\u4zzz" ++ [ch 34]); TEnd] /\
  tokenize false ([ch 34] ++ lit "\uzzzz" ++ [ch 34]) = Stuck UUninit.
Proof. split; [|split]; vm_compute; reflexivity. Qed.
Print Assumptions bad_escape_refuted.
