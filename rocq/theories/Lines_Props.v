(** Property C58: the line of a token, which is that of the value made of it. *)
From Verif Require Import Base BaseLemmas Util_Model Num_Model Token_Model Token_Spec Comments_Spec Lines_Model Lines_Spec Lines_Lemmas.

(** The tokens are those of C05 to C08. *)
Theorem located_tokens_are_the_tokens : forall ac s, tokenize ac s = (lts <- tokenize_at ac s ;; Ok (map fst lts)).
Proof. exact tokenize_same. Qed.
Print Assumptions located_tokens_are_the_tokens.
Example located_tokens_ex : exists lts, tokenize_at true (lit "a = 1 " ++ [nl] ++ lit "b = [x y]") = Ok lts /\ List.length lts = 18%nat.
Proof. eexists. split; [vm_compute; reflexivity|reflexivity]. Qed.

(** C58.  The line of a token that has no end of line in it, or is one, is the line on which it begins.
    Missing (false, see below): tokens with ends of lines in them, and texts with one inside a [\u] escape. *)
Theorem token_line_partial : forall ac s pre t l post, ~ In (ch 0) s -> escapes_on_one_line s ->
  tokenize_at ac s = Ok (pre ++ (t, l) :: post) ->
  has_line t = true -> ~ blank_text t -> (~ In nl (token_text t) \/ t = TNewline) ->
  exists before after, split_at s before after (map fst pre) (t :: map fst post) /\ l = Some (line_after before).
Proof. exact one_line. Qed.
Print Assumptions token_line_partial.

(** C58.  The line of a token with ends of lines in it is the line on which it ends. *)
Theorem token_line_is_its_end : forall ac s pre t l post, ~ In (ch 0) s -> escapes_on_one_line s ->
  tokenize_at ac s = Ok (pre ++ (t, l) :: post) ->
  has_line t = true -> ~ blank_text t -> t <> TNewline ->
  exists upto after, split_at s upto after (map fst pre ++ [t]) (map fst post) /\ l = Some (line_after upto).
Proof. exact many_lines. Qed.
Print Assumptions token_line_is_its_end.

(** C58.  The line of whitespace is the line on which the token after it ends. *)
Theorem blank_line_is_the_next : forall ac s pre t l post, ~ In (ch 0) s -> escapes_on_one_line s ->
  tokenize_at ac s = Ok (pre ++ (t, l) :: post) -> blank_text t ->
  exists upto after next rest, map fst post = next :: rest /\ split_at s upto after (map fst pre ++ [t; next]) rest /\ l = Some (line_after upto).
Proof. exact blank_lines. Qed.
Print Assumptions blank_line_is_the_next.

Example token_line_ex : exists pre post, ~ In (ch 0) lines_text /\ escapes_on_one_line lines_text /\
  tokenize_at true lines_text = Ok (pre ++ (TValue (SInt 7 (lit "7")) (lit "7"), Some 3) :: post) /\ ~ blank_text (TValue (SInt 7 (lit "7")) (lit "7")).
Proof.
  exists (firstn 12 (match tokenize_at true lines_text with Ok l => l | _ => [] end)), [(TEnd, None)]. split; [vm_compute; intuition discriminate|]. split; [exact lines_text_escapes|]. split; [vm_compute; reflexivity|].
  intros [_ F]. inversion F as [|? ? B]; subst. repeat destruct B as [B|B]; discriminate.
Qed.
Example token_line_end_ex : exists pre post v t, tokenize_at true lines_text = Ok (pre ++ (TValue v t, Some 2) :: post) /\ In nl t /\ pre <> [].
Proof. exists (firstn 5 (match tokenize_at true lines_text with Ok l => l | _ => [] end)). do 3 eexists. split; [vm_compute; reflexivity|]. split; [vm_compute; tauto|vm_compute; discriminate]. Qed.
Example blank_line_ex : exists pre post, tokenize_at true lines_text = Ok (pre ++ (TIgnored (lit " "), Some 3) :: (TNewline, Some 2) :: post).
Proof. exists (firstn 6 (match tokenize_at true lines_text with Ok l => l | _ => [] end)). eexists. vm_compute. reflexivity. Qed.

(** C58, refuted as stated: a value that begins on line 1 has line 2. *)
Theorem token_line_refuted : exists s pre v t post, escapes_on_one_line s /\ tokenize_at true s = Ok (pre ++ (TValue v t, Some 2) :: post) /\
  newlines (render_tokens (map fst pre)) = 0.
Proof.
  exists lines_text, (firstn 5 (match tokenize_at true lines_text with Ok l => l | _ => [] end)). do 3 eexists. split; [exact lines_text_escapes|]. split; [vm_compute; reflexivity|vm_compute; reflexivity].
Qed.
Print Assumptions token_line_refuted.

(** C58, refuted also for values after a [\u] escape with an end of line in it: this [b] begins on line 2. *)
Theorem token_line_escape_refuted : exists s pre post, tokenize_at true s = Ok (pre ++ (TUnquoted (lit "b"), Some 1) :: post) /\
  newlines (render_tokens (map fst pre)) = 1.
Proof.
  exists (lit "a = ""\u" ++ [nl] ++ lit "041"" b"), (firstn 7 (match tokenize_at true (lit "a = ""\u" ++ [nl] ++ lit "041"" b") with Ok l => l | _ => [] end)). eexists.
  split; [vm_compute; reflexivity|vm_compute; reflexivity].
Qed.
Print Assumptions token_line_escape_refuted.
