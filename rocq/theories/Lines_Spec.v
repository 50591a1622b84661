(** Specification vocabulary for the lines of tokens; [newlines] and [line_after] are in Comments_Spec. *)
From Verif Require Import Base Token_Model Token_Spec Comments_Spec.

(** No end of line within the four characters after [\u]. *)
Definition escapes_on_one_line (s : str) : Prop :=
  forall a b c, s = a ++ ch 92 :: "u"%char :: b ++ nl :: c -> (4 <= List.length b)%nat.

(** The tokens that are made of the text and have an origin; the others are shared. *)
Definition has_line (t : token) : bool := match t with TNewline | TUnquoted _ | TIgnored _ | TComment _ _ | TSubst _ _ | TValue _ _ => true | _ => false end.

(** Whitespace between tokens. *)
Definition blank_text (t : token) : Prop := token_text t <> [] /\ Forall blank (token_text t).

(** [s] is split so that the tokens [pre] are what stands before and [post] what stands behind.  (Blanks before
    the closing brace of a substitution may be missing in the tokens, C05.) *)
Definition split_at (s before after : str) (pre post : list token) : Prop :=
  s = before ++ after /\ lost_blanks before (render_tokens pre) /\ lost_blanks after (render_tokens post).
