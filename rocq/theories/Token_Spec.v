(** Specification vocabulary for the tokenizer properties. *)
From Verif Require Import Base Token_Model.

(** Blank characters other than newline. *)
Definition blank (c : ascii) : Prop :=
  c = " "%char \/ c = ch 9 \/ c = ch 11 \/ c = ch 12 \/ c = ch 13.

(** [lost_blanks input output]: [output] is [input] with some runs of blanks removed, each of them
    standing directly before a closing brace. *)
Inductive lost_blanks : str -> str -> Prop :=
| LB_nil : lost_blanks [] []
| LB_keep : forall c s t, lost_blanks s t -> lost_blanks (c :: s) (c :: t)
| LB_drop : forall w s t, Forall blank w -> lost_blanks ("}"%char :: s) t ->
                          lost_blanks (w ++ "}"%char :: s) t.

(** No blank stands directly before a closing brace. *)
Definition no_blank_before_close (s : str) : Prop :=
  forall a w b, s = a ++ w :: "}"%char :: b -> ~ blank w.

(** Bytes that may occur inside a JSON-quoted string written by the library: printable ASCII, 0x7f,
    and the five control characters that have a short escape. *)
Definition quotable (c : ascii) : Prop :=
  32 <= byte_of c <= 127 \/ In (nat_of_ascii c) [8; 9; 10; 12; 13]%nat.

(** A simple value token: a literal, a substitution or unquoted text. *)
Definition simple_token (t : token) : Prop :=
  match t with TSubst _ _ | TValue _ _ | TUnquoted _ => True | _ => False end.

(** The token streams contained in a token stream: itself and, recursively, the expressions of its
    substitutions. *)
Inductive stream_in (ts : list token) : list token -> Prop :=
| SI_here : stream_in ts ts
| SI_subst : forall o e st, In (TSubst o e) ts -> stream_in e st -> stream_in ts st.

(** When the tokenizer may run into undefined behaviour: an uninitialised read or an unspecified
    conversion needs a backslash in the input, an out-of-range double to integer conversion a digit. *)
Definition stuck_cause (s : str) (u : ub) : Prop :=
  (In (ch 92) s /\ (u = UUninit \/ u = UUnspecified)) \/
  ((exists c, In c s /\ isdigit c = true) /\ u = UFloatCast).
