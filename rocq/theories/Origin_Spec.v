(** Specification vocabulary for origins. *)
From Verif Require Import Base Origin_Model.

(** [d] occurs in the text [t]. *)
Definition occurs (d t : str) : Prop := exists before after, t = before ++ d ++ after.

(** An origin as the parsers make it: one source, not a merge of several. *)
Definition single_source (o : origin) : Prop := forall t, description o <> lit "merge of " ++ t.

(** The origin covers lines [first] to [last]. *)
Definition covers (o : origin) (first last : Z) : Prop := line_number o = first /\ end_line_number o = last.

(** The origin is one known line. *)
Definition one_line (o : origin) (n : Z) : Prop := 0 <= n /\ covers o n n.

(** Two origins of the same kind; two origins on different lines, or that are neither of the same kind nor of the same resource. *)
Definition same_kind (a b : origin) : Prop := otype a = otype b /\ resource a = resource b.
Definition apart (a b : origin) : Prop :=
  (line_number a <> line_number b /\ end_line_number a <> end_line_number b) \/ (otype a <> otype b /\ resource a <> resource b).
