(** Specification vocabulary for path expressions. *)
From Verif Require Import Base Token_Model Token_Spec.

(** The keys of [p] written with periods between them, nothing else. *)
Fixpoint dotted (p : list str) : str :=
  match p with
  | [] => []
  | [k] => k
  | k :: p' => k ++ "."%char :: dotted p'
  end.

(** A string without a period. *)
Definition dotless (s : str) : Prop := ~ In "."%char s.

(** Characters path::render leaves unquoted. *)
Definition plain_char (c : ascii) : Prop := isalnum c = true \/ c = "-"%char \/ c = "_"%char.

(** A key that path::render writes without quotes. *)
Definition plain_key (k : str) : Prop := k <> [] /\ Forall plain_char k.

(** A key whose text cannot begin with a number or a literal: one that is written in quotes, or that
    starts with a letter or underscore and not with true, false or null. *)
Definition word_key (k : str) : Prop :=
  ~ plain_key k \/
  match k with
  | [] => False
  | c :: _ => (isalpha c = true \/ c = "_"%char) /\
              (forall r, k <> lit "true" ++ r) /\ (forall r, k <> lit "false" ++ r) /\
              (forall r, k <> lit "null" ++ r)
  end.

(** No digit in any key written without quotes. *)
Definition no_plain_digit (p : list str) : Prop :=
  forall k c, In k p -> plain_key k -> In c k -> isdigit c = false.

(** Number of empty keys of a path, and of quoted empty strings in a token list. *)
Definition is_nil (s : str) : bool := match s with [] => true | _ => false end.
Definition empty_keys (p : list str) : nat := List.length (filter is_nil p).
Definition empty_quotes (ts : list token) : nat :=
  List.length (filter (fun t => match t with TValue (Num_Model.SStr [] true) _ => true | _ => false end) ts).
