(** Transcription of lib/src/simple_config_origin.cc and lib/inc/internal/simple_config_origin.hpp.

    Origins are taken to be present (no null pointers); returning the same origin and returning an equal
    copy are not distinguished. *)
From Verif Require Import Base Util_Model.

(** simple_config_origin.hpp:11 *)
Inductive origin_type := GENERIC | FILE | RESOURCE.
Scheme Equality for origin_type.

(** simple_config_origin.hpp:63-68 *)
Record origin := {
  description : str;
  line_number : Z;
  end_line_number : Z;
  otype : origin_type;
  resource : str;
  comments : list str }.

Definition comments_eqb (a b : list str) : bool := if list_eq_dec (list_eq_dec ascii_dec) a b then true else false.

(** simple_config_origin.cc:38-45 *)
Definition with_line_number (o : origin) (n : Z) : origin :=
  if (n =? line_number o) && (n =? end_line_number o) then o
  else {| description := description o; line_number := n; end_line_number := n; otype := otype o;
          resource := resource o; comments := comments o |}.
(** simple_config_origin.cc:47-54 *)
Definition with_comments (o : origin) (cs : list str) : origin :=
  if comments_eqb cs (comments o) || (List.length cs =? 0)%nat then o
  else {| description := description o; line_number := line_number o; end_line_number := end_line_number o;
          otype := otype o; resource := resource o; comments := cs |}.
(** simple_config_origin.cc:56-66: the end line becomes the start line *)
Definition append_comments (o : origin) (cs : list str) : origin :=
  if comments_eqb cs (comments o) || (List.length cs =? 0)%nat then o
  else {| description := description o; line_number := line_number o; end_line_number := line_number o;
          otype := otype o; resource := resource o; comments := comments o ++ cs |}.
(** simple_config_origin.cc:68-78 *)
Definition prepend_comments (o : origin) (cs : list str) : origin :=
  if comments_eqb cs (comments o) || (List.length cs =? 0)%nat then o
  else {| description := description o; line_number := line_number o; end_line_number := line_number o;
          otype := otype o; resource := resource o; comments := cs ++ comments o |}.

(** simple_config_origin.cc:138 *)
Definition merge_of_prefix : str := lit "merge of ".
(** simple_config_origin.cc:141-149 *)
Definition strip_prefix (d : str) : str :=
  if starts_with_str d merge_of_prefix then skipn (List.length merge_of_prefix) d else d.

(** simple_config_origin.cc:125-192 *)
Definition merge_two (a b : origin) : origin :=
  let a_desc := strip_prefix (description a) in
  let b_desc := strip_prefix (description b) in
  let '(desc, start_line, end_line) :=
    if str_eqb a_desc b_desc then
      (a_desc,
       if line_number a <? 0 then line_number b
       else if line_number b <? 0 then line_number a
       else Z.min (end_line_number a) (end_line_number b),
       Z.max (end_line_number a) (end_line_number b))
    else (merge_of_prefix ++ a_desc ++ lit "," ++ b_desc, -1, -1) in
  {| description := desc;
     line_number := start_line;
     end_line_number := end_line;
     otype := if origin_type_beq (otype a) (otype b) then otype a else GENERIC;
     resource := if str_eqb (resource a) (resource b) then resource a else [];
     comments := if comments_eqb (comments a) (comments b) then comments a else comments a ++ comments b |}.

(** simple_config_origin.cc:204-230 *)
Definition similarity (a b : origin) : Z :=
  (if origin_type_beq (otype a) (otype b) then 1 else 0) +
  (if str_eqb (description a) (description b) then 1 else 0) +
  (if line_number a =? line_number b then 1 else 0) +
  (if end_line_number a =? end_line_number b then 1 else 0) +
  (if str_eqb (resource a) (resource b) then 1 else 0).

(** simple_config_origin.cc:194-202 *)
Definition merge_three (a b c : origin) : origin :=
  if similarity b c <=? similarity a b then merge_two (merge_two a b) c else merge_two a (merge_two b c).

(** simple_config_origin.cc:105-121: [top] and [below] are the remaining origins, last one first *)
Fixpoint merge_remaining (top : origin) (below : list origin) : origin :=
  match below with
  | b :: a :: rest => merge_remaining (merge_three a b top) rest
  | [b] => merge_two b top
  | [] => top
  end.
(** simple_config_origin.cc:95-123 *)
Definition merge_origins (stack : list origin) : result origin :=
  match rev stack with
  | [] => Throw EConfig
  | top :: below => Ok (merge_remaining top below)
  end.

(** simple_config_origin.cc:233-244 *)
Definition origin_eqb (a b : origin) : bool :=
  str_eqb (description b) (description a) && (line_number b =? line_number a) && (end_line_number b =? end_line_number a) &&
  origin_type_beq (otype b) (otype a) && str_eqb (resource b) (resource a) && comments_eqb (comments b) (comments a).
