(** Transcription of lib/src/config_util.cc. *)
From Verif Require Import Base.

(** config_util.cc:8-21 *)
Definition is_whitespace (c : ascii) : bool :=
  Ascii.eqb c " " || Ascii.eqb c nl || isspace c.

(** config_util.cc:23-25 *)
Definition is_whitespace_not_newline (c : ascii) : bool :=
  negb (Ascii.eqb c nl) && is_whitespace c.

(** config_util.cc:27-29; the comparison is on a signed char *)
Definition is_C0_control (c : ascii) : bool := schar c <=? 31.

(** config_util.cc:34-60, one character *)
Definition render_json_char (c : ascii) : str :=
  if Ascii.eqb c (ch 34) then [ch 92; ch 34]            (* double quote *)
  else if Ascii.eqb c (ch 92) then [ch 92; ch 92]       (* backslash *)
  else if Ascii.eqb c (ch 10) then [ch 92; "n"%char]
  else if Ascii.eqb c (ch 8) then [ch 92; "b"%char]
  else if Ascii.eqb c (ch 12) then [ch 92; "f"%char]
  else if Ascii.eqb c (ch 13) then [ch 92; "r"%char]
  else if Ascii.eqb c (ch 9) then [ch 92; "t"%char]
  else [c].

(** config_util.cc:31-64 *)
Definition render_json_string (s : str) : str :=
  [ch 34] ++ concat (map render_json_char s) ++ [ch 34].

(** boost::starts_with *)
Fixpoint starts_with_str (s prefix : str) : bool :=
  match prefix, s with
  | [], _ => true
  | _ :: _, [] => false
  | p :: prefix', c :: s' => Ascii.eqb p c && starts_with_str s' prefix'
  end.

(** config_util.cc:66-93 *)
Definition render_string_unquoted_if_possible (s : str) : str :=
  match s with
  | [] => render_json_string s
  | first :: _ =>
      if isdigit first || Ascii.eqb first "-" then render_json_string s
      else if starts_with_str s (lit "include") || starts_with_str s (lit "true")
              || starts_with_str s (lit "false") || starts_with_str s (lit "null")
              || starts_with_str s (lit "//") then render_json_string s
      else if forallb (fun c => isalpha c || isdigit c || Ascii.eqb c "-") s then s
      else render_json_string s
  end.

(** path.cc:176-182 *)
Definition has_funky_chars (s : str) : bool :=
  existsb (fun c => negb (isalnum c || Ascii.eqb c "-" || Ascii.eqb c "_")) s.

(** path.cc:188-192, the text of one key *)
Definition render_key (k : str) : str :=
  if has_funky_chars k || match k with [] => true | _ => false end
  then render_json_string k else k.

(** path.cc:184-197 and 206-210 (append_to_string on an empty base) *)
Fixpoint render_path (p : list str) : str :=
  match p with
  | [] => []
  | k :: r =>
      render_key k ++
      match r with
      | [] => []
      | _ :: _ => lit "." ++ render_path r
      end
  end.

(** path.cc:199-204 *)
Definition path_to_string (p : list str) : str := lit "Path(" ++ render_path p ++ lit ")".
