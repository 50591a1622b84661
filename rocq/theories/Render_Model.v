(** Transcription of the rendering of values: lib/src/values/config_value.cc:35-90,
    simple_config_object.cc:415-515, simple_config_list.cc:114-165, config_string.cc:34-44,
    config_null.cc:31-33, config_reference.cc:82-84, config_concatenation.cc:195-199,
    config_delayed_merge.cc:150-220, config_delayed_merge_object.cc:183-189, config_render_options.cc.

    Simplifications:
    - the values of the model carry no origin, so the origin of a value is looked up by its position in
      the rendered tree ([notes]); [None] is a null origin;
    - the text is built by appending results instead of appending to one string: what is chopped off was
      always appended just before, because objects and stacks that get there are not empty;
    - the messages of _() are the English ones. *)
From Verif Require Import Base Util_Model Num_Model Path_Model Token_Model Value_Model.

(** config_render_options.hpp:15-22 *)
Record options : Set := Options { origin_comments : bool; comments : bool; formatted : bool; json : bool }.
Definition default_options : options := Options true true true true.
(** config_render_options.cc:8-10 *)
Definition concise : options := Options false false false true.

(** A position in a value: the key of a field, the number of an element, piece or layer. *)
Inductive place : Set := InField (k : str) | InList (i : nat).
(** origin()->description() and origin()->comments() *)
Definition notes := list place -> option (str * list str).

(** operator< and >= of std::string: bytes compare as unsigned *)
Fixpoint str_ltb (a b : str) : bool :=
  match a, b with
  | _, [] => false
  | [], _ :: _ => true
  | c :: a', d :: b' => if byte_of c <? byte_of d then true else if byte_of d <? byte_of c then false else str_ltb a' b'
  end.
Definition all_digits (s : str) : bool := forallb isdigit s.

(** simple_config_object.cc:415-428 *)
Definition compare_keys (a b : str) : bool :=
  if all_digits a && all_digits b then negb (str_ltb a b)
  else if all_digits a then true
  else if all_digits b then false
  else str_ltb a b.

(** std::sort with compare (simple_config_object.cc:451).  compare is not a strict order on equal keys
    of digits, which std::sort requires; the keys of a map differ, so such a comparison is only made if
    the library compares an element with itself, which is taken not to happen. *)
Fixpoint insert_key {A} (x : str * A) (l : list (str * A)) : list (str * A) :=
  match l with
  | [] => [x]
  | y :: l' => if compare_keys (fst x) (fst y) then x :: l else y :: insert_key x l'
  end.
Definition sort_keys {A} (l : list (str * A)) : list (str * A) := fold_right insert_key [] l.

(** boost::split on newline *)
Fixpoint split_lines (s : str) : list str :=
  match s with
  | [] => [[]]
  | c :: s' =>
      if Ascii.eqb c nl then [] :: split_lines s'
      else match split_lines s' with l :: ls => (c :: l) :: ls | [] => [[c]] end
  end.

(** s.substr(0, s.size() - n), and pop_back n times *)
Definition chop (n : nat) (s : str) : str := firstn (List.length s - n) s.

(** Rendering the parts one after the other *)
Fixpoint sequence (l : list (result str)) : result str :=
  match l with
  | [] => Ok []
  | r :: l' => a <- r ;; b <- sequence l' ;; Ok (a ++ b)
  end.

Section Render.
Variables (o : options) (ns : notes).

(** config_value.cc:86-90 *)
Definition indent_text (n : nat) : str := if formatted o then repeat " "%char (n * 4) else [].

(** simple_config_object.cc:456-470 and simple_config_list.cc:127-139 *)
Definition origin_lines (n : nat) (description : str) : str :=
  concat (map (fun l => indent_text n ++ lit "#" ++ (match l with [] => [] | _ => lit " " end) ++ l ++ [nl]) (split_lines description)).
(** simple_config_object.cc:471-481 *)
Definition comment_lines_object (n : nat) (cs : list str) : str :=
  concat (map (fun c => indent_text n ++ lit "#" ++ (if starts_with_str c (lit " ") then [] else lit " ") ++ c ++ [nl]) cs).
(** simple_config_list.cc:140-147, config_delayed_merge.cc:189-194 *)
Definition comment_lines (n : nat) (cs : list str) : str :=
  concat (map (fun c => indent_text n ++ lit "# " ++ c ++ [nl]) cs).
(** The origin of a value; only read for comments *)
Definition origin_of (used : bool) (at_ : list place) : result (str * list str) :=
  if used then match ns at_ with Some x => Ok x | None => Stuck UNullDeref end else Ok ([], []).

(** What is rendered before a field, simple_config_object.cc:456-482: the origin comments use indent + 1, the
    comments and the field inner_indent *)
Definition before_field (indent inner_indent : nat) (at_ : list place) : result str :=
  '(d, cs) <- origin_of (origin_comments o || comments o) at_ ;;
  Ok ((if origin_comments o then origin_lines (indent + 1) d else []) ++ (if comments o then comment_lines_object inner_indent cs else []) ++
      indent_text inner_indent).
(** What is rendered before an element, simple_config_list.cc:127-148 *)
Definition before_element (indent : nat) (at_ : list place) : result str :=
  '(d, cs) <- origin_of (origin_comments o || comments o) at_ ;;
  Ok ((if origin_comments o then origin_lines (indent + 1) d else []) ++ (if comments o then comment_lines (indent + 1) cs else []) ++
      indent_text (indent + 1)).

(** config_value.cc:55-77 *)
Definition key_text (k : str) (v : value) : str :=
  match k with
  | [] => []
  | _ =>
      if json o then render_json_string k ++ (if formatted o then lit " : " else lit ":")
      else render_string_unquoted_if_possible k ++ (if is_object v then (if formatted o then lit " " else []) else lit "=")
  end.

(** After a field, simple_config_object.cc:485-496 *)
Definition field_end : str := (if negb (formatted o) || json o then lit "," else []) ++ (if formatted o then [nl] else []).

(** config_delayed_merge.cc:159-170 *)
Definition merge_head (n : nat) (indent : nat) (k : str) : str :=
  if comments o then
    lit "# unresolved merge of " ++ string_of_Z (Z.of_nat n) ++ lit " values follows (" ++ [nl] ++
    match k with
    | [] => indent_text indent ++ lit "# this unresolved merge will not be parseable because it's at the root of the object =" ++ [nl] ++
            indent_text indent ++ lit "# the HOCON format has no way to list multiple root objects in a single file " ++ [nl]
    | _ => []
    end
  else [].
(** config_delayed_merge.cc:178-205: before the [i]th layer *)
Definition before_layer (i : nat) (indent : nat) (k : str) (at_ : list place) : result str :=
  '(d, cs) <- origin_of (comments o) at_ ;;
  Ok ((if comments o then
         indent_text indent ++ lit "#     unmerged value " ++ string_of_Z (Z.of_nat i) ++
         (match k with [] => lit " for key " ++ render_json_string k | _ => [] end) ++ lit " from " ++ d ++ [nl] ++ comment_lines indent cs
       else []) ++ indent_text indent ++
      match k with [] => [] | _ => render_json_string k ++ (if formatted o then lit " : " else lit ":") end).

(** render(s, indent, at_root, at_key, options); without a key [k] is empty.  The fields of an object are
    rendered before they are sorted, the layers of a merge before they are reversed. *)
Fixpoint render (v : value) (k : str) (at_ : list place) (indent : nat) (at_root : bool) {struct v} : result str :=
  match v with
  | VScalar s =>
      Ok (key_text k v ++ match s with
                          | SStr t _ => if json o then render_json_string t else render_string_unquoted_if_possible t
                          | _ => scalar_text s
                          end)
  | VList vs =>
      let items := (fix items (i : nat) (vs : list value) : list (result str) :=
        match vs with
        | [] => []
        | w :: vs' =>
            (b <- before_element indent (at_ ++ [InList i]) ;;
             t <- render w [] (at_ ++ [InList i]) (indent + 1) at_root ;;
             Ok (b ++ t ++ lit "," ++ (if formatted o then [nl] else []))) :: items (S i) vs'
        end) 0%nat vs in
      match vs with
      | [] => Ok (key_text k v ++ lit "[]")
      | _ :: _ =>
          t <- sequence items ;;
          Ok (key_text k v ++ lit "[" ++ (if formatted o then [nl] else []) ++
              (if formatted o then chop 2 t ++ [nl] ++ indent_text indent else chop 1 t) ++ lit "]")
      end
  | VObj _ _ m =>
      let outer_braces := json o || negb at_root in
      let inner_indent := if outer_braces then (indent + 1)%nat else indent in
      let items := (fix items (m : list (str * value)) : list (str * result str) :=
        match m with
        | [] => []
        | (key, w) :: m' =>
            (key, (b <- before_field indent inner_indent (at_ ++ [InField key]) ;;
                   t <- render w key (at_ ++ [InField key]) inner_indent false ;;
                   Ok (b ++ t ++ field_end))) :: items m'
        end) m in
      t <- (match m with
            | [] => Ok (lit "{}")
            | _ :: _ =>
                t <- sequence (map snd (sort_keys items)) ;;
                let t' := chop (List.length field_end) t in
                Ok (if outer_braces then
                      lit "{" ++ (if formatted o then [nl] else []) ++ t' ++
                      (if formatted o then [nl] ++ indent_text indent else []) ++ lit "}"
                    else t')
            end) ;;
      Ok (key_text k v ++ t ++ (if at_root && formatted o then [nl] else []))
  | VRef _ p optional _ => Ok (key_text k v ++ lit "${" ++ (if optional then lit "?" else []) ++ render_path p ++ lit "}")
  | VConcat ps =>
      t <- sequence ((fix items (i : nat) (vs : list value) : list (result str) :=
             match vs with [] => [] | w :: vs' => render w [] (at_ ++ [InList i]) indent at_root :: items (S i) vs' end) 0%nat ps) ;;
      Ok (key_text k v ++ t)
  | VMerge stack | VMergeObj stack =>
      let n := List.length stack in
      let items := (fix items (i : nat) (vs : list value) : list (result str) :=
        match vs with
        | [] => []
        | w :: vs' =>
            (b <- before_layer (n - 1 - i) indent k (at_ ++ [InList i]) ;;
             t <- render w [] (at_ ++ [InList i]) indent at_root ;;
             Ok (b ++ t ++ lit "," ++ (if formatted o then [nl] else []))) :: items (S i) vs'
        end) 0%nat stack in
      t <- sequence (rev items) ;;
      Ok (merge_head n indent k ++ (if formatted o then chop 2 t ++ [nl] else chop 1 t) ++
          (if comments o then indent_text indent ++ lit "# ) end of unresolved merge" ++ [nl] else []))
  end.
End Render.

(** config_value.cc:39-43 *)
Definition render_value (o : options) (ns : notes) (v : value) : result str := render o ns v [] [] 0 true.
