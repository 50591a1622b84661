(** Transcription of the editing operations on documents: lib/src/nodes/config_node_object.cc,
    config_node_root.cc, config_node_field.cc, config_node_complex_value.cc and
    lib/src/simple_config_document.cc.

    A null shared_ptr is [None].  Two tokens that are singletons (comma, open curly, ...) are
    identified by their kind.  The recursive functions on a path get a step count: each recursive
    call is made on a shorter path (config_node_object.cc:28, 101, 212, 249). *)
From Verif Require Import Base Util_Model Num_Model Path_Model Token_Model PathParser_Model Doc_Model.

(** dynamic_cast to config_node_complex_value (a root node never is a child) *)
Definition is_complex (n : node) : bool :=
  match n with NConcat _ | NArray _ | NObject _ => true | _ => false end.

(** config_node_object.cc:310-316 and the same test inlined elsewhere, for the token kinds used *)
Definition is_newline (n : node) : bool := match n with NTok TNewline => true | _ => false end.
Definition is_blank_node (n : node) : bool := match n with NTok (TIgnored _) => true | _ => false end.
Definition is_comma (n : node) : bool := match n with NTok TComma => true | _ => false end.
Definition is_open_curly (n : node) : bool := match n with NTok TOpenCurly => true | _ => false end.
Definition is_close_curly (n : node) : bool := match n with NTok TCloseCurly => true | _ => false end.
Definition is_field (n : node) : bool := match n with NField _ => true | _ => false end.

(** config_node_field.cc:48-55 *)
Fixpoint field_path (cs : list node) : result path_node :=
  match cs with
  | [] => Throw EConfig
  | NPath p :: _ => Ok p
  | _ :: cs' => field_path cs'
  end.

(** config_node_field.cc:39-46 *)
Fixpoint field_value (cs : list node) : result node :=
  match cs with
  | [] => Throw EConfig
  | c :: cs' => if is_value_node c then Ok c else field_value cs'
  end.

(** config_node_field.cc:28-37 *)
Fixpoint replace_value (cs : list node) (v : node) : result (list node) :=
  match cs with
  | [] => Throw EConfig
  | c :: cs' => if is_value_node c then Ok (v :: cs') else r <- replace_value cs' v ;; Ok (c :: r)
  end.

Section Indent.
Variable rec : node -> result node.
Variable ind : node.

(** config_node_complex_value.cc:38-42: a field with a complex value *)
Fixpoint indent_field (fc : list node) : result (list node) :=
  match fc with
  | [] => Throw EConfig
  | x :: fc' =>
      if is_value_node x then
        if is_complex x then x' <- rec x ;; Ok (x' :: fc') else Ok (x :: fc')
      else r <- indent_field fc' ;; Ok (x :: r)
  end.

(** config_node_complex_value.cc:31-46.  The node inserted after a newline is looked at next, so when
    it is a newline itself the loop never ends. *)
Fixpoint indent_children (cs : list node) : result (list node) :=
  match cs with
  | [] => Ok []
  | c :: cs' =>
      match c with
      | NTok TNewline =>
          if is_newline ind then Stuck UNoTermination
          else r <- indent_children cs' ;; Ok (c :: ind :: r)
      | NField fc => fc' <- indent_field fc ;; r <- indent_children cs' ;; Ok (NField fc' :: r)
      | NConcat _ | NArray _ | NObject _ => c' <- rec c ;; r <- indent_children cs' ;; Ok (c' :: r)
      | _ => r <- indent_children cs' ;; Ok (c :: r)
      end
  end.
End Indent.

(** config_node_complex_value.cc:28-48 *)
Fixpoint indent_text (ind : node) (n : node) {struct n} : result node :=
  match n with
  | NConcat cs => rmap NConcat (indent_children (indent_text ind) ind cs)
  | NArray cs => rmap NArray (indent_children (indent_text ind) ind cs)
  | NObject cs => rmap NObject (indent_children (indent_text ind) ind cs)
  | _ => Ok n
  end.

(** *** has_value *)

(** config_node_object.cc:20-37; [rec] is the call on the nested object *)
Fixpoint has_children (rec : list node -> path -> result bool) (cs : list node) (desired : path) : result bool :=
  match cs with
  | [] => Ok false
  | NField fc :: cs' =>
      '(key, _) <- field_path fc ;;
      extends <- (if path_eq key desired then Ok true else starts_with key desired) ;;
      if extends then Ok true
      else
        below <- starts_with desired key ;;
        found <- (if below then
                    v <- field_value fc ;;
                    match v with
                    | NObject ocs => rec ocs (sub_path desired (length key))
                    | _ => Ok false
                    end
                  else Ok false) ;;
        if found then Ok true else has_children rec cs' desired
  | _ :: cs' => has_children rec cs' desired
  end.
Fixpoint has_value_n (n : nat) (cs : list node) (desired : path) : result bool :=
  match n with
  | O => Stuck UFuel
  | S k => has_children (has_value_n k) cs desired
  end.
Definition has_value (cs : list node) (desired : path) : result bool :=
  has_value_n (List.length desired) cs desired.

(** *** change_value_on_path *)

(** config_node_object.cc:66-78: whitespace and commas after a deleted setting *)
Fixpoint drop_separators (cs : list node) : list node :=
  match cs with
  | c :: cs' => if is_blank_node c || is_comma c then drop_separators cs' else cs
  | [] => []
  end.

(** config_node_object.cc:81-95: the new value, indented like the field it replaces *)
Definition indent_like (before : option node) (v : node) : result node :=
  match before with
  | Some b => if is_complex v && is_blank_node b then indent_text b v else Ok v
  | None => Ok v
  end.

(** config_node_object.cc:45-111, from the last child to the first: [i] is the index of the first of
    [cs] and [prev] the child before it.  Result: the children, seen_non_matching, value_copy.
    At line 104 the old field is compared with the old child, which is the same node, so value_copy
    is kept. *)
Fixpoint change_children (rec : list node -> path -> option node -> result (list node)) (flavor : syntax)
    (desired : path) (value : option node) (i : nat) (prev : option node) (cs : list node)
  : result (list node * bool * option node) :=
  match cs with
  | [] => Ok ([], false, value)
  | c :: cs' =>
      '(after, seen, value_copy) <- change_children rec flavor desired value (S i) (Some c) cs' ;;
      match c with
      | NTok _ | NComment _ =>
          if is_json flavor && negb seen && is_comma c then Ok (after, seen, value_copy)
          else Ok (c :: after, seen, value_copy)
      | NField fc =>
          '(key, _) <- field_path fc ;;
          let same := path_eq key desired in
          extends <- (if match value_copy with None => same | Some _ => false end then Ok true
                      else b <- starts_with key desired ;; Ok (b && negb same)) ;;
          if extends then Ok (drop_separators after, seen, value_copy)
          else
            match same, value_copy with
            | true, Some v =>
                v' <- indent_like (if (2 <=? i)%nat then prev else None) v ;;
                fc' <- replace_value fc v' ;;
                Ok (NField fc' :: after, true, None)
            | _, _ =>
                below <- starts_with desired key ;;
                if below then
                  old <- field_value fc ;;
                  match old with
                  | NObject ocs =>
                      ocs' <- rec ocs (sub_path desired (length key)) value_copy ;;
                      fc' <- replace_value fc (NObject ocs') ;;
                      Ok (NField fc' :: after, true, value_copy)
                  | _ => Ok (c :: after, true, value_copy)
                  end
                else Ok (c :: after, true, value_copy)
            end
      | _ => Ok (c :: after, seen, value_copy)
      end
  end.

(** config_node_object.cc:39-113 *)
Fixpoint change_value_n (n : nat) (flavor : syntax) (cs : list node) (desired : path) (value : option node)
  : result (list node) :=
  match n with
  | O => Stuck UFuel
  | S k => '(cs', _, _) <- change_children (change_value_n k flavor) flavor desired value 0 None cs ;; Ok cs'
  end.
Definition change_value_on_path (cs : list node) (desired : path) (value : option node) (flavor : syntax)
  : result (list node) :=
  change_value_n (List.length desired) flavor cs desired value.

(** *** add_value_on_path *)

(** config_node_object.cc:146-156: the whitespace before the first field or include after a newline *)
Fixpoint field_indent (cs : list node) : option node :=
  match cs with
  | [] => None
  | c :: cs' =>
      match cs' with
      | NField _ :: _ | NInclude _ _ :: _ => if is_blank_node c then Some c else field_indent cs'
      | _ => field_indent cs'
      end
  end.

(** The children after the first newline, if there is one (138-145). *)
Fixpoint after_newline (cs : list node) : option (list node) :=
  match cs with
  | [] => None
  | c :: cs' => if is_newline c then Some cs' else after_newline cs'
  end.

Definition blank_node (s : str) : node := NTok (TIgnored s).

(** config_node_object.cc:132-180 *)
Definition indentation (cs : list node) : result (list node) :=
  match cs with
  | [] => Ok []
  | _ :: _ =>
      match after_newline cs with
      | None => Ok [blank_node (lit " ")]
      | Some rest =>
          match field_indent rest with
          | Some ws => Ok [NTok TNewline; ws]
          | None =>
              match rev cs with
              | last :: before =>
                  if is_close_curly last then
                    match before with
                    | [] => Stuck UOutOfBounds
                    | b :: _ =>
                        let indent := match b with NTok (TIgnored s) => s | _ => [] end in
                        Ok [NTok TNewline; blank_node (indent ++ lit "  ")]
                    end
                  else Ok [NTok TNewline]
              | [] => Ok [NTok TNewline]
              end
          end
      end
  end.

(** config_node_object.cc:207-219, from the last child to the first: add further down if possible *)
Fixpoint add_below (rec : list node -> path_node -> node -> result (list node)) (desired : path_node) (value : node)
    (cs : list node) : result (option (list node)) :=
  match cs with
  | [] => Ok None
  | c :: cs' =>
      after <- add_below rec desired value cs' ;;
      match after with
      | Some after' => Ok (Some (c :: after'))
      | None =>
          match c with
          | NField fc =>
              '(key, _) <- field_path fc ;;
              below <- starts_with (fst desired) key ;;
              if below then
                v <- field_value fc ;;
                match v with
                | NObject ocs =>
                    remaining <- path_node_sub_path desired (length key) ;;
                    ocs' <- rec ocs remaining value ;;
                    fc' <- replace_value fc (NObject ocs') ;;
                    Ok (Some (NField fc' :: cs'))
                | _ => Ok None
                end
              else Ok None
          | _ => Ok None
          end
      end
  end.

Definition insert_at (i : nat) (n : node) (cs : list node) : list node := firstn i cs ++ n :: skipn i cs.

(** config_node_object.cc:254-290.  The argument is i + 1; [new] is the new field. *)
Fixpoint place_loop (commas starts_with_brace same_line : bool) (new : node) (i1 : nat) (cs : list node)
  : result (list node) :=
  match i1 with
  | O => Ok cs
  | S i =>
      match nth_error cs i with
      | None => Stuck UOutOfBounds
      | Some child =>
          if commas && is_field child &&
             match nth_error cs (S i) with None => true | Some next => negb (is_comma next) end
          then Ok (insert_at (S i) (NTok TComma) cs)
          else if starts_with_brace && is_close_curly child then
            match i with
            | O => Stuck UOutOfBounds
            | S p =>
                match nth_error cs p with
                | None => Stuck UOutOfBounds
                | Some previous =>
                    if is_newline previous then
                      place_loop commas starts_with_brace same_line new p (insert_at p new cs)
                    else if is_blank_node previous then
                      match p with
                      | O => Stuck UOutOfBounds
                      | S q =>
                          match nth_error cs q with
                          | None => Stuck UOutOfBounds
                          | Some before_prev =>
                              if same_line then
                                place_loop commas starts_with_brace same_line new p (insert_at p new cs)
                              else if is_newline before_prev then
                                place_loop commas starts_with_brace same_line new q (insert_at q new cs)
                              else
                                place_loop commas starts_with_brace same_line new i (insert_at i new cs)
                          end
                      end
                    else place_loop commas starts_with_brace same_line new i (insert_at i new cs)
                end
            end
          else place_loop commas starts_with_brace same_line new i cs
      end
  end.

(** config_node_object.cc:182-301 *)
Fixpoint add_value_n (n : nat) (flavor : syntax) (cs : list node) (desired : path_node) (value : node)
  : result (list node) :=
  match n with
  | O => Stuck UFuel
  | S k =>
      let raw := fst desired in
      indent <- indentation cs ;;
      indented <- (match rev indent with
                   | back :: _ => if is_complex value then indent_text back value else Ok value
                   | [] => Ok value
                   end) ;;
      let same_line := match indent with c :: _ => negb (is_newline c) | [] => true end in
      below <- (if length raw >? 1 then add_below (add_value_n k flavor) desired value cs else Ok None) ;;
      match below with
      | Some cs' => Ok cs'
      | None =>
          let starts_with_brace := match cs with c :: _ => is_open_curly c | [] => false end in
          first_path <- path_node_first desired ;;
          new_value <-
            (if length raw =? 1 then Ok indented
             else
               rest <- path_node_sub_path desired 1 ;;
               ocs <- add_value_n k flavor
                        (NTok TOpenCurly :: match indent with [] => [NTok TNewline] | _ => [] end
                           ++ indent ++ [NTok TCloseCurly]) rest indented ;;
               Ok (NObject ocs)) ;;
          let new := NField (indent ++ [NPath first_path; blank_node (lit " "); NTok TColon; blank_node (lit " "); new_value]) in
          cs' <- (if is_json flavor || starts_with_brace || same_line
                  then place_loop (is_json flavor || same_line) starts_with_brace same_line new (List.length cs) cs
                  else Ok cs) ;;
          if starts_with_brace then Ok cs'
          else
            match rev cs' with
            | last :: before => if is_newline last then Ok (rev before ++ [new; last]) else Ok (cs' ++ [new])
            | [] => Ok [new]
            end
      end
  end.
Definition add_value_on_path (cs : list node) (desired : path_node) (value : node) (flavor : syntax)
  : result (list node) :=
  add_value_n (List.length (fst desired)) flavor cs desired value.

(** config_node_object.cc:121-130 *)
Definition set_value_on_path (cs : list node) (desired : path_node) (value : node) (flavor : syntax)
  : result (list node) :=
  cs' <- change_value_on_path cs (fst desired) (Some value) flavor ;;
  found <- has_value cs' (fst desired) ;;
  if found then Ok cs' else add_value_on_path cs' desired value flavor.

(** *** The root and the document *)

(** config_node_root.cc:31-68: the work on the first complex child *)
Fixpoint on_root {A} (at_object : list node -> result A) (rebuild : node -> A -> list node -> list node)
    (cs : list node) : result (list node * A) :=
  match cs with
  | [] => Throw EConfig
  | NArray _ :: _ => Throw EConfig
  | NObject ocs :: cs' => a <- at_object ocs ;; Ok (rebuild (NObject ocs) a cs', a)
  | c :: cs' => '(r, a) <- on_root at_object rebuild cs' ;; Ok (c :: r, a)
  end.

(** config_node_root.cc:31-52, with config_node_object.cc:115-119 and 303-308 *)
Definition root_set_value (root : list node) (desired : str) (value : option node) (flavor : syntax) : result (list node) :=
  rmap fst
    (on_root (fun ocs =>
                p <- parse_path_node desired flavor ;;
                match value with
                | None => change_value_on_path ocs (fst p) None flavor
                | Some v => set_value_on_path ocs p v flavor
                end)
             (fun _ ocs' rest => NObject ocs' :: rest) root).

(** config_node_root.cc:54-68 *)
Definition root_has_value (root : list node) (desired : str) : result bool :=
  p <- new_path desired ;;
  rmap snd (on_root (fun ocs => has_value ocs p) (fun n _ rest => n :: rest) root).

(** simple_config_document.cc:20-33.  The exception for an empty text is thrown by pointer. *)
Definition with_value_text (flavor : syntax) (root : list node) (desired : str) (text : str) : result (list node) :=
  match text with
  | [] => Throw EThrownPointer
  | _ :: _ => v <- parse_value_text flavor text ;; root_set_value root desired v flavor
  end.

(** simple_config_document.cc:48-52 *)
Definition without_path (flavor : syntax) (root : list node) (desired : str) : result (list node) :=
  root_set_value root desired None flavor.

(** simple_config_document.cc:54-57 *)
Definition has_path (root : list node) (desired : str) : result bool := root_has_value root desired.

(** simple_config_document.cc:59-62 *)
Definition render_document (root : list node) : str := render_nodes root.
