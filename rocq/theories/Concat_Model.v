(** Transcription of the joining of values: lib/src/values/config_concatenation.cc. *)
From Verif Require Import Base Util_Model Num_Model Path_Model Token_Model Value_Model Duration_Model Config_Model.

Definition is_list (v : value) : bool := match v with VList _ => true | _ => false end.
Definition is_concat (v : value) : bool := match v with VConcat _ => true | _ => false end.

(** transform_to_string: config_value.cc:23-25 and the scalar classes *)
Definition transform_to_string (v : value) : str :=
  match v with VScalar s => scalar_text s | _ => [] end.

(** config_concatenation.cc:204-207: any unquoted text *)
Definition is_ignored_whitespace (v : value) : bool :=
  match v with VScalar (SStr _ q) => negb q | _ => false end.

(** config_concatenation.cc:212-259: the joined value, or [None] when the two stay apart.  Origins are left out. *)
Definition join_values (left0 right0 : value) : result (option value) :=
  left <- (if is_object left0 && is_list right0 then transform left0 TList else Ok left0) ;;
  right <- (if is_list left0 && is_object right0 then transform right0 TList else Ok right0) ;;
  if is_object left && is_object right then v <- with_fallback right left ;; Ok (Some v)
  else match left, right with
  | VList a, VList b => Ok (Some (VList (a ++ b)))
  | _, _ =>
      if (is_list left || is_object left) && is_ignored_whitespace right then Ok (Some left)
      else if is_concat left || is_concat right then Throw EConfig
      else if is_unmergeable left || is_unmergeable right then Ok None
      else
        let s1 := transform_to_string left in
        let s2 := transform_to_string right in
        match s1, s2 with
        | [], _ | _, [] => Throw EConfig
        | _, _ => Ok (Some (VScalar (SStr (s1 ++ s2) true)))
        end
  end.

(** config_concatenation.cc:110-117.  A nested concatenation gives its pieces. *)
Definition flattened (pieces : list value) : list value :=
  flat_map (fun v => match v with VConcat ps => ps | _ => [v] end) pieces.

(** config_concatenation.cc:122-128: [builder] is the vector of consolidated values, its back first *)
Fixpoint join_all (builder : list value) (pieces : list value) : result (list value) :=
  match pieces with
  | [] => Ok (rev builder)
  | v :: rest =>
      match builder with
      | [] => join_all [v] rest
      | back :: before =>
          j <- join_values back v ;;
          match j with
          | Some joined => join_all (joined :: before) rest
          | None => join_all (v :: builder) rest
          end
      end
  end.

(** config_concatenation.cc:105-132 *)
Definition consolidate (pieces : list value) : result (list value) :=
  match pieces with
  | [] | [_] => Ok pieces
  | _ => join_all [] (flattened pieces)
  end.

(** config_concatenation.cc:22-43 *)
Definition new_concatenation (pieces : list value) : result value :=
  if (List.length pieces <? 2)%nat then Throw EConfig
  else if existsb is_concat pieces then Throw EConfig
  else if negb (existsb is_unmergeable pieces) then Throw EConfig
  else Ok (VConcat pieces).

(** config_concatenation.cc:134-144; [None] is a null pointer *)
Definition concatenate (pieces : list value) : result (option value) :=
  consolidated <- consolidate pieces ;;
  match consolidated with
  | [] => Ok None
  | [v] => Ok (Some v)
  | _ => v <- new_concatenation consolidated ;; Ok (Some v)
  end.
