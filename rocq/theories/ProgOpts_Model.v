(** Transcription of lib/inc/hocon/program_options.hpp. *)
From Verif Require Import Base Path_Model Value_Model Config_Model Concat_Model.

(** program_options.hpp:47-57: the values of a list; a nested list or object raises invalid_config_file_syntax *)
Fixpoint list_values (l : list value) : result (list str) :=
  match l with
  | [] => Ok []
  | v :: l' =>
      if is_list v || is_object v then Throw EUnknownOption
      else vs <- list_values l' ;; Ok (transform_to_string v :: vs)
  end.

(** program_options.hpp:26-64.  An option is its string_key and its value; other fields of po::option stay at
    their defaults.  [registered] is desc.find_nothrow(key, false) of Boost. *)
Fixpoint entry_options (registered : str -> bool) (allow_unregistered : bool) (entries : list (str * value)) : result (list (str * list str)) :=
  match entries with
  | [] => Ok []
  | (key, v) :: rest =>
      if allow_unregistered && negb (registered key) then entry_options registered allow_unregistered rest
      else
        values <- (match v with
                   | VList l => list_values l
                   | _ => Ok [transform_to_string v]
                   end) ;;
        options <- entry_options registered allow_unregistered rest ;;
        match values with
        | [] => Ok options
        | _ => Ok ((key, values) :: options)
        end
  end.

(** program_options.hpp:12-69.  The map to_do only ever holds the one entry with the empty prefix.  Entries
    come in the order of Config_Model.entry_set rather than sorted by name; Boost's conversion to wide
    characters is left out. *)
Definition parse_hocon (registered : str -> bool) (allow_unregistered : bool) (cfg : value) : result (list (str * list str)) :=
  entries <- entry_set cfg ;;
  entry_options registered allow_unregistered entries.
