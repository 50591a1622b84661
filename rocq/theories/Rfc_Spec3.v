(** Specification vocabulary for JSON documents used as fallbacks of each other. *)
From Verif Require Import Base Util_Model Num_Model Token_Model Value_Model Include_Model Rfc_Spec.

(** The member of the name k. *)
Fixpoint member (k : str) (ms : list (str * json)) : option json :=
  match ms with
  | [] => None
  | (q, j) :: ms' => if str_eqb k q then Some j else member k ms'
  end.
(** JSON values, the first over the second: objects are joined member by member, and otherwise the first is taken. *)
Fixpoint overlay (a b : json) : json :=
  match a, b with
  | JObject ms1, JObject ms2 =>
      JObject (map (fun '(k, j) => (k, match member k ms2 with Some j2 => overlay j j2 | None => j end)) ms1
               ++ filter (fun '(k, _) => match member k ms1 with Some _ => false | None => true end) ms2)
  | _, _ => a
  end.
(** The first of several over the second, over the third and so on. *)
Fixpoint overlays (a : json) (bs : list json) : json :=
  match bs with
  | [] => a
  | b :: bs' => overlay a (overlays b bs')
  end.

(** The config comes from a JSON text with these members, given as a string or in a .json file. *)
Inductive loaded (files : str -> option str) (environment : list (str * str)) : value -> list (str * json) -> Prop :=
| loaded_string : forall depth n text ms options next next' self, json_document text (JObject ms) ->
    parse_string files environment depth n text options next = Ok (self, next') -> loaded files environment self ms
| loaded_file : forall depth n name text ms options next next' self, json_document text (JObject ms) -> files name = Some text -> ends_with (lit ".json") name = true ->
    parse_file_any_syntax files environment depth (S n) name options next = Ok (self, next') -> loaded files environment self ms.
