(** Transcription of lib/src/config_value_factory.cc and of simple_config_document::with_value
    (lib/src/simple_config_document.cc:35-46).

    Simplifications: an unordered_map is the list of its entries, as in Value_Model; origins are given by
    position, as in Render_Model. *)
From Verif Require Import Base Util_Model Num_Model Path_Model Token_Model PathParser_Model Doc_Model Edit_Model Value_Model Config_Model Render_Model.

(** config_value_factory.cc:15-58: the visitor.  Numbers have no original text, strings count as quoted; the
    constructor of an object looks at the values for its resolve status. *)
Fixpoint from_any_ref (u : unwrapped_value) : value :=
  match u with
  | UBlank => VScalar SNull
  | UString s => VScalar (SStr s true)
  | ULong z => VScalar (SLong z [])
  | UDouble d => VScalar (SDouble d [])
  | UInt z => VScalar (SInt z [])
  | UBool b => VScalar (SBool b)
  | UList l => VList (map from_any_ref l)
  | UMap m => new_object (map (fun ku => (fst ku, from_any_ref (snd ku))) m)
  end.

(** config_value_factory.cc:19-67: only the outermost value is given an origin, those inside keep the null
    pointer they were made with.  A simple_config_origin made of a description has no comments. *)
Definition from_any_ref_notes (description : str) : notes :=
  fun at_ => match at_ with
             | [] => Some (match description with [] => lit "hardcoded value" | _ => description end, [])
             | _ :: _ => None
             end.

(** simple_config_document.cc:35-46 for a value that is not null; [ns] are its origins.
    The text is trimmed by boost::trim, see PathParser_Model. *)
Definition document_with_value (flavor : syntax) (root : list node) (desired : str) (v : value) (ns : notes) : result (list node) :=
  rendered <- render_value (Options false true true true) ns v ;;
  with_value_text flavor root desired (trim rendered).
