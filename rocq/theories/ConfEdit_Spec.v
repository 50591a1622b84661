(** Specification vocabulary for editing HOCON documents. *)
From Verif Require Import Base Util_Model Num_Model Path_Model Path_Spec Token_Model PathParser_Model Doc_Model Edit_Model Edit_Spec Value_Model Value_Spec Concat_Model ConfigParser_Model.

(** The text is accepted as HOCON and means [v], whatever an includer would say and with no substitution made: so nothing
    in it depends on an include, a substitution or [+=]. *)
Definition conf_text (text : str) (v : value) : Prop :=
  forall inc next, parse_config CONF inc text next = Ok (Some v, next).

(** The same for the nodes of a document, and for the node of a value. *)
Definition conf_nodes (ns : list node) (v : value) : Prop :=
  forall inc next, parse_root_nodes CONF inc None ns next = Ok (Some v, next).
Definition stands_for (n : node) (v : value) : Prop :=
  forall inc st ac next, parse_value CONF inc n st ac next = Ok (v, next).

(** The values of the fields on the way to a path: of those whose key is above it, and further down in their objects. *)
Inductive on_way : path -> list node -> node -> Prop :=
| way_here : forall p cs fc r v, In (NField fc) cs -> relate (key_of fc) p = Above r -> value_of fc = Some v -> on_way p cs v
| way_below : forall p cs fc r ocs v, In (NField fc) cs -> relate (key_of fc) p = Above r -> value_of fc = Some (NObject ocs) ->
    on_way r ocs v -> on_way p cs v.

(** The text of a value is accepted and means [w]. *)
Definition conf_value_text (text : str) (w : value) : Prop :=
  exists n, parse_value_text CONF text = Ok (Some n) /\ stands_for n w.

(** A node without blanks, newlines, comments, commas and braces, and without the text of keys: what is left are the
    fields, with their keys and the kind of separator, and the values. *)
Definition is_layout (n : node) : bool :=
  match n with NTok (TColon | TEquals | TPlusEquals) => false | NTok _ | NComment _ => true | _ => false end.
Fixpoint bones (n : node) : node :=
  match n with
  | NPath p => NPath (fst p, [])
  | NField cs => NField (flat_map (fun c => if is_layout c then [] else [bones c]) cs)
  | NConcat cs => NConcat (flat_map (fun c => if is_layout c then [] else [bones c]) cs)
  | NArray cs => NArray (flat_map (fun c => if is_layout c then [] else [bones c]) cs)
  | NObject cs => NObject (flat_map (fun c => if is_layout c then [] else [bones c]) cs)
  | _ => n
  end.
Definition root_bones (ns : list node) : list node := flat_map (fun c => match c with NTok _ | NComment _ => [] | _ => [bones c] end) ns.

(** The text of a document is read as a document of the same fields and values. *)
Definition reread (ns : list node) : Prop := exists ns', parse_document CONF (render_document ns) = Ok ns' /\ root_bones ns' = root_bones ns.
