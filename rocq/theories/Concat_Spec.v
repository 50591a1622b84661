(** Specification vocabulary for concatenation. *)
From Verif Require Import Base Util_Model Num_Model Path_Model Token_Model Value_Model Value_Spec Config_Model Config_Spec Concat_Model.

(** The text of a simple value. *)
Definition piece_text (v : value) : str :=
  match v with
  | VScalar SNull => lit "null"
  | _ => match as_text v with Some t => t | None => [] end
  end.
Definition simple (v : value) : Prop := exists s, v = VScalar s.
Definition unquoted (v : value) : Prop := exists s, v = VScalar (SStr s false).
Definition a_list (v : value) : Prop := exists vs, v = VList vs.

(** The elements of the lists among the pieces, and the objects among them. *)
Definition elements (ps : list value) : list value := flat_map (fun v => match v with VList vs => vs | _ => [] end) ps.
Definition objects (ps : list value) : list value := List.filter is_object ps.

(** What concatenating resolved pieces gives. *)
Inductive concatenation : list value -> result (option value) -> Prop :=
| concat_none : concatenation [] (Ok None)
| concat_one : forall v, concatenation [v] (Ok (Some v))
| concat_texts : forall ps, (2 <= List.length ps)%nat -> Forall (fun v => simple v /\ piece_text v <> []) ps ->
    concatenation ps (Ok (Some (VScalar (SStr (flat_map piece_text ps) true))))
| concat_lists : forall v ps, ps <> [] -> a_list v -> Forall (fun w => a_list w \/ unquoted w) ps ->
    concatenation (v :: ps) (Ok (Some (VList (elements (v :: ps)))))
| concat_objects : forall v ps, ps <> [] -> is_object v = true -> Forall (fun w => is_object w = true \/ unquoted w) ps ->
    (* later objects are in front *)
    concatenation (v :: ps) (o <- stack_of (rev (objects (v :: ps))) ;; Ok (Some o))
| concat_mixed : forall ps, (2 <= List.length ps)%nat ->
    ~ Forall (fun v => simple v /\ piece_text v <> []) ps ->
    ~ (a_list (hd (VList []) ps) /\ Forall (fun w => a_list w \/ unquoted w) (tl ps)) ->
    ~ (is_object (hd (VList []) ps) = true /\ Forall (fun w => is_object w = true \/ unquoted w) (tl ps)) ->
    concatenation ps (Throw EConfig).

(** Replacing references by values. *)
Definition replaced (f : nat -> value) (v : value) : value := match v with VRef n _ _ _ => f n | _ => v end.
Definition good_text (v : value) : Prop := simple v /\ piece_text v <> [].
Definition text_or_ref (v : value) : Prop := good_text v \/ exists n p o l, v = VRef n p o l.
