(** C69: which values can be a root when they are rendered as HOCON. *)
From Verif Require Import Base Util_Model Num_Model Path_Model Token_Model Value_Model.

(** A list at the root passes on to its elements that they are at the root, and an object at the root has no
    braces: only values without an object in a list are safe there. *)
Inductive no_objects : value -> Prop :=
| flat_scalar : forall s, no_objects (VScalar s)
| flat_list : forall vs, Forall no_objects vs -> no_objects (VList vs).

(** Objects may hold any value: their fields are not at the root. *)
Definition a_root (v : value) : Prop := match v with VObj _ _ _ => True | VList _ => no_objects v | _ => False end.
