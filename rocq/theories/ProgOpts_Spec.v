(** Specification vocabulary for program options. *)
From Verif Require Import Base Util_Model Path_Model Value_Model Value_Spec Config_Model Config_Spec.

(** The text of a value that is neither list nor object. *)
Definition option_text (v : value) : option str := if is_null v then Some (lit "null") else as_text v.

(** The values of the option for [w]: one, or one for each element of a list. *)
Fixpoint all_texts (l : list value) : option (list str) :=
  match l with
  | [] => Some []
  | v :: l' => match option_text v, all_texts l' with Some t, Some ts => Some (t :: ts) | _, _ => None end
  end.
Definition option_values (w : value) : option (list str) :=
  match w with VList l => all_texts l | _ => option_map (fun t => [t]) (option_text w) end.

(** The leaf [w] at path [p] of [cfg] is to become an option. *)
Definition wanted (registered : str -> bool) (allow : bool) (cfg : value) (p : path) (w : value) : Prop :=
  p <> [] /\ get p cfg = Some w /\ leaf w /\ (allow = true -> registered (render_path p) = true).
