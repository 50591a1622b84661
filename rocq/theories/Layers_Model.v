(** Transcription of config::with_fallback. *)
From Verif Require Import Base Value_Model.

(** config.cc:495-501, with to_fallback_value of the argument (config.cc:491-493).  A config is its root object. *)
Definition config_with_fallback (self other : value) : result value :=
  v <- with_fallback self other ;;
  if is_object v then Ok v else Throw EBug.

(** a.with_fallback(b).with_fallback(c) and so on, as an application calls it *)
Fixpoint config_with_fallbacks (self : value) (others : list value) : result value :=
  match others with
  | [] => Ok self
  | other :: others' => v <- config_with_fallback self other ;; config_with_fallbacks v others'
  end.
