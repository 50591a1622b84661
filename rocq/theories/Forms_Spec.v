(** The forms an include statement has in a text. *)
From Verif Require Import Base BaseLemmas PathParser_Model Path_Model Doc_Model Value_Model ConfigParser_Model ConfText_Spec Escape_Spec Rfc_Spec Hocon_Spec.

(** Blanks that may be missing. *)
Definition maybe_blank (g : str) : Prop := g = [] \/ blank_text g = true.
(** include "…" *)
Definition plain_include (g w : str) : str := lit "include" ++ g ++ between_quotes w.
(** include f("…") *)
Definition called_include (f g g1 w g2 : str) : str := lit "include" ++ g ++ f ++ lit "(" ++ g1 ++ between_quotes w ++ g2 ++ lit ")".

(** The document [text] asks the includer for the file [named] in the way [kind], and is what it finds: the same fields, or
    the same error. *)
Definition asks (kind : include_kind) (named text : str) : Prop :=
  forall inc next,
    (forall r i m next', inc kind named next = Ok (VObj r i m, next') -> NoDup (map fst m) ->
       exists r', parse_config CONF inc text next = Ok (Some (VObj r' false m), next')) /\
    (forall e, inc kind named next = Throw e -> parse_config CONF inc text next = Throw e).
