(** Property C33: concatenation of values. *)
From Verif Require Import Base Util_Model Num_Model Path_Model Token_Model Value_Model Value_Spec Value_Props Config_Model Config_Spec Concat_Model Concat_Spec Concat_Lemmas.

Definition word (s : string) : value := VScalar (SStr (lit s) false).

(** C33.  Every outcome of concatenating resolved values: texts are joined in order, lists are appended,
    objects are merged with later ones in front, and everything else raises.  Missing (false, see below): a
    text may be empty; unquoted text after a list or object is an error. *)
Theorem concatenation_rules_partial : forall ps, Forall plain ps -> concatenation ps (concatenate ps).
Proof. exact concat_outcome. Qed.
Print Assumptions concatenation_rules_partial.

Example concatenation_rules_ex :
  concatenate [num 1; word " "; VScalar (SBool true); VScalar (SStr (lit "x") true)] = Ok (Some (VScalar (SStr (lit "1 truex") true))) /\
  concatenate [VList [num 1]; word " "; VList [num 2; num 3]] = Ok (Some (VList [num 1; num 2; num 3])) /\
  concatenate [obj [(lit "a", num 1); (lit "b", num 1)]; obj [(lit "b", num 2)]; obj [(lit "c", num 3)]] =
    Ok (Some (obj [(lit "c", num 3); (lit "b", num 2); (lit "a", num 1)])) /\
  concatenate [VList [num 1]; num 2] = Throw EConfig /\ concatenate [obj []; VList []] = Throw EConfig.
Proof. repeat split; vm_compute; reflexivity. Qed.

(** C33.  The result does not depend on the grouping: a first part can be joined beforehand ... *)
Theorem concatenation_groups_left : forall xs ys v, xs <> [] -> ys <> [] -> Forall plain xs -> Forall plain ys ->
  concatenate xs = Ok (Some v) -> concatenate (xs ++ ys) = concatenate (v :: ys).
Proof. exact group_left. Qed.
Print Assumptions concatenation_groups_left.

(** ... and so can a last part, among simple values, among lists and among objects. *)
Theorem concatenation_groups_right_partial : forall xs ys v, xs <> [] -> ys <> [] -> Forall plain (xs ++ ys) ->
  Forall good_text (xs ++ ys) \/ Forall a_list (xs ++ ys) \/ Forall (fun w => is_object w = true) (xs ++ ys) ->
  concatenate ys = Ok (Some v) -> concatenate (xs ++ ys) = concatenate (xs ++ [v]).
Proof. exact group_right. Qed.
Print Assumptions concatenation_groups_right_partial.

(** C33.  Among simple values, joining what is known before the substitutions are resolved changes nothing. *)
Theorem concatenation_before_resolving : forall (f : nat -> value) ps cs,
  Forall text_or_ref ps -> (forall n, good_text (f n)) -> (2 <= List.length cs)%nat ->
  consolidate ps = Ok cs -> concatenate (map (replaced f) cs) = concatenate (map (replaced f) ps).
Proof. exact early_join_same. Qed.
Print Assumptions concatenation_before_resolving.

Example grouping_ex :
  concatenate [word "a"; word " "; word "b"] = Ok (Some (VScalar (SStr (lit "a b") true))) /\
  concatenate [word "a"; VScalar (SStr (lit " b") true)] = Ok (Some (VScalar (SStr (lit "a b") true))) /\
  consolidate [word "a"; word " "; VRef 0 [lit "x"] false 0; word " "; word "b"] =
    Ok [VScalar (SStr (lit "a ") true); VRef 0 [lit "x"] false 0; VScalar (SStr (lit " b") true)].
Proof. repeat split; vm_compute; reflexivity. Qed.

(** C33, refuted: joining with an empty string raises; any unquoted text after a list is dropped; and whether
    text between lists is an error depends on the grouping. *)
Theorem concatenation_rules_refuted :
  concatenate [VScalar (SStr [] true); word "a"] = Throw EConfig /\
  concatenate [VList [num 1]; word "text"] = Ok (Some (VList [num 1])) /\
  concatenate [word "text"; VList [num 1]] = Throw EConfig /\
  concatenate [VList [num 1]; word " "; VScalar (SStr (lit "a") false)] = Ok (Some (VList [num 1])) /\
  concatenate [VList [num 1]; VScalar (SStr (lit " a") true)] = Throw EConfig /\
  concatenate [word " "; word "a"] = Ok (Some (VScalar (SStr (lit " a") true))).
Proof. repeat split; vm_compute; reflexivity. Qed.
Print Assumptions concatenation_rules_refuted.
