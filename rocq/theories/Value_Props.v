(** Properties C14-C22: merging, comparing and editing configuration values. *)
From Verif Require Import Base Util_Model Num_Model Path_Model Path_Spec Value_Model Value_Spec Value_Lemmas Value_Lemmas2 Value_Lemmas3.

Definition obj (m : fields) : value := VObj true false m.
Definition num (z : Z) : value := VScalar (SInt z []).
Definition layer_a : value := obj [(lit "x", obj [(lit "k", num 1)]); (lit "y", num 2)].
Definition layer_b : value := obj [(lit "x", obj [(lit "k", num 5); (lit "l", num 6)]); (lit "z", num 3)].
Definition layer_c : value := obj [(lit "x", num 7); (lit "w", obj [(lit "q", num 8)])].
Definition layer_d : value := obj [(lit "x", obj [(lit "m", num 9)])].
Ltac distinct := repeat (constructor; [cbn; let H := fresh in intro H; repeat (destruct H as [H|H]; [discriminate|]); exact H|]); constructor.
Ltac plains := repeat first [apply plain_scalar | apply plain_list | apply plain_obj; [distinct|] | apply Forall_nil | apply Forall_cons; cbn [snd] | assumption].
Example layers_plain : Forall plain [layer_a; layer_b; layer_c; layer_d].
Proof. plains. Qed.

(** C14.  Merging three resolved configurations, left or right first, gives the same value at every path. *)
Theorem fallback_associative : forall a b c, plain a -> plain b -> plain c ->
  exists ab bc l r, with_fallback a b = Ok ab /\ with_fallback b c = Ok bc /\
    with_fallback ab c = Ok l /\ with_fallback a bc = Ok r /\ forall p, get p l = get p r.
Proof. exact merge_assoc. Qed.
Print Assumptions fallback_associative.

Example fallback_associative_ex :
  (ab <- with_fallback layer_a layer_b ;; l <- with_fallback ab layer_c ;; Ok (get [lit "x"; lit "l"] l, get [lit "w"; lit "q"] l)) =
  Ok (Some (num 6), Some (num 8)).
Proof. vm_compute. reflexivity. Qed.

(** Beyond C14: with substitutions in the layers the two ways differ. *)
Theorem fallback_associative_unresolved_refuted : exists a b c ab bc l r,
  with_fallback a b = Ok ab /\ with_fallback b c = Ok bc /\ with_fallback ab c = Ok l /\ with_fallback a bc = Ok r /\ l <> r.
Proof. exact merge_unresolved_bad. Qed.
Print Assumptions fallback_associative_unresolved_refuted.

(** C15.  The merge of two resolved objects, key by key.  The first object must not have been merged with
    a non-object before; otherwise C17 applies to it. *)
Theorem fallback_keywise_partial : forall m i2 m2, plain (VObj true false m) -> plain (VObj true i2 m2) ->
  exists c, with_fallback (VObj true false m) (VObj true i2 m2) = Ok c /\
  forall k, match get [k] (VObj true false m), get [k] (VObj true i2 m2) with
            | Some v, None => get [k] c = Some v
            | None, o => get [k] c = o
            | Some v, Some w =>
                exists u, get [k] c = Some u /\
                  if is_object v && is_object w then with_fallback v w = Ok u else kept v u
            end.
Proof. exact merge_keys. Qed.
Print Assumptions fallback_keywise_partial.

Example fallback_keywise_ex : exists c, with_fallback layer_a layer_b = Ok c /\
  get [lit "y"] c = Some (num 2) /\ get [lit "z"] c = Some (num 3) /\
  get [lit "x"; lit "k"] c = Some (num 1) /\ get [lit "x"; lit "l"] c = Some (num 6).
Proof. eexists. repeat (split; [vm_compute; reflexivity|]). vm_compute. reflexivity. Qed.

(** C16.  Merging a resolved object with itself or with the empty configuration gives that object. *)
Theorem fallback_neutral : forall a, plain a -> simple_object a ->
  with_fallback a a = Ok a /\ with_fallback a empty_object = Ok a /\ with_fallback empty_object a = Ok a.
Proof. exact merge_neutral. Qed.
Print Assumptions fallback_neutral.

Example fallback_neutral_ex : with_fallback layer_b layer_b = Ok layer_b /\ with_fallback empty_object layer_b = Ok layer_b.
Proof. split; vm_compute; reflexivity. Qed.

(** C17.  A layer with a non-object at a path hides all layers behind it at and below that path. *)
Theorem non_object_hides_layers : forall front b back p x, Forall plain front -> plain b -> Forall plain back ->
  get p b = Some x -> is_object x = false ->
  exists v w, stack_of (front ++ [b]) = Ok v /\ stack_of (front ++ b :: back) = Ok w /\
    forall q, get (p ++ q) w = get (p ++ q) v.
Proof. exact non_object_hides. Qed.
Print Assumptions non_object_hides_layers.

Example non_object_hides_layers_ex :
  get [lit "x"] layer_c = Some (num 7) /\
  (w <- stack_of [layer_a; layer_b; layer_c; layer_d] ;; Ok (get [lit "x"; lit "l"] w, get [lit "x"; lit "m"] w)) = Ok (Some (num 6), None) /\
  (w <- stack_of [layer_a; layer_b; layer_d] ;; Ok (get [lit "x"; lit "m"] w)) = Ok (Some (num 9)).
Proof. repeat split; vm_compute; reflexivity. Qed.

(** C18, the true half: values with the same contents compare equal, both ways.  Missing: the converse,
    and that a comparison never throws; both are false. *)
Theorem same_contents_equal_partial : forall a b, well_keyed a -> well_keyed b -> same_contents a b ->
  value_eq a b = Ok true /\ value_eq b a = Ok true.
Proof. exact contents_equal. Qed.
Print Assumptions same_contents_equal_partial.

(** C18 for values without objects: comparing never throws, is an equivalence, and means equal contents. *)
Theorem equality_without_objects_partial : forall a b, object_free a -> object_free b ->
  (exists e, value_eq a b = Ok e /\ (e = true <-> same_contents a b)) /\
  value_eq a a = Ok true /\ value_eq b a = value_eq a b /\
  (forall c, object_free c -> value_eq a b = Ok true -> value_eq b c = Ok true -> value_eq a c = Ok true).
Proof. exact equality_free. Qed.
Print Assumptions equality_without_objects_partial.

Example equality_ex :
  value_eq (obj [(lit "a", num 1); (lit "b", VList [num 2])]) (obj [(lit "b", VList [VScalar (SLong 2 [])]); (lit "a", num 1)]) = Ok true /\
  object_free (VList [num 1; VScalar (SStr (lit "s") true)]) /\
  value_eq (VList [num 1; VScalar (SStr (lit "s") true)]) (VList [VScalar (SDouble (int_to_double 1) []); VScalar (SStr (lit "s") false)]) = Ok true.
Proof.
  split; [vm_compute; reflexivity|]. split; [|vm_compute; reflexivity]. constructor. repeat constructor; econstructor; reflexivity.
Qed.

(** C18, refuted for objects: unequal objects may compare equal, comparison need not be symmetric (the
    order in which the entries of a map come decides), and it may throw std::out_of_range. *)
Theorem equality_of_objects_refuted :
  (exists a b, plain a /\ plain b /\ value_eq a b = Ok true /\ ~ same_contents a b) /\
  (exists a b, plain a /\ plain b /\ value_eq a b = Ok true /\ value_eq b a = Ok false) /\
  (exists a b, plain a /\ plain b /\ value_eq a b = Throw EOutOfRange).
Proof. exact equality_bad. Qed.
Print Assumptions equality_of_objects_refuted.

(** C19, for a single key that is absent.  Missing: keys that are present and longer paths, where it is
    false. *)
Theorem with_value_stores_partial : forall r i m k v, find_key k m = None ->
  exists w, with_value (VObj r i m) [k] v = Ok w /\ get [k] w = Some v /\ forall p, apart [k] p -> get p w = get p (VObj r i m).
Proof. exact with_value_new. Qed.
Print Assumptions with_value_stores_partial.

(** C19, for all paths: whatever was there before is there afterwards. *)
Theorem with_value_keeps_partial : forall p this v w, with_value this p v = Ok w ->
  forall q x, q <> [] -> get q this = Some x -> get q w = Some x.
Proof. exact with_value_keeps. Qed.
Print Assumptions with_value_keeps_partial.

Example with_value_ex : exists w, with_value layer_a [lit "new"] (num 4) = Ok w /\
  get [lit "new"] w = Some (num 4) /\ get [lit "x"; lit "k"] w = Some (num 1).
Proof. eexists. repeat (split; [vm_compute; reflexivity|]). vm_compute. reflexivity. Qed.

(** C19, refuted: a present key keeps its old value; a longer path is written at the wrong place, or the
    call throws std::bad_weak_ptr. *)
Theorem with_value_refuted :
  (exists this k v w, plain this /\ with_value this [k] v = Ok w /\ get [k] w <> Some v) /\
  (exists this k1 k2 v w, plain this /\ with_value this [k1; k2] v = Ok w /\ get [k1; k2] w = None /\ get [k2] this = None /\ get [k2] w = Some v) /\
  (exists this k1 k2 v, plain this /\ simple_object this /\ with_value this [k1; k2] v = Throw EBadWeakPtr).
Proof. exact with_value_bad. Qed.
Print Assumptions with_value_refuted.

(** C20, first half: afterwards there is nothing at the path. *)
Theorem without_path_removes : forall p this, p <> [] -> plain this -> simple_object this ->
  exists w, without_path this p = Ok w /\ plain w /\ simple_object w /\ get p w = None.
Proof. exact without_path_gone. Qed.
Print Assumptions without_path_removes.

(** C20, second half, for the other paths below the same parent; for a single key these are all paths.
    Missing: paths elsewhere, where it is false. *)
Theorem without_path_keeps_siblings_partial : forall parent k q this w, without_path this (parent ++ [k]) = Ok w ->
  ~ is_prefix [k] q -> q <> [] -> get (parent ++ q) w = get (parent ++ q) this.
Proof. exact without_path_siblings. Qed.
Print Assumptions without_path_keeps_siblings_partial.

Example without_path_ex : exists w, without_path layer_b [lit "x"; lit "k"] = Ok w /\
  get [lit "x"; lit "k"] w = None /\ get [lit "x"; lit "l"] w = Some (num 6).
Proof. eexists. repeat (split; [vm_compute; reflexivity|]). vm_compute. reflexivity. Qed.

(** C20, refuted: removing a nested path drops the other keys of the objects above it. *)
Theorem without_path_refuted : exists this p q x w, plain this /\ ~ is_prefix p q /\ get q this = Some x /\
  without_path this p = Ok w /\ get q w = None.
Proof. exact without_path_bad. Qed.
Print Assumptions without_path_refuted.

(** C21, the half that nothing else is kept. *)
Theorem with_only_path_nothing_else_partial : forall this p w, with_only_path this p = Ok w -> forall q, q <> [] -> get q w = None.
Proof. exact with_only_path_empty. Qed.
Print Assumptions with_only_path_nothing_else_partial.

Example with_only_path_ex : with_only_path layer_a [lit "x"; lit "k"] = Ok (obj []).
Proof. vm_compute. reflexivity. Qed.

(** C21, refuted: the value at the path is lost, and an absent path dereferences a null pointer. *)
Theorem with_only_path_refuted :
  (exists this p x w, plain this /\ get p this = Some x /\ with_only_path this p = Ok w /\ get p w = None) /\
  (exists this p, plain this /\ simple_object this /\ p <> [] /\ with_only_path this p = Stuck UNullDeref).
Proof. exact with_only_path_bad. Qed.
Print Assumptions with_only_path_refuted.

(** C22, refuted for every value, key and path: wrapping always throws std::bad_weak_ptr. *)
Theorem at_path_wraps_refuted : forall v k p, p <> [] -> at_key v k = Throw EBadWeakPtr /\ at_path v p = Throw EBadWeakPtr.
Proof. exact at_path_bad. Qed.
Print Assumptions at_path_wraps_refuted.
