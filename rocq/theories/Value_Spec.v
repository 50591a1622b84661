(** Specification vocabulary for configuration values. *)
From Verif Require Import Base Util_Model Num_Model Path_Model Path_Spec Value_Model.

(** The keys of every object in a value are distinct, as in any unordered_map. *)
Inductive well_keyed : value -> Prop :=
| keyed_scalar : forall s, well_keyed (VScalar s)
| keyed_list : forall vs, Forall well_keyed vs -> well_keyed (VList vs)
| keyed_obj : forall r i m, NoDup (map fst m) -> Forall (fun kv => well_keyed (snd kv)) m -> well_keyed (VObj r i m)
| keyed_ref : forall n p o l, well_keyed (VRef n p o l)
| keyed_concat : forall vs, Forall well_keyed vs -> well_keyed (VConcat vs)
| keyed_merge : forall vs, Forall well_keyed vs -> well_keyed (VMerge vs)
| keyed_merge_obj : forall vs, Forall well_keyed vs -> well_keyed (VMergeObj vs).

(** A resolved value: no substitution, concatenation or delayed merge anywhere in it, and every object
    says so. *)
Inductive plain : value -> Prop :=
| plain_scalar : forall s, plain (VScalar s)
| plain_list : forall vs, Forall plain vs -> plain (VList vs)
| plain_obj : forall i m, NoDup (map fst m) -> Forall (fun kv => plain (snd kv)) m -> plain (VObj true i m).

(** The value at a path, going through objects. *)
Fixpoint get (p : path) (v : value) : option value :=
  match p with
  | [] => Some v
  | k :: p' => match v with
               | VObj _ _ m => match find_key k m with Some w => get p' w | None => None end
               | _ => None
               end
  end.

Definition simple_object (v : value) : Prop := exists r i m, v = VObj r i m.

(** Neither path starts with the other. *)
Definition apart (p q : path) : Prop := ~ is_prefix p q /\ ~ is_prefix q p.

(** A chain of fallbacks. *)
Fixpoint with_fallbacks (v : value) (layers : list value) : result value :=
  match layers with
  | [] => Ok v
  | l :: ls => v' <- with_fallback v l ;; with_fallbacks v' ls
  end.

(** Two numbers with the same 64-bit integer part and the same double value. *)
Definition same_number (a b : scalar) : Prop :=
  is_number a = true /\ is_number b = true /\
  exists l, long_value a = Ok l /\ long_value b = Ok l /\ SFeqb (double_value a) (double_value b) = true.

(** Recursively the same contents: types and values, whatever the order of keys, original texts of numbers
    and quotes of strings. *)
Inductive same_contents : value -> value -> Prop :=
| same_null : same_contents (VScalar SNull) (VScalar SNull)
| same_bool : forall b, same_contents (VScalar (SBool b)) (VScalar (SBool b))
| same_string : forall s q q', same_contents (VScalar (SStr s q)) (VScalar (SStr s q'))
| same_num : forall a b, same_number a b -> same_contents (VScalar a) (VScalar b)
| same_lists : forall vs ws, Forall2 same_contents vs ws -> same_contents (VList vs) (VList ws)
| same_objects : forall r i m r' i' m', List.length m = List.length m' ->
    (forall k v, find_key k m = Some v -> exists w, find_key k m' = Some w /\ same_contents v w) ->
    same_contents (VObj r i m) (VObj r' i' m').

(** No objects, and every double inside the 64-bit range. *)
Inductive object_free : value -> Prop :=
| free_scalar : forall s l, long_value s = Ok l -> (is_number s = true -> SFeqb (double_value s) (double_value s) = true) ->
    object_free (VScalar s)
| free_list : forall vs, Forall object_free vs -> object_free (VList vs).

(** The configuration made of a chain of layers, the first one in front. *)
Definition stack_of (layers : list value) : result value :=
  match layers with [] => Ok empty_object | v :: vs => with_fallbacks v vs end.

(** The same value, perhaps with the note that later fallbacks are to be ignored. *)
Definition kept (v u : value) : Prop := u = v \/ exists r i m, v = VObj r i m /\ u = VObj r true m.
