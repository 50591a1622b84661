(** Specification vocabulary for wrapping and unwrapping. *)
From Verif Require Import Base Util_Model Num_Model Path_Model Token_Model Token_Spec Value_Model Value_Spec Config_Model Render_Model.

(** The same value, but for the text a number was read from, the quotes of a string and the flags of objects. *)
Inductive matching : value -> value -> Prop :=
| m_null : matching (VScalar SNull) (VScalar SNull)
| m_bool : forall b, matching (VScalar (SBool b)) (VScalar (SBool b))
| m_int : forall z t t', matching (VScalar (SInt z t)) (VScalar (SInt z t'))
| m_long : forall z t t', matching (VScalar (SLong z t)) (VScalar (SLong z t'))
| m_double : forall d t t', matching (VScalar (SDouble d t)) (VScalar (SDouble d t'))
| m_string : forall s q q', matching (VScalar (SStr s q)) (VScalar (SStr s q'))
| m_list : forall vs ws, Forall2 matching vs ws -> matching (VList vs) (VList ws)
| m_object : forall r i m r' i' m', Forall2 (fun a b => fst a = fst b /\ matching (snd a) (snd b)) m m' -> matching (VObj r i m) (VObj r' i' m').

(** Every number in the value can be compared: the double is one, and its integer part has 64 bits. *)
Inductive comparable : value -> Prop :=
| c_scalar : forall s, (is_number s = true -> same_number s s) -> comparable (VScalar s)
| c_list : forall vs, Forall comparable vs -> comparable (VList vs)
| c_object : forall r i m, Forall (fun kv => comparable (snd kv)) m -> comparable (VObj r i m).

(** Data that JSON can hold: no doubles, 64-bit integers, strings and non-empty distinct keys of quotable bytes. *)
Inductive data : unwrapped_value -> Prop :=
| d_blank : data UBlank
| d_bool : forall b, data (UBool b)
| d_int : forall z, in_int64 z = true -> data (UInt z)
| d_long : forall z, in_int64 z = true -> data (ULong z)
| d_string : forall s, Forall quotable s -> data (UString s)
| d_list : forall l, Forall data l -> data (UList l)
| d_map : forall m, NoDup (map fst m) -> Forall (fun ku => fst ku <> [] /\ Forall quotable (fst ku) /\ data (snd ku)) m -> data (UMap m).

(** A list or map with something in it. *)
Definition with_parts (u : unwrapped_value) : Prop := match u with UList (_ :: _) | UMap (_ :: _) => True | _ => False end.

(** No part of the value has comments. *)
Definition no_comments (ns : notes) : Prop := forall at_ d cs, ns at_ = Some (d, cs) -> cs = [].
