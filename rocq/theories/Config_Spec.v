(** Specification vocabulary for the getters. *)
From Verif Require Import Base Util_Model Num_Model Path_Model Token_Model Value_Model Value_Spec Duration_Model Duration_Spec Config_Model.

Definition is_null (v : value) : bool := match v with VScalar SNull => true | _ => false end.

(** The documented conversions; [None]: there is none. *)
Definition or_else (text other : str) : str := match text with [] => other | _ => text end.
Definition as_text (v : value) : option str :=
  match v with
  | VScalar (SBool b) => Some (lit (if b then "true" else "false"))
  | VScalar (SInt z t) | VScalar (SLong z t) => Some (or_else t (string_of_Z z))
  | VScalar (SDouble d t) => Some (or_else t (double_to_string d))
  | VScalar (SStr s _) => Some s
  | _ => None
  end.
Definition as_bool (v : value) : option bool :=
  match v with
  | VScalar (SBool b) => Some b
  | VScalar (SStr s _) =>
      if one_of s ["true"; "yes"; "on"]%string then Some true
      else if one_of s ["false"; "no"; "off"]%string then Some false
      else None
  | _ => None
  end.
Definition as_double (v : value) : option double :=
  match v with
  | VScalar (SInt z _) | VScalar (SLong z _) => Some (int_to_double z)
  | VScalar (SDouble d _) => Some d
  | VScalar (SStr s _) =>
      match lexical_cast_int64 s with Some z => Some (int_to_double z) | None => text_to_double s end
  | _ => None
  end.
(** The number behind a value. *)
Definition as_number (v : value) : option scalar :=
  match v with
  | VScalar (SStr s _) =>
      match lexical_cast_int64 s with
      | Some z => Some (SLong z s)
      | None => match text_to_double s with Some d => Some (SDouble d s) | None => None end
      end
  | VScalar s => if is_number s then Some s else None
  | _ => None
  end.
Definition as_object (v : value) : option (option value) := match v with VObj _ _ _ => Some (Some v) | _ => None end.
Definition as_list (v : value) : option (option (list value)) := match v with VList vs => Some (Some vs) | _ => None end.

(** What a getter should give for the value at its path. *)
Definition outcome {A} (o : option value) (convert : value -> option A) : result A :=
  match o with
  | None => Throw EConfig
  | Some v => if is_null v then Throw ENull else match convert v with Some a => Ok a | None => Throw EConfig end
  end.

(** [n] is the number [d] without its fraction. *)
Definition integer_part (d : double) (n : Z) : Prop :=
  match d with
  | S754_zero _ => n = 0
  | S754_finite s m e =>
      (n = 0 \/ (n < 0 <-> s = true)) /\
      (if 0 <=? e then Z.abs n = Zpos m * 2 ^ e
       else Z.abs n * 2 ^ (- e) <= Zpos m < (Z.abs n + 1) * 2 ^ (- e))
  | _ => False
  end.

(** The integer a stored value stands for. *)
Definition stands_for (v : value) (n : Z) : Prop :=
  match v with
  | VScalar (SInt z _) | VScalar (SLong z _) => n = z
  | VScalar (SDouble d _) => integer_part d n
  | VScalar (SStr s _) =>
      (decimal s n /\ in_int64 n = true) \/
      (lexical_cast_int64 s = None /\ exists d, text_to_double s = Some d /\ integer_part d n)
  | _ => False
  end.

(** Integers that int and int64_t hold. *)
Definition fits32 (n : Z) : Prop := -2147483648 <= n <= 2147483647.
Definition fits64 (n : Z) : Prop := -9223372036854775808 <= n <= 9223372036854775807.

(** A call either returns or raises an exception derived from config_exception. *)
Definition well_behaved {A} (r : result A) : Prop :=
  match r with Ok _ => True | Throw e => is_config_exn e = true | Stuck _ => False end.

(** A leaf: what entry_set lists. *)
Definition leaf (v : value) : Prop := is_object v = false /\ is_null v = false.

(** A number token whose text has neither point nor exponent holds exactly the integer written. *)
Definition whole_text (s : str) : Prop := ~ In "."%char s /\ ~ In "e"%char s /\ ~ In "E"%char s.
Definition exact_integer (t : token) : Prop :=
  match t with
  | TValue (SInt z s) text => s = text /\ (whole_text s -> decimal s z /\ fits32 z)
  | TValue (SLong z s) text => s = text /\ (whole_text s -> decimal s z /\ fits64 z)
  | TValue (SDouble _ s) text => s = text /\ ~ whole_text s
  | _ => True
  end.

(** The value of each element, in order. *)
Definition int_element (v : value) (z : Z) : Prop := exists t, v = VScalar (SInt z t).
Definition long_element (v : value) (z : Z) : Prop := exists t, v = VScalar (SInt z t) \/ v = VScalar (SLong z t).
Definition double_element (v : value) (d : double) : Prop := exists t, v = VScalar (SDouble d t).
Definition string_element (v : value) (s : str) : Prop := exists q, v = VScalar (SStr s q).
Definition bool_element (v : value) (b : bool) : Prop := v = VScalar (SBool b).
(** [r] is the list of the elements at [p], or a config_exception if one of them is of another type. *)
Definition lists_elements {A} (element : value -> A -> Prop) (o : option value) (r : result (list A)) : Prop :=
  match o with
  | Some (VList vs) => (exists l, r = Ok l /\ Forall2 element vs l) \/ (r = Throw EConfig /\ exists v, In v vs /\ forall a, ~ element v a)
  | Some (VScalar SNull) => r = Throw ENull
  | _ => r = Throw EConfig
  end.
