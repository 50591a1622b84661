(** Specification vocabulary for rendering. *)
From Verif Require Import Base Util_Model Num_Model Path_Model Token_Model Token_Spec Value_Model Render_Model.
From Coq Require Import Permutation.

(** The same value, except for the order in which the entries of its objects are stored and for the flags
    of its objects. *)
Inductive reordered : value -> value -> Prop :=
| re_scalar : forall s, reordered (VScalar s) (VScalar s)
| re_list : forall vs ws, Forall2 reordered vs ws -> reordered (VList vs) (VList ws)
| re_obj : forall r i m r' i' m' m'', Permutation m m' -> Forall2 (fun a b => fst a = fst b /\ reordered (snd a) (snd b)) m' m'' ->
    reordered (VObj r i m) (VObj r' i' m'')
| re_ref : forall n n' p o l l', reordered (VRef n p o l) (VRef n' p o l')
| re_concat : forall vs ws, Forall2 reordered vs ws -> reordered (VConcat vs) (VConcat ws)
| re_merge : forall vs ws, Forall2 reordered vs ws -> reordered (VMerge vs) (VMerge ws)
| re_merge_obj : forall vs ws, Forall2 reordered vs ws -> reordered (VMergeObj vs) (VMergeObj ws).

(** The decimal text of an integer: perhaps a minus sign, then at least one digit. *)
Definition decimal (z : Z) (t : str) : Prop :=
  exists sign ds, t = sign ++ ds /\ (sign = [] \/ sign = lit "-") /\ ds <> [] /\ forallb isdigit ds = true /\
    z = if match sign with [] => false | _ => true end then - dec ds else dec ds.

(** Values as the property has them: nulls, booleans, 64-bit integers (created by a program, without a text, or
    read with their decimal text), other numbers as the tokenizer reads them, strings of quotable bytes, lists, and
    objects with distinct keys of quotable bytes.  The empty key is left out. *)
Inductive writable : value -> Prop :=
| w_null : writable (VScalar SNull)
| w_bool : forall b, writable (VScalar (SBool b))
| w_string : forall s q, Forall quotable s -> writable (VScalar (SStr s q))
| w_int : forall z t, in_int64 z = true -> (t = [] \/ decimal z t) -> writable (VScalar (SInt z t))
| w_long : forall z t, in_int64 z = true -> (t = [] \/ decimal z t) -> writable (VScalar (SLong z t))
| w_number : forall n c more, mem c first_number_chars = true -> Forall (fun c => mem c number_chars = true) more ->
    number_token more (c :: more) = Ok (TValue n (c :: more)) -> writable (VScalar n)
| w_list : forall vs, Forall writable vs -> writable (VList vs)
| w_obj : forall r i m, NoDup (map fst m) ->
    Forall (fun kv => fst kv <> [] /\ Forall quotable (fst kv) /\ writable (snd kv)) m -> writable (VObj r i m).

(** No comment attached to a part of the value holds a line break, and every part has an origin. *)
Definition one_line_comments (ns : notes) : Prop :=
  forall at_, exists d cs, ns at_ = Some (d, cs) /\ Forall (fun c => ~ In nl c) cs.

(** What a document can hold at its root. *)
Definition a_document (v : value) : Prop := match v with VObj _ _ _ | VList _ => True | _ => False end.
