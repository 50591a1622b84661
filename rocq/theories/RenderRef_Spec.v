(** C70: values that are not resolved. *)
From Verif Require Import Base Util_Model Num_Model Path_Model Token_Model Token_Spec PathParser_Spec Value_Model Value_Spec Render_Model Render_Spec.

Definition is_reference (v : value) : bool := match v with VRef _ _ _ _ => true | _ => false end.
Definition is_concatenation (v : value) : bool := match v with VConcat _ => true | _ => false end.

(** Of two pieces side by side one is a reference: other pieces have been joined. *)
Fixpoint apart (vs : list value) : Prop :=
  match vs with
  | a :: (b :: _) as vs' => (is_reference a = true \/ is_reference b = true) /\ apart vs'
  | _ => True
  end.

(** Something below is left to be resolved. *)
Fixpoint is_open (v : value) : bool :=
  match v with
  | VScalar _ => false
  | VList vs => existsb is_open vs
  | VObj _ _ m => (fix go (m : fields) := match m with [] => false | (_, v) :: m' => is_open v || go m' end) m
  | VRef _ _ _ _ | VConcat _ | VMerge _ | VMergeObj _ => true
  end.

(** The layers of an unresolved merge, the first wins: all but the last wait for what is below them, and the last two
    cannot be merged.  An object on an object has been merged, and an object with nothing left to be resolved hides
    what is no object. *)
Definition waits (v : value) : bool := match v with VObj _ i _ => negb i | _ => is_open v end.
Definition unmergeable (a b : value) : bool := is_reference b || is_concatenation b || is_open a && negb (is_object a && is_object b).
Fixpoint layered (vs : list value) : Prop :=
  match vs with
  | [a; b] => waits a = true /\ unmergeable a b = true
  | a :: (_ :: _) as vs' => waits a = true /\ layered vs'
  | _ => False
  end.
Definition is_merge (v : value) : bool := match v with VMerge _ | VMergeObj _ => true | _ => false end.
Definition merge_of (vs : list value) : value := match vs with VObj _ _ _ :: _ => VMergeObj vs | _ => VMerge vs end.

(** Values as in C23 ([writable]) with references and concatenations anywhere below and, if [merges] allows it,
    unresolved merges as values of fields.  The keys of the path of a reference are made of quotable bytes, and the
    first does not begin like a number or a keyword unless it is written in quotes, as in C01. *)
Inductive pending (merges : bool) : value -> Prop :=
| p_scalar : forall s, writable (VScalar s) -> pending merges (VScalar s)
| p_list : forall vs, Forall (fun v => is_merge v = false) vs -> Forall (pending merges) vs -> pending merges (VList vs)
| p_obj : forall r i m, NoDup (map fst m) ->
    Forall (fun kv => fst kv <> [] /\ Forall quotable (fst kv) /\ pending merges (snd kv)) m -> pending merges (VObj r i m)
| p_ref : forall n p o l, p <> [] -> Forall (Forall quotable) p -> word_key (hd [] p) -> pending merges (VRef n p o l)
| p_concat : forall vs, (2 <= List.length vs)%nat -> apart vs -> Forall (fun v => is_concatenation v = false) vs -> Forall (fun v => is_merge v = false) vs ->
    Forall (pending merges) vs -> pending merges (VConcat vs)
| p_merge : forall vs, merges = true -> layered vs -> Forall (fun v => is_merge v = false) vs -> Forall (pending merges) vs -> pending merges (merge_of vs).

(** The same contents, where references may be unresolved: the same path and the same kind of reference.  As in
    [same_contents] the order of the entries of an object and the quotes of a string do not count. *)
Inductive alike : value -> value -> Prop :=
| alike_scalar : forall s s', same_contents (VScalar s) (VScalar s') -> alike (VScalar s) (VScalar s')
| alike_lists : forall vs ws, Forall2 alike vs ws -> alike (VList vs) (VList ws)
| alike_objects : forall r i m r' i' m', List.length m = List.length m' ->
    (forall k v, find_key k m = Some v -> exists w, find_key k m' = Some w /\ alike v w) -> alike (VObj r i m) (VObj r' i' m')
| alike_refs : forall n n' p o l l', alike (VRef n p o l) (VRef n' p o l')
| alike_concats : forall vs ws, Forall2 alike vs ws -> alike (VConcat vs) (VConcat ws)
| alike_merges : forall vs ws, Forall2 alike vs ws -> alike (VMerge vs) (VMerge ws)
| alike_merge_objects : forall vs ws, Forall2 alike vs ws -> alike (VMergeObj vs) (VMergeObj ws).

(** Which options and descriptions are covered for merges: the fields of a merge are followed by a newline if the output
    is formatted, so that with JSON output a separating comma stands on the next line, which is left out here, and a
    description in a comment must not end the comment. *)
Definition merges_fit (o : options) (ns : notes) : Prop :=
  (formatted o = true -> json o = false) /\ (comments o = true -> formatted o = true /\ forall at_ d cs, ns at_ = Some (d, cs) -> ~ In nl d).

(** Lists at the root pass on to their elements that they are at the root, where objects are written without braces
    or followed by a newline. *)
Inductive no_objects_below : value -> Prop :=
| nob_scalar : forall s, no_objects_below (VScalar s)
| nob_list : forall vs, Forall no_objects_below vs -> no_objects_below (VList vs)
| nob_ref : forall n p o l, no_objects_below (VRef n p o l)
| nob_concat : forall vs, Forall no_objects_below vs -> no_objects_below (VConcat vs).
Definition a_pending_root (v : value) : Prop := match v with VObj _ _ _ => True | VList _ => no_objects_below v | _ => False end.

(** What a config is built of, whatever text it has: the keys of an object differ, an object knows whether something
    below is left to be resolved, the pieces of a concatenation that can be joined have been joined, what is below an
    element or a piece stands in an object before it can be merged, and layers that can be merged have been merged. *)
Inductive formed : value -> Prop :=
| f_scalar : forall s, formed (VScalar s)
| f_list : forall vs, Forall (fun v => is_merge v = false) vs -> Forall formed vs -> formed (VList vs)
| f_obj : forall r i m, NoDup (map fst m) -> r = negb (is_open (VObj r i m)) -> Forall (fun kv => formed (snd kv)) m -> formed (VObj r i m)
| f_ref : forall n p o l, formed (VRef n p o l)
| f_concat : forall vs, (2 <= List.length vs)%nat -> apart vs -> Forall (fun v => is_concatenation v = false) vs -> Forall (fun v => is_merge v = false) vs ->
    Forall formed vs -> formed (VConcat vs)
| f_merge : forall vs, (Forall (fun v => is_merge v = false) vs -> layered vs) -> Forall formed vs -> formed (merge_of vs).

(** What its text has to be like, and that no layer of a merge is a merge itself. *)
Inductive clean (merges : bool) : value -> Prop :=
| c_scalar : forall s, writable (VScalar s) -> clean merges (VScalar s)
| c_list : forall vs, Forall (clean merges) vs -> clean merges (VList vs)
| c_obj : forall r i m, Forall (fun kv => fst kv <> [] /\ Forall quotable (fst kv) /\ clean merges (snd kv)) m -> clean merges (VObj r i m)
| c_ref : forall n p o l, p <> [] -> Forall (Forall quotable) p -> word_key (hd [] p) -> clean merges (VRef n p o l)
| c_concat : forall vs, Forall (clean merges) vs -> clean merges (VConcat vs)
| c_merge : forall vs, merges = true -> Forall (fun v => is_merge v = false) vs -> Forall (clean merges) vs -> clean merges (VMerge vs)
| c_merge_object : forall vs, merges = true -> Forall (fun v => is_merge v = false) vs -> Forall (clean merges) vs -> clean merges (VMergeObj vs).
