(** Specification vocabulary for resolving. *)
From Verif Require Import Base Num_Model Path_Model Value_Model Value_Spec Concat_Model.

(** No substitution, concatenation or delayed merge anywhere inside. *)
Inductive settled : value -> Prop :=
| settled_scalar : forall s, settled (VScalar s)
| settled_list : forall vs, Forall settled vs -> settled (VList vs)
| settled_object : forall r i m, Forall (fun kv => settled (snd kv)) m -> settled (VObj r i m).

(** Every reference satisfies [Q], and an object that claims to be resolved has resolved fields. *)
Inductive sound (Q : nat -> path -> bool -> Z -> Prop) : value -> Prop :=
| sound_scalar : forall s, sound Q (VScalar s)
| sound_list : forall vs, Forall (sound Q) vs -> sound Q (VList vs)
| sound_object : forall r i m, (r = true -> fields_resolved m = true) -> Forall (fun kv => sound Q (snd kv)) m -> sound Q (VObj r i m)
| sound_reference : forall id p o l, Q id p o l -> sound Q (VRef id p o l)
| sound_concat : forall vs, Forall (sound Q) vs -> sound Q (VConcat vs)
| sound_merge : forall vs, Forall (sound Q) vs -> sound Q (VMerge vs)
| sound_merge_object : forall vs, Forall (sound Q) vs -> sound Q (VMergeObj vs).

(** Objects tell the truth about being resolved. *)
Definition truthful : value -> Prop := sound (fun _ _ _ _ => True).

(** A reference with which resolving is sure to end: an optional one has one key and the environment is not
    used; if the environment is used, unresolved references are not allowed and the environment has no value
    for this one. *)
Definition bounded (allow use : bool) (env : list (str * str)) (id : nat) (p : path) (optional : bool) (prefix : Z) : Prop :=
  prefix = 0 /\
  (optional = true -> use = false /\ exists k, p = [k]) /\
  (use = true -> allow = false /\ forall k, p = [k] -> ~ In k (map fst env)).

(** [x] is [v] or inside it. *)
Inductive inside (x : value) : value -> Prop :=
| inside_self : inside x x
| inside_list : forall v vs, In v vs -> inside x v -> inside x (VList vs)
| inside_object : forall r i m k v, In (k, v) m -> inside x v -> inside x (VObj r i m)
| inside_concat : forall v vs, In v vs -> inside x v -> inside x (VConcat vs)
| inside_merge : forall v vs, In v vs -> inside x v -> inside x (VMerge vs)
| inside_merge_object : forall v vs, In v vs -> inside x v -> inside x (VMergeObj vs).

(** Walking down the path one meets objects only, before the last key. *)
Fixpoint direct (p : path) (v : value) : Prop :=
  match p with
  | [] => True
  | k :: p' =>
      match v with
      | VObj _ _ m => p' = [] \/ forall w, In (k, w) m -> direct p' w
      | VScalar _ | VList _ => True
      | _ => False
      end
  end.

(** Values without delayed merges whose references have direct paths in [R]. *)
Inductive web (R : value) : value -> Prop :=
| web_scalar : forall s, web R (VScalar s)
| web_list : forall vs, Forall (web R) vs -> web R (VList vs)
| web_object : forall r i m, (r = true -> fields_resolved m = true) -> Forall (fun kv => web R (snd kv)) m -> web R (VObj r i m)
| web_reference : forall id p o, p <> [] -> direct p R -> web R (VRef id p o 0)
| web_concat : forall vs, Forall (web R) vs -> web R (VConcat vs).

(** What is there, in order. *)
Definition present (rs : list (option value)) : list value :=
  flat_map (fun r => match r with Some v => [v] | None => [] end) rs.
Definition present_fields (rs : list (str * option value)) : fields :=
  flat_map (fun kr => match snd kr with Some v => [(fst kr, v)] | None => [] end) rs.

(** The definitions [vs] of one field, the last one in front, each over the ones behind it. *)
Definition layers (vs : list value) : result (option value) :=
  match vs with
  | [] => Ok None
  | v :: vs' => w <- fold_left (fun above v => a <- above ;; with_fallback a v) vs' (Ok v) ;; Ok (Some w)
  end.
(** The definitions in a delayed merge. *)
Definition definitions (v : value) : option (list value) :=
  match v with VMerge vs | VMergeObj vs => Some vs | _ => None end.

(** What a value means in the object [R], and with the environment if it is used.  [None] is nothing.
    [above] are the references being looked up. *)
Section Means.
Variable environment : option (list (str * str)).
Variable R : value.
Definition from_environment (p : path) : option str :=
  match environment, p with
  | Some env, [k] => match find (fun kv => str_eqb k (fst kv)) env with Some kv => Some (snd kv) | None => None end
  | _, _ => None
  end.
Inductive means : list nat -> value -> option value -> Prop :=
| means_scalar : forall above s, means above (VScalar s) (Some (VScalar s))
| means_list : forall above vs rs, means_each above vs rs -> means above (VList vs) (Some (VList (present rs)))
| means_object : forall above r i m rs, means_fields above m rs -> means above (VObj r i m) (Some (VObj true i (present_fields rs)))
| means_concat : forall above vs rs w, means_each above vs rs -> consolidate (present rs) = Ok [w] -> means above (VConcat vs) (Some w)
| means_concat_nothing : forall above vs rs, means_each above vs rs -> present rs = [] -> means above (VConcat vs) None
(* a delayed merge means its definitions, over each other *)
| means_merge : forall above v vs rs w, definitions v = Some vs -> means_each above vs rs -> layers (present rs) = Ok w -> means above v w
(* a substitution means what the value at its path means *)
| means_found : forall above id p o l v w, get p R = Some v -> means (id :: above) v (Some w) -> means above (VRef id p o l) (Some w)
| means_found_nothing : forall above id p l v, get p R = Some v -> means (id :: above) v None -> means above (VRef id p true l) None
(* an optional one that leads back to one being looked up is nothing *)
| means_cycle : forall above id p l v id' p' o' l', get p R = Some v -> inside (VRef id' p' o' l') v -> In id' (id :: above) -> means above (VRef id p true l) None
(* only if there is no value at the path, the environment counts *)
| means_environment : forall above id p o l t, get p R = None -> from_environment p = Some t -> means above (VRef id p o l) (Some (VScalar (SStr t true)))
| means_undefined : forall above id p l, get p R = None -> from_environment p = None -> means above (VRef id p true l) None
with means_each : list nat -> list value -> list (option value) -> Prop :=
| each_nil : forall above, means_each above [] []
| each_cons : forall above v r vs rs, means above v r -> means_each above vs rs -> means_each above (v :: vs) (r :: rs)
with means_fields : list nat -> fields -> list (str * option value) -> Prop :=
| fields_nil : forall above, means_fields above [] []
| fields_cons : forall above k v r m rs, means above v r -> means_fields above m rs -> means_fields above ((k, v) :: m) ((k, r) :: rs).
End Means.

(** The value at the path [p] needs the value at the path [q]. *)
Definition leads (R : value) (p q : path) : Prop :=
  exists v w id l, get p R = Some v /\ inside (VRef id q false l) v /\ get q R = Some w.
(** Every substitution in [v] has a value in [R]. *)
Definition known (R v : value) : Prop := forall id p o l, inside (VRef id p o l) v -> get p R <> None.

(** Values whose references have direct paths in [R], delayed merges included, but those only as fields. *)
Inductive mesh (R : value) : value -> Prop :=
| mesh_scalar : forall s, mesh R (VScalar s)
| mesh_list : forall vs, Forall (mesh R) vs -> Forall (fun v => definitions v = None) vs -> mesh R (VList vs)
| mesh_object : forall r i m, (r = true -> fields_resolved m = true) -> Forall (fun kv => mesh R (snd kv)) m -> mesh R (VObj r i m)
| mesh_reference : forall id p o, p <> [] -> direct p R -> mesh R (VRef id p o 0)
| mesh_concat : forall vs, Forall (mesh R) vs -> Forall (fun v => definitions v = None) vs -> mesh R (VConcat vs)
| mesh_merge : forall v vs, definitions v = Some vs -> Forall (mesh R) vs -> mesh R v.
(** Following the substitutions in [v] one comes to the path [p]. *)
Inductive comes_to (R v : value) : path -> Prop :=
| comes_first : forall id p o l, inside (VRef id p o l) v -> comes_to R v p
| comes_next : forall p w id q o l, comes_to R v p -> get p R = Some w -> inside (VRef id q o l) w -> comes_to R v q.
(** Following the substitutions in a definition of a field, a substitution or concatenation, one never comes to a
    value with the field in it: no self-reference. *)
Definition never_back (R : value) : Prop := forall v vs e p w, inside v R -> definitions v = Some vs -> In e vs -> is_unmergeable e = true ->
  comes_to R e p -> get p R = Some w -> ~ inside v w.

(** No concatenation, no delayed merge, no optional substitution; objects say exactly whether they are resolved. *)
Inductive tidy (R : value) : value -> Prop :=
| tidy_scalar : forall s, tidy R (VScalar s)
| tidy_list : forall vs, Forall (tidy R) vs -> tidy R (VList vs)
| tidy_object : forall i m, Forall (fun kv => tidy R (snd kv)) m -> tidy R (VObj (fields_resolved m) i m)
| tidy_reference : forall id p, p <> [] -> direct p R -> tidy R (VRef id p false 0).
(** The value at [p] has a substitution for [q] in it. *)
Definition needs (R : value) (p q : path) : Prop :=
  exists v id o l, get p R = Some v /\ inside (VRef id q o l) v.
(** No path leads back to itself. *)
Definition acyclic (R : value) : Prop := exists rank : path -> nat, forall p q, needs R p q -> (rank q < rank p)%nat.
(** Different substitutions are different objects in memory. *)
Definition distinct (R : value) : Prop := forall id p q o o' l l', inside (VRef id p o l) R -> inside (VRef id q o' l') R -> p = q.
(** The environment, if used, has no value for a substitution of [R]. *)
Definition not_in_environment (environment : option (list (str * str))) (R : value) : Prop :=
  forall id p o l, inside (VRef id p o l) R -> from_environment environment p = None.

Definition environment_if (use : bool) (env : list (str * str)) : option (list (str * str)) := if use then Some env else None.
(** [v] is resolved already, or an optional substitution for which there is no value. *)
Definition here_or_gone (environment : option (list (str * str))) (R v : value) : Prop :=
  is_resolved v = true \/ exists id p l, v = VRef id p true l /\ get p R = None /\ from_environment environment p = None.

(** ** Looking back *)
(** A definition of the field [k] in terms of its earlier value, with [earlier] for it. *)
Definition self (k : str) (v : value) : bool := match v with VRef _ p _ _ => path_eq p [k] | _ => false end.
Definition looking_back (k : str) (earlier d : value) : result (option value) :=
  match d with
  | VConcat ps => concatenate (map (fun p => if self k p then earlier else p) ps)
  | _ => Ok (Some (if self k d then earlier else d))
  end.
(** The value of the field [k] after the definitions [ds], the last one in front: in each definition the field
    stands for its value before, and the outcome is merged over that value. *)
Fixpoint evolve (k : str) (ds : list value) : result (option value) :=
  match ds with
  | [] => Ok None
  | d :: [] => Ok (Some d)
  | d :: ds' =>
      earlier <- evolve k ds' ;;
      match earlier with
      | None => Throw EBug
      | Some e =>
          now <- looking_back k e d ;;
          match now with
          | None => Ok (Some e)
          | Some v => w <- with_fallback v e ;; Ok (Some w)
          end
      end
  end.
(** A definition by itself, or by plain values and itself. *)
Inductive redefinition (k : str) : value -> Prop :=
| redefinition_self : forall id o, redefinition k (VRef id [k] o 0)
| redefinition_concat : forall ps, Forall (fun p => plain p \/ exists id o, p = VRef id [k] o 0) ps ->
    (exists id o, In (VRef id [k] o 0) ps) -> redefinition k (VConcat ps).
(** The substitution [id] is in [d]. *)
Definition mentions (d : value) (id : nat) : Prop := exists p o l, inside (VRef id p o l) d.
