(** Transcription of the resolution of substitutions: lib/src/resolve_context.cc, resolve_source.cc and the
    resolve_substitutions of the value classes.

    Simplifications:
    - pointers are compared by [same] (see Value_Model): only references are ever put among the cycle markers,
      and these have identities of their own;
    - a context that was moved from (config_reference.cc:52, resolve_source.cc:83) is an empty one: its
      vector of markers and its path are empty by the standard, its table of results in all implementations;
    - results kept for a restricted resolve are left out, because they are never looked up
      (resolve_context.cc:46 looks for the unrestricted one);
    - fields are visited in the order of the association list;
    - the recursion is bounded by [n]; when [n] is used up the outcome is [Stuck UFuel]. *)
From Verif Require Import Base Util_Model Num_Model Path_Model Token_Model Value_Model Duration_Model Config_Model Concat_Model.

(** resolve_context.hpp:20-52 *)
Record context := Context { restriction : path; markers : list nat; memos : list (value * option value) }.
Definition moved_from : context := Context [] [] [].
(** resolve_source.hpp:55-56; the front of [parents] is the innermost *)
Record source := Source { root : value; parents : list value }.

Definition is_empty_path (p : path) : bool := match p with [] => true | _ => false end.
(** resolve_context.cc:20-23 *)
Definition is_restricted (c : context) : bool := negb (is_empty_path (restriction c)).
(** resolve_context.cc:101-107 *)
Definition restrict (c : context) (p : path) : context :=
  if path_eq p (restriction c) then c else Context p (markers c) [].
(** resolve_context.cc:120-125 *)
Fixpoint find_memo (m : list (value * option value)) (v : value) : option (option value) :=
  match m with [] => None | (w, r) :: m' => if same w v then Some r else find_memo m' v end.
Definition memoize (c : context) (v : value) (r : option value) : context :=
  match find_memo (memos c) v with
  | Some _ => c
  | None => Context (restriction c) (markers c) (memos c ++ [(v, r)])
  end.
(** resolve_context.cc:82-91 *)
Definition is_marked (c : context) (id : nat) : bool := existsb (Nat.eqb id) (markers c).
Definition add_marker (c : context) (id : nat) : context := Context (restriction c) (markers c ++ [id]) [].
(** resolve_context.cc:93-99 *)
Definition remove_marker (c : context) (id : nat) : context :=
  Context (restriction c) (filter (fun x => negb (Nat.eqb id x)) (markers c)) [].

(** internal/container.hpp *)
Definition is_container (v : value) : bool := match v with VScalar _ | VRef _ _ _ _ => false | _ => true end.

(** config_value.cc:132-145.  A child that is not there is the end iterator. *)
Fixpoint replace_in_list (vs : list value) (child : value) (replacement : option value) : result (list value) :=
  match vs with
  | [] => Stuck UOutOfBounds
  | v :: vs' =>
      if same v child then Ok (match replacement with Some r => r :: vs' | None => vs' end)
      else vs'' <- replace_in_list vs' child replacement ;; Ok (v :: vs'')
  end.
(** simple_config_object.cc:281-300 *)
Fixpoint replace_in_fields (m : fields) (child : value) (replacement : option value) : result fields :=
  match m with
  | [] => Throw EBug
  | (k, v) :: m' =>
      if same v child then Ok (match replacement with Some r => (k, r) :: m' | None => m' end)
      else m'' <- replace_in_fields m' child replacement ;; Ok ((k, v) :: m'')
  end.
(** replace_child: simple_config_object.cc:281-300, simple_config_list.cc:43-51, config_concatenation.cc:56-63,
    config_delayed_merge.cc:129-137, config_delayed_merge_object.cc:175-183; [None] is a null pointer *)
Definition replace_child (parent child : value) (replacement : option value) : result (option value) :=
  match parent with
  | VObj _ i m => m' <- replace_in_fields m child replacement ;; Ok (Some (VObj (fields_resolved m') i m'))
  | VList vs => vs' <- replace_in_list vs child replacement ;; Ok (match vs' with [] => None | _ => Some (VList vs') end)
  | VConcat vs =>
      vs' <- replace_in_list vs child replacement ;;
      match vs' with [] => Ok None | _ => v <- new_concatenation vs' ;; Ok (Some v) end
  | VMerge vs | VMergeObj vs =>
      vs' <- replace_in_list vs child replacement ;; Ok (match vs' with [] => None | _ => Some (VMerge vs') end)
  | VScalar _ | VRef _ _ _ _ => Stuck UNullDeref
  end.

(** resolve_source.cc:24-41 *)
Definition push_parent (s : source) (parent : value) : source :=
  match parents s with
  | [] => if is_object parent && same parent (root s) then Source (root s) [parent] else s
  | ps => Source (root s) (parent :: ps)
  end.

(** resolve_source.cc:172-212: [old] is the head of the list *)
Fixpoint replace_chain (old : value) (above : list value) (replacement : option value) : result (list value) :=
  let container := match replacement with Some r => if is_container r then Some r else None | None => None end in
  match above with
  | [] => Ok (match container with Some r => [r] | None => [] end)
  | parent :: above' =>
      new_parent <- replace_child parent old container ;;
      tail <- replace_chain parent above' new_parent ;;
      Ok (match container with Some r => r :: tail | None => tail end)
  end.

(** resolve_source.cc:43-61 with 63-79 and 81-88: the source for the rest of a delayed merge.  A new root that
    is no object is a null root, dereferenced by the next lookup. *)
Definition replace_within_current_parent (s : source) (old : value) (replacement : option value) : result source :=
  if (match replacement with Some r => same old r | None => false end) then Ok s
  else match parents s with
  | parent :: above =>
      new_parent <- replace_child parent old replacement ;;
      let replaced := match new_parent with Some r => if is_container r then Some r else None | None => None end in
      if (match replaced with Some r => same parent r | None => false end) then Ok s
      else
        chain <- replace_chain parent above replaced ;;
        match chain with
        | [] => Ok (Source empty_object [])
        | first :: rest => if is_object (List.last rest first) then Ok (Source (List.last rest first) chain) else Stuck UNullDeref
        end
  | [] =>
      match replacement with
      | Some r => if same old (root s) && is_container r then Ok (Source (if is_object r then r else empty_object) []) else Throw EBug
      | None => Throw EBug
      end
  end.
Definition reset_parents (s : source) : source := Source (root s) [].

(** config_delayed_merge.cc:34-57; [None] is a null pointer *)
Fixpoint merge_stack (merged : value) (vs : list value) : result value :=
  match vs with [] => Ok merged | v :: vs' => m <- with_fallback merged v ;; merge_stack m vs' end.
Definition make_replacement (stack : list value) (skipping : nat) : result (option value) :=
  match skipn skipping stack with
  | [] => Ok None
  | v :: vs => m <- merge_stack v vs ;; Ok (Some m)
  end.

(** resolve_source.cc:146-164: the value at a path, and the objects passed, innermost first *)
Fixpoint find_path (obj : value) (p : path) (above : list value) : result (option value * list value) :=
  match p with
  | [] => Stuck UNullDeref
  | k :: next =>
      v <- peek k obj ;;
      match next with
      | [] => Ok (v, obj :: above)
      | _ => match v with
             | Some w => if is_object w then find_path w next (obj :: above) else Ok (None, obj :: above)
             | None => Ok (None, obj :: above)
             end
      end
  end.

Definition unchanged (v : value) (r : option value) : bool := match r with Some w => same w v | None => false end.

Section Resolve.
(** config_resolve_options, and the environment *)
Variables allow_unresolved use_environment : bool.
Variable environment : list (str * str).
(** config.cc:561-570 *)
Definition environment_object : value := VObj true false (map (fun kv => (fst kv, VScalar (SStr (snd kv) true))) environment).

Section Step.
(** resolve_context::resolve *)
Variable resolve : context -> value -> source -> result (option value * context).

(** resolve_source.cc:109-122 *)
Definition find_in_object (obj : value) (c : context) (p : path) : result (option value * context * list value) :=
  '(v, c1) <- resolve (restrict c p) obj (Source obj []) ;;
  let c2 := restrict c1 (restriction c) in
  match v with
  | Some o => if is_object o then '(w, ps) <- find_path o p [] ;; Ok (w, c2, ps) else Throw EBug
  | None => Throw EBug
  end.

(** resolve_source.cc:90-107.  The context used for the environment was moved from. *)
Definition lookup_subst (c : context) (p : path) (prefix : Z) (s : source) : result (option value * context * list value) :=
  '(w, c1, ps) <- find_in_object (root s) c p ;;
  match w with
  | Some _ => Ok (w, c1, ps)
  | None =>
      let unprefixed := sub_path p prefix in
      '(w, c1, ps) <- (if 0 <? prefix then find_in_object (root s) c1 unprefixed else Ok (None, c1, ps)) ;;
      match w with
      | Some _ => Ok (w, c1, ps)
      | None => if use_environment then find_in_object environment_object moved_from unprefixed else Ok (None, c1, ps)
      end
  end.

(** config_reference.cc:47-84 *)
Definition finish_reference (self : value) (id : nat) (optional : bool) (v : option value) (c : context) : result (option value * context) :=
  match v with
  | Some _ => Ok (v, remove_marker c id)
  | None => if optional then Ok (None, remove_marker c id)
            else if allow_unresolved then Ok (Some self, remove_marker c id)
            else Throw EUnresolved
  end.
(** the catch of config_reference.cc:63-69: [None] when a cycle was found *)
Definition attempt {A} (r : result A) : result (option A) :=
  match r with Ok a => Ok (Some a) | Throw ENotPossible => Ok None | Throw e => Throw e | Stuck u => Stuck u end.
Definition resolve_reference (id : nat) (p : path) (optional : bool) (prefix : Z) (c : context) (s : source) : result (option value * context) :=
  let self := VRef id p optional prefix in
  if is_marked c id then Throw EConfig
  else
    looked <- attempt (lookup_subst (add_marker c id) p prefix s) ;;
    match looked with
    | None => if optional then finish_reference self id optional None moved_from else Throw EConfig
    | Some (None, c1, _) => finish_reference self id optional None c1
    | Some (Some v, c1, ps) =>
        resolved <- attempt (resolve c1 v (Source (List.last ps v) ps)) ;;
        match resolved with
        | None => if optional then finish_reference self id optional None c1 else Throw EConfig
        | Some (v', c2) => finish_reference self id optional v' c2
        end
    end.

(** config_concatenation.cc:69-103 *)
Fixpoint resolve_pieces (pieces : list value) (c : context) (s : source) : result (list value * context) :=
  match pieces with
  | [] => Ok ([], c)
  | p :: ps =>
      '(r, c1) <- resolve (restrict c []) p s ;;
      '(rs, c2) <- resolve_pieces ps (restrict c1 (restriction c)) s ;;
      Ok (match r with Some v => v :: rs | None => rs end, c2)
  end.
Definition resolve_concatenation (pieces : list value) (c : context) (s : source) : result (option value * context) :=
  '(resolved, c1) <- resolve_pieces pieces c s ;;
  joined <- consolidate resolved ;;
  if (1 <? List.length joined)%nat && allow_unresolved then v <- new_concatenation joined ;; Ok (Some v, c1)
  else match joined with
       | [] => Ok (None, c1)
       | [v] => Ok (Some v, c1)
       | _ => Throw EConfig
       end.

(** config_delayed_merge.cc:76-122 *)
Fixpoint resolve_stack (self : value) (stack : list value) (ends : list value) (count : nat) (merged : option value) (c : context) (s : source)
  : result (option value * context) :=
  match ends with
  | [] => Ok (merged, c)
  | e :: ends' =>
      if is_delayed e then Throw EBug
      else
        s' <- (if is_unmergeable e then
                 remainder <- make_replacement stack (S count) ;;
                 s1 <- replace_within_current_parent s self remainder ;;
                 Ok (reset_parents s1)
               else Ok (push_parent s self)) ;;
        '(r, c1) <- resolve c e s' ;;
        merged' <- (match r, merged with
                    | Some v, Some m => w <- with_fallback m v ;; Ok (Some w)
                    | Some v, None => Ok (Some v)
                    | None, _ => Ok merged
                    end) ;;
        resolve_stack self stack ends' (S count) merged' c1 s
  end.

(** simple_config_object.cc:22-54: one child *)
Definition resolve_field (k : str) (v : value) (c : context) (s : source) : result (option value * context) :=
  match restriction c with
  | [] => '(r, c1) <- resolve c v s ;; Ok (r, restrict c1 [])
  | first :: remainder =>
      if str_eqb k first then
        match remainder with
        | [] => Ok (Some v, c)
        | _ => '(r, c1) <- resolve (restrict c remainder) v s ;; Ok (r, restrict (restrict c1 []) (restriction c))
        end
      else Ok (Some v, c)
  end.
(** simple_config_object.cc:228-270: the children in order *)
Fixpoint resolve_fields (m : fields) (c : context) (s : source) : result (list (str * option value) * context) :=
  match m with
  | [] => Ok ([], c)
  | (k, v) :: m' =>
      '(r, c1) <- resolve_field k v c s ;;
      '(rs, c2) <- resolve_fields m' c1 s ;;
      Ok ((k, r) :: rs, c2)
  end.
Definition kept_fields (rs : list (str * option value)) : fields :=
  flat_map (fun kr => match snd kr with Some v => [(fst kr, v)] | None => [] end) rs.
Fixpoint all_unchanged (m : fields) (rs : list (str * option value)) : bool :=
  match m, rs with
  | (_, v) :: m', (_, r) :: rs' => unchanged v r && all_unchanged m' rs'
  | _, _ => true
  end.
(** simple_config_object.cc:204-216 *)
Definition resolve_object (r i : bool) (m : fields) (c : context) (s : source) : result (option value * context) :=
  let self := VObj r i m in
  if r then Ok (Some self, c)
  else
    '(rs, c1) <- resolve_fields m c (push_parent s self) ;;
    if all_unchanged m rs then Ok (Some self, c1)
    else Ok (Some (VObj (fields_resolved (kept_fields rs)) i (kept_fields rs)), c1).

(** simple_config_list.cc:187-217: [before] are the elements passed, [init] and [changed] the local variables *)
Fixpoint resolve_elements (before rest : list value) (init : bool) (changed : list value) (c : context) (s : source)
  : result (bool * list value * context) :=
  match rest with
  | [] => Ok (init, changed, c)
  | v :: rest' =>
      '(r, c1) <- resolve c v s ;;
      let fresh := match changed with [] => negb (unchanged v r) | _ => false end in
      let changed1 := if fresh then before else changed in
      let init1 := init || fresh in
      let changed2 := if init1 then match r with Some w => changed1 ++ [w] | None => changed1 end else changed1 in
      resolve_elements (before ++ [v]) rest' init1 changed2 c1 s
  end.
(** simple_config_list.cc:59-73 *)
Definition resolve_list (vs : list value) (c : context) (s : source) : result (option value * context) :=
  let self := VList vs in
  if forallb is_resolved vs then Ok (Some self, c)
  else if is_restricted c then Ok (Some self, c)
  else
    '(init, changed, c1) <- resolve_elements [] vs false [] c (push_parent s self) ;;
    if init then
      if allow_unresolved || forallb is_resolved changed then Ok (Some (VList changed), c1) else Throw EConfig
    else Ok (Some self, c1).

(** resolve_substitutions: config_value.cc:124-129 and the above *)
Definition resolve_substitutions (v : value) (c : context) (s : source) : result (option value * context) :=
  match v with
  | VScalar _ => Ok (Some v, c)
  | VList vs => resolve_list vs c s
  | VObj r i m => resolve_object r i m c s
  | VRef id p optional prefix => resolve_reference id p optional prefix c s
  | VConcat pieces => resolve_concatenation pieces c s
  | VMerge stack | VMergeObj stack => resolve_stack v stack stack 0 None c s
  end.

(** resolve_context.cc:30-80 *)
Definition resolve_step (c : context) (v : value) (s : source) : result (option value * context) :=
  match find_memo (memos c) v with
  | Some (Some w) => Ok (Some w, c)
  | _ =>
      if (match v with VRef id _ _ _ => is_marked c id | _ => false end) then Throw ENotPossible
      else
        '(r, c1) <- resolve_substitutions v c s ;;
        match r with
        | None => Ok (r, memoize c1 v r)
        | Some w =>
            if is_resolved w then Ok (r, memoize c1 v r)
            else if is_restricted c then Ok (r, c1)
            else if allow_unresolved then Ok (r, memoize c1 v r)
            else Throw EBug
        end
  end.
End Step.

Fixpoint resolve_n (n : nat) (c : context) (v : value) (s : source) : result (option value * context) :=
  match n with
  | O => Stuck UFuel
  | S n' => resolve_step (resolve_n n') c v s
  end.

(** config.cc:65-81 and resolve_context.cc:113-118: [v] resolved against [source_root]; [None] is a null pointer *)
Definition resolve_with (n : nat) (v source_root : value) : result (option value) :=
  '(r, _) <- resolve_n n moved_from v (Source source_root []) ;; Ok r.
Definition resolve_config (n : nat) (v : value) : result (option value) := resolve_with n v v.
End Resolve.
