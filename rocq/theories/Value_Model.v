(** Transcription of the value classes: lib/src/values/*.cc and the merging and editing operations of
    config_value.cc, config_object.cc and simple_config_object.cc.

    Simplifications:
    - values carry no origin; merging origins (config_object.cc:69-94) never fails and only affects
      messages and comments;
    - an unordered_map is the list of its entries in iteration order, with unique keys (an invariant of
      the C++ class, [Value_Spec.well_keyed]); the order of an updated map is one the C++ could have;
    - two pointers are the same when they point to the same tree, where each reference has an [id] given
      when it is created: [same].  A reference object is only created by the parser, and copied only
      by with_origin.
    - the pointer comparison before the element-wise one in simple_config_list.cc:108-111 is left out. *)
From Verif Require Import Base Util_Model Num_Model Path_Model PathParser_Model Token_Model.

Inductive value : Set :=
| VScalar (s : scalar)                                       (* config_{null,boolean,int,long,double,string} *)
| VList (vs : list value)                                    (* simple_config_list *)
| VObj (resolved ignores : bool) (m : list (str * value))    (* simple_config_object *)
| VRef (id : nat) (p : path) (optional : bool) (prefix_length : Z)   (* config_reference *)
| VConcat (pieces : list value)                              (* config_concatenation *)
| VMerge (stack : list value)                                (* config_delayed_merge *)
| VMergeObj (stack : list value).                            (* config_delayed_merge_object *)

Definition fields := list (str * value).

(** unordered_map::find *)
Fixpoint find_key {A} (k : str) (m : list (str * A)) : option A :=
  match m with
  | [] => None
  | (k', v) :: m' => if str_eqb k k' then Some v else find_key k m'
  end.

(** dynamic_pointer_cast<const config_object> *)
Definition is_object (v : value) : bool := match v with VObj _ _ _ | VMergeObj _ => true | _ => false end.
(** dynamic_pointer_cast<const unmergeable> *)
Definition is_unmergeable (v : value) : bool :=
  match v with VRef _ _ _ _ | VConcat _ | VMerge _ | VMergeObj _ => true | _ => false end.
(** dynamic_pointer_cast<const config_delayed_merge(_object)> *)
Definition is_delayed (v : value) : bool := match v with VMerge _ | VMergeObj _ => true | _ => false end.

(** get_resolve_status() == RESOLVED: config_value.cc:30-32, 43-52, simple_config_list.cc:32-33,
    simple_config_object.hpp:37 *)
Fixpoint is_resolved (v : value) : bool :=
  match v with
  | VScalar _ => true
  | VList vs => forallb is_resolved vs
  | VObj r _ _ => r
  | VRef _ _ _ _ | VConcat _ | VMerge _ | VMergeObj _ => false
  end.

(** resolve_status_from_values(value_set(m)): config_value.cc:43-52 *)
Definition fields_resolved (m : fields) : bool := forallb (fun kv => is_resolved (snd kv)) m.

(** simple_config_object.cc:62-71, the two-argument constructor *)
Definition new_object (m : fields) : value := VObj (fields_resolved m) false m.

(** simple_config_object.cc:337-349 *)
Definition empty_object : value := new_object [].

(** ignores_fallbacks: config_value.cc:202-204, simple_config_object.hpp:38, config_reference.hpp:31,
    config_concatenation.cc:186-191, config_delayed_merge.cc:149-151, config_delayed_merge_object.cc:161-163.
    The stack of a delayed merge is never empty (its constructors throw). *)
Fixpoint ignores_fallbacks (v : value) : bool :=
  match v with
  | VScalar _ => true
  | VList vs => forallb is_resolved vs
  | VObj _ i _ => i
  | VRef _ _ _ _ | VConcat _ => false
  | VMerge stack | VMergeObj stack =>
      (fix back (l : list value) : bool :=
         match l with [] => false | [v] => ignores_fallbacks v | _ :: l' => back l' end) stack
  end.

(** config_delayed_merge.cc:21-32: the test for a nested merge looks at a moved-from vector *)
Definition new_delayed_merge (stack : list value) : result value :=
  match stack with [] => Throw EConfig | _ => Ok (VMerge stack) end.

(** config_delayed_merge_object.cc:15-30 *)
Definition new_delayed_merge_object (stack : list value) : result value :=
  match stack with
  | [] => Throw EConfig
  | v :: _ => if negb (is_object v) then Throw EConfig
              else if existsb is_delayed stack then Throw EConfig
              else Ok (VMergeObj stack)
  end.

(** construct_delayed_merge: config_value.cc:214-216, config_object.cc:53-55 *)
Definition construct_delayed_merge (this : value) (stack : list value) : result value :=
  if is_object this then new_delayed_merge_object stack else new_delayed_merge stack.

(** unmerged_values: config_reference.cc:24-26, config_concatenation.cc:48-50,
    config_delayed_merge.cc:66-68, config_delayed_merge_object.cc:37-39 *)
Definition unmerged_values (v : value) : list value :=
  match v with VMerge stack | VMergeObj stack => stack | _ => [v] end.

(** config_value.cc:218-235 *)
Definition merged_with_the_unmergeable (this fallback : value) : result value :=
  if ignores_fallbacks this then Throw EConfig
  else construct_delayed_merge this (this :: unmerged_values fallback).

(** with_fallbacks_ignored: config_value.cc:206-212, simple_config_object.cc:351-357 *)
Definition with_fallbacks_ignored (v : value) : result value :=
  match v with
  | VObj r _ m => Ok (VObj r true m)
  | _ => if ignores_fallbacks v then Ok v else Throw EConfig
  end.

(** config_value.cc:247-267, 279-287 *)
Definition merged_with_non_object (this fallback : value) : result value :=
  if ignores_fallbacks this then Throw EConfig
  else if is_resolved this then with_fallbacks_ignored this
  else construct_delayed_merge this [this; fallback].

Section Merge.
(** with_fallback on two values with the same key *)
Variable with_fallback : value -> value -> result value.
(** simple_config_object.cc:377-405, for the keys of this object *)
Fixpoint merge_ours (m fallback : fields) : result fields :=
  match m with
  | [] => Ok []
  | (k, v) :: m' =>
      kept <- (match find_key k fallback with None => Ok v | Some w => with_fallback v w end) ;;
      rest <- merge_ours m' fallback ;;
      Ok ((k, kept) :: rest)
  end.
End Merge.
(** and for the keys only the fallback has *)
Definition only_fallback (m fallback : fields) : fields :=
  filter (fun kv => match find_key (fst kv) m with None => true | Some _ => false end) fallback.

(** config_value.cc:180-194 with merged_with_object (config_value.cc:237-245, 273-277,
    simple_config_object.cc:359-421).  Whether the result shares this object is not visible: when no value
    changed, the fields are this object's. *)
Fixpoint with_fallback (this other : value) {struct this} : result value :=
  if ignores_fallbacks this then Ok this
  else if is_unmergeable other then merged_with_the_unmergeable this other
  else match other with
       | VObj _ i2 m2 =>
           match this with
           | VObj r _ m =>
               ours <- merge_ours with_fallback m m2 ;;
               let merged := ours ++ only_fallback m m2 in
               Ok (VObj (fields_resolved merged) i2 merged)
           | VMergeObj _ => Throw EConfig
           | _ => merged_with_non_object this other
           end
       | _ => merged_with_non_object this other
       end.

(** ** Equality *)

(** long_value, double_value of config_{int,long,double}.cc *)
Definition long_value (s : scalar) : result Z :=
  match s with SInt z _ | SLong z _ => Ok z | SDouble d _ => cast_int64 d | _ => Ok 0 end.
Definition double_value (s : scalar) : double :=
  match s with SInt z _ | SLong z _ => int_to_double z | SDouble d _ => d | _ => int_to_double 0 end.
Definition is_number (s : scalar) : bool := match s with SInt _ _ | SLong _ _ | SDouble _ _ => true | _ => false end.

(** config_null.cc:27-29, config_boolean.cc:31-33, config_number.cc:72-76, config_string.cc:31-33 *)
Definition scalar_eq (a b : scalar) : result bool :=
  match a, b with
  | SNull, SNull => Ok true
  | SBool x, SBool y => Ok (Bool.eqb x y)
  | SStr x _, SStr y _ => Ok (str_eqb x y)
  | _, _ =>
      if is_number a && is_number b then
        l1 <- long_value a ;; l2 <- long_value b ;;
        Ok ((l1 =? l2) && SFeqb (double_value a) (double_value b))
      else Ok false
  end.

(** Structural identity; see the head of this file. *)
Definition double_same (a b : double) : bool :=
  match a, b with
  | S754_zero x, S754_zero y | S754_infinity x, S754_infinity y => Bool.eqb x y
  | S754_nan, S754_nan => true
  | S754_finite x m e, S754_finite y n f => Bool.eqb x y && Pos.eqb m n && Z.eqb e f
  | _, _ => false
  end.
Definition scalar_same (a b : scalar) : bool :=
  match a, b with
  | SNull, SNull => true
  | SBool x, SBool y => Bool.eqb x y
  | SInt x t, SInt y u | SLong x t, SLong y u => Z.eqb x y && str_eqb t u
  | SDouble x t, SDouble y u => double_same x y && str_eqb t u
  | SStr x q, SStr y r => str_eqb x y && Bool.eqb q r
  | _, _ => false
  end.
Section Same.
Variable same : value -> value -> bool.
Fixpoint same_list (a b : list value) : bool :=
  match a, b with
  | [], [] => true
  | x :: a', y :: b' => same x y && same_list a' b'
  | _, _ => false
  end.
Fixpoint same_fields (a b : fields) : bool :=
  match a, b with
  | [], [] => true
  | (k, x) :: a', (l, y) :: b' => str_eqb k l && same x y && same_fields a' b'
  | _, _ => false
  end.
End Same.
Fixpoint same (a b : value) {struct a} : bool :=
  match a, b with
  | VScalar x, VScalar y => scalar_same x y
  | VList x, VList y | VConcat x, VConcat y | VMerge x, VMerge y | VMergeObj x, VMergeObj y => same_list same x y
  | VObj r i x, VObj s j y => Bool.eqb r s && Bool.eqb i j && same_fields same x y
  | VRef n p o l, VRef n' p' o' l' => Nat.eqb n n' && path_eq p p' && Bool.eqb o o' && Z.eqb l l'
  | _, _ => false
  end.

(** Number of nodes, the bound for recursive functions on several values. *)
Fixpoint size (v : value) : nat :=
  match v with
  | VScalar _ | VRef _ _ _ _ => 1
  | VList vs | VConcat vs | VMerge vs | VMergeObj vs => S (fold_right (fun v n => size v + n) 0 vs)
  | VObj _ _ m => S (fold_right (fun kv n => size (snd kv) + n) 0 m)
  end%nat.

Section Eq.
Variable value_eq : value -> value -> result bool.
(** std::equal on two vectors of the same size, simple_config_list.cc:113 *)
Fixpoint list_eq (this other : list value) : result bool :=
  match this, other with
  | a :: this', b :: other' => e <- value_eq a b ;; if e then list_eq this' other' else Ok false
  | _, _ => Ok true
  end.
(** simple_config_object.cc:205-209: every comparison overwrites the previous one; [at] throws *)
Fixpoint fields_eq (still_equal : bool) (this other : fields) : result bool :=
  match this with
  | [] => Ok still_equal
  | (k, v) :: this' =>
      match find_key k other with
      | None => Throw EOutOfRange
      | Some w => e <- value_eq w v ;; fields_eq e this' other
      end
  end.
(** config_concatenation.cc:167-171: again the last comparison decides *)
Fixpoint pieces_eq (last : bool) (this other : list value) : result bool :=
  match this, other with
  | a :: this', b :: other' => e <- value_eq a b ;; pieces_eq e this' other'
  | _, _ => Ok last
  end.
End Eq.
(** operator==: simple_config_list.cc:101-115, simple_config_object.cc:199-212, config_reference.cc:41-43,
    substitution_expression.cc:31-33, config_concatenation.cc:162-174, config_delayed_merge.cc:121-123,
    config_delayed_merge_object.cc:157-159 *)
Fixpoint value_eq_n (n : nat) (this other : value) : result bool :=
  match n with
  | O => Stuck UFuel
  | S k =>
      match this, other with
      | VScalar x, VScalar y => scalar_eq x y
      | VList x, VList y =>
          if negb (List.length x =? List.length y)%nat then Ok false else list_eq (value_eq_n k) x y
      | VObj _ _ x, VObj _ _ y =>
          if negb (List.length x =? List.length y)%nat then Ok false else fields_eq (value_eq_n k) true x y
      | VRef _ p o _, VRef _ q o' _ => Ok (path_eq p q && Bool.eqb o o')
      | VConcat x, VConcat y =>
          if negb (List.length x =? List.length y)%nat then Ok false else pieces_eq (value_eq_n k) true x y
      | VMerge x, VMerge y | VMergeObj x, VMergeObj y => Ok (same_list same x y)
      | _, _ => Ok false
      end
  end.
Definition value_eq (this other : value) : result bool := value_eq_n (size this + size other) this other.

(** ** Editing.  The functions of config_object, called on objects only. *)

(** at_key, at_path: config_value.cc:93-121.  simple_config_object(origin, map).to_config() calls
    shared_from_this() on an object no shared_ptr owns. *)
Definition at_key (this : value) (key : str) : result value := Throw EBadWeakPtr.
Definition at_path (this : value) (raw_path : path) : result value :=
  match last raw_path with None => Stuck UNullDeref | Some key => at_key this key end.

(** unordered_map::emplace: does nothing when the key is there *)
Definition emplace (m : fields) (key : str) (v : value) : fields :=
  match find_key key m with Some _ => m | None => m ++ [(key, v)] end.

(** simple_config_object.cc:166-180, config_delayed_merge_object.cc:45-51 *)
Definition with_value_key (this : value) (key : str) (v : value) : result value :=
  match this with
  | VObj r i m => Ok (VObj r i (emplace m key v))
  | _ => Throw ENotResolved
  end.

(** simple_config_object.cc:85-105: after storing the child, which is there already, the rest of the path is
    set in this object, not in the child *)
Fixpoint with_value (this : value) (raw_path : path) (v : value) : result value :=
  match raw_path with
  | [] => Stuck UNullDeref
  | key :: next =>
      match this with
      | VObj r i m =>
          match next with
          | [] => with_value_key this key v
          | _ :: _ =>
              match find_key key m with
              | Some child =>
                  if is_object child then
                    this' <- with_value_key this key child ;; with_value this' next v
                  else subtree <- at_path v next ;; with_value_key this key subtree
              | None => subtree <- at_path v next ;; with_value_key this key subtree
              end
          end
      | _ => Throw ENotResolved
      end
  end.

(** simple_config_object.cc:107-133, config_delayed_merge_object.cc:145-147 *)
Fixpoint without_path (this : value) (raw_path : path) : result value :=
  match raw_path with
  | [] => Stuck UNullDeref
  | key :: next =>
      match this with
      | VObj r i m =>
          match find_key key m, next with
          | Some v, _ :: _ =>
              if is_object v then
                v' <- without_path v next ;;
                Ok (VObj (fields_resolved [(key, v')]) i [(key, v')])
              else Ok this
          | None, _ => Ok this
          | Some _, [] =>
              let smaller := filter (fun kv => negb (str_eqb (fst kv) key)) m in
              Ok (VObj (fields_resolved smaller) i smaller)
          end
      | _ => Throw ENotResolved
      end
  end.

(** simple_config_object.cc:145-164, config_delayed_merge_object.cc:153-155; [None] is a null pointer *)
Fixpoint with_only_path_or_null (this : value) (raw_path : path) : result (option value) :=
  match raw_path with
  | [] => Stuck UNullDeref
  | key :: next =>
      match this with
      | VObj r i m =>
          o <- (match next with
                | [] => Ok None
                | _ :: _ =>
                    match find_key key m with
                    | Some v => if is_object v then with_only_path_or_null v next else Stuck UNullDeref
                    | None => Stuck UNullDeref
                    end
                end) ;;
          match o with
          | None => Ok None
          | Some o' => Ok (Some (VObj (is_resolved o') i [(key, o')]))
          end
      | _ => Throw ENotResolved
      end
  end.

(** simple_config_object.cc:135-143, config_delayed_merge_object.cc:149-151 *)
Definition with_only_path (this : value) (raw_path : path) : result value :=
  match this with
  | VObj r i m =>
      o <- with_only_path_or_null this raw_path ;;
      match o with None => Ok (VObj true i []) | Some v => Ok v end
  | _ => Throw ENotResolved
  end.

(** ** Looking up *)

Section Peek.
Variable peek : value -> result (option value).
(** config_delayed_merge_object.cc:83-137: the layers in order.  The list case goes on to the next layer. *)
Fixpoint peek_layers (layers : list value) : result (option value) :=
  match layers with
  | [] => Throw EBug
  | layer :: rest =>
      if is_object layer then
        v <- peek layer ;;
        match v with
        | Some w => if ignores_fallbacks w then Ok v else peek_layers rest
        | None => if is_unmergeable layer then Throw EBug else peek_layers rest
        end
      else if is_unmergeable layer then Throw ENotResolved
      else if negb (is_resolved layer) then
        match layer with VList _ => peek_layers rest | _ => Throw EBug end
      else if negb (ignores_fallbacks layer) then Throw EBug
      else Ok None
  end.
End Peek.
(** attempt_peek_with_partial_resolve: simple_config_object.cc:73-80, config_delayed_merge_object.cc:65-138 *)
Fixpoint peek (key : str) (this : value) {struct this} : result (option value) :=
  match this with
  | VObj _ _ m => Ok (find_key key m)
  | VMergeObj stack => peek_layers (peek key) stack
  | _ => Ok None
  end.

(** config_object.cc:18-38: a config_exception (of any kind) becomes one that says "not resolved" *)
Fixpoint peek_path (this : value) (desired : path) : result (option value) :=
  match desired with
  | [] => Stuck UNullDeref
  | key :: next =>
      match peek key this with
      | Ok v =>
          match next with
          | [] => Ok v
          | _ :: _ => match v with
                      | Some o => if is_object o then peek_path o next else Ok None
                      | None => Ok None
                      end
          end
      | Throw _ => Throw EConfig
      | Stuck u => Stuck u
      end
  end.
