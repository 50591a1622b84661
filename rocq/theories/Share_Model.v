(** The public operations on shared values, as programs of threads that work on one heap.

    A shared_ptr<const config_value> is an address, a value object a cell of the heap.  Where the value model
    (Value_Model.v, Config_Model.v) computes with trees, the programs here read cells through addresses and
    create cells, one such step at a time, and share the cells they do not change, as the code does.  The
    programs could also write to a cell; the code has no mutable member and no const_cast, so none does.

    Simplifications:
    - reading a cell and creating one are single steps.  The code reads members one by one and a constructor
      writes the members of the new object, which no other thread can reach before it is finished;
    - a shared_ptr keeps its object alive, nothing is freed; the reference counts are atomic (the library's);
    - operations that give no value back (the getters, rendering, comparing, listing entries) and resolving
      read the whole value first and then compute; the code reads only what it needs, and a result of resolving
      shares what is unchanged;
    - functions that follow addresses take fuel; a cell only holds addresses of older cells, so an address
      plus one is enough ([Share_Spec.holds]);
    - what parsing needs besides the text (tokens.cc:173-227 and config.cc:538-541, const objects created on
      first use, under a lock by the rules of the language; parseable.cc:154, one parse stack for each thread)
      is left out: parsing is one step that creates cells;
    - the operator== of config, which compares addresses, is left out. *)
From Verif Require Import Base Util_Model Num_Model Path_Model PathParser_Model Token_Model Value_Model Duration_Model Config_Model
  Render_Model Resolve_Model Include_Model.

Notation addr := nat (only parsing).

(** The value classes.  A list has its resolve status in a member (simple_config_list.hpp). *)
Inductive cell : Set :=
| CScalar (s : scalar)
| CList (resolved : bool) (vs : list addr)
| CObj (resolved ignores : bool) (m : list (str * addr))
| CRef (id : nat) (p : path) (optional : bool) (prefix_length : Z)
| CConcat (pieces : list addr)
| CMerge (stack : list addr)
| CMergeObj (stack : list addr).

Definition heap := list cell.

(** ** Programs of one thread *)

Inductive prog (A : Type) : Type :=
| Return (r : result A)
| Read (a : addr) (k : cell -> prog A)
| New (c : cell) (k : addr -> prog A)
| Write (a : addr) (c : cell) (k : prog A).
Arguments Return {A} r.
Arguments Read {A} a k.
Arguments New {A} c k.
Arguments Write {A} a c k.

Fixpoint andthen {A B} (p : prog A) (f : A -> prog B) : prog B :=
  match p with
  | Return (Ok a) => f a
  | Return (Throw e) => Return (Throw e)
  | Return (Stuck u) => Return (Stuck u)
  | Read a k => Read a (fun c => andthen (k c) f)
  | New c k => New c (fun a => andthen (k a) f)
  | Write a c k => Write a c (andthen k f)
  end.
Notation "x <~ e ;; f" := (andthen e (fun x => f)) (at level 61, e at next level, right associativity) : result_scope.
Definition ret {A} (a : A) : prog A := Return (Ok a).
Definition throw {A} (e : exn) : prog A := Return (Throw e).
(** try ... catch: [f] says what becomes of the outcome *)
Fixpoint handle {A B} (p : prog A) (f : result A -> result B) : prog B :=
  match p with
  | Return r => Return (f r)
  | Read a k => Read a (fun c => handle (k c) f)
  | New c k => New c (fun a => handle (k a) f)
  | Write a c k => Write a c (handle k f)
  end.
Definition read (a : addr) : prog cell := Read a ret.
Definition new (c : cell) : prog addr := New c ret.

Section Each.
Context {A B : Type}.
Variable f : A -> prog B.
Fixpoint each (l : list A) : prog (list B) :=
  match l with
  | [] => ret []
  | x :: l' => y <~ f x ;; r <~ each l' ;; ret (y :: r)
  end.
End Each.

(** ** Classes and statuses, as in Value_Model.v *)

Definition object_cell (c : cell) : bool := match c with CObj _ _ _ | CMergeObj _ => true | _ => false end.
Definition unmergeable_cell (c : cell) : bool :=
  match c with CRef _ _ _ _ | CConcat _ | CMerge _ | CMergeObj _ => true | _ => false end.
Definition delayed_cell (c : cell) : bool := match c with CMerge _ | CMergeObj _ => true | _ => false end.
(** get_resolve_status *)
Definition resolved_cell (c : cell) : bool :=
  match c with CScalar _ => true | CList r _ | CObj r _ _ => r | _ => false end.

(** resolve_status_from_values: config_value.cc:43-52 *)
Fixpoint all_resolved (l : list addr) : prog bool :=
  match l with
  | [] => ret true
  | a :: l' => c <~ read a ;; if resolved_cell c then all_resolved l' else ret false
  end.

(** ignores_fallbacks *)
Fixpoint ignores_h (n : nat) (a : addr) : prog bool :=
  match n with
  | O => Return (Stuck UFuel)
  | S n' =>
      c <~ read a ;;
      match c with
      | CScalar _ => ret true
      | CList r _ => ret r
      | CObj _ i _ => ret i
      | CRef _ _ _ _ | CConcat _ => ret false
      | CMerge stack | CMergeObj stack => match rev stack with [] => ret false | b :: _ => ignores_h n' b end
      end
  end.

(** ** Merging *)

Fixpoint any_delayed (l : list addr) : prog bool :=
  match l with
  | [] => ret false
  | a :: l' => c <~ read a ;; if delayed_cell c then ret true else any_delayed l'
  end.
(** construct_delayed_merge: config_value.cc:214-216, config_object.cc:53-55, config_delayed_merge.cc:21-32,
    config_delayed_merge_object.cc:15-30, for a stack that begins with this value *)
Definition construct_h (this : cell) (stack : list addr) : prog addr :=
  if object_cell this then d <~ any_delayed stack ;; if (d : bool) then throw EConfig else new (CMergeObj stack)
  else new (CMerge stack).
(** config_value.cc:218-235; unmerged_values of the classes *)
Definition merged_with_the_unmergeable_h (a : addr) (this : cell) (b : addr) (other : cell) : prog addr :=
  i <~ ignores_h (S a) a ;;
  if (i : bool) then throw EConfig
  else construct_h this (a :: match other with CMerge stack | CMergeObj stack => stack | _ => [b] end).
(** config_value.cc:247-267, 279-287, with_fallbacks_ignored: config_value.cc:206-212, simple_config_object.cc:351-357 *)
Definition merged_with_non_object_h (a : addr) (this : cell) (b : addr) : prog addr :=
  i <~ ignores_h (S a) a ;;
  if (i : bool) then throw EConfig
  else if resolved_cell this then
    match this with
    | CObj r _ m => new (CObj r true m)
    | _ => i' <~ ignores_h (S a) a ;; if (i' : bool) then ret a else throw EConfig
    end
  else construct_h this [a; b].

Section Merge.
Variable with_fallback : addr -> addr -> prog addr.
(** simple_config_object.cc:377-405 *)
Fixpoint merge_ours_h (m fallback : list (str * addr)) : prog (list (str * addr)) :=
  match m with
  | [] => ret []
  | (k, a) :: m' =>
      kept <~ (match find_key k fallback with None => ret a | Some b => with_fallback a b end) ;;
      rest <~ merge_ours_h m' fallback ;;
      ret ((k, kept) :: rest)
  end.
End Merge.
Definition only_fallback_h (m fallback : list (str * addr)) : list (str * addr) :=
  filter (fun ka => match find_key (fst ka) m with None => true | Some _ => false end) fallback.
(** first->second == kept, for all keys *)
Fixpoint same_addresses (m n : list (str * addr)) : bool :=
  match m, n with
  | [], [] => true
  | (_, a) :: m', (_, b) :: n' => Nat.eqb a b && same_addresses m' n'
  | _, _ => false
  end.

(** config_value.cc:180-194 with merged_with_object (config_value.cc:237-245, 273-277,
    simple_config_object.cc:359-421) *)
Fixpoint with_fallback_h (n : nat) (a b : addr) : prog addr :=
  match n with
  | O => Return (Stuck UFuel)
  | S n' =>
      i <~ ignores_h (S a) a ;;
      if (i : bool) then ret a
      else
        this <~ read a ;; other <~ read b ;;
        if unmergeable_cell other then merged_with_the_unmergeable_h a this b other
        else match other with
             | CObj _ i2 m2 =>
                 match this with
                 | CObj r i m =>
                     ours <~ merge_ours_h (with_fallback_h n') m m2 ;;
                     let merged := ours ++ only_fallback_h m m2 in
                     status <~ all_resolved (map snd merged) ;;
                     if negb (same_addresses m merged) then new (CObj status i2 merged)
                     else if negb (Bool.eqb status r) || negb (Bool.eqb i2 i) then new (CObj status i2 m)
                     else ret a
                 | CMergeObj _ => throw EConfig
                 | _ => merged_with_non_object_h a this b
                 end
             | _ => merged_with_non_object_h a this b
             end
  end.

(** ** Editing *)

(** config_value.cc:93-121: throws, see Value_Model.at_key *)
Definition at_key_h (a : addr) (key : str) : prog addr := throw EBadWeakPtr.
Definition at_path_h (a : addr) (raw_path : path) : prog addr :=
  match last raw_path with None => Return (Stuck UNullDeref) | Some key => at_key_h a key end.

(** simple_config_object.cc:166-180, config_delayed_merge_object.cc:45-51 *)
Definition with_value_key_h (this : cell) (key : str) (v : addr) : prog addr :=
  match this with
  | CObj r i m => new (CObj r i (match find_key key m with Some _ => m | None => m ++ [(key, v)] end))
  | _ => throw ENotResolved
  end.
(** simple_config_object.cc:85-105 *)
Fixpoint with_value_h (a : addr) (raw_path : path) (v : addr) : prog addr :=
  match raw_path with
  | [] => Return (Stuck UNullDeref)
  | key :: next =>
      this <~ read a ;;
      match this with
      | CObj r i m =>
          match next with
          | [] => with_value_key_h this key v
          | _ :: _ =>
              match find_key key m with
              | Some child =>
                  c <~ read child ;;
                  if object_cell c then a' <~ with_value_key_h this key child ;; with_value_h a' next v
                  else subtree <~ at_path_h v next ;; with_value_key_h this key subtree
              | None => subtree <~ at_path_h v next ;; with_value_key_h this key subtree
              end
          end
      | _ => throw ENotResolved
      end
  end.
(** simple_config_object.cc:107-133, config_delayed_merge_object.cc:145-147 *)
Fixpoint without_path_h (a : addr) (raw_path : path) : prog addr :=
  match raw_path with
  | [] => Return (Stuck UNullDeref)
  | key :: next =>
      this <~ read a ;;
      match this with
      | CObj r i m =>
          match find_key key m, next with
          | Some b, _ :: _ =>
              c <~ read b ;;
              if object_cell c then
                b' <~ without_path_h b next ;;
                status <~ all_resolved [b'] ;;
                new (CObj status i [(key, b')])
              else ret a
          | None, _ => ret a
          | Some _, [] =>
              let smaller := filter (fun kb => negb (str_eqb (fst kb) key)) m in
              status <~ all_resolved (map snd smaller) ;;
              new (CObj status i smaller)
          end
      | _ => throw ENotResolved
      end
  end.
(** simple_config_object.cc:145-164, config_delayed_merge_object.cc:153-155 *)
Fixpoint with_only_path_or_null_h (a : addr) (raw_path : path) : prog (option addr) :=
  match raw_path with
  | [] => Return (Stuck UNullDeref)
  | key :: next =>
      this <~ read a ;;
      match this with
      | CObj r i m =>
          o <~ (match next with
                | [] => ret None
                | _ :: _ =>
                    match find_key key m with
                    | Some b => c <~ read b ;;
                                if object_cell c then with_only_path_or_null_h b next else Return (Stuck UNullDeref)
                    | None => Return (Stuck UNullDeref)
                    end
                end) ;;
          match o with
          | None => ret None
          | Some b => c <~ read b ;; a' <~ new (CObj (resolved_cell c) i [(key, b)]) ;; ret (Some a')
          end
      | _ => throw ENotResolved
      end
  end.
(** simple_config_object.cc:135-143, config_delayed_merge_object.cc:149-151 *)
Definition with_only_path_h (a : addr) (raw_path : path) : prog addr :=
  this <~ read a ;;
  match this with
  | CObj r i m =>
      o <~ with_only_path_or_null_h a raw_path ;;
      match o with None => new (CObj true i []) | Some b => ret b end
  | _ => throw ENotResolved
  end.

(** ** Looking up *)

Section Peek.
Variable peek : addr -> prog (option addr).
(** config_delayed_merge_object.cc:83-137 *)
Fixpoint peek_layers_h (layers : list addr) : prog (option addr) :=
  match layers with
  | [] => throw EBug
  | layer :: rest =>
      c <~ read layer ;;
      if object_cell c then
        v <~ peek layer ;;
        match v with
        | Some w => i <~ ignores_h (S w) w ;; if (i : bool) then ret v else peek_layers_h rest
        | None => if unmergeable_cell c then throw EBug else peek_layers_h rest
        end
      else if unmergeable_cell c then throw ENotResolved
      else if negb (resolved_cell c) then
        match c with CList _ _ => peek_layers_h rest | _ => throw EBug end
      else
        i <~ ignores_h (S layer) layer ;;
        if negb i then throw EBug else ret None
  end.
End Peek.
(** simple_config_object.cc:73-80, config_delayed_merge_object.cc:65-138 *)
Fixpoint peek_h (n : nat) (key : str) (a : addr) : prog (option addr) :=
  match n with
  | O => Return (Stuck UFuel)
  | S n' =>
      this <~ read a ;;
      match this with
      | CObj _ _ m => ret (find_key key m)
      | CMergeObj stack => peek_layers_h (peek_h n' key) stack
      | _ => ret None
      end
  end.
(** config_object.cc:40-46: any config_exception becomes a plain one *)
Definition peek_assuming_resolved_h (a : addr) (key : str) : prog (option addr) := handle (peek_h (S a) key a) sliced.

(** value_type() *)
Definition type_cell (c : cell) : result vtype :=
  match c with
  | CScalar s => Ok (scalar_type s)
  | CList _ _ => Ok TList
  | CObj _ _ _ | CMergeObj _ => Ok TObject
  | CRef _ _ _ _ | CConcat _ => Throw ENotResolved
  | CMerge _ => Throw EConfig
  end.
(** default_transformer.cc:20-91: the same value, or a new scalar *)
Definition transform_h (a : addr) (requested : vtype) : prog addr :=
  c <~ read a ;;
  match c with
  | CScalar s =>
      v <~ Return (transform (VScalar s) requested) ;;
      match v with VScalar s' => if scalar_same s s' then ret a else new (CScalar s') | _ => ret a end
  | _ =>
      t <~ Return (type_cell c) ;;
      match requested, t with TList, TObject => throw EConfig | _, _ => ret a end
  end.
(** config.cc:134-141 *)
Definition throw_if_null_h (a : addr) : prog addr :=
  c <~ read a ;; t <~ Return (type_cell c) ;; if vtype_eqb t TNull then throw ENull else ret a.
(** config.cc:148-166 *)
Definition find_key_or_null_h (self : addr) (key : str) (expected : vtype) : prog addr :=
  o <~ peek_assuming_resolved_h self key ;;
  match o with
  | None => throw EMissing
  | Some v =>
      if vtype_eqb expected TUnspecified then ret v
      else
        v' <~ transform_h v expected ;;
        c <~ read v' ;;
        t <~ Return (type_cell c) ;;
        if vtype_eqb t expected || vtype_eqb t TNull then ret v' else throw EWrongType
  end.
(** config.cc:143-146 *)
Definition find_key_h (self : addr) (key : str) (expected : vtype) : prog addr :=
  v <~ find_key_or_null_h self key expected ;; throw_if_null_h v.
(** config.cc:168-190 *)
Fixpoint find_or_null_h (self : addr) (desired : path) (expected : vtype) (original : path) : prog addr :=
  handle
  match desired with
  | [] => Return (Stuck UNullDeref)
  | key :: next =>
      match next with
      | [] => find_key_or_null_h self key expected
      | _ :: _ =>
          _ <~ Return (sub_path2 original 0 (length original - length next)) ;;
          o <~ find_key_h self key TObject ;;
          c <~ read o ;;
          if object_cell c then find_or_null_h o next expected original else Return (Stuck UNullDeref)
      end
  end sliced.
(** config.cc:192-200, 542-549 *)
Definition find_h (self : addr) (path_expression : str) (expected : vtype) : prog addr :=
  p <~ Return (new_path path_expression) ;;
  v <~ find_or_null_h self p expected p ;;
  throw_if_null_h v.

(** ** Reading a whole value, and creating one *)

Fixpoint load (n : nat) (a : addr) : prog value :=
  match n with
  | O => Return (Stuck UFuel)
  | S n' =>
      c <~ read a ;;
      match c with
      | CScalar s => ret (VScalar s)
      | CList _ vs => l <~ each (load n') vs ;; ret (VList l)
      | CObj r i m => l <~ each (load n') (map snd m) ;; ret (VObj r i (combine (map fst m) l))
      | CRef id p o l => ret (VRef id p o l)
      | CConcat vs => l <~ each (load n') vs ;; ret (VConcat l)
      | CMerge vs => l <~ each (load n') vs ;; ret (VMerge l)
      | CMergeObj vs => l <~ each (load n') vs ;; ret (VMergeObj l)
      end
  end.
Fixpoint store (v : value) : prog addr :=
  match v with
  | VScalar s => new (CScalar s)
  | VList vs => l <~ each store vs ;; new (CList (forallb is_resolved vs) l)
  | VObj r i m => l <~ each (fun kv => store (snd kv)) m ;; new (CObj r i (combine (map fst m) l))
  | VRef id p o l => new (CRef id p o l)
  | VConcat vs => l <~ each store vs ;; new (CConcat l)
  | VMerge vs => l <~ each store vs ;; new (CMerge l)
  | VMergeObj vs => l <~ each store vs ;; new (CMergeObj l)
  end.

(** ** Clients *)

(** What can be asked of a config without getting a value back *)
Inductive question : Type :=
| QHasPath (p : str) | QHasPathOrNull (p : str) | QIsEmpty | QIsResolved | QIsNull (p : str)
| QBool (p : str) | QInt (p : str) | QLong (p : str) | QDouble (p : str) | QString (p : str) | QAnyRef (p : str)
| QBools (p : str) | QInts (p : str) | QLongs (p : str) | QDoubles (p : str) | QStrings (p : str)
| QDuration (p : str) (unit : time_unit)
| QEntries | QUnwrapped | QRender (o : Render_Model.options) (ns : notes).
Inductive answer : Set := AAny (u : unwrapped_value) | AEntries (l : list (str * value)).

Definition yes_no (r : result bool) : result answer := b <- r ;; Ok (AAny (UBool b)).
Definition some_list {A} (f : A -> unwrapped_value) (r : result (list A)) : result answer := l <- r ;; Ok (AAny (UList (map f l))).
(** The functions of config with these names; is_empty: config.cc:106-108, simple_config_object.hpp:21,
    config_delayed_merge_object.hpp:26; is_resolved: config.cc:512-514 *)
Definition ask (q : question) (v : value) : result answer :=
  match q with
  | QHasPath p => yes_no (has_path v p)
  | QHasPathOrNull p => yes_no (has_path_or_null v p)
  | QIsEmpty => match v with VObj _ _ m => yes_no (Ok (match m with [] => true | _ => false end)) | _ => Throw ENotResolved end
  | QIsResolved => yes_no (Ok (is_resolved v))
  | QIsNull p => yes_no (get_is_null v p)
  | QBool p => yes_no (get_bool v p)
  | QInt p => z <- get_int v p ;; Ok (AAny (UInt z))
  | QLong p => z <- get_long v p ;; Ok (AAny (ULong z))
  | QDouble p => d <- get_double v p ;; Ok (AAny (UDouble d))
  | QString p => s <- get_string v p ;; Ok (AAny (UString s))
  | QAnyRef p => u <- get_any_ref v p ;; Ok (AAny u)
  | QBools p => some_list UBool (get_bool_list v p)
  | QInts p => some_list UInt (get_int_list v p)
  | QLongs p => some_list ULong (get_long_list v p)
  | QDoubles p => some_list UDouble (get_double_list v p)
  | QStrings p => some_list UString (get_string_list v p)
  | QDuration p unit => z <- get_duration v p unit ;; Ok (AAny (ULong z))
  | QEntries => l <- entry_set v ;; Ok (AEntries l)
  | QUnwrapped => u <- unwrapped v ;; Ok (AAny u)
  | QRender o ns => s <- render_value o ns v ;; Ok (AAny (UString s))
  end.

(** An operation a client can call.  Numbers are positions in the list of the values the client shares
    and the outcomes of its earlier calls. *)
Inductive request : Type :=
| CallFallback (x y : nat)
| CallWithValue (x : nat) (p : str) (y : nat)
| CallWithoutPath (x : nat) (p : str)
| CallWithOnlyPath (x : nat) (p : str)
| CallAtPath (x : nat) (p : str)
| CallAtKey (x : nat) (k : str)
| CallGetValue (x : nat) (p : str)
| CallGetObject (x : nat) (p : str)
| CallResolve (x y : nat) (allow_unresolved use_environment : bool)
| CallParse (text : str) (o : parse_options)
| CallEqual (x y : nat)
| CallAsk (x : nat) (q : question).

(** What a client gets.  [Refused]: no such call is possible, an argument is no value (or no object). *)
Inductive outcome (V : Type) : Type := Gives (v : V) | Null | Answers (a : answer) | Threw (e : exn) | Refused.
Arguments Gives {V} v.
Arguments Null {V}.
Arguments Answers {V} a.
Arguments Threw {V} e.
Arguments Refused {V}.

Definition argument {V} (known : list (outcome V)) (x : nat) : option V :=
  match nth_error known x with Some (Gives v) => Some v | _ => None end.
(** the client catches what is thrown *)
Definition caught_by_client {V} (r : result (outcome V)) : result (outcome V) :=
  match r with Throw e => Ok (Threw e) | _ => r end.
Definition or_null {V} (o : option V) : outcome V := match o with Some v => Gives v | None => Null end.

Section Clients.
(** Files, environment, and bounds for nested includes and substitutions *)
Variable files : str -> option str.
Variable environment : list (str * str).
Variable include_depth resolve_depth : nat.

(** ids given to references while parsing start from 0: references of different texts are told apart by
    nothing but the text, see Value_Model.same *)
Definition parsed (text : str) (o : parse_options) : result value :=
  '(v, _) <- parse_string files environment resolve_depth include_depth text o 0 ;; Ok v.

(** On an object *)
Definition on_object (a : addr) (p : prog (outcome addr)) : prog (outcome addr) :=
  c <~ read a ;; if object_cell c then p else ret Refused.

(** config.cc:40-42, 55-81, 211-250, 495-541; config_value.cc:123-131 *)
Definition perform_h (known : list (outcome addr)) (r : request) : prog (outcome addr) :=
  match r with
  | CallFallback x y =>
      match argument known x, argument known y with
      | Some a, Some b => c <~ with_fallback_h (S a) a b ;; ret (Gives c)
      | _, _ => ret Refused
      end
  | CallWithValue x e y =>
      match argument known x, argument known y with
      | Some a, Some b => on_object a (p <~ Return (new_path e) ;; c <~ with_value_h a p b ;; ret (Gives c))
      | _, _ => ret Refused
      end
  | CallWithoutPath x e =>
      match argument known x with
      | Some a => on_object a (p <~ Return (new_path e) ;; c <~ without_path_h a p ;; ret (Gives c))
      | None => ret Refused
      end
  | CallWithOnlyPath x e =>
      match argument known x with
      | Some a => on_object a (p <~ Return (new_path e) ;; c <~ with_only_path_h a p ;; ret (Gives c))
      | None => ret Refused
      end
  | CallAtPath x e =>
      match argument known x with
      | Some a => p <~ Return (new_path e) ;; c <~ at_path_h a p ;; ret (Gives c)
      | None => ret Refused
      end
  | CallAtKey x k =>
      match argument known x with
      | Some a => c <~ at_key_h a k ;; ret (Gives c)
      | None => ret Refused
      end
  | CallGetValue x e =>
      match argument known x with
      | Some a => on_object a (b <~ find_h a e TUnspecified ;; ret (Gives b))
      | None => ret Refused
      end
  | CallGetObject x e =>
      match argument known x with
      | Some a => on_object a (b <~ find_h a e TObject ;; c <~ read b ;; ret (if object_cell c then Gives b else Null))
      | None => ret Refused
      end
  | CallResolve x y allow use =>
      match argument known x, argument known y with
      | Some a, Some b =>
          on_object a (on_object b
            (v <~ load (S a) a ;; w <~ load (S b) b ;;
             o <~ Return (resolve_with allow use environment resolve_depth v w) ;;
             match o with
             | None => ret Null
             | Some u => if same u v then ret (Gives a) else c <~ store u ;; ret (Gives c)
             end))
      | _, _ => ret Refused
      end
  | CallParse text o => v <~ Return (parsed text o) ;; c <~ store v ;; ret (Gives c)
  | CallEqual x y =>
      match argument known x, argument known y with
      | Some a, Some b => v <~ load (S a) a ;; w <~ load (S b) b ;; t <~ Return (value_eq v w) ;; ret (Answers (AAny (UBool t)))
      | _, _ => ret Refused
      end
  | CallAsk x q =>
      match argument known x with
      | Some a => on_object a (v <~ load (S a) a ;; s <~ Return (ask q v) ;; ret (Answers s))
      | None => ret Refused
      end
  end.

(** A thread: calls one after another.  Undefined behaviour ends it. *)
Fixpoint client (known : list (outcome addr)) (script : list request) : prog (list (outcome addr)) :=
  match script with
  | [] => ret []
  | r :: script' =>
      o <~ handle (perform_h known r) caught_by_client ;;
      rest <~ client (known ++ [o]) script' ;;
      ret (o :: rest)
  end.
End Clients.

(** ** Threads *)

(** One step of a thread *)
Definition step {A} (h : heap) (p : prog A) : heap * prog A :=
  match p with
  | Return r => (h, p)
  | Read a k => (h, match nth_error h a with Some c => k c | None => Return (Stuck UOutOfBounds) end)
  | New c k => (h ++ [c], k (List.length h))
  | Write a c k => (firstn a h ++ match skipn a h with [] => [] | _ :: t => c :: t end, k)
  end.
(** The schedule says whose turn it is. *)
Fixpoint run {A} (schedule : list nat) (h : heap) (threads : list (prog A)) : heap * list (prog A) :=
  match schedule with
  | [] => (h, threads)
  | i :: schedule' =>
      match nth_error threads i with
      | None => run schedule' h threads
      | Some p =>
          let '(h', p') := step h p in
          run schedule' h' (firstn i threads ++ p' :: skipn (S i) threads)
      end
  end.
