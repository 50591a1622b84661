(** Transcription of the getters of lib/src/config.cc and of lib/src/default_transformer.cc.

    Simplification: values carry no origin, so the null origins that config_value_factory gives to nested
    values (config_value_factory.cc:19-52), which throw_if_null and parse_duration dereference, are left
    out: every value is taken to have one, as all parsed values do. *)
From Verif Require Import Base Util_Model Num_Model Path_Model PathParser_Model Token_Model Value_Model Duration_Model.

(** config_value::type *)
Inductive vtype : Set := TObject | TList | TNumber | TBoolean | TNull | TString | TUnspecified.
Definition vtype_eqb (a b : vtype) : bool :=
  match a, b with
  | TObject, TObject | TList, TList | TNumber, TNumber | TBoolean, TBoolean | TNull, TNull
  | TString, TString | TUnspecified, TUnspecified => true
  | _, _ => false
  end.

(** value_type() of all value classes *)
Definition scalar_type (s : scalar) : vtype :=
  match s with SNull => TNull | SBool _ => TBoolean | SInt _ _ | SLong _ _ | SDouble _ _ => TNumber | SStr _ _ => TString end.
Definition value_type (v : value) : result vtype :=
  match v with
  | VScalar s => Ok (scalar_type s)
  | VList _ => Ok TList
  | VObj _ _ _ | VMergeObj _ => Ok TObject
  | VRef _ _ _ _ | VConcat _ => Throw ENotResolved
  | VMerge _ => Throw EConfig
  end.

(** boost::lexical_cast<double> on any text: the special values are read first
    (boost/lexical_cast/detail/inf_nan.hpp; library code) *)
Definition lower (c : ascii) : ascii := if isupper c then ch (Z.to_nat (byte_of c + 32)) else c.
Definition parse_inf_nan (s : str) : option double :=
  let '(neg, r) := take_sign s in
  let word := map lower r in
  if str_eqb (firstn 3 word) (lit "nan") then
    match skipn 3 r with
    | [] => Some S754_nan
    | c :: r' => if Ascii.eqb c "(" && negb (match r' with [] => true | _ => false end) && Ascii.eqb (List.last r' "("%char) ")" then Some S754_nan else None
    end
  else if str_eqb word (lit "inf") || str_eqb word (lit "infinity") then Some (S754_infinity neg)
  else None.
Definition text_to_double (s : str) : option double :=
  match parse_inf_nan s with Some d => Some d | None => lexical_cast_double s end.

(** default_transformer.cc:20-91 *)
Definition transform (v : value) (requested : vtype) : result value :=
  t <- value_type v ;;
  match v with
  | VScalar (SStr s q) =>
      match requested with
      | TNumber =>
          match lexical_cast_int64 s with
          | Some z => Ok (VScalar (SLong z s))
          | None => match text_to_double s with
                    | Some d => Ok (VScalar (SDouble d s))
                    | None => Ok v
                    end
          end
      | TNull => if str_eqb s (lit "null") then Ok (VScalar SNull) else Ok v
      | TBoolean =>
          if str_eqb s (lit "true") || str_eqb s (lit "yes") || str_eqb s (lit "on") then Ok (VScalar (SBool true))
          else if str_eqb s (lit "false") || str_eqb s (lit "no") || str_eqb s (lit "off") then Ok (VScalar (SBool false))
          else Ok v
      | TUnspecified => Throw EConfig
      | _ => Ok v
      end
  | _ =>
      match requested, t with
      | TString, (TNumber | TBoolean) =>
          match v with VScalar s => Ok (VScalar (SStr (scalar_text s) true)) | _ => Ok v end
      | TList, TObject => Throw EConfig
      | _, _ => Ok v
      end
  end.

(** config.cc:134-141 *)
Definition throw_if_null (v : value) : result value :=
  t <- value_type v ;; if vtype_eqb t TNull then Throw ENull else Ok v.

(** config_object.cc:40-46 *)
Definition peek_assuming_resolved (self : value) (key : str) : result (option value) :=
  match peek key self with
  | Throw e => if is_config_exn e then Throw EConfig else Throw e
  | r => r
  end.

(** config.cc:148-166 *)
Definition find_key_or_null (self : value) (key : str) (expected : vtype) : result value :=
  o <- peek_assuming_resolved self key ;;
  match o with
  | None => Throw EMissing
  | Some v =>
      if vtype_eqb expected TUnspecified then Ok v
      else
        v' <- transform v expected ;;
        t <- value_type v' ;;
        if vtype_eqb t expected || vtype_eqb t TNull then Ok v' else Throw EWrongType
  end.

(** config.cc:143-146 *)
Definition find_key_ (self : value) (key : str) (expected : vtype) : result value :=
  v <- find_key_or_null self key expected ;; throw_if_null v.

(** catch (config_exception& ex) { throw ex; }: the copy is a plain config_exception; config.cc:184-189 *)
Definition sliced {A} (r : result A) : result A :=
  match r with
  | Throw e => if is_config_exn e then Throw EConfig else Throw e
  | _ => r
  end.

(** config.cc:168-190.  get_resolve_status() only chooses the message. *)
Fixpoint find_or_null (self : value) (desired : path) (expected : vtype) (original : path) : result value :=
  sliced
  match desired with
  | [] => Stuck UNullDeref
  | key :: next =>
      match next with
      | [] => find_key_or_null self key expected
      | _ :: _ =>
          _ <- sub_path2 original 0 (length original - length next) ;;
          o <- find_key_ self key TObject ;;
          if is_object o then find_or_null o next expected original else Stuck UNullDeref
      end
  end.

(** config.cc:192-200, 542-549 *)
Definition find (self : value) (path_expression : str) (expected : vtype) : result value :=
  p <- new_path path_expression ;;
  v <- find_or_null self p expected p ;;
  throw_if_null v.
Definition find_or_null_expr (self : value) (path_expression : str) (expected : vtype) : result value :=
  p <- new_path path_expression ;; find_or_null self p expected p.

(** config.cc:82-94 *)
Definition has_path_peek (self : value) (path_expression : str) : result (option value) :=
  p <- new_path path_expression ;; sliced (peek_path self p).
(** config.cc:96-99 *)
Definition has_path (self : value) (path_expression : str) : result bool :=
  o <- has_path_peek self path_expression ;;
  match o with
  | None => Ok false
  | Some v => t <- value_type v ;; Ok (negb (vtype_eqb t TNull))
  end.
(** config.cc:101-104 *)
Definition has_path_or_null (self : value) (path_expression : str) : result bool :=
  o <- has_path_peek self path_expression ;; Ok (match o with Some _ => true | None => false end).

(** config.cc:202-205 *)
Definition get_is_null (self : value) (p : str) : result bool :=
  v <- find_or_null_expr self p TUnspecified ;; t <- value_type v ;; Ok (vtype_eqb t TNull).
(** config.cc:207-209 *)
Definition get_value (self : value) (p : str) : result value := find self p TUnspecified.
(** config.cc:211-214 *)
Definition get_bool (self : value) (p : str) : result bool :=
  v <- find self p TBoolean ;;
  match v with VScalar (SBool b) => Ok b | _ => Stuck UNullDeref end.
(** config_number.cc:43-49; long is 64 bits wide *)
Definition int_value_range_checked (s : scalar) : result Z :=
  l <- long_value s ;; if in_int l then Ok l else Throw EConfig.
Definition get_number (self : value) (p : str) : result scalar :=
  v <- find self p TNumber ;;
  match v with VScalar s => if is_number s then Ok s else Stuck UNullDeref | _ => Stuck UNullDeref end.
(** config.cc:216-219 *)
Definition get_int (self : value) (p : str) : result Z := s <- get_number self p ;; int_value_range_checked s.
(** config.cc:221-224 *)
Definition get_long (self : value) (p : str) : result Z := s <- get_number self p ;; long_value s.
(** config.cc:226-229 *)
Definition get_double (self : value) (p : str) : result double := s <- get_number self p ;; Ok (double_value s).
(** config.cc:231-234 *)
Definition get_string (self : value) (p : str) : result str :=
  v <- find self p TString ;;
  match v with VScalar (SStr s _) => Ok s | _ => Stuck UNullDeref end.
(** config.cc:236-238.  A null pointer result is [None]. *)
Definition get_object (self : value) (p : str) : result (option value) :=
  v <- find self p TObject ;; Ok (if is_object v then Some v else None).
(** config.cc:244-246 *)
Definition get_config (self : value) (p : str) : result value :=
  o <- get_object self p ;; match o with Some v => Ok v | None => Stuck UNullDeref end.
(** config.cc:248-250 *)
Definition get_list (self : value) (p : str) : result (option (list value)) :=
  v <- find self p TList ;; Ok (match v with VList vs => Some vs | _ => None end).
Definition the_list (self : value) (p : str) : result (list value) :=
  o <- get_list self p ;; match o with Some vs => Ok vs | None => Stuck UNullDeref end.

(** unwrapped(): config_{null,boolean,int,long,double,string}.cc, simple_config_list.cc, simple_config_object.cc:190-197,
    and the classes that throw *)
Inductive unwrapped_value : Set :=
| UBlank | UBool (b : bool) | UInt (z : Z) | ULong (z : Z) | UDouble (d : double) | UString (s : str)
| UList (l : list unwrapped_value) | UMap (m : list (str * unwrapped_value)).
Definition unwrapped_scalar (s : scalar) : unwrapped_value :=
  match s with
  | SNull => UBlank | SBool b => UBool b | SInt z _ => UInt z | SLong z _ => ULong z | SDouble d _ => UDouble d | SStr t _ => UString t
  end.
Fixpoint unwrapped (v : value) : result unwrapped_value :=
  match v with
  | VScalar s => Ok (unwrapped_scalar s)
  | VList vs =>
      l <- (fix go (vs : list value) : result (list unwrapped_value) :=
              match vs with [] => Ok [] | v :: vs' => u <- unwrapped v ;; r <- go vs' ;; Ok (u :: r) end) vs ;;
      Ok (UList l)
  | VObj _ _ m =>
      l <- (fix go (m : list (str * value)) : result (list (str * unwrapped_value)) :=
              match m with [] => Ok [] | (k, v) :: m' => u <- unwrapped v ;; r <- go m' ;; Ok ((k, u) :: r) end) m ;;
      Ok (UMap l)
  | VRef _ _ _ _ => Throw ENotResolved
  | VConcat _ | VMerge _ | VMergeObj _ => Throw EConfig
  end.
(** config.cc:240-242 *)
Definition get_any_ref (self : value) (p : str) : result unwrapped_value :=
  v <- find self p TUnspecified ;; unwrapped v.

(** config.hpp:577-589 and config.cc:303-321: [pick] is boost::get of the element type; a failure is a
    config_exception *)
Section Homogeneous.
Context {A : Type}.
Variable pick : unwrapped_value -> option A.
Fixpoint pick_all (l : list unwrapped_value) : result (list A) :=
  match l with
  | [] => Ok []
  | u :: l' => match pick u with
               | None => Throw EConfig
               | Some a => r <- pick_all l' ;; Ok (a :: r)
               end
  end.
Definition get_homogeneous (self : value) (p : str) : result (list A) :=
  vs <- the_list self p ;;
  u <- unwrapped (VList vs) ;;
  match u with UList l => pick_all l | _ => Throw EBadGet end.
End Homogeneous.
(** config.cc:252-270 *)
Definition get_bool_list := get_homogeneous (fun u => match u with UBool b => Some b | _ => None end).
Definition get_int_list := get_homogeneous (fun u => match u with UInt z => Some z | _ => None end).
Definition get_long_list := get_homogeneous (fun u => match u with ULong z | UInt z => Some z | _ => None end).
Definition get_double_list := get_homogeneous (fun u => match u with UDouble d => Some d | _ => None end).
Definition get_string_list := get_homogeneous (fun u => match u with UString s => Some s | _ => None end).

(** config.cc:272-284: throws a pointer *)
Definition get_object_list (self : value) (p : str) : result (list value) :=
  vs <- the_list self p ;;
  if forallb is_object vs then Ok vs else Throw EThrownPointer.
(** config.cc:286-297: a config_value is never a config *)
Definition get_config_list (self : value) (p : str) : result (list value) :=
  vs <- the_list self p ;;
  match vs with [] => Ok [] | _ :: _ => Throw EConfig end.

(** config.cc:323-336 *)
Definition get_timespan (self : value) (p : str) : result duration :=
  v <- get_value self p ;;
  match v with
  | VScalar (SDouble d _) => convert_double d MILLISECONDS
  | VScalar (SLong z _) | VScalar (SInt z _) => convert_long z MILLISECONDS
  | VScalar (SStr s _) => parse_duration s
  | _ => Throw EBadValue
  end.
(** config.cc:338-362 *)
Definition get_duration (self : value) (p : str) (unit : time_unit) : result Z :=
  t <- get_timespan self p ;; in_unit t unit.

(** config.cc:110-132.  A std::set of pairs is the list of the pairs in the order in which they are
    inserted; no pair is inserted twice. *)
Fixpoint find_paths (parent : path) (obj : value) : result (list (str * value)) :=
  match obj with
  | VObj _ _ m =>
      (fix go (m : list (str * value)) : result (list (str * value)) :=
         match m with
         | [] => Ok []
         | (elem, v) :: m' =>
             let new_path := match parent with [] => [elem] | _ :: _ => prepend [elem] parent end in
             here <- (if is_object v then find_paths new_path v
                      else match v with
                           | VScalar SNull => Ok []
                           | _ => Ok [(render_path new_path, v)]
                           end) ;;
             rest <- go m' ;;
             Ok (here ++ rest)
         end) m
  | VMergeObj _ => Throw ENotResolved
  | _ => Ok []
  end.
Definition entry_set (self : value) : result (list (str * value)) := find_paths [] self.
