(** Shared vocabulary of the model: byte strings, the outcome of a C++ computation,
    and the C library character classes (in the "C" locale). *)
From Coq Require Export String Ascii ZArith Bool Lia List.
From Coq Require Import ZifyBool.
Export ListNotations.
Open Scope list_scope.
Open Scope Z_scope.

(** A std::string: a sequence of bytes. *)
Definition str := list ascii.

(** String literals. *)
Definition lit (x : string) : str := list_ascii_of_string x.

(** Kinds of C++ exceptions that cpp-hocon raises
    (lib/inc/hocon/config_exception.hpp, plus the std/boost ones that escape). *)
Inductive exn : Set :=
| EConfig              (* config_exception *)
| EBug                 (* bug_or_broken_exception *)
| EMissing             (* missing_exception *)
| ENull                (* null_exception, derives from missing_exception *)
| EWrongType           (* wrong_type_exception *)
| EBadValue            (* bad_value_exception *)
| EBadPath             (* bad_path_exception *)
| EIo                  (* io_exception *)
| EParse               (* parse_exception *)
| EUnresolved          (* unresolved_substitution_exception, derives from parse_exception *)
| ENotResolved         (* not_resolved_exception, derives from bug_or_broken_exception *)
| ENotPossible         (* not_possible_to_resolve_exception, derives from bug_or_broken_exception *)
| EValidation          (* validation_failed_exception *)
| EGeneric             (* generic_exception *)
| EOutOfRange          (* std::out_of_range (unordered_map::at, vector::at) *)
| EBadWeakPtr          (* std::bad_weak_ptr (shared_from_this on an unowned object) *)
| EBadGet              (* boost::bad_get *)
| ERuntime             (* std::runtime_error *)
| EUnknownOption       (* the boost::program_options errors *)
| EThrownPointer.      (* "throw new config_exception(...)": a raw pointer is thrown *)

(** [catch (config_exception& e)] catches exactly these
    (config_exception.hpp:15-120: every hocon exception class derives from config_exception). *)
Definition is_config_exn (e : exn) : bool :=
  match e with
  | EOutOfRange | EBadWeakPtr | EBadGet | ERuntime | EUnknownOption | EThrownPointer => false
  | _ => true
  end.

(** Why a computation has no defined C++ meaning. *)
Inductive ub : Set :=
| UNullDeref           (* null pointer dereference *)
| UUninit              (* use of an uninitialised variable *)
| UOutOfBounds         (* access past the end of a container / string *)
| UOverflow            (* signed integer overflow *)
| UFloatCast           (* double to integer conversion out of range *)
| UUnspecified         (* result left open by a library (depends on its version) *)
| UNoTermination       (* provably unbounded recursion *)
| UFuel.               (* the transcription ran out of fuel (shown unreachable) *)

Inductive result (A : Type) : Type :=
| Ok (a : A)
| Throw (e : exn)
| Stuck (u : ub).
Arguments Ok {A} a.
Arguments Throw {A} e.
Arguments Stuck {A} u.

Definition bind {A B} (r : result A) (f : A -> result B) : result B :=
  match r with
  | Ok a => f a
  | Throw e => Throw e
  | Stuck u => Stuck u
  end.

Definition rmap {A B} (f : A -> B) (r : result A) : result B :=
  bind r (fun a => Ok (f a)).

Declare Scope result_scope.
Notation "x <- e ;; f" := (bind e (fun x => f))
  (at level 61, e at next level, right associativity) : result_scope.
Notation "' p <- e ;; f" := (bind e (fun p => f))
  (at level 61, p pattern, e at next level, right associativity) : result_scope.
Open Scope result_scope.

Definition is_ok {A} (r : result A) : bool :=
  match r with Ok _ => true | _ => false end.

(** No undefined behaviour: the computation returns or raises. *)
Definition safe {A} (r : result A) : Prop :=
  match r with Stuck _ => False | _ => True end.

(** Numeric view of a byte: unsigned, and as a (signed) C++ [char]. *)
Definition byte_of (c : ascii) : Z := Z.of_nat (nat_of_ascii c).
Definition schar (c : ascii) : Z := if byte_of c <? 128 then byte_of c else byte_of c - 256.

Definition ch (n : nat) : ascii := ascii_of_nat n.
Definition nl : ascii := ch 10.

Definition str_eqb (a b : str) : bool := if list_eq_dec ascii_dec a b then true else false.

(** std::string::find(c) != npos, for the constant character sets of the code. *)
Definition mem (c : ascii) (s : str) : bool := existsb (Ascii.eqb c) s.

(** <cctype> in the "C" locale; bytes >= 0x80 belong to no class. *)
Definition isdigit (c : ascii) : bool := (48 <=? byte_of c) && (byte_of c <=? 57).
Definition isupper (c : ascii) : bool := (65 <=? byte_of c) && (byte_of c <=? 90).
Definition islower (c : ascii) : bool := (97 <=? byte_of c) && (byte_of c <=? 122).
Definition isalpha (c : ascii) : bool := isupper c || islower c.
Definition isalnum (c : ascii) : bool := isalpha c || isdigit c.
Definition isspace (c : ascii) : bool :=
  ((9 <=? byte_of c) && (byte_of c <=? 13)) || (byte_of c =? 32).

(** Concatenation of a list of strings. *)
Definition sconcat (l : list str) : str := List.concat l.

Arguments Ascii.eqb : simpl never.
Arguments byte_of : simpl never.
Arguments ch : simpl never.
Arguments nl : simpl never.
Arguments mem : simpl never.
Arguments str_eqb : simpl never.
