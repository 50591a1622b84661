(** Transcription of the durations of lib/src/config.cc:333-465.

    int64_t and int are the integers of 64 and 32 bits; a signed overflow is [Stuck UOverflow], a cast of a
    double out of range [Stuck UFloatCast]. *)
From Verif Require Import Base Util_Model Num_Model Path_Model PathParser_Model.

(** config.hpp:20 *)
Inductive time_unit : Set := NANOSECONDS | MICROSECONDS | MILLISECONDS | SECONDS | MINUTES | HOURS | DAYS.

(** Arithmetic on int64_t *)
Definition int64 (z : Z) : result Z := if in_int64 z then Ok z else Stuck UOverflow.
Definition mul64 (a b : Z) : result Z := int64 (a * b).
Definition add64 (a b : Z) : result Z := int64 (a + b).

(** hocon::duration: seconds and nanoseconds *)
Definition duration := (Z * Z)%type.

(** config.cc:364-399 *)
Definition convert_long (number : Z) (units : time_unit) : result duration :=
  '(seconds, nanos) <-
    (match units with
     | NANOSECONDS => Ok (Z.quot number 1000000000, Z.rem number 1000000000)
     | MICROSECONDS => Ok (Z.quot number 1000000, Z.rem number 1000000 * 1000)
     | MILLISECONDS => Ok (Z.quot number 1000, Z.rem number 1000 * 1000000)
     | SECONDS => Ok (number, 0)
     | MINUTES => s <- mul64 number 60 ;; Ok (s, 0)
     | HOURS => s <- mul64 number 3600 ;; Ok (s, 0)
     | DAYS => s <- mul64 number 86400 ;; Ok (s, 0)
     end) ;;
  if negb (Bool.eqb (0 <=? number) (0 <=? seconds)) then Throw EConfig else Ok (seconds, nanos).

(** Double arithmetic: rounded to nearest, ties to even. *)
Definition ddiv (a : double) (n : Z) : double := SFdiv prec64 emax64 a (int_to_double n).
Definition dmul (a : double) (n : Z) : double := SFmul prec64 emax64 a (int_to_double n).
(** fmod(a, n) for a positive integer n: exact, with the sign of [a] *)
Definition fmod (a : double) (n : Z) : double :=
  match a with
  | S754_zero s => S754_zero s
  | S754_finite s m e =>
      let r := if 0 <=? e then (Zpos m * 2 ^ e) mod n else Zpos m mod (n * 2 ^ (- e)) in
      binary_normalize prec64 emax64 (if s then - r else r) (if 0 <=? e then 0 else e) s
  | _ => S754_nan
  end.
(** isnormal: finite, not zero, not subnormal *)
Definition isnormal (a : double) : bool :=
  match a with S754_finite _ m _ => 2 ^ 52 <=? Zpos m | _ => false end.
(** static_cast<int> *)
Definition cast_int (d : double) : result Z :=
  match double_trunc d with
  | Some z => if in_int z then Ok z else Stuck UFloatCast
  | None => Stuck UFloatCast
  end.

(** config.cc:401-441 *)
Definition convert_double (number : double) (units : time_unit) : result duration :=
  let '(seconds, nanos) :=
    match units with
    | NANOSECONDS => (ddiv number 1000000000, fmod number 1000000000)
    | MICROSECONDS => (ddiv number 1000000, dmul (fmod number 1000000) 1000)
    | MILLISECONDS => (ddiv number 1000, dmul (fmod number 1000) 1000000)
    | SECONDS => (number, dmul (fmod number 1) 1000000000)
    | MINUTES => (dmul number 60, dmul (fmod (dmul number 60) 1) 1000000000)
    | HOURS => (dmul number 3600, dmul (fmod (dmul number 3600) 1) 1000000000)
    | DAYS => (dmul number 86400, dmul (fmod (dmul number 86400) 1) 1000000000)
    end in
  if negb (isnormal seconds) || negb (isnormal nanos) then Throw EConfig
  else s <- cast_int64 seconds ;; n <- cast_int nanos ;; Ok (s, n).

Definition one_of (s : str) (l : list string) : bool := existsb (fun x => str_eqb s (lit x)) l.

(** config.cc:443-461 *)
Definition get_units (unit_string : str) : result time_unit :=
  if one_of unit_string ["ns"; "nanos"; "nanoseconds"]%string then Ok NANOSECONDS
  else if one_of unit_string ["us"; "micros"; "microseconds"]%string then Ok MICROSECONDS
  else if one_of unit_string [""; "ms"; "millis"; "milliseconds"]%string then Ok MILLISECONDS
  else if one_of unit_string ["s"; "seconds"]%string then Ok SECONDS
  else if one_of unit_string ["m"; "minutes"]%string then Ok MINUTES
  else if one_of unit_string ["h"; "hours"]%string then Ok HOURS
  else if one_of unit_string ["d"; "days"]%string then Ok DAYS
  else Throw EConfig.

(** boost::trim_left_copy_if(s, !is_alpha()) *)
Fixpoint from_alpha (s : str) : str :=
  match s with c :: s' => if isalpha c then s else from_alpha s' | [] => [] end.

(** config.cc:470-472 *)
Definition unit_plural (unit_string : str) : str :=
  if (2 <? List.length unit_string)%nat && negb (Ascii.eqb (List.last unit_string "s"%char) "s") then unit_string ++ lit "s" else unit_string.

(** config.cc:463-487.  A number_string has no letters, so lexical_cast<double> never reads inf or nan
    here.  The origin for the exception is assumed not to be null, see Config_Model. *)
Definition parse_duration (input0 : str) : result duration :=
  let input := trim input0 in
  let original_unit_string := from_alpha input in
  let number_string := trim (firstn (List.length input - List.length original_unit_string) input) in
  match number_string with
  | [] => Throw EBadValue
  | _ :: _ =>
      let unit_string := unit_plural original_unit_string in
      match lexical_cast_int64 number_string with
      | Some number => u <- get_units unit_string ;; convert_long number u
      | None =>
          match lexical_cast_double number_string with
          | Some number => u <- get_units unit_string ;; convert_double number u
          | None => Throw EBadValue
          end
      end
  end.

(** config.cc:333-362: the count of [unit]s in a duration *)
Definition in_unit (timespan : duration) (unit : time_unit) : result Z :=
  let '(first, second) := timespan in
  result <-
    (match unit with
     | NANOSECONDS => a <- mul64 first 1000000000 ;; add64 a second
     | MICROSECONDS => a <- mul64 first 1000000 ;; add64 a (Z.quot second 1000)
     | MILLISECONDS => a <- mul64 first 1000 ;; add64 a (Z.quot second 1000000)
     | SECONDS => Ok first
     | MINUTES => Ok (Z.quot first 60)
     | HOURS => Ok (Z.quot first 3600)
     | DAYS => Ok (Z.quot first 86400)
     end) ;;
  if negb (Bool.eqb (0 <=? result) (0 <=? first)) then Throw EConfig else Ok result.
