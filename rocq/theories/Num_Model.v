(** Numbers: the boost::lexical_cast conversions used by the tokenizer and the getters, and
    config_number::new_number (lib/src/values/config_number.cc:52-70).

    A double is a binary64 [spec_float] (Coq's standard library, 53-bit precision).
    boost::lexical_cast and strtod are library code: their behaviour on the characters
    "0123456789eE+-." is written down here and belongs to the trusted base. *)
From Verif Require Import Base.
From Coq Require Export Floats.SpecFloat.

Definition double := spec_float.
Definition prec64 : Z := 53.
Definition emax64 : Z := 1024.

Definition int_min : Z := - 2 ^ 31.
Definition int_max : Z := 2 ^ 31 - 1.
Definition int64_min : Z := - 2 ^ 63.
Definition int64_max : Z := 2 ^ 63 - 1.
Definition in_int (z : Z) : bool := (int_min <=? z) && (z <=? int_max).
Definition in_int64 (z : Z) : bool := (int64_min <=? z) && (z <=? int64_max).

Definition digit_val (c : ascii) : Z := byte_of c - 48.

(** Decimal value of a digit string. *)
Fixpoint dec_from (acc : Z) (s : str) : Z :=
  match s with
  | [] => acc
  | c :: s' => dec_from (acc * 10 + digit_val c) s'
  end.
Definition dec (s : str) : Z := dec_from 0 s.

(** Longest prefix of digits, and the rest. *)
Fixpoint span_digits (s : str) : str * str :=
  match s with
  | [] => ([], [])
  | c :: s' => if isdigit c then let '(d, r) := span_digits s' in (c :: d, r) else ([], s)
  end.

Definition take_sign (s : str) : bool * str :=
  match s with
  | c :: s' => if Ascii.eqb c "-" then (true, s')
               else if Ascii.eqb c "+" then (false, s') else (false, s)
  | [] => (false, [])
  end.

(** boost::lexical_cast<int64_t>: optional sign, at least one digit, nothing else, in range;
    [None] is bad_lexical_cast. *)
Definition lexical_cast_int64 (s : str) : option Z :=
  let '(neg, ds) := take_sign s in
  match ds with
  | [] => None
  | _ :: _ =>
      if forallb isdigit ds then
        let v := if neg then - dec ds else dec ds in
        if in_int64 v then Some v else None
      else None
  end.

(** Correctly rounded value of (-1)^neg * m * 10^e. *)
Definition dec_to_double (neg : bool) (m e : Z) : double :=
  match m with
  | Zpos _ =>
      if 0 <=? e then
        binary_normalize prec64 emax64 (if neg then - (m * 10 ^ e) else m * 10 ^ e) 0 neg
      else
        let '(mz, ez, lz) := SFdiv_core_binary prec64 emax64 m 0 (10 ^ (- e)) 0 in
        binary_round_aux prec64 emax64 neg mz ez lz
  | _ => S754_zero neg
  end.

(** The exponent part: e or E, optional sign, at least one digit. *)
Definition take_exponent (s : str) : option (Z * str) :=
  match s with
  | c :: s' =>
      if Ascii.eqb c "e" || Ascii.eqb c "E" then
        let '(neg, s'') := take_sign s' in
        let '(ds, r) := span_digits s'' in
        match ds with
        | [] => None
        | _ :: _ => Some (if neg then - dec ds else dec ds, r)
        end
      else Some (0, s)
  | [] => Some (0, [])
  end.

(** boost::lexical_cast<double>: sign, digits with at most one point and at least one digit,
    optional exponent, nothing else; a value too large for a double is rejected. *)
Definition lexical_cast_double (s : str) : option double :=
  let '(neg, s1) := take_sign s in
  let '(int_part, s2) := span_digits s1 in
  let '(frac_part, s3) :=
    match s2 with
    | c :: s' => if Ascii.eqb c "." then span_digits s' else ([], s2)
    | [] => ([], [])
    end in
  match int_part ++ frac_part with
  | [] => None
  | _ :: _ =>
      match take_exponent s3 with
      | Some (e, []) =>
          let d := dec_to_double neg (dec (int_part ++ frac_part))
                                 (e - Z.of_nat (List.length frac_part)) in
          match d with
          | S754_infinity _ => None
          | _ => Some d
          end
      | _ => None
      end
  end.

(** Truncation towards zero of a finite double. *)
Definition double_trunc (d : double) : option Z :=
  match d with
  | S754_zero _ => Some 0
  | S754_finite s m e =>
      let a := if 0 <=? e then Zpos m * 2 ^ e else Zpos m / 2 ^ (- e) in
      Some (if s then - a else a)
  | _ => None
  end.

(** static_cast<int64_t>(double): undefined when the truncated value does not fit. *)
Definition cast_int64 (d : double) : result Z :=
  match double_trunc d with
  | Some z => if in_int64 z then Ok z else Stuck UFloatCast
  | None => Stuck UFloatCast
  end.

(** Implicit conversion of an integer to double (round to nearest even). *)
Definition int_to_double (z : Z) : double := binary_normalize prec64 emax64 z 0 false.

(** Scalar configuration values (lib/src/values/config_{null,boolean,int,long,double,string}.cc).
    Numbers keep their original text; the flag of a string is config_string_type::QUOTED. *)
Inductive scalar : Set :=
| SNull
| SBool (b : bool)
| SInt (z : Z) (text : str)
| SLong (z : Z) (text : str)
| SDouble (d : double) (text : str)
| SStr (s : str) (quoted : bool).

(** config_number.cc:52-60 *)
Definition new_number_int (value : Z) (text : str) : scalar :=
  if in_int value then SInt value text else SLong value text.

(** config_number.cc:62-70 *)
Definition new_number_double (value : double) (text : str) : result scalar :=
  as_long <- cast_int64 value ;;
  Ok (if SFeqb (int_to_double as_long) value then new_number_int as_long text
      else SDouble value text).

(** Decimal text of an integer (std::to_string). *)
Definition string_of_pos (p : positive) : str :=
  (fix go (fuel : nat) (z : Z) (acc : str) : str :=
     match fuel with
     | O => acc
     | S n => let acc' := ch (48 + Z.to_nat (z mod 10)) :: acc in
              if z / 10 =? 0 then acc' else go n (z / 10) acc'
     end) (Pos.size_nat p) (Zpos p) [].
Definition string_of_Z (z : Z) : str :=
  match z with
  | Z0 => lit "0"
  | Zpos p => string_of_pos p
  | Zneg p => "-"%char :: string_of_pos p
  end.

(** std::to_string(double), i.e. printf("%f"): six decimals, correctly rounded (ties to even). *)
Definition pad6 (s : str) : str := repeat "0"%char (6 - List.length s) ++ s.
Definition double_to_string (d : double) : str :=
  let body (s : bool) (n : Z) :=
    (if s then lit "-" else []) ++ string_of_Z (n / 1000000) ++ lit "." ++
    pad6 (string_of_Z (n mod 1000000)) in
  match d with
  | S754_zero s => body s 0
  | S754_infinity s => (if s then lit "-" else []) ++ lit "inf"
  | S754_nan => lit "nan"
  | S754_finite s m e =>
      if 0 <=? e then body s (Zpos m * 2 ^ e * 1000000)
      else
        let n := Zpos m * 1000000 in
        let d := 2 ^ (- e) in
        let q := n / d in
        let r := n mod d in
        body s (if (2 * r >? d) || ((2 * r =? d) && Z.odd q) then q + 1 else q)
  end.
