(** Specification vocabulary for the escapes of quoted strings (RFC 8259, RFC 3629). *)
From Verif Require Import Base.

(** [hex_digit c d]: the character [c] stands for the hexadecimal digit [d]. *)
Definition hex_digit (c : ascii) (d : Z) : Prop :=
  nth_error (lit "0123456789abcdef") (Z.to_nat d) = Some c /\ 0 <= d \/
  nth_error (lit "0123456789ABCDEF") (Z.to_nat d) = Some c /\ 0 <= d.

(** [continues b x]: [b] is the byte 10xxxxxx. *)
Definition continues (b : ascii) (x : Z) : Prop := byte_of b = 128 + x /\ 0 <= x < 64.

(** [encodes z bs]: [bs] is the UTF-8 encoding of the code point [z] of the basic multilingual plane. *)
Inductive encodes (z : Z) : str -> Prop :=
| one_byte : forall a, byte_of a = z -> z < 128 -> encodes z [a]
| two_bytes : forall a b x y, byte_of a = 192 + x -> 0 <= x < 32 -> continues b y ->
    z = x * 64 + y -> 128 <= z -> encodes z [a; b]
| three_bytes : forall a b c x y w, byte_of a = 224 + x -> 0 <= x < 16 -> continues b y -> continues c w ->
    z = (x * 64 + y) * 64 + w -> 2048 <= z -> encodes z [a; b; c].

(** Half of a pair standing for a code point outside the basic multilingual plane. *)
Definition surrogate (z : Z) : Prop := 55296 <= z <= 57343.

(** The escapes of one letter: what is written after the backslash, and what it stands for. *)
Definition short_escapes : list (ascii * ascii) :=
  [(ch 34, ch 34); (ch 92, ch 92); ("/"%char, "/"%char); ("b"%char, ch 8); ("f"%char, ch 12);
   ("n"%char, ch 10); ("r"%char, ch 13); ("t"%char, ch 9)].

(** [stands_for w v]: between double quotes, [w] is a way to write the bytes [v]. *)
Inductive stands_for : str -> str -> Prop :=
| s_end : stands_for [] []
| s_plain : forall c w v, 32 <= byte_of c <= 127 -> c <> ch 34 -> c <> ch 92 ->
    stands_for w v -> stands_for (c :: w) (c :: v)
| s_short : forall e c w v, In (e, c) short_escapes -> stands_for w v -> stands_for (ch 92 :: e :: w) (c :: v)
| s_unicode : forall c1 c2 c3 c4 d1 d2 d3 d4 bs w v,
    hex_digit c1 d1 -> hex_digit c2 d2 -> hex_digit c3 d3 -> hex_digit c4 d4 ->
    let z := ((d1 * 16 + d2) * 16 + d3) * 16 + d4 in
    0 < z -> ~ surrogate z -> encodes z bs -> stands_for w v ->
    stands_for (ch 92 :: "u"%char :: c1 :: c2 :: c3 :: c4 :: w) (bs ++ v).
