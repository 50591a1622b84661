(** Transcription of lib/src/path.cc and lib/src/path_builder.cc.

    A [path] (lib/inc/hocon/path.hpp:17, member [List<shared_string> _path]) is the list of its keys.
    Simplification: the keys are held by value; the C++ list holds shared_ptr<string>, which are
    never null except when path(vector<path>) is given an empty first path (see [path_of_paths]). *)
From Verif Require Import Base.

Definition path := list str.

(** path.cc:55-60 *)
Definition first (p : path) : option str :=
  match p with [] => None | k :: _ => Some k end.

(** path.cc:62-67 *)
Definition remainder (p : path) : path :=
  match p with [] => [] | _ :: r => r end.

(** path.cc:127-129 *)
Definition empty (p : path) : bool :=
  match p with [] => true | _ :: _ => false end.

(** path.cc:69-71 *)
Definition has_remainder (p : path) : bool := negb (empty (remainder p)).

(** path.cc:73-79; the loop "while (p.has_remainder()) p = p.remainder()" *)
Fixpoint last (p : path) : option str :=
  match p with
  | [] => first []
  | k :: r => if has_remainder (k :: r) then last r else first (k :: r)
  end.

(** path_builder: [_keys] is a stack, its top at the head of the list. *)
Definition builder := list str.

(** path_builder.cc:7-9 *)
Definition append_key (b : builder) (k : str) : builder := k :: b.

(** path_builder.cc:11-26; the loop pushes the current first key and moves on while there is a
    remainder *)
Fixpoint append_path (b : builder) (p : path) : builder :=
  match p with
  | [] => b
  | k :: r => if has_remainder (k :: r) then append_path (append_key b k) r else append_key b k
  end.

(** path_builder.cc:28-36; pops keys and conses them onto the remainder *)
Fixpoint builder_result_from (rem : path) (b : builder) : path :=
  match b with
  | [] => rem
  | k :: b' => builder_result_from (k :: rem) b'
  end.
Definition builder_result (b : builder) : path := builder_result_from [] b.

(** path.cc:23-37, path(vector<string>) *)
Definition path_of_keys (elements : list str) : result path :=
  match elements with
  | [] => Throw EConfig
  | k0 :: rest =>
      let remainder :=
        match rest with
        | [] => []
        | _ :: _ => builder_result (fold_left append_key rest [])
        end in
      Ok (k0 :: remainder)
  end.

(** path.cc:39-53, path(vector<path>).  When the first path is empty the C++ builds a path whose
    first key is a null pointer; every later use dereferences it, so this is [Stuck UNullDeref]. *)
Definition path_of_paths (ps : list path) : result path :=
  match ps with
  | [] => Throw EConfig
  | p0 :: rest =>
      let b0 := if has_remainder p0 then append_path [] (remainder p0) else [] in
      let b := fold_left append_path rest b0 in
      match first p0 with
      | None => Stuck UNullDeref
      | Some k => Ok (k :: builder_result b)
      end
  end.

(** path.cc:81-86 *)
Definition prepend (this prefix : path) : path :=
  builder_result (append_path (append_path [] prefix) this).

(** path.cc:88-96.  Simplification: the int counter is an unbounded integer. *)
Fixpoint length_from (n : Z) (p : path) : Z :=
  match p with
  | [] => n
  | k :: r => if has_remainder (k :: r) then length_from (n + 1) r else n
  end.
Definition length (p : path) : Z := length_from 1 p.

(** path.cc:98-106 *)
Fixpoint sub_path (p : path) (count : Z) : path :=
  match p with
  | [] => []
  | k :: r => if has_remainder (k :: r) && (count >? 0) then sub_path r (count - 1) else k :: r
  end.

(** path.cc:116-123, the loop of the two-index sub_path; [count] is a non-negative int *)
Fixpoint sub_path_loop (count : nat) (b : builder) (from : path) : result builder :=
  match count with
  | O => Ok b
  | S n =>
      match first from with
      | None => Stuck UNullDeref
      | Some k =>
          let b' := append_key b k in
          let from' := remainder from in
          if empty from' then Throw EConfig else sub_path_loop n b' from'
      end
  end.

(** path.cc:108-125 *)
Definition sub_path2 (p : path) (first_index last_index : Z) : result path :=
  if last_index <? first_index then Throw EConfig
  else
    b <- sub_path_loop (Z.to_nat (last_index - first_index)) [] (sub_path p first_index) ;;
    Ok (builder_result b).

(** path.cc:135-141, the loop of starts_with *)
Fixpoint starts_with_loop (mine other : path) : result bool :=
  match first other with
  | None => Ok true
  | Some o =>
      match first mine with
      | None => Stuck UNullDeref
      | Some m =>
          if negb (str_eqb o m) then Ok false
          else match other with
               | [] => Ok true
               | _ :: other' => starts_with_loop (remainder mine) other'
               end
      end
  end.

(** path.cc:131-145 *)
Definition starts_with (this other : path) : result bool :=
  if length other <=? length this then starts_with_loop this other else Ok false.

(** path.cc:154-157, the loop of parent *)
Fixpoint parent_loop (b : builder) (p : path) : builder :=
  match p with
  | [] => b
  | k :: r => if has_remainder (k :: r) then parent_loop (append_key b k) r else b
  end.

(** path.cc:147-159 *)
Definition parent (p : path) : path :=
  if negb (has_remainder p) then [] else builder_result (parent_loop [] p).

(** path.cc:161-170 *)
Fixpoint path_eq (a b : path) : bool :=
  match a, b with
  | [], [] => true
  | [], _ :: _ => false
  | _ :: _, [] => false
  | k :: a', l :: b' => str_eqb k l && path_eq a' b'
  end.

(** path.cc:20-21 with an empty remainder, path.cc:212-214 *)
Definition new_key (k : str) : path := [k].
