(** Transcription of the persistent list: lib/inc/hocon/functional_list.hpp.

    The items live in a heap: an address is the position of an item in the list of all items allocated so
    far, a shared_ptr is an optional address.  Items are const, so nothing but allocation changes the heap;
    that a shared_ptr keeps its item alive is taken for granted, freeing is left out.  The recursive functions
    take as [fuel] a bound on the length of the list, one more than the number of items. *)
From Verif Require Import Base.

Section FList.
Context {A : Type}.
(** T's operator== *)
Variable eqb : A -> A -> bool.

Definition heap : Type := list (A * option nat).
Definition ptr := option nat.

(** functional_list.hpp:33-36 *)
Definition cons_ (h : heap) (v : A) (tail : ptr) : heap * ptr := (h ++ [(v, tail)], Some (List.length h)).
(** functional_list.hpp:38 *)
Definition is_empty (p : ptr) : bool := match p with None => true | Some _ => false end.
(** functional_list.hpp:39-48.  On an empty list the assertion fails or, without assertions, null is dereferenced. *)
Definition item (h : heap) (p : ptr) : result (A * ptr) :=
  match p with
  | None => Stuck UNullDeref
  | Some a => match nth_error h a with Some i => Ok i | None => Stuck UOutOfBounds end
  end.
Definition front (h : heap) (p : ptr) : result A := i <- item h p ;; Ok (fst i).
Definition popped_front (h : heap) (p : ptr) : result ptr := i <- item h p ;; Ok (snd i).

(** functional_list.hpp:54-58 *)
Fixpoint take_n (fuel : nat) (h : heap) (p : ptr) (n : Z) : result (heap * ptr) :=
  match fuel with
  | O => Stuck UFuel
  | S f =>
      if (n <=? 0) || is_empty p then Ok (h, None)
      else
        q <- popped_front h p ;;
        '(h1, r) <- take_n f h q (n - 1) ;;
        v <- front h1 p ;;
        Ok (cons_ h1 v r)
  end.
(** functional_list.hpp:59-67 *)
Fixpoint inserted_at_n (fuel : nat) (h : heap) (p : ptr) (i : Z) (v : A) : result (heap * ptr) :=
  match fuel with
  | O => Stuck UFuel
  | S f =>
      if i =? 0 then Ok (cons_ h v p)
      else
        x <- front h p ;; q <- popped_front h p ;;
        '(h1, r) <- inserted_at_n f h q (i - 1) v ;;
        Ok (cons_ h1 x r)
  end.
(** functional_list.hpp:68-74 *)
Fixpoint removed_n (fuel : nat) (h : heap) (p : ptr) (v : A) : result (heap * ptr) :=
  match fuel with
  | O => Stuck UFuel
  | S f =>
      if is_empty p then Ok (h, None)
      else
        x <- front h p ;; q <- popped_front h p ;;
        '(h1, r) <- removed_n f h q v ;;
        if eqb v x then Ok (h1, r) else Ok (cons_ h1 x r)
  end.
(** functional_list.hpp:75-81: goes on with removed(), not removed1() *)
Definition removed1_n (fuel : nat) (h : heap) (p : ptr) (v : A) : result (heap * ptr) :=
  if is_empty p then Ok (h, None)
  else
    x <- front h p ;; q <- popped_front h p ;;
    if eqb v x then Ok (h, q)
    else '(h1, r) <- removed_n fuel h q v ;; Ok (cons_ h1 x r).
(** functional_list.hpp:82-87 *)
Fixpoint member_n (fuel : nat) (h : heap) (p : ptr) (v : A) : result bool :=
  match fuel with
  | O => Stuck UFuel
  | S f =>
      if is_empty p then Ok false
      else x <- front h p ;; if eqb v x then Ok true else q <- popped_front h p ;; member_n f h q v
  end.
(** functional_list.hpp:106-114 *)
Fixpoint all_n (fuel : nat) (h : heap) (p : ptr) (holds_for : A -> bool) : result bool :=
  match fuel with
  | O => Stuck UFuel
  | S f =>
      if is_empty p then Ok true
      else x <- front h p ;; if holds_for x then q <- popped_front h p ;; all_n f h q holds_for else Ok false
  end.
(** functional_list.hpp:173-179 *)
Fixpoint concat_n (fuel : nat) (h : heap) (a b : ptr) : result (heap * ptr) :=
  match fuel with
  | O => Stuck UFuel
  | S f =>
      if is_empty a then Ok (h, b)
      else
        x <- front h a ;; q <- popped_front h a ;;
        '(h1, r) <- concat_n f h q b ;;
        Ok (cons_ h1 x r)
  end.
(** functional_list.hpp:193-204 *)
Fixpoint filter_n (fuel : nat) (keep : A -> bool) (h : heap) (p : ptr) : result (heap * ptr) :=
  match fuel with
  | O => Stuck UFuel
  | S f =>
      if is_empty p then Ok (h, None)
      else
        x <- front h p ;; q <- popped_front h p ;;
        '(h1, r) <- filter_n f keep h q ;;
        if keep x then Ok (cons_ h1 x r) else Ok (h1, r)
  end.
(** functional_list.hpp:206-215, for a function that allocates no items *)
Fixpoint foldr_n {U} (fuel : nat) (f : A -> U -> U) (acc : U) (h : heap) (p : ptr) : result U :=
  match fuel with
  | O => Stuck UFuel
  | S k => if is_empty p then Ok acc else x <- front h p ;; q <- popped_front h p ;; r <- foldr_n k f acc h q ;; Ok (f x r)
  end.
(** functional_list.hpp:217-226; [f] may allocate items *)
Fixpoint foldl_n {U} (fuel : nat) (f : heap -> U -> A -> result (heap * U)) (h : heap) (acc : U) (p : ptr) : result (heap * U) :=
  match fuel with
  | O => Stuck UFuel
  | S k =>
      if is_empty p then Ok (h, acc)
      else
        x <- front h p ;; '(h1, acc1) <- f h acc x ;;
        q <- popped_front h1 p ;; foldl_n k f h1 acc1 q
  end.
(** functional_list.hpp:311-318 *)
Definition reversed_n (fuel : nat) (h : heap) (p : ptr) : result (heap * ptr) :=
  foldl_n fuel (fun h acc v => Ok (cons_ h v acc)) h None p.
(** functional_list.hpp:228-235 *)
Definition set_diff_n (fuel : nat) (h : heap) (as_ bs : ptr) : result (heap * ptr) :=
  foldl_n fuel (fun h acc x => removed_n fuel h acc x) h as_ bs.
(** functional_list.hpp:237-248 *)
Definition set_union_n (fuel : nat) (h : heap) (xs ys : ptr) : result (heap * ptr) :=
  '(h1, trimmed) <- set_diff_n fuel h ys xs ;; concat_n fuel h1 trimmed xs.
(** functional_list.hpp:271-279, from a vector *)
Fixpoint from_it (h : heap) (l : list A) : heap * ptr :=
  match l with
  | [] => (h, None)
  | x :: l' => let '(h1, r) := from_it h l' in cons_ h1 x r
  end.
(** functional_list.hpp:281-286, [count] calls at most *)
Fixpoint iterate_n (h : heap) (f : A -> A) (init : A) (count : nat) : heap * ptr :=
  match count with
  | O => (h, None)
  | S n => let '(h1, r) := iterate_n h f (f init) n in cons_ h1 init r
  end.

Definition fuel_for (h : heap) : nat := S (List.length h).
Definition take h p n := take_n (fuel_for h) h p n.
Definition inserted_at h p i v := inserted_at_n (fuel_for h) h p i v.
Definition removed h p v := removed_n (fuel_for h) h p v.
Definition removed1 h p v := removed1_n (fuel_for h) h p v.
Definition member h p v := member_n (fuel_for h) h p v.
Definition all h p holds_for := all_n (fuel_for h) h p holds_for.
Definition iterate h f init (count : Z) := iterate_n h f init (Z.to_nat count).
Definition concat h a b := concat_n (fuel_for h) h a b.
Definition filter keep h p := filter_n (fuel_for h) keep h p.
Definition foldr {U} (f : A -> U -> U) acc h p := foldr_n (fuel_for h) f acc h p.
Definition reversed h p := reversed_n (fuel_for h) h p.
Definition set_diff h a b := set_diff_n (fuel_for h) h a b.
Definition set_union h a b := set_union_n (fuel_for h) h a b.
End FList.

Section FMap.
Context {A B : Type}.
(** functional_list.hpp:181-191; the result is a list of another type, in the heap [hb] *)
Fixpoint fmap_n (fuel : nat) (f : A -> B) (h : heap) (hb : heap) (p : ptr) : result (heap * ptr) :=
  match fuel with
  | O => Stuck UFuel
  | S k =>
      if is_empty p then Ok (hb, None)
      else
        x <- front h p ;; q <- popped_front h p ;;
        '(h1, r) <- fmap_n k f h hb q ;; Ok (cons_ h1 (f x) r)
  end.
Definition fmap f (h : @heap A) (hb : @heap B) p := fmap_n (fuel_for h) f h hb p.
End FMap.
