(** Specification vocabulary for shared values. *)
From Verif Require Import Base Util_Model Num_Model Path_Model PathParser_Model Token_Model Value_Model Duration_Model Config_Model
  Render_Model Resolve_Model Include_Model Share_Model.

(** The contents of the value at an address.  The addresses a cell holds are older than its own. *)
Inductive holds (h : heap) : addr -> value -> Prop :=
| holds_scalar : forall a s, nth_error h a = Some (CScalar s) -> holds h a (VScalar s)
| holds_list : forall a l vs, nth_error h a = Some (CList (forallb is_resolved vs) l) ->
    Forall (fun b => b < a)%nat l -> Forall2 (holds h) l vs -> holds h a (VList vs)
| holds_obj : forall a r i m fs, nth_error h a = Some (CObj r i m) ->
    Forall (fun b => b < a)%nat (map snd m) -> map fst m = map fst fs -> Forall2 (holds h) (map snd m) (map snd fs) -> holds h a (VObj r i fs)
| holds_ref : forall a id p o l, nth_error h a = Some (CRef id p o l) -> holds h a (VRef id p o l)
| holds_concat : forall a l vs, nth_error h a = Some (CConcat l) ->
    Forall (fun b => b < a)%nat l -> Forall2 (holds h) l vs -> holds h a (VConcat vs)
| holds_merge : forall a l vs, nth_error h a = Some (CMerge l) ->
    Forall (fun b => b < a)%nat l -> Forall2 (holds h) l vs -> holds h a (VMerge vs)
| holds_merge_obj : forall a l vs, nth_error h a = Some (CMergeObj l) ->
    Forall (fun b => b < a)%nat l -> Forall2 (holds h) l vs -> holds h a (VMergeObj vs).

(** What a client gets, with addresses and with contents. *)
Inductive same_outcome (h : heap) : outcome addr -> outcome value -> Prop :=
| same_gives : forall a v, holds h a v -> same_outcome h (Gives a) (Gives v)
| same_null : same_outcome h Null Null
| same_answer : forall s, same_outcome h (Answers s) (Answers s)
| same_threw : forall e, same_outcome h (Threw e) (Threw e)
| same_refused : same_outcome h Refused Refused.
(** What a thread ends with. *)
Inductive same_end (h : heap) : result (list (outcome addr)) -> result (list (outcome value)) -> Prop :=
| same_ok : forall xs ys, Forall2 (same_outcome h) xs ys -> same_end h (Ok xs) (Ok ys)
| same_throw : forall e, same_end h (Throw e) (Throw e)
| same_stuck : forall u, same_end h (Stuck u) (Stuck u).

(** A client that has its values for itself: the operations of the value model, one after another.  There is
    no heap, no address and no other thread here. *)
Section Alone.
Variable files : str -> option str.
Variable environment : list (str * str).
Variable include_depth resolve_depth : nat.

Definition for_object (v : value) (r : result (outcome value)) : result (outcome value) :=
  if is_object v then r else Ok Refused.

Definition perform (known : list (outcome value)) (r : request) : result (outcome value) :=
  match r with
  | CallFallback x y =>
      match argument known x, argument known y with
      | Some v, Some w => u <- with_fallback v w ;; Ok (Gives u)
      | _, _ => Ok Refused
      end
  | CallWithValue x e y =>
      match argument known x, argument known y with
      | Some v, Some w => for_object v (p <- new_path e ;; u <- with_value v p w ;; Ok (Gives u))
      | _, _ => Ok Refused
      end
  | CallWithoutPath x e =>
      match argument known x with
      | Some v => for_object v (p <- new_path e ;; u <- without_path v p ;; Ok (Gives u))
      | None => Ok Refused
      end
  | CallWithOnlyPath x e =>
      match argument known x with
      | Some v => for_object v (p <- new_path e ;; u <- with_only_path v p ;; Ok (Gives u))
      | None => Ok Refused
      end
  | CallAtPath x e =>
      match argument known x with
      | Some v => p <- new_path e ;; u <- at_path v p ;; Ok (Gives u)
      | None => Ok Refused
      end
  | CallAtKey x k =>
      match argument known x with
      | Some v => u <- at_key v k ;; Ok (Gives u)
      | None => Ok Refused
      end
  | CallGetValue x e =>
      match argument known x with
      | Some v => for_object v (u <- get_value v e ;; Ok (Gives u))
      | None => Ok Refused
      end
  | CallGetObject x e =>
      match argument known x with
      | Some v => for_object v (u <- get_object v e ;; Ok (or_null u))
      | None => Ok Refused
      end
  | CallResolve x y allow use =>
      match argument known x, argument known y with
      | Some v, Some w => for_object v (for_object w (o <- resolve_with allow use environment resolve_depth v w ;; Ok (or_null o)))
      | _, _ => Ok Refused
      end
  | CallParse text o => v <- parsed files environment include_depth resolve_depth text o ;; Ok (Gives v)
  | CallEqual x y =>
      match argument known x, argument known y with
      | Some v, Some w => t <- value_eq v w ;; Ok (Answers (AAny (UBool t)))
      | _, _ => Ok Refused
      end
  | CallAsk x q =>
      match argument known x with
      | Some v => for_object v (s <- ask q v ;; Ok (Answers s))
      | None => Ok Refused
      end
  end.

Fixpoint alone (known : list (outcome value)) (script : list request) : result (list (outcome value)) :=
  match script with
  | [] => Ok []
  | r :: script' =>
      o <- caught_by_client (perform known r) ;;
      rest <- alone (known ++ [o]) script' ;;
      Ok (o :: rest)
  end.
End Alone.

(** All threads have ended. *)
Definition ended {A} (threads : list (prog A)) : Prop := Forall (fun p => exists r, p = Return r) threads.
(** Every thread in turn, as long as it takes. *)
Inductive one_after_another : nat -> nat -> list nat -> Prop :=
| no_thread : forall i, one_after_another i O []
| next_thread : forall i n k schedule, one_after_another (S i) n schedule -> one_after_another i (S n) (repeat i k ++ schedule).
