(** Property C32: a definition in terms of itself. *)
From Verif Require Import Base BaseLemmas Util_Model Num_Model Path_Model Token_Model PathParser_Model Doc_Model Edit_Model Value_Model Value_Spec Value_Props Concat_Model
  ConfigParser_Model ConfigParser_Spec ConfigParser_Props Resolve_Model Resolve_Spec Resolve_Props Resolve_Props2 Resolve_Lemmas10.

(** C32.  No definition is lost before resolving: merging the definitions of a field in turn, whether they come
    from the same document or from fallbacks, keeps all of them in order, the last one in front. *)
Theorem definitions_pile_up : forall k ds base, ds <> [] -> Forall (redefinition k) ds -> plain base ->
  fold_right (fun d earlier => e <- earlier ;; with_fallback d e) (Ok base) ds = Ok (VMerge (ds ++ [base])).
Proof. exact pile_up. Qed.
Print Assumptions definitions_pile_up.

(** C32.  In a document where a field has a plain first definition and then up to two definitions in terms of
    itself, resolving gives the field the value got by taking, in each definition, the field for its value before
    this definition; the other fields stay as they are.
    Missing (false, see below): more than two definitions in terms of itself.  Missing (not proved): fields below
    the root, other fields that are not plain, and definitions with other substitutions. *)
Theorem lookback_partial : forall use env k i m1 m2 ds base v,
  ~ In k (map fst m1) -> Forall (fun kv => plain (snd kv)) (m1 ++ m2) ->
  ds <> [] -> (List.length ds <= 2)%nat -> Forall (redefinition k) ds -> plain base ->
  ForallOrdPairs (fun d d' => forall id, mentions d id -> mentions d' id -> False) ds ->
  evolve k (ds ++ [base]) = Ok (Some v) ->
  exists n, forall m, (n <= m)%nat ->
    resolve_config false use env m (VObj false i (m1 ++ (k, VMerge (ds ++ [base])) :: m2)) = Ok (Some (VObj true i (m1 ++ (k, v) :: m2))).
Proof. exact look_back. Qed.
Print Assumptions lookback_partial.

Ltac apart := repeat match goal with
  | H : mentions _ _ |- _ => destruct H as [? [? [? H]]]
  | H : inside _ (VRef _ _ _ _) |- _ => inversion H; clear H; subst
  | H : inside _ (VConcat _) |- _ => inversion H; clear H; subst
  | H : inside _ (VScalar _) |- _ => inversion H; clear H; subst
  | H : inside _ (VList _) |- _ => inversion H; clear H; subst
  | H : In _ _ |- _ => cbn in H
  | H : _ \/ _ |- _ => destruct H
  | H : False |- _ => destruct H
  | H : _ = _ |- _ => discriminate H
  | H : ?x = ?v |- _ => subst
  end.
Ltac history := repeat match goal with
  | |- Forall _ _ => constructor
  | |- ForallOrdPairs _ _ => constructor
  | |- redefinition _ (VRef _ _ _ _) => apply redefinition_self
  | |- redefinition _ (VConcat _) => apply redefinition_concat; [|do 2 eexists; cbn; auto]
  | |- _ \/ _ => first [left; repeat constructor; fail | right; do 2 eexists; reflexivity]
  | |- plain _ => constructor
  end.
Definition grown : string := "b = 7, a = [1], a = ${a} [2] ${a}, a += 3".
Example lookback_ex : exists d1 d2 base, parsed grown = Ok (Some (VObj false false ([(lit "b", int 7 "7")] ++ [(lit "a", VMerge ([d2; d1] ++ [base]))]))) /\
  Forall (redefinition (lit "a")) [d2; d1] /\ plain base /\ ForallOrdPairs (fun d d' => forall id, mentions d id -> mentions d' id -> False) [d2; d1] /\
  evolve (lit "a") ([d2; d1] ++ [base]) = Ok (Some (VList [int 1 "1"; int 2 "2"; int 1 "1"; int 3 "3"])).
Proof.
  do 3 eexists. split; [vm_compute; reflexivity|]. split; [history|]. split; [history|]. split; [history; intros; apart; congruence|]. vm_compute. reflexivity.
Qed.
Example lookback_objects_ex : resolved "a = {x = 1}, a = ${a} {y = 2}, a = ${a} {x = 3}" =
  Ok (Some (VObj true false [(lit "a", VObj true false [(lit "x", int 3 "3"); (lit "y", int 2 "2")])])).
Proof. vm_compute. reflexivity. Qed.

(** C32, refuted: with three or more definitions in terms of itself, however the first one is defined, resolving
    throws the exception for a bug in the library.  config_delayed_merge.cc:34-57 merges the rest of the stack from
    the front, so that it becomes a stack in a stack, which config_delayed_merge.cc:86-87 refuses. *)
Theorem lookback_fails_beyond_two : forall use env k i m1 m2 ds base,
  ~ In k (map fst m1) -> Forall (fun kv => plain (snd kv)) m1 ->
  (2 < List.length ds)%nat -> Forall (redefinition k) ds -> plain base ->
  exists n, forall m, (n <= m)%nat -> resolve_config false use env m (VObj false i (m1 ++ (k, VMerge (ds ++ [base])) :: m2)) = Throw EBug.
Proof. exact look_back_beyond. Qed.
Print Assumptions lookback_fails_beyond_two.

Example lookback_fails_beyond_two_ex : exists d1 d2 d3 base, parsed "a = 1, a = ${a}2, a = ${a}3, a = ${a}4" = Ok (Some (VObj false false ([] ++ [(lit "a", VMerge ([d3; d2; d1] ++ [base]))]))) /\
  Forall (redefinition (lit "a")) [d3; d2; d1] /\ plain base.
Proof. do 4 eexists. split; [vm_compute; reflexivity|]. split; history. Qed.

(** C32, refuted, as texts: appending to a list three times. *)
Theorem lookback_refuted : resolved "a = [1], a += 2, a += 3, a += 4" = Throw EBug /\ resolved "a = 1, a = ${a}2, a = ${a}3, a = ${a}4" = Throw EBug.
Proof. split; vm_compute; reflexivity. Qed.
Print Assumptions lookback_refuted.
