(** Properties C30, C31, C34 and C63 for documents with delayed merges: keys with several definitions, some of
    them substitutions or concatenations. *)
From Verif Require Import Base BaseLemmas Util_Model Num_Model Path_Model Token_Model PathParser_Model Doc_Model Edit_Model Value_Model Value_Spec Value_Props Concat_Model
  ConfigParser_Model ConfigParser_Spec ConfigParser_Props Resolve_Model Resolve_Spec Resolve_Props Resolve_Props2 Resolve_Lemmas13.
From Coq Require Import Relations.

(** C31, C63.  Whatever resolving returns is what the document means: a field with several definitions means
    what they mean, over each other.
    [mesh]: all substitutions have direct paths, and delayed merges are fields.
    [never_back]: no definition that is a substitution or concatenation refers back to the field (C32). *)
Theorem result_is_meaning_with_merges : forall use env n v r, simple_object v -> mesh v v -> never_back v ->
  resolve_config false use env n v = Ok r -> means (environment_if use env) v [] v r.
Proof. exact mesh_means. Qed.
Print Assumptions result_is_meaning_with_merges.

(** C63.  A field with several definitions resolves to what they mean, the last one over the ones before;
    definitions that mean nothing are left out.
    Missing (false, see below): that it resolves. *)
Theorem definitions_merge_partial : forall use env i m n w, mesh (VObj false i m) (VObj false i m) -> never_back (VObj false i m) -> NoDup (map fst m) ->
  resolve_config false use env n (VObj false i m) = Ok (Some w) ->
  forall k v vs, find_key k m = Some v -> definitions v = Some vs ->
  exists rs, Forall2 (means (environment_if use env) (VObj false i m) []) vs rs /\ layers (present rs) = Ok (get [k] w).
Proof. exact definitions_layered. Qed.
Print Assumptions definitions_merge_partial.

(** Three definitions of [a]: an object, a substitution, and an object with substitutions, one of them nothing. *)
Definition strata : string := "base = {x = 1, y = 2}, a = {y = 5, z = 3}, a = ${base}, a = {w = ${?u}, q = [${c}], x = ${c}}, c = 7, d = [${a}]".
Ltac web_of := repeat match goal with
  | |- direct _ _ => straight
  | |- _ <> _ => discriminate
  | |- _ = true -> _ => first [discriminate | reflexivity]
  | |- definitions _ = None => reflexivity
  | |- mesh _ (snd _) => cbn [snd]
  | |- mesh _ (VMerge _) => eapply mesh_merge; [reflexivity|]
  | |- mesh _ (VMergeObj _) => eapply mesh_merge; [reflexivity|]
  | |- _ => constructor
  end.
Example definitions_merge_ex : exists i m vs w, parsed strata = Ok (Some (VObj false i m)) /\ mesh (VObj false i m) (VObj false i m) /\ never_back (VObj false i m) /\ NoDup (map fst m) /\
  find_key (lit "a") m = Some (VMergeObj vs) /\ List.length vs = 3%nat /\ resolve_config false false [] 60 (VObj false i m) = Ok (Some w) /\
  get [lit "a"] w = Some (VObj true false [(lit "q", VList [int 7 "7"]); (lit "x", int 7 "7"); (lit "y", int 2 "2"); (lit "z", int 3 "3")]) /\
  get [lit "d"] w = Some (VList [VObj true false [(lit "q", VList [int 7 "7"]); (lit "x", int 7 "7"); (lit "y", int 2 "2"); (lit "z", int 3 "3")]]).
Proof.
  do 4 eexists. split; [vm_compute; reflexivity|]. split; [web_of|]. split; [apply (forward_never_back [[lit "base"]; [lit "c"]]); vm_compute; reflexivity|].
  split; [repeat constructor; cbn; intuition discriminate|]. split; [reflexivity|]. split; [reflexivity|]. split; [vm_compute; reflexivity|]. split; vm_compute; reflexivity.
Qed.

(** C63, refuted: not all such documents resolve.  Here all substitutions are defined or optional; the result
    should be [a = {w = 2, x = 1}].  But for looking up [u] the rest of the definitions is merged, and a
    delayed merge that begins with an object cannot take another object. *)
Theorem definitions_merge_refuted : resolved "base = {x = 1}, a = {w = 1}, a = ${base}, a = {w = 2}, a = ${?u}" = Throw EConfig /\
  exists w, resolved "base = {x = 1}, a = {w = 1}, a = ${base}, a = {w = 2}" = Ok (Some w) /\
    get [lit "a"] w = Some (VObj true false [(lit "w", int 2 "2"); (lit "x", int 1 "1")]).
Proof. split; [vm_compute; reflexivity|]. eexists. split; vm_compute; reflexivity. Qed.
Print Assumptions definitions_merge_refuted.
(** And not all are even read: below the two definitions of [a] the definitions of [b] are a merge each, and a merge
    that begins with an object cannot be put on another.  Written with one definition of [a] the same is read. *)
Theorem nested_definitions_refuted : parsed "a = {b = ${d}}, a = {b = ${c}, b = {y = 2}}, c = {x = 1}, d = {}" = Throw EConfig /\
  exists w, resolved "a = {b = ${d}, b = ${c}, b = {y = 2}}, c = {x = 1}, d = {}" = Ok (Some w) /\
    get [lit "a"; lit "b"] w = Some (VObj true false [(lit "y", int 2 "2"); (lit "x", int 1 "1")]).
Proof. split; [vm_compute; reflexivity|]. eexists. split; vm_compute; reflexivity. Qed.
Print Assumptions nested_definitions_refuted.

(** C30.  A document where a path needs itself, directly or over other paths, never resolves. *)
Theorem required_cycle_never_resolves_with_merges : forall use env v, simple_object v -> mesh v v -> never_back v -> forall p, clos_trans _ (leads v) p p ->
  forall n r, resolve_config false use env n v <> Ok r.
Proof. exact mesh_trapped. Qed.
Print Assumptions required_cycle_never_resolves_with_merges.
Definition ring_beside : string := "a = {x = 1}, a = ${b}, a = {y = 2}, b = {z = 3}, c = [${d}], d = ${c}".
Example required_cycle_with_merges_ex : exists v, parsed ring_beside = Ok (Some v) /\ simple_object v /\ mesh v v /\ never_back v /\ clos_trans _ (leads v) [lit "c"] [lit "c"].
Proof.
  eexists. split; [vm_compute; reflexivity|]. split; [do 3 eexists; reflexivity|]. split; [web_of|]. split; [apply (forward_never_back [[lit "b"]]); vm_compute; reflexivity|].
  apply t_trans with [lit "d"]; apply t_step.
  - do 4 eexists. split; [reflexivity|]. split; [eapply inside_list; [left; reflexivity|constructor]|reflexivity].
  - do 4 eexists. split; [reflexivity|]. split; [constructor|reflexivity].
Qed.

(** C31.  A document with a required substitution that is defined nowhere never resolves. *)
Theorem required_undefined_never_resolves_with_merges : forall use env v id p l, simple_object v -> mesh v v -> never_back v ->
  inside (VRef id p false l) v -> get p v = None -> from_environment (environment_if use env) p = None ->
  forall n r, resolve_config false use env n v <> Ok r.
Proof. exact mesh_undefined. Qed.
Print Assumptions required_undefined_never_resolves_with_merges.
(** The undefined one is in a definition that the others do not hide. *)
Example required_undefined_with_merges_ex : exists v id, parsed "a = {x = ${u}}, a = ${b}, a = {y = 2}, b = {z = 3}" = Ok (Some v) /\ simple_object v /\ mesh v v /\ never_back v /\
  inside (VRef id [lit "u"] false 0) v /\ get [lit "u"] v = None.
Proof.
  do 2 eexists. split; [vm_compute; reflexivity|]. split; [do 3 eexists; reflexivity|]. split; [web_of|]. split; [apply (forward_never_back [[lit "b"]]); vm_compute; reflexivity|].
  split; [|reflexivity]. eapply inside_object; [left; reflexivity|]. eapply inside_merge_object; [right; right; left; reflexivity|]. eapply inside_object; [left; reflexivity|constructor].
Qed.

(** C34.  A field that is a substitution: with a value in the document it is that value; else the value of the
    environment, as a string; else gone. *)
Theorem environment_is_fallback_with_merges : forall use env i m n w, mesh (VObj false i m) (VObj false i m) -> never_back (VObj false i m) -> NoDup (map fst m) ->
  resolve_config false use env n (VObj false i m) = Ok (Some w) ->
  forall k id p o l, find_key k m = Some (VRef id p o l) ->
  match get p (VObj false i m), from_environment (environment_if use env) p with
  | Some v, _ => is_resolved v = true -> get [k] w = Some v
  | None, Some t => get [k] w = Some (VScalar (SStr t true))
  | None, None => o = true /\ get [k] w = None
  end.
Proof. exact mesh_environment_field. Qed.
Print Assumptions environment_is_fallback_with_merges.
Example environment_with_merges_ex : exists i m w, parsed "a = {x = 1}, a = ${b}, a = {h = ${HOME}}, b = {x = 4}, h = ${HOME}, g = ${b}" = Ok (Some (VObj false i m)) /\
  mesh (VObj false i m) (VObj false i m) /\ never_back (VObj false i m) /\ NoDup (map fst m) /\
  resolve_config false true shell 60 (VObj false i m) = Ok (Some w) /\ get [lit "h"] w = Some (VScalar (SStr (lit "/home") true)) /\
  get [lit "g"] w = Some (VObj true false [(lit "x", int 4 "4")]).
Proof.
  do 3 eexists. split; [vm_compute; reflexivity|]. split; [web_of|]. split; [apply (forward_never_back [[lit "b"]]); vm_compute; reflexivity|]. split; [repeat constructor; cbn; intuition discriminate|].
  split; [vm_compute; reflexivity|]. split; vm_compute; reflexivity.
Qed.
