(** Property C34 for documents with delayed merges and with paths through other substitutions. *)
From Verif Require Import Base BaseLemmas Util_Model Num_Model Path_Model Token_Model PathParser_Model Doc_Model Edit_Model Value_Model Value_Spec Value_Props Concat_Model
  ConfigParser_Model ConfigParser_Spec ConfigParser_Props Resolve_Model Resolve_Spec Resolve_Props Resolve_Lemmas11.

(** C34.  If all substitutions of a document are required ([${x}], not [${?x}]) and it resolves without the
    environment, then it resolves to the same with it, whatever the environment holds. *)
Theorem environment_never_overrides_required : forall env n v r, sound (fun _ _ optional _ => optional = false) v ->
  resolve_config false false [] n v = Ok r -> resolve_config false true env n v = Ok r.
Proof. exact required_without_environment. Qed.
Print Assumptions environment_never_overrides_required.

(** C34.  If moreover the environment has no value for any of the paths then it gives no value at all: what
    resolves with it resolves to the same without.  (The prefix is 0 outside included files.) *)
Theorem environment_gives_only_its_values : forall env n v r,
  sound (fun _ p optional prefix => optional = false /\ prefix = 0 /\ from_environment (Some env) p = None) v ->
  resolve_config false true env n v = Ok r -> resolve_config false false [] n v = Ok r.
Proof. exact required_with_environment. Qed.
Print Assumptions environment_gives_only_its_values.

(** Three definitions of [a], the last in terms of the earlier ones; [c] goes through the substitution [b]. *)
Definition layers : string := "a = {x = 1}, a = ${b}, a = ${a} {y = ${c}}, b = {z = 3}, c = ${d.z}, d = ${b}".
Definition hostile : list (str * str) := [(lit "a", lit "A"); (lit "b", lit "B"); (lit "c", lit "C"); (lit "d", lit "D")].
Definition num (z : Z) (s : string) : value := VScalar (SInt z (lit s)).
Ltac each_required := repeat match goal with
  | |- sound _ _ => constructor | |- Forall _ _ => constructor | |- sound _ (snd _) => cbn [snd]
  | |- _ /\ _ => split | |- _ = true -> _ => first [discriminate | intros _; reflexivity] | |- _ = _ => reflexivity | |- from_environment _ _ = _ => reflexivity end.
Example never_overrides_required_ex : exists v w, parsed layers = Ok (Some v) /\ sound (fun _ _ optional _ => optional = false) v /\
  (exists vs i m, v = VObj false i m /\ find_key (lit "a") m = Some (VMerge vs)) /\
  resolve_config false false [] 60 v = Ok (Some w) /\ resolve_config false true hostile 60 v = Ok (Some w) /\
  get [lit "a"; lit "x"] w = Some (num 1 "1") /\ get [lit "a"; lit "y"] w = Some (num 3 "3") /\ get [lit "c"] w = Some (num 3 "3").
Proof.
  do 2 eexists. split; [vm_compute; reflexivity|]. split; [each_required|]. split; [do 3 eexists; split; reflexivity|].
  split; [vm_compute; reflexivity|]. split; [vm_compute; reflexivity|]. split; [vm_compute; reflexivity|]. split; vm_compute; reflexivity.
Qed.
Definition elsewhere : list (str * str) := [(lit "x", lit "A"); (lit "d.z", lit "B")].
Example gives_only_its_values_ex : exists v w, parsed layers = Ok (Some v) /\
  sound (fun _ p optional prefix => optional = false /\ prefix = 0 /\ from_environment (Some elsewhere) p = None) v /\ resolve_config false true elsewhere 60 v = Ok (Some w).
Proof.
  do 2 eexists. split; [vm_compute; reflexivity|]. split; [each_required|vm_compute; reflexivity].
Qed.

(** C34, the condition on optional substitutions is needed.  The document gives [a] a value and resolves without
    the environment; with it, the [${?a}] of the first definition of [a] takes the environment's [a], a string,
    which cannot be joined with an object.  Without the second definition it does not. *)
Theorem environment_never_overrides_refuted : exists v w, parsed "a = ${?a} {b = 2}, a = ${?a}" = Ok (Some v) /\
  resolve_config false false [] 60 v = Ok (Some w) /\ get [lit "a"; lit "b"] w = Some (num 2 "2") /\
  resolve_config false true hostile 60 v = Throw EConfig /\
  exists v', parsed "a = ${?a} {b = 2}" = Ok (Some v') /\ resolve_config false true hostile 60 v' = Ok (Some w).
Proof.
  do 2 eexists. split; [vm_compute; reflexivity|]. split; [vm_compute; reflexivity|]. split; [vm_compute; reflexivity|]. split; [vm_compute; reflexivity|].
  eexists. split; [vm_compute; reflexivity|]. vm_compute. reflexivity.
Qed.
Print Assumptions environment_never_overrides_refuted.
