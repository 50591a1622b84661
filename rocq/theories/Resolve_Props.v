(** Properties C28 and C29: what resolving leaves. *)
From Verif Require Import Base Util_Model Num_Model Path_Model Token_Model PathParser_Model Doc_Model Edit_Model Value_Model Value_Spec Value_Props Concat_Model
  ConfigParser_Model ConfigParser_Spec ConfigParser_Props Resolve_Model Resolve_Spec Resolve_Lemmas Resolve_Lemmas2 Resolve_Lemmas3.

(** A text, parsed and resolved. *)
Definition resolved_text (allow use : bool) (env : list (str * str)) (n : nat) (s : string) : result (option value) :=
  v <- parsed s ;;
  match v with Some v => resolve_config allow use env n v | None => Throw EBug end.
Definition resolved (s : string) : result (option value) := resolved_text false false [] 60 s.

(** C28.  What resolving returns has no substitution, concatenation or delayed merge in it, when the objects
    at hand claim to be resolved only if they are.  [truthful] is met by what the parser makes and kept by
    merging: see the next two theorems. *)
Theorem resolve_leaves_nothing_partial : forall use env n v source_root w, truthful v -> truthful source_root ->
  resolve_with false use env n v source_root = Ok (Some w) -> settled w.
Proof. exact resolve_config_settled. Qed.
Print Assumptions resolve_leaves_nothing_partial.

Theorem parser_is_truthful : forall flavor includer, (forall kind name n v n', includer kind name n = Ok (v, n') -> truthful v) ->
  forall text next v next', parse_config flavor includer text next = Ok (Some v, next') -> truthful v.
Proof. exact parse_truthful. Qed.
Print Assumptions parser_is_truthful.

Theorem merging_is_truthful : forall a b c, truthful a -> truthful b -> with_fallback a b = Ok c -> truthful c.
Proof. exact (fallback_ok _). Qed.
Print Assumptions merging_is_truthful.

Definition web_text : string := "a = ${b.c}, b { c = [${d}, 2], e = ${?x} }, d = {q = 1}, b = {f = ${b.c}[3]}".
Example resolve_leaves_nothing_ex : exists v w, parsed web_text = Ok (Some v) /\ truthful v /\ ~ settled v /\
  resolve_with false false [] 60 v v = Ok (Some w) /\ settled w /\
  get [lit "b"; lit "f"] w = Some (VList [obj [(lit "q", VScalar (SInt 1 (lit "1")))]; VScalar (SInt 2 (lit "2")); VScalar (SInt 3 (lit "3"))]).
Proof.
  assert (P : exists v i, parse_config CONF no_includes (lit web_text) 0 = Ok (Some v, i)) by (do 2 eexists; vm_compute; reflexivity).
  destruct P as [v [i P]]. assert (T : truthful v) by (refine (parser_is_truthful _ _ _ _ _ _ _ P); discriminate).
  assert (W : exists w, resolve_with false false [] 60 v v = Ok (Some w)) by (vm_compute in P; injection P as <- _; eexists; vm_compute; reflexivity). destruct W as [w W].
  exists v, w. split; [unfold parsed; rewrite P; reflexivity|]. split; [exact T|]. split; [|split; [exact W|split; [exact (resolve_leaves_nothing_partial _ _ _ _ _ _ T T W)|]]].
  - vm_compute in P. injection P as <- _. intro S. inversion S as [| |? ? ? F]; subst. inversion F as [|? ? X]; subst. inversion X.
  - vm_compute in P. injection P as <- _. vm_compute in W. injection W as <-. vm_compute. reflexivity.
Qed.

(** C28, refuted for objects that do not tell the truth: with_value keeps the old claim. *)
Theorem resolve_leaves_nothing_refuted : exists v k r w, with_value v [k] r = Ok w /\ truthful v /\ truthful r /\
  resolve_config false false [] 1 w = Ok (Some w) /\ ~ settled w.
Proof.
  exists (obj [(lit "a", num 1)]), (lit "b"), (VRef 0 [lit "a"] false 0), (VObj true false [(lit "a", num 1); (lit "b", VRef 0 [lit "a"] false 0)]).
  split; [vm_compute; reflexivity|]. split; [constructor; [reflexivity|repeat constructor]|]. split; [constructor; exact I|]. split; [vm_compute; reflexivity|].
  intro S. inversion S as [| |? ? ? F]; subst. inversion F as [|? ? _ F']; subst. inversion F' as [|? ? X]; subst. inversion X.
Qed.
Print Assumptions resolve_leaves_nothing_refuted.

(** C29.  A value that is resolved is its own result, whatever it is resolved against and with whatever
    options. *)
Theorem resolve_resolved_is_identity : forall allow use env n v source_root, is_resolved v = true ->
  resolve_with allow use env (S n) v source_root = Ok (Some v).
Proof. exact resolve_settled_again. Qed.
Print Assumptions resolve_resolved_is_identity.

(** C29.  So resolving twice is resolving once. *)
Theorem resolve_twice_is_once : forall use env n v source_root w, resolve_with false use env n v source_root = Ok (Some w) ->
  forall allow' use' env' n' source_root', resolve_with allow' use' env' (S n') w source_root' = Ok (Some w).
Proof. exact resolve_idempotent. Qed.
Print Assumptions resolve_twice_is_once.

Example resolve_twice_ex : exists w, resolved web_text = Ok (Some w) /\ resolve_config false true [(lit "q", lit "z")] 1 w = Ok (Some w) /\ is_resolved w = true.
Proof.
  assert (W : exists w, resolved web_text = Ok (Some w)) by (eexists; vm_compute; reflexivity). destruct W as [w W]. exists w. split; [exact W|].
  vm_compute in W. injection W as <-. split; vm_compute; reflexivity.
Qed.

(** Fuel: a result once reached stays. *)
Theorem more_fuel_same_result : forall allow use env n m c v s, (n <= m)%nat ->
  resolve_n allow use env n c v s = Stuck UFuel \/ resolve_n allow use env n c v s = resolve_n allow use env m c v s.
Proof. exact resolve_below. Qed.
Print Assumptions more_fuel_same_result.
