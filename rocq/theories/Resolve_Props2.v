(** Properties C30, C31 and C34: resolving ends, undefined substitutions, the environment. *)
From Verif Require Import Base BaseLemmas Util_Model Num_Model Path_Model Token_Model PathParser_Model Doc_Model Edit_Model Value_Model Value_Spec Value_Props Concat_Model
  ConfigParser_Model ConfigParser_Spec ConfigParser_Props Resolve_Model Resolve_Spec Resolve_Props Resolve_Lemmas5 Resolve_Lemmas6 Resolve_Lemmas7 Resolve_Lemmas8 Resolve_Lemmas9.
From Coq Require Import Relations.

(** C30.  Resolving ends: from some depth of calls on, more depth changes nothing, and the outcome is not that
    the depth ran out.  Missing (false, see the refutations): optional substitutions when the environment is used
    or whose path has several keys, and substitutions that the environment has a value for. *)
Theorem resolve_terminates_partial : forall allow use env v, simple_object v -> sound (bounded allow use env) v ->
  exists n, resolve_config allow use env n v <> Stuck UFuel /\ forall m, (n <= m)%nat -> resolve_config allow use env m v = resolve_config allow use env n v.
Proof. exact config_ends. Qed.
Print Assumptions resolve_terminates_partial.

Definition int (z : Z) (s : string) : value := VScalar (SInt z (lit s)).
Definition knot : string := "a = ${b} [2], b = ${c} [1], c = 5, c = ${d}, e = ${?z}, d = [0]".
Example resolve_terminates_ex : exists v, parsed knot = Ok (Some v) /\ simple_object v /\ sound (bounded false false []) v /\
  at_path_of (resolve_config false false [] 60 v) [lit "a"] = Ok (Some (VList [int 0 "0"; int 1 "1"; int 2 "2"])).
Proof.
  eexists. split; [vm_compute; reflexivity|]. split; [do 3 eexists; reflexivity|]. split; [|vm_compute; reflexivity].
  repeat (first [constructor | discriminate | eexists; reflexivity]).
Qed.

(** C30, refuted: with the environment used, as is the default, a substitution that depends on itself is followed
    for ever after an undefined optional one. *)
Theorem resolve_terminates_refuted : exists v, parsed "a = ${?u} ${a}" = Ok (Some v) /\ forall n, resolve_config false true [] n v = Stuck UFuel.
Proof. exact (ex_intro _ loop1 (conj eq_refl loop1_never)). Qed.
Print Assumptions resolve_terminates_refuted.

(** C30, refuted: the same without the environment, after an optional one below itself. *)
Theorem resolve_terminates_refuted_again : exists v, parsed "a = ${?a.b} ${a}" = Ok (Some v) /\ forall n, resolve_config false false [] n v = Stuck UFuel.
Proof. exact (ex_intro _ loop2 (conj eq_refl loop2_never)). Qed.
Print Assumptions resolve_terminates_refuted_again.

(** C30.  If a path needs itself, directly or over other paths, then resolving ends in a config exception. *)
Theorem required_cycle_throws : forall use env v, simple_object v -> web v v -> sound (bounded false use env) v ->
  forall p, clos_trans _ (leads v) p p ->
  exists n e, is_config_exn e = true /\ forall m, (n <= m)%nat -> resolve_config false use env m v = Throw e.
Proof. exact config_cycle. Qed.
Print Assumptions required_cycle_throws.

(** C30.  Also when it is not known that resolving ends, it never succeeds. *)
Theorem required_cycle_never_resolves : forall use env v, simple_object v -> web v v -> forall p, clos_trans _ (leads v) p p ->
  forall n r, resolve_config false use env n v <> Ok r.
Proof. exact config_trapped. Qed.
Print Assumptions required_cycle_never_resolves.

Definition ring : string := "a = [1, ${b.c}], b = {c = ${d}, e = 1}, d = x ${a}".
Ltac straight := first [exact I | left; reflexivity
  | right; let w := fresh in let H := fresh in intros w H; cbn in H; repeat (destruct H as [H|H]); try contradiction; injection H; intros; subst; try discriminate; straight ].
Ltac weave := repeat match goal with
  | |- direct _ _ => straight
  | |- _ <> _ => discriminate
  | |- _ = true -> _ => first [discriminate | reflexivity]
  | |- _ => constructor
  end.
Example required_cycle_ex : exists v, parsed ring = Ok (Some v) /\ simple_object v /\ web v v /\ sound (bounded false true []) v /\
  clos_trans _ (leads v) [lit "a"] [lit "a"] /\ resolve_config false true [] 60 v = Throw EConfig.
Proof.
  eexists. split; [vm_compute; reflexivity|]. split; [do 3 eexists; reflexivity|]. split; [weave|]. split.
  { repeat (first [constructor | discriminate | intros ? _ []]). }
  split; [|vm_compute; reflexivity].
  apply t_trans with [lit "b"; lit "c"]; [|apply t_trans with [lit "d"]]; apply t_step.
  - do 4 eexists. split; [reflexivity|]. split; [eapply inside_list; [right; left; reflexivity|constructor]|reflexivity].
  - do 4 eexists. split; [reflexivity|]. split; [constructor|reflexivity].
  - do 4 eexists. split; [reflexivity|]. split; [eapply inside_concat; [right; left; reflexivity|constructor]|reflexivity].
Qed.

(** C30.  Whatever resolving throws is a config exception. *)
Theorem resolve_throws_config_exceptions : forall allow use env n v source_root e,
  resolve_with allow use env n v source_root = Throw e -> is_config_exn e = true.
Proof. exact resolve_with_lawful. Qed.
Print Assumptions resolve_throws_config_exceptions.
Example resolve_throws_ex : resolved "a = ${b}" = Throw EUnresolved /\ resolved "a = ${b}, b = ${a}" = Throw EConfig /\ resolved "a = {} ${b}, b = [1]" = Throw EConfig.
Proof. repeat split; vm_compute; reflexivity. Qed.

(** C31.  What resolving returns is what the configuration means: see [means] in the specification.  Delayed
    merges are left out (C32). *)
Theorem result_is_meaning : forall use env n v r, simple_object v -> web v v ->
  resolve_config false use env n v = Ok r -> means (environment_if use env) v [] v r.
Proof. exact config_means. Qed.
Print Assumptions result_is_meaning.

(** C31.  Without optional substitutions this determines the result. *)
Theorem meaning_is_unique : forall environment v r r', (forall id p o l, inside (VRef id p o l) v -> o = false) ->
  means environment v [] v r -> means environment v [] v r' -> r = r'.
Proof. exact config_unique. Qed.
Print Assumptions meaning_is_unique.

Definition net : string := "a = [1, ${b.c}], b = {c = ${d}, e = ${?h}}, d = x ${?h}y, f = [${d}, ${?h}]".
Example result_is_meaning_ex : exists v w, parsed net = Ok (Some v) /\ simple_object v /\ web v v /\ resolve_config false false [] 60 v = Ok (Some w) /\
  get [lit "a"] w = Some (VList [int 1 "1"; VScalar (SStr (lit "x y") true)]) /\ get [lit "b"; lit "e"] w = None /\ get [lit "f"] w = Some (VList [VScalar (SStr (lit "x y") true)]).
Proof.
  eexists. eexists. split; [vm_compute; reflexivity|]. split; [do 3 eexists; reflexivity|]. split; [weave|]. split; [vm_compute; reflexivity|]. repeat split; vm_compute; reflexivity.
Qed.

(** C31.  A required substitution without value anywhere in the document makes resolving throw
    unresolved_substitution_exception, if nothing else can go wrong: no cycle, no concatenation, no delayed merge,
    no optional substitution. *)
Theorem required_undefined_throws_partial : forall use env v, simple_object v -> tidy v v -> distinct v -> acyclic v -> not_in_environment (environment_if use env) v ->
  forall id p o l, inside (VRef id p o l) v -> get p v = None ->
  exists n, forall m, (n <= m)%nat -> resolve_config false use env m v = Throw EUnresolved.
Proof. exact config_unknown. Qed.
Print Assumptions required_undefined_throws_partial.

(** C31.  And if all are defined it succeeds. *)
Theorem all_defined_resolves : forall use env v, simple_object v -> tidy v v -> distinct v -> acyclic v -> not_in_environment (environment_if use env) v ->
  known v v -> exists n w, is_resolved w = true /\ forall m, (n <= m)%nat -> resolve_config false use env m v = Ok (Some w).
Proof. exact config_known. Qed.
Print Assumptions all_defined_resolves.

(** C31.  With concatenations and optional substitutions it does not succeed. *)
Theorem required_undefined_never_resolves : forall use env v id p l, simple_object v -> web v v ->
  inside (VRef id p false l) v -> get p v = None -> from_environment (environment_if use env) p = None ->
  forall n r, resolve_config false use env n v <> Ok r.
Proof. exact config_undefined. Qed.
Print Assumptions required_undefined_never_resolves.

(** In the examples later letters are needed by earlier ones. *)
Definition by_letter (p : path) : nat := match p with (c :: _) :: _ => 200 - nat_of_ascii c | _ => 300 end.
Ltac each H := apply inside_substitutions in H; vm_compute in H; repeat (destruct H as [H|H]); try contradiction; injection H; clear H; intros; subst.
Ltac steps_down G I0 := match type of G with
  | get ?p _ = _ => destruct p as [|?k ?p]; cbn [get find_key] in G;
      [injection G as <-; each I0; vm_compute; lia
      | repeat match type of G with context [if str_eqb ?a ?b then _ else _] => let E := fresh in destruct (str_eqb a b) eqn:E; [apply str_eqb_eq in E; subst; steps_down G I0; fail|] end; try discriminate G; steps_down G I0 ]
  end.
Definition chain : string := "a = [1, ${b.c}], b = {c = ${d}, e = ${d}}, d = 5".
Definition broken_chain : string := "a = [1, ${b.c}], b = {c = ${d}, e = ${f}}, d = 5".
Ltac tie := repeat match goal with
  | |- direct _ _ => straight
  | |- _ <> _ => discriminate
  | |- tidy _ (snd _) => cbn [snd]
  | |- tidy ?R (VObj ?b ?i ?m) => refine (tidy_object R i m _)
  | |- _ => constructor
  end.
Definition some_env : list (str * str) := [(lit "q", lit "1")].
Example all_defined_ex : exists v w, parsed chain = Ok (Some v) /\ simple_object v /\ tidy v v /\ distinct v /\ acyclic v /\
  not_in_environment (environment_if true some_env) v /\ known v v /\
  resolve_config false true some_env 60 v = Ok (Some w) /\ get [lit "a"] w = Some (VList [int 1 "1"; int 5 "5"]).
Proof.
  eexists. eexists. split; [vm_compute; reflexivity|]. split; [do 3 eexists; reflexivity|]. split; [tie|]. split; [|split; [|split; [|split]]].
  - intros id p q o o' l l' H H'. each H; each H'; first [reflexivity|discriminate].
  - exists by_letter. intros p q [v [id [o [l [G I0]]]]]. steps_down G I0.
  - intros id p o l H. each H; vm_compute; reflexivity.
  - intros id p o l H. each H; vm_compute; discriminate.
  - split; vm_compute; reflexivity.
Qed.
Example required_undefined_ex : exists v id p o l, parsed broken_chain = Ok (Some v) /\ simple_object v /\ tidy v v /\ distinct v /\ acyclic v /\
  not_in_environment (environment_if true some_env) v /\ inside (VRef id p o l) v /\ get p v = None /\
  resolve_config false true some_env 60 v = Throw EUnresolved.
Proof.
  eexists. exists 2%nat, [lit "f"], false, 0. split; [vm_compute; reflexivity|]. split; [do 3 eexists; reflexivity|]. split; [tie|]. split; [|split; [|split; [|split]]].
  - intros id p q o o' l l' H H'. each H; each H'; first [reflexivity|discriminate].
  - exists by_letter. intros p q [v [id [o [l [G I0]]]]]. steps_down G I0.
  - intros id p o l H. each H; vm_compute; reflexivity.
  - eapply inside_object; [right; left; reflexivity|]. eapply inside_object; [right; left; reflexivity|]. constructor.
  - split; vm_compute; reflexivity.
Qed.
Example required_undefined_never_ex : exists v, parsed "a = ${?x} y ${f}, b = ${?c}" = Ok (Some v) /\ simple_object v /\ web v v /\
  (exists id, inside (VRef id [lit "f"] false 0) v) /\ get [lit "f"] v = None.
Proof.
  eexists. split; [vm_compute; reflexivity|]. split; [do 3 eexists; reflexivity|]. split; [weave|]. split; [|reflexivity].
  eexists. eapply inside_object; [left; reflexivity|]. eapply inside_concat; [|constructor]. cbn. right. right. left. reflexivity.
Qed.

(** C31.  In the resolved document a field that is resolved already stays as it is; a field that is an optional
    substitution without value is gone; in a list such elements are gone; in a concatenation such pieces are
    gone, and with all of them the field.  Missing (false, see below): that a list beginning with such an element
    resolves; and documents with delayed merges. *)
Theorem optional_undefined_disappears_partial : forall use env i m n w, web (VObj false i m) (VObj false i m) -> NoDup (map fst m) ->
  resolve_config false use env n (VObj false i m) = Ok (Some w) ->
  forall k v, find_key k m = Some v ->
  (is_resolved v = true -> get [k] w = Some v) /\
  (forall id p l, v = VRef id p true l -> get p (VObj false i m) = None -> from_environment (environment_if use env) p = None -> get [k] w = None) /\
  (forall vs, v = VList vs -> Forall (here_or_gone (environment_if use env) (VObj false i m)) vs -> get [k] w = Some (VList (filter is_resolved vs))) /\
  (forall vs, v = VConcat vs -> Forall (here_or_gone (environment_if use env) (VObj false i m)) vs ->
     match get [k] w with Some x => consolidate (filter is_resolved vs) = Ok [x] | None => filter is_resolved vs = [] end).
Proof. exact optional_gone. Qed.
Print Assumptions optional_undefined_disappears_partial.
Definition options : string := "a = 7, b = ${?x}, c = [1, ${?x}, 2, ${?x.y}], d = p${?x}q, e = ${?x}${?y}".
Example optional_undefined_ex : exists i m w, parsed options = Ok (Some (VObj false i m)) /\ web (VObj false i m) (VObj false i m) /\ NoDup (map fst m) /\
  resolve_config false false [] 60 (VObj false i m) = Ok (Some w) /\ get [lit "a"] w = Some (int 7 "7") /\ get [lit "b"] w = None /\
  get [lit "c"] w = Some (VList [int 1 "1"; int 2 "2"]) /\ get [lit "d"] w = Some (VScalar (SStr (lit "pq") true)) /\ get [lit "e"] w = None.
Proof.
  do 3 eexists. split; [vm_compute; reflexivity|]. split; [weave|]. split; [repeat constructor; cbn; intuition discriminate|]. split; [vm_compute; reflexivity|]. repeat split; vm_compute; reflexivity.
Qed.
(** C31, refuted: a list of two undefined optional substitutions is not an empty list but an exception; so is
    one with an undefined optional substitution before a defined one. *)
Theorem optional_undefined_disappears_refuted : resolved "a = [${?x}, ${?y}]" = Throw EConfig /\ resolved "a = [${?x}, ${b}], b = 1" = Throw EConfig.
Proof. split; vm_compute; reflexivity. Qed.
Print Assumptions optional_undefined_disappears_refuted.

(** C34.  If the document has a value for each of its substitutions, the environment makes no difference at all:
    same result, same exception, at every depth of calls, with any options.
    Missing: documents with delayed merges, and substitutions whose path goes through another substitution. *)
Theorem environment_never_overrides_partial : forall allow env env' v, simple_object v -> web v v -> known v v ->
  forall n, resolve_config allow true env n v = resolve_config allow false env' n v.
Proof. exact config_environment. Qed.
Print Assumptions environment_never_overrides_partial.

(** C34.  A field that is a substitution: with a value in the document it is that value; else the value of the
    environment, as a string; else gone.
    Missing: as above. *)
Theorem environment_is_fallback_partial : forall use env i m n w, web (VObj false i m) (VObj false i m) -> NoDup (map fst m) ->
  resolve_config false use env n (VObj false i m) = Ok (Some w) ->
  forall k id p o l, find_key k m = Some (VRef id p o l) ->
  match get p (VObj false i m), from_environment (environment_if use env) p with
  | Some v, _ => is_resolved v = true -> get [k] w = Some v
  | None, Some t => get [k] w = Some (VScalar (SStr t true))
  | None, None => o = true /\ get [k] w = None
  end.
Proof. exact environment_field. Qed.
Print Assumptions environment_is_fallback_partial.
Definition shell : list (str * str) := [(lit "HOME", lit "/home"); (lit "b", lit "other"); (lit "b.c", lit "third")].
Example environment_ex : exists i m w, parsed "a = ${b}, b = 1, h = ${HOME}, x = ${?b.c}, q = [${b}]" = Ok (Some (VObj false i m)) /\ web (VObj false i m) (VObj false i m) /\ NoDup (map fst m) /\
  resolve_config false true shell 60 (VObj false i m) = Ok (Some w) /\ get [lit "a"] w = Some (int 1 "1") /\ get [lit "h"] w = Some (VScalar (SStr (lit "/home") true)) /\ get [lit "x"] w = None.
Proof.
  do 3 eexists. split; [vm_compute; reflexivity|]. split; [weave|]. split; [repeat constructor; cbn; intuition discriminate|]. split; [vm_compute; reflexivity|]. repeat split; vm_compute; reflexivity.
Qed.
Example environment_never_ex : exists v, parsed "a = x ${b} ${?c}, b = ${c}, c = 4" = Ok (Some v) /\ simple_object v /\ web v v /\ known v v.
Proof.
  eexists. split; [vm_compute; reflexivity|]. split; [do 3 eexists; reflexivity|]. split; [weave|]. intros id p o l H. each H; vm_compute; discriminate.
Qed.
