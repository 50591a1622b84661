(** Required substitutions that resolve without the environment resolve to the same with it, delayed merges and
    all. *)
From Verif Require Import Base BaseLemmas Util_Model Num_Model Path_Model Token_Model Value_Model Value_Spec Value_Lemmas Value_Lemmas2
  Duration_Model Config_Model Concat_Model Concat_Lemmas Resolve_Model Resolve_Spec Resolve_Lemmas Resolve_Lemmas7.

Definition follows {A} (r r' : result A) : Prop := forall x, r = Ok x -> r' = Ok x.
Lemma follows_refl : forall A (r : result A), follows r r.
Proof. intros A r x H. exact H. Qed.
Lemma follows_bind : forall A B (r r' : result A) (k k' : A -> result B), follows r r' -> (forall x, r = Ok x -> follows (k x) (k' x)) -> follows (bind r k) (bind r' k').
Proof. intros A B r r' k k' H K x E. inv_bind E. rewrite (H _ Hb). cbn [bind]. exact (K a Hb x Hk). Qed.

Section Two.
Variables (use1 use2 : bool) (env1 env2 : list (str * str)).
Variable Req : nat -> path -> bool -> Z -> Prop.
Hypothesis Required : forall id p o l, Req id p o l -> o = false.
Notation ok := (sound Req).

Section Step.
Variables off on : context -> value -> source -> result (option value * context).
Hypothesis Silent : forall id p o l v c ps, Req id p o l -> use1 = true -> find_in_object off (environment_object env1) moved_from (sub_path p l) <> Ok (Some v, c, ps).
Hypothesis Pres : preserves Req off.
Hypothesis Rec : forall c v s, context_ok Req c -> ok v -> source_ok Req s -> follows (off c v s) (on c v s).

Lemma find_follows : forall obj c p, context_ok Req c -> ok obj -> follows (find_in_object off obj c p) (find_in_object on obj c p).
Proof. intros obj c p Hc Ho. unfold find_in_object. apply follows_bind; [apply Rec; [apply restrict_ok, Hc|exact Ho|split; [exact Ho|constructor]]|]. intros. apply follows_refl. Qed.
Lemma lookup_follows : forall id o c p l s v c' ps, Req id p o l -> context_ok Req c -> source_ok Req s ->
  lookup_subst use1 env1 off c p l s = Ok (Some v, c', ps) -> lookup_subst use2 env2 on c p l s = Ok (Some v, c', ps).
Proof.
  intros id o c p l s v c' ps HQ Hc Hs H. unfold lookup_subst in *. inv_bind H. destruct a as [[w c1] qs]. rewrite (find_follows _ _ _ Hc (proj1 Hs) _ Hb). cbn [bind].
  destruct w as [w|]; [exact Hk|]. cbv zeta in *. inv_bind Hk. destruct a as [[w2 c2] qs2].
  destruct (find_in_ok Req off Pres _ _ _ _ _ _ Hc (proj1 Hs) Hb) as [_ [C1 _]].
  assert (E : (if 0 <? l then find_in_object on (root s) c1 (sub_path p l) else Ok (None, c1, qs)) = Ok (w2, c2, qs2)).
  { destruct (0 <? l); [exact (find_follows _ _ _ C1 (proj1 Hs) _ Hb0)|exact Hb0]. }
  rewrite E. cbn [bind]. destruct w2; [exact Hk0|]. assert (U : use1 = true \/ use1 = false) by (destruct use1; auto). destruct U as [U|U]; rewrite U in Hk0; [|discriminate]. exfalso. exact (Silent _ _ _ _ _ _ _ HQ U Hk0).
Qed.
Lemma reference_follows : forall id p o l c s, Req id p o l -> context_ok Req c -> source_ok Req s ->
  follows (resolve_reference false use1 env1 off id p o l c s) (resolve_reference false use2 env2 on id p o l c s).
Proof.
  intros id p o l c s HQ Hc Hs x H. unfold resolve_reference in *. destruct (is_marked c id); [discriminate|]. inv_bind H. rewrite (Required _ _ _ _ HQ) in Hk.
  destruct a as [[[[v|] c1] ps]|]; [| |discriminate].
  - apply attempt_inv in Hb. assert (Cm : context_ok Req (add_marker c id)) by constructor.
    destruct (lookup_ok Req use1 env1 off Pres _ _ _ _ _ _ _ Cm Hs Hb) as [A1 [A2 [A3 A4]]].
    rewrite (lookup_follows _ _ _ _ _ _ _ _ _ HQ Cm Hs Hb). cbn [attempt bind]. inv_bind Hk. destruct a as [[v' c2]|]; [|discriminate]. apply attempt_inv in Hb0.
    assert (So : source_ok Req (Source (List.last ps v) ps)) by (split; [exact (last_ok _ ps v A3 A1)|exact A3]).
    rewrite (Rec _ _ _ A2 A1 So _ Hb0). cbn [attempt bind]. rewrite (Required _ _ _ _ HQ). exact Hk0.
  - discriminate Hk.
Qed.
Lemma pieces_follow : forall ps c s, Forall ok ps -> context_ok Req c -> source_ok Req s -> follows (resolve_pieces off ps c s) (resolve_pieces on ps c s).
Proof.
  induction ps as [|p ps IH]; intros c s F Hc Hs; [apply follows_refl|]. inversion F as [|? ? F1 F2]; subst. cbn [resolve_pieces].
  apply follows_bind; [apply Rec; [apply restrict_ok, Hc|exact F1|exact Hs]|]. intros [r c1] E. destruct (Pres _ _ _ _ _ (restrict_ok Req _ [] Hc) F1 Hs E) as [_ C1].
  apply follows_bind; [apply IH; [exact F2|apply restrict_ok, C1|exact Hs]|]. intros. apply follows_refl.
Qed.
Lemma concatenation_follows : forall ps c s, Forall ok ps -> context_ok Req c -> source_ok Req s -> follows (resolve_concatenation false off ps c s) (resolve_concatenation false on ps c s).
Proof. intros. unfold resolve_concatenation. apply follows_bind; [apply pieces_follow; assumption|]. intros. apply follows_refl. Qed.
Lemma stack_follows : forall self stack, ok self -> Forall ok stack -> forall ends count merged c s, Forall ok ends -> context_ok Req c -> source_ok Req s ->
  follows (resolve_stack off self stack ends count merged c s) (resolve_stack on self stack ends count merged c s).
Proof.
  intros self stack Hself Fs. induction ends as [|e ends IH]; intros count merged c s Fe Hc Hs; [apply follows_refl|]. inversion Fe as [|? ? F1 F2]; subst. cbn [resolve_stack].
  destruct (is_delayed e); [apply follows_refl|]. apply follows_bind; [apply follows_refl|]. intros s' Es.
  assert (S' : source_ok Req s').
  { destruct (is_unmergeable e); [|injection Es as <-; apply push_parent_ok; assumption]. inv_bind Es. inv_bind Hk. injection Hk0 as <-.
    pose proof (replace_within_ok _ _ _ _ _ Hs (make_replacement_ok _ _ _ _ Fs Hb) Hb0) as R. split; [exact (proj1 R)|constructor]. }
  apply follows_bind; [apply Rec; assumption|]. intros [r c1] E. destruct (Pres _ _ _ _ _ Hc F1 S' E) as [_ C1].
  apply follows_bind; [apply follows_refl|]. intros merged' _. apply IH; assumption.
Qed.
Lemma field_follows : forall k v c s, ok v -> context_ok Req c -> source_ok Req s -> follows (resolve_field off k v c s) (resolve_field on k v c s).
Proof.
  intros k v c s Hv Hc Hs. unfold resolve_field. destruct (restriction c) as [|f rem].
  - apply follows_bind; [apply Rec; assumption|]. intros. apply follows_refl.
  - destruct (str_eqb k f); [|apply follows_refl]. destruct rem; [apply follows_refl|]. apply follows_bind; [apply Rec; [apply restrict_ok, Hc|exact Hv|exact Hs]|]. intros. apply follows_refl.
Qed.
Lemma fields_follow : forall m c s, Forall (fun kv => ok (snd kv)) m -> context_ok Req c -> source_ok Req s -> follows (resolve_fields off m c s) (resolve_fields on m c s).
Proof.
  induction m as [|[k v] m IH]; intros c s F Hc Hs; [apply follows_refl|]. inversion F as [|? ? F1 F2]; subst. cbn [snd] in F1. cbn [resolve_fields].
  apply follows_bind; [apply field_follows; assumption|]. intros [r c1] E. destruct (field_ok Req off Pres _ _ _ _ _ _ F1 Hc Hs E) as [_ C1].
  apply follows_bind; [apply IH; assumption|]. intros. apply follows_refl.
Qed.
Lemma elements_follow : forall rest before init changed c s, Forall ok rest -> context_ok Req c -> source_ok Req s ->
  follows (resolve_elements off before rest init changed c s) (resolve_elements on before rest init changed c s).
Proof.
  induction rest as [|v rest IH]; intros before init changed c s F Hc Hs; [apply follows_refl|]. inversion F as [|? ? F1 F2]; subst. cbn [resolve_elements].
  apply follows_bind; [apply Rec; assumption|]. intros [r c1] E. destruct (Pres _ _ _ _ _ Hc F1 Hs E) as [_ C1]. apply IH; assumption.
Qed.
Lemma step_follows : forall c v s, context_ok Req c -> ok v -> source_ok Req s ->
  follows (resolve_step false use1 env1 off c v s) (resolve_step false use2 env2 on c v s).
Proof.
  intros c v s Hc Hv Hs. unfold resolve_step.
  assert (G : follows
     (if match v with VRef id _ _ _ => is_marked c id | _ => false end then Throw ENotPossible
      else '(r, c1) <- resolve_substitutions false use1 env1 off v c s ;;
        match r with
        | None => Ok (r, memoize c1 v r)
        | Some w => if is_resolved w then Ok (r, memoize c1 v r) else if is_restricted c then Ok (r, c1) else Throw EBug
        end)
     (if match v with VRef id _ _ _ => is_marked c id | _ => false end then Throw ENotPossible
      else '(r, c1) <- resolve_substitutions false use2 env2 on v c s ;;
        match r with
        | None => Ok (r, memoize c1 v r)
        | Some w => if is_resolved w then Ok (r, memoize c1 v r) else if is_restricted c then Ok (r, c1) else Throw EBug
        end)).
  { destruct (match v with VRef id _ _ _ => is_marked c id | _ => false end); [apply follows_refl|]. apply follows_bind; [|intros; apply follows_refl].
    destruct v; cbn [resolve_substitutions].
    - apply follows_refl.
    - inversion Hv; subst. unfold resolve_list. destruct (forallb is_resolved vs); [apply follows_refl|]. destruct (is_restricted c); [apply follows_refl|].
      apply follows_bind; [apply elements_follow; [assumption|assumption|apply push_parent_ok; assumption]|intros; apply follows_refl].
    - inversion Hv; subst. unfold resolve_object. destruct resolved; [apply follows_refl|].
      apply follows_bind; [apply fields_follow; [assumption|assumption|apply push_parent_ok; assumption]|intros; apply follows_refl].
    - inversion Hv; subst. apply reference_follows; assumption.
    - inversion Hv; subst. apply concatenation_follows; assumption.
    - inversion Hv; subst. apply stack_follows; assumption.
    - inversion Hv; subst. apply stack_follows; assumption. }
  destruct (find_memo (memos c) v) as [[w|]|]; [apply follows_refl|exact G|exact G].
Qed.
End Step.

Hypothesis Quiet : forall id p o l n v c ps, Req id p o l -> use1 = true -> find_in_object (resolve_n false use1 env1 n) (environment_object env1) moved_from (sub_path p l) <> Ok (Some v, c, ps).
Lemma resolve_follows : forall n c v s, context_ok Req c -> ok v -> source_ok Req s ->
  follows (resolve_n false use1 env1 n c v s) (resolve_n false use2 env2 n c v s).
Proof.
  induction n as [|n IH]; intros c v s Hc Hv Hs; [apply follows_refl|]. cbn [resolve_n].
  apply step_follows; try assumption; [intros; eapply Quiet; eassumption|apply resolve_preserves].
Qed.
Lemma config_follows : forall n v r, ok v -> resolve_config false use1 env1 n v = Ok r -> resolve_config false use2 env2 n v = Ok r.
Proof.
  intros n v r Hv H. unfold resolve_config, resolve_with in *. inv_bind H. destruct a as [x c].
  rewrite (resolve_follows n moved_from v (Source v []) (Forall_nil _) Hv (conj Hv (Forall_nil _)) _ Hb). exact Hk.
Qed.
End Two.

Lemma required_without_environment : forall env n v r, sound (fun _ _ o _ => o = false) v ->
  resolve_config false false [] n v = Ok r -> resolve_config false true env n v = Ok r.
Proof. intros env n v r Hv. apply (config_follows false true [] env (fun _ _ o _ => o = false)); [auto|discriminate|exact Hv]. Qed.
Lemma required_with_environment : forall env n v r, sound (fun _ p o l => o = false /\ l = 0 /\ from_environment (Some env) p = None) v ->
  resolve_config false true env n v = Ok r -> resolve_config false false [] n v = Ok r.
Proof.
  intros env n v r Hv. apply (config_follows true false env [] (fun _ p o l => o = false /\ l = 0 /\ from_environment (Some env) p = None)); [intros id p o l H; exact (proj1 H)| |exact Hv].
  intros id p o l k w c ps [_ [-> Fe]] _ H. rewrite sub_path_zero in H. destruct p as [|x p].
  - unfold find_in_object in H. inv_bind H. destruct a as [[o'|] c1]; [|discriminate]. destruct (is_object o'); [|discriminate]. discriminate.
  - destruct (find_in_direct false true env k (environment_object env) [] [] (x :: p) I ltac:(discriminate) (environment_direct env _)) as [E|[q E]]; unfold moved_from in H; rewrite E in H; [discriminate|].
    rewrite from_environment_get in H by discriminate. rewrite Fe in H. discriminate.
Qed.
