(** C70: what the parser builds, and a document that is read, rendered and read again. *)
From Verif Require Import Base Util_Model Num_Model Path_Model Token_Model Token_Spec PathParser_Model PathParser_Spec Doc_Model Edit_Model Value_Model Value_Spec Concat_Model ConfigParser_Model Render_Model Render_Spec RenderRef_Spec RenderRef_Lemmas7 RenderRef_Props.

(** A config that has been parsed is [formed], if what is included is: different keys, concatenations and merges of
    nothing that could be joined or merged, and flags that tell whether something is left to be resolved. *)
Theorem parsed_configs_are_formed : forall flavor includer,
  (forall kind name n v n', includer kind name n = Ok (v, n') -> formed v) ->
  forall text next v next', parse_config flavor includer text next = Ok (Some v, next') -> formed v.
Proof. exact parse_formed. Qed.
Print Assumptions parsed_configs_are_formed.

(** Merging keeps values [formed]. *)
Theorem merging_formed_values : forall a b c, formed a -> formed b -> with_fallback a b = Ok c -> formed c.
Proof. exact fallback_formed. Qed.
Print Assumptions merging_formed_values.

(** For all documents, JSON or HOCON, with or without includes: what has been read and is rendered gives the same config
    when it is read again.  Missing from the full statement: strings, keys and references that cannot be written
    ([clean]), merges as layers of merges, and what is missing from [unresolved_round_trip_partial]. *)
Theorem parsed_round_trip_partial : forall o ns merges flavor includer text next v next' includer2 next2,
  (forall kind name n w n', includer kind name n = Ok (w, n') -> formed w) ->
  parse_config flavor includer text next = Ok (Some v, next') -> clean merges v -> a_pending_root v ->
  (origin_comments o || comments o = true -> one_line_comments ns) -> (merges = true -> merges_fit o ns) ->
  exists text' w next2', render_value o ns v = Ok text' /\ alike v w /\ parse_config CONF includer2 text' next2 = Ok (Some w, next2').
Proof. exact parsed_rendered. Qed.
Print Assumptions parsed_round_trip_partial.

(** A document that meets the hypotheses: appending, a reference below two objects, a concatenation, and a list with a reference
    on a string. *)
Definition document : str := lit "m={b=1},m.n=${?q.""x y""},m=${c},l=[${u}]${v} {k=[]},l+=yes,p=x,p=[${u}]".
Example parsed_round_trip_case : exists v n, parse_config CONF no_includes document 0 = Ok (Some v, n) /\ clean true v /\ a_pending_root v /\ is_resolved v = false.
Proof.
  assert (Q : forall s, forallb (fun c => (32 <=? byte_of c) && (byte_of c <=? 127)) s = true -> Forall quotable s).
  { intros s H. rewrite forallb_forall in H. apply Forall_forall. intros c I. specialize (H c I). left. apply andb_prop in H. destruct H. split; apply Z.leb_le; assumption. }
  eexists. eexists. split; [vm_compute; reflexivity|]. split; [|split; [exact I|reflexivity]].
  repeat match goal with
  | |- Forall quotable _ => apply Q; reflexivity
  | |- Forall _ [] => apply Forall_nil
  | |- Forall _ (_ :: _) => apply Forall_cons
  | |- _ /\ _ => split
  | |- clean _ (snd _) => cbn [snd]
  | |- clean _ (VList _) => apply c_list
  | |- clean _ (VConcat _) => apply c_concat
  | |- clean _ (VObj _ _ _) => apply c_obj
  | |- clean _ (VMerge _) => apply c_merge
  | |- clean _ (VRef _ _ _ _) => apply c_ref
  | |- clean _ (VScalar _) => apply c_scalar
  | |- writable (VScalar (SStr _ _)) => apply w_string
  | |- writable (VScalar (SInt _ [?c])) => apply (w_number _ c [])
  | |- word_key _ => right; split; [left; reflexivity|repeat split; intros r; discriminate]
  | |- _ <> _ => discriminate
  | |- _ = _ => vm_compute; reflexivity
  end.
Qed.
(** Its text when it is rendered. *)
Example parsed_round_trip_text :
  match parse_config CONF no_includes document 0 with Ok (Some v, _) => render_value hocon (fun _ => None) v | _ => Ok [] end =
  Ok (lit """l"":[${u}]${v}{k=[]},""l"":${?l}[yes],""m"":{b=1,n=${?q.""x y""}},""m"":${c},""p"":x,""p"":[${u}]").
Proof. vm_compute. reflexivity. Qed.
