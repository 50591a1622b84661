(** Property C48: program options from a configuration. *)
From Verif Require Import Base Util_Model Num_Model Path_Model Token_Model Value_Model Value_Spec Value_Props Config_Model Config_Spec Config_Props ProgOpts_Model ProgOpts_Spec ProgOpts_Lemmas.

Definition server : value := obj
  [(lit "server", obj [(lit "port", num 80); (lit "hosts", VList [text_value "a"; text_value "b"]); (lit "debug", VScalar (SBool true))]);
   (lit "unknown", num 1); (lit "nil", VScalar SNull)].
Definition known (k : str) : bool := negb (str_eqb k (lit "unknown")).
Example server_plain : plain server.
Proof. plains. Qed.

(** C48.  When no wanted entry holds nested lists or objects, the options are the wanted entries, each once
    under its path, with the text of its value or of each element of its list; entries that are not
    registered are left out when allowed.  Missing: entries whose list is empty give no option; without the
    permission entries that are not registered are passed on, and it is Boost's po::store that rejects them. *)
Theorem program_options_partial : forall registered allow cfg, plain cfg ->
  (forall p w, wanted registered allow cfg p w -> option_values w <> None) ->
  exists ps, parse_hocon registered allow cfg = Ok (map (fun pv => (render_path (fst pv), snd pv)) ps) /\
    NoDup (map fst ps) /\
    (forall p ts, In (p, ts) ps <-> ts <> [] /\ exists w, wanted registered allow cfg p w /\ option_values w = Some ts).
Proof. exact parse_hocon_ok. Qed.
Print Assumptions program_options_partial.

Example program_options_ex :
  parse_hocon known true server =
    Ok [(lit "server.port", [lit "80"]); (lit "server.hosts", [lit "a"; lit "b"]); (lit "server.debug", [lit "true"])].
Proof. vm_compute. reflexivity. Qed.

(** C48.  A list with a list or an object in it is rejected. *)
Theorem program_options_nested_rejected : forall registered allow cfg p w, plain cfg -> wanted registered allow cfg p w -> option_values w = None ->
  parse_hocon registered allow cfg = Throw EUnknownOption.
Proof. exact parse_hocon_throw. Qed.
Print Assumptions program_options_nested_rejected.

Example program_options_nested_ex : wanted known false (obj [(lit "a", VList [num 1; VList []])]) [lit "a"] (VList [num 1; VList []]) /\
  option_values (VList [num 1; VList []]) = None.
Proof. repeat split; discriminate. Qed.

(** C48, refuted: an entry with an empty list gives no option. *)
Theorem program_options_refuted : exists cfg p w, plain cfg /\ wanted known false cfg p w /\ parse_hocon known false cfg = Ok [].
Proof. exists (obj [(lit "a", VList [])]), [lit "a"], (VList []). split; [plains|]. repeat split; discriminate. Qed.
Print Assumptions program_options_refuted.
