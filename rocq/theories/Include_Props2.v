(** Properties C43, C44, C52, C53: included substitutions, the options of a text, and which files are read. *)
From Verif Require Import Base Util_Model Num_Model Path_Model Token_Model PathParser_Model Doc_Model Edit_Model Value_Model Value_Spec
  ConfigParser_Model ConfigParser_Spec ConfigParser_Lemmas Resolve_Model Include_Model Include_Spec Include_Lemmas Include_Lemmas2 Include_Lemmas3.

Definition number (z : Z) (s : string) : value := VScalar (SInt z (lit s)).

(** C43, refuted: [${x}] in a file included below p is x, also when p.x is defined, and it is an error if only
    p.x is defined. *)
Theorem included_substitution_refuted :
  let files := disk [("f.conf", "y = ${x}")]%string in
  (exists v w, parse_string files [] 0 3 (quoted "x = 2, p { x = 1, include 'f.conf' }") default_options 0 = Ok (v, 1%nat) /\
     resolve_config false false [] 9 v = Ok (Some w) /\ get [lit "p"; lit "x"] w = Some (number 1 "1") /\ get [lit "p"; lit "y"] w = Some (number 2 "2")) /\
  (exists v, parse_string files [] 0 3 (quoted "p { x = 1, include 'f.conf' }") default_options 0 = Ok (v, 1%nat) /\
     resolve_config false false [] 9 v = Throw EUnresolved).
Proof.
  split; [eexists; eexists; split; [vm_compute; reflexivity|]; split; [vm_compute; reflexivity|]; split; vm_compute; reflexivity|]. eexists. split; [vm_compute; reflexivity|vm_compute; reflexivity].
Qed.
Print Assumptions included_substitution_refuted.

(** C43.  In general the path an include statement stands at makes no difference to what it contributes. *)
Theorem include_ignores_path : forall includer values cs kind s1 s2 ac next,
  ConfigParser_Model.parse_include includer values cs kind s1 ac next = ConfigParser_Model.parse_include includer values cs kind s2 ac next.
Proof. exact include_free. Qed.
Print Assumptions include_ignores_path.

(** C44, refuted: of the options only the includer has an influence on the value of a text; the syntax, in
    particular, has none. *)
Theorem text_options_ignored : forall files environment resolve_depth n text o o' next, o_includer o = o_includer o' ->
  parse_string files environment resolve_depth n text o next = parse_string files environment resolve_depth n text o' next.
Proof. exact string_options. Qed.
Print Assumptions text_options_ignored.
Theorem json_option_refuted : exists text o v, o_syntax o = Some JSON /\ (exists e, parse_document JSON text = Throw e) /\
  parse_string (disk []) [] 0 1 text o 0 = Ok (v, 0%nat).
Proof. exists (lit "a = 1 # no JSON"), (ParseOptions (Some JSON) None true None). eexists. split; [reflexivity|]. split; [eexists; vm_compute; reflexivity|vm_compute; reflexivity]. Qed.
Print Assumptions json_option_refuted.

(** C44, refuted: the includer has none on a text without include statements... *)
Theorem text_options_ignored_without_includes : forall files environment resolve_depth n n' text o o' next, (forall kind name, ~ text_includes text kind name) ->
  parse_string files environment resolve_depth n text o next = parse_string files environment resolve_depth n' text o' next.
Proof. exact string_no_includes. Qed.
Print Assumptions text_options_ignored_without_includes.
Example text_options_ignored_ex : forall kind name, ~ text_includes (quoted "a = { b : [1, 2] }, c = include") kind name.
Proof. intros kind name H. apply includes_of_right in H. vm_compute in H. exact H. Qed.

(** ... nor is it asked for what the text includes.  It is only asked for what included files include. *)
Definition answer (dir name : str) (next : nat) : result (value * nat) := Ok (VObj true false [(lit "asked", VScalar (SStr name true))], next).
Definition with_includer : parse_options := ParseOptions None None true (Some (AppIncluder answer None)).
Theorem includer_option_refuted :
  (exists v, parse_string (disk [("a.conf", "x = 1")]%string) [] 0 3 (quoted "include 'a.conf', include 'b'") with_includer 0 = Ok (v, 0%nat) /\
     get [lit "asked"] v = None /\ get [lit "x"] v = Some (number 1 "1")) /\
  (exists v, parse_string (disk [("a.conf", "include 'b', x = 1")]%string) [] 0 3 (quoted "include 'a.conf'") with_includer 0 = Ok (v, 0%nat) /\
     get [lit "asked"] v = Some (VScalar (SStr (lit "b") true))).
Proof. split; eexists; (split; [vm_compute; reflexivity|]); repeat split; vm_compute; reflexivity. Qed.
Print Assumptions includer_option_refuted.

(** C44.  The description of the origin is the one given, or else "string". *)
Theorem origin_description_kept_partial : forall text o,
  string_origin text o = match o_origin o with Some d => d | None => lit "string" end.
Proof. intros text [s [d|] m i]; reflexivity. Qed.
Print Assumptions origin_description_kept_partial.
Example origin_description_ex : string_origin (lit "a = 1") (ParseOptions (Some JSON) (Some (lit "here")) true None) = lit "here" /\ string_origin [] default_options = lit "string".
Proof. split; reflexivity. Qed.

(** C52.  A name without extension stands for the .conf file with the .json file as its fallback. *)
Theorem conf_over_json : forall files environment resolve_depth n name o next vc n1 vj n2 w, ~ has_extension name -> o_syntax o = None ->
  parse_file_any_syntax files environment resolve_depth n (name ++ lit ".conf") o next = Ok (vc, n1) ->
  parse_file_any_syntax files environment resolve_depth n (name ++ lit ".json") o n1 = Ok (vj, n2) ->
  with_fallback vc vj = Ok w -> is_object w = true ->
  parse_file_any_syntax files environment resolve_depth n name o next = Ok (w, n2).
Proof. exact load_both. Qed.
Print Assumptions conf_over_json.
Theorem conf_alone : forall files environment resolve_depth n name o next vc n1, ~ has_extension name -> o_syntax o = None -> o_missing o = true ->
  files (name ++ lit ".json") = None ->
  parse_file_any_syntax files environment resolve_depth n (name ++ lit ".conf") o next = Ok (vc, n1) ->
  parse_file_any_syntax files environment resolve_depth n name o next = Ok (vc, n1).
Proof. exact load_conf_only. Qed.
Print Assumptions conf_alone.
Example conf_over_json_ex :
  let files := disk [("a.conf", "x = 1, y = ${x}"); ("a.json", "{'x' : 2, 'z' : 3}")]%string in
  ~ has_extension (lit "a") /\
  exists v, parse_file_any_syntax files [] 0 2 (lit "a") default_options 0 = Ok (v, 1%nat) /\ get [lit "x"] v = Some (number 1 "1") /\ get [lit "z"] v = Some (number 3 "3").
Proof. split; [apply extension_not; reflexivity|]. eexists. split; [vm_compute; reflexivity|]. split; vm_compute; reflexivity. Qed.

(** C52, refuted: when files must not be missing, a .conf file on its own is rejected... *)
Theorem conf_alone_required_refuted : exists files o v, o_missing o = false /\
  parse_file_any_syntax files [] 0 2 (lit "a.conf") o 0 = Ok (v, 0%nat) /\ parse_file_any_syntax files [] 0 2 (lit "a") o 0 = Throw EConfig.
Proof. exists (disk [("a.conf", "x = 1")]%string), (ParseOptions None None false None). eexists. split; [reflexivity|]. split; vm_compute; reflexivity. Qed.
Print Assumptions conf_alone_required_refuted.
(** ... and a .conf file that is no HOCON counts as missing, without an exception. *)
Theorem bad_conf_reported_refuted : exists files e, parse_file_any_syntax files [] 0 2 (lit "a.conf") default_options 0 = Throw e /\
  parse_file_any_syntax files [] 0 2 (lit "a") default_options 0 = Ok (VObj true false [], 0%nat).
Proof. exists (disk [("a.conf", "x = 1 }")]%string). eexists. split; vm_compute; reflexivity. Qed.
Print Assumptions bad_conf_reported_refuted.

(** C53.  Including a name with an extension is loading the file of that name, seen from the directory of the
    including file.  Missing, and false (below): names without extension, which are seen from the working
    directory. *)
Theorem include_is_relative_partial : forall files environment resolve_depth n file o name next, o_includer o = None -> has_extension name ->
  run_includer files environment resolve_depth (parse_parseable files environment resolve_depth n 0) None (new_file files file o) KHeuristic name next =
  parse_file_any_syntax files environment resolve_depth n (seen_from (directory file) name) default_options next.
Proof. exact (fun files environment resolve_depth n file o name next H => include_loads files environment resolve_depth n (new_file files file o) name next H). Qed.
Print Assumptions include_is_relative_partial.
Theorem directory_is_before_last_slash : forall file dir, directory_of file dir <-> dir = directory file.
Proof. exact (fun file dir => conj (directory_unique file dir) (fun E => eq_ind_r (directory_of file) (directory_right file) E)). Qed.
Print Assumptions directory_is_before_last_slash.
Theorem basename_include_is_not_relative : forall files environment resolve_depth n file o name next, o_includer o = None -> ~ has_extension name ->
  run_includer files environment resolve_depth (parse_parseable files environment resolve_depth n 0) None (new_file files file o) KHeuristic name next =
  parse_file_any_syntax files environment resolve_depth n name default_options next.
Proof. exact (fun files environment resolve_depth n file o name next H => include_basename files environment resolve_depth n (new_file files file o) name next H). Qed.
Print Assumptions basename_include_is_not_relative.
Theorem basename_include_refuted :
  let files := disk [("d/a.conf", "include 'b'"); ("d/c.conf", "include 'b.conf'"); ("d/b.conf", "x = 1")]%string in
  parse_file_any_syntax files [] 0 3 (lit "d/a.conf") default_options 0 = Ok (VObj true false [], 0%nat) /\
  parse_file_any_syntax files [] 0 3 (lit "d/c.conf") default_options 0 = Ok (VObj true false [(lit "x", number 1 "1")], 0%nat).
Proof. split; vm_compute; reflexivity. Qed.
Print Assumptions basename_include_refuted.
