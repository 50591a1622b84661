(** Properties C41, C42: includes that form a cycle, and what an include statement contributes. *)
From Verif Require Import Base Util_Model Num_Model Path_Model Token_Model PathParser_Model Doc_Model Edit_Model Value_Model Value_Spec
  ConfigParser_Model ConfigParser_Spec Resolve_Model Include_Model Include_Spec Include_Lemmas Include_Lemmas2 Include_Lemmas3.

(** C41, refuted: if the first thing every file of a set does is to include one of the set, by its full name or
    without extension, then parsing any of them never ends, however deep the recursion may go. *)
Theorem include_cycle_throws_refuted : forall files environment resolve_depth S, begins_with_cycle files S ->
  forall n file o next, S file -> o_includer o = None -> o_syntax o <> Some JSON ->
  parse_file_any_syntax files environment resolve_depth n file o next = Stuck UFuel.
Proof. exact ring_file_never. Qed.
Print Assumptions include_cycle_throws_refuted.

Definition ring_files : str -> option str := disk [("/r/a.conf", "# first
  include 'd/b.conf', x = 1"); ("/r/d/b.conf", "include '/r/c'"); ("/r/c.conf", "include 'a.conf', y = 2")]%string.
Definition ring_set (file : str) : Prop := file = lit "/r/a.conf" \/ file = lit "/r/d/b.conf" \/ file = lit "/r/c.conf".
Definition self_files : str -> option str := disk [("a.conf", "include 'a.conf'")]%string.
Ltac member d n := eexists; exists (lit d), (lit n); eexists; split; [reflexivity|]; split; [first [exact (directory_right (lit "/r/a.conf")) | exact (directory_right (lit "/r/d/b.conf")) | exact (directory_right (lit "/r/c.conf")) | exact (directory_right (lit "a.conf"))]|]; split; [apply first_begins; vm_compute; reflexivity|].
Example include_cycle_ex : begins_with_cycle ring_files ring_set /\ ring_set (lit "/r/a.conf") /\ begins_with_cycle self_files (eq (lit "a.conf")).
Proof.
  split; [|split; [left; reflexivity|]].
  - intros file [->|[->| ->]].
    + split; [exists (lit "/r/a"); reflexivity|]. member "/r/"%string "d/b.conf"%string. split; [left; split; [left; exists (lit "d/b"); reflexivity|reflexivity]|right; left; reflexivity].
    + split; [exists (lit "/r/d/b"); reflexivity|]. member "/r/d/"%string "/r/c"%string. split; [right; split; [apply extension_not; reflexivity|left; reflexivity]|right; right; reflexivity].
    + split; [exists (lit "/r/c"); reflexivity|]. member "/r/"%string "a.conf"%string. split; [left; split; [left; exists (lit "a"); reflexivity|reflexivity]|left; reflexivity].
  - intros file <-. split; [exists (lit "a"); reflexivity|]. member ""%string "a.conf"%string. split; [left; split; [left; exists (lit "a"); reflexivity|reflexivity]|reflexivity].
Qed.

(** C41, refuted: includes nested sixty deep are read, not rejected. *)
Theorem include_depth_refuted : exists files file,
  (forall i, (i < 60)%nat -> exists text, files (repeat "a"%char (S i) ++ lit "b.conf") = Some text /\ has_include text (repeat "a"%char i ++ lit "b.conf")) /\
  file = repeat "a"%char 60 ++ lit "b.conf" /\
  exists v, parse_file_any_syntax files [] 0 61 file default_options 0 = Ok (v, 0%nat) /\ get [lit "x"] v = Some (VScalar (SInt 1 (lit "1"))).
Proof. exact tower_read. Qed.
Print Assumptions include_depth_refuted.

(** C41.  What does hold.  Files of which each includes, by its full name and anywhere among its fields, one of
    the set are never parsed successfully. *)
Theorem include_cycle_never_parses : forall files environment resolve_depth S, has_cycle files S ->
  forall n d file o o' next r, S file -> o_includer o = None -> o_includer o' = None -> o_syntax o' = None \/ o_syntax o' = Some CONF ->
  parse_parseable files environment resolve_depth n d (new_file files file o) o' next <> Ok r.
Proof. exact cycle_never_ok. Qed.
Print Assumptions include_cycle_never_parses.
Example include_cycle_never_parses_ex : has_cycle (disk [("a.conf", "x = [1], include 'a.conf'")]%string) (eq (lit "a.conf")).
Proof.
  intros file <-. split; [exists (lit "a"); reflexivity|]. eexists. exists [], (lit "a.conf"). split; [reflexivity|]. split; [exact (directory_right (lit "a.conf"))|]. split; [|split; [left; exists (lit "a"); reflexivity|reflexivity]].
  eexists [], _, _, _. split; [vm_compute; reflexivity|]. split; [constructor|]. split; [cbn; tauto|reflexivity].
Qed.

(** C41.  If no file includes itself, directly or through others, then parsing ends, and the outcome does not
    depend on how deep the recursion may go.  Missing: [include file(...)] statements, which resolve what they
    read (C30), and includers of the application. *)
Theorem acyclic_includes_end_partial : forall files environment resolve_depth rank, no_include_cycle files rank -> only_plain_includes files ->
  forall name o next, o_includer o = None -> exists n, forall m, (n <= m)%nat ->
  parse_file_any_syntax files environment resolve_depth m name o next = parse_file_any_syntax files environment resolve_depth n name o next /\
  parse_file_any_syntax files environment resolve_depth m name o next <> Stuck UFuel.
Proof. exact any_syntax_ends. Qed.
Print Assumptions acyclic_includes_end_partial.
Theorem acyclic_text_ends_partial : forall files environment resolve_depth rank, no_include_cycle files rank -> only_plain_includes files ->
  forall text o next, o_includer o = None -> (forall kind name, text_includes text kind name -> kind = KHeuristic) -> exists n, forall m, (n <= m)%nat ->
  parse_string files environment resolve_depth m text o next = parse_string files environment resolve_depth n text o next /\
  parse_string files environment resolve_depth m text o next <> Stuck UFuel.
Proof. exact string_ends. Qed.
Print Assumptions acyclic_text_ends_partial.

Definition tree_files : str -> option str := disk [("a.conf", "include 'd/b.conf', x = 1, y { include 'c' }"); ("d/b.conf", "include '../c.conf'"); ("c.conf", "z = 3"); ("c.json", "{'z' : 1, 'w' : 2}"); ("d/../c.conf", "q = 1")]%string.
Definition tree_rank (file : str) : nat := if str_eqb file (lit "a.conf") then 2%nat else if str_eqb file (lit "d/b.conf") then 1%nat else 0%nat.
Example acyclic_includes_ex : no_include_cycle tree_files tree_rank /\ only_plain_includes tree_files /\
  exists v, parse_file_any_syntax tree_files [] 0 5 (lit "a") default_options 0 = Ok (v, 0%nat) /\
    get [lit "y"; lit "w"] v = Some (VScalar (SInt 2 (lit "2"))) /\ get [lit "q"] v = Some (VScalar (SInt 1 (lit "1"))) /\ get [lit "y"; lit "z"] v = Some (VScalar (SInt 3 (lit "3"))).
Proof.
  split; [apply ranked_right; vm_compute; reflexivity|]. split; [apply (ranked_right _ tree_rank); vm_compute; reflexivity|]. eexists. split; [vm_compute; reflexivity|]. repeat split; vm_compute; reflexivity.
Qed.

(** C42.  The value at a key of an object is made of the values given for it, in the order of the text, each
    with what came before as its fallback: a field gives one, an include statement those of the included
    object, at its place. *)
Theorem includes_in_order : forall includer cs path_stack ac next v next',
  parse_value CONF includer (NObject cs) path_stack ac next = Ok (v, next') ->
  exists defs, Forall2 (contributes includer path_stack ac) cs defs /\ simple_object v /\
    forall k, history (definitions_of k (List.concat defs)) = Ok (get [k] v).
Proof. exact object_includes. Qed.
Print Assumptions includes_in_order.

(** C42.  So a later value that is no object overrides an included one, an included one that is no object
    overrides the earlier ones, and several resolved ones are the stack of them with the last in front. *)
Theorem included_overrides_earlier : forall includer cs path_stack ac next v next',
  parse_value CONF includer (NObject cs) path_stack ac next = Ok (v, next') ->
  exists defs, Forall2 (contributes includer path_stack ac) cs defs /\
    (forall k, definitions_of k (List.concat defs) = [] -> get [k] v = None) /\
    (forall k before last, definitions_of k (List.concat defs) = before ++ [last] -> plain last -> is_object last = false -> get [k] v = Some last) /\
    (forall k, definitions_of k (List.concat defs) <> [] -> Forall plain (definitions_of k (List.concat defs)) ->
       exists w, get [k] v = Some w /\ stack_of (rev (definitions_of k (List.concat defs))) = Ok w).
Proof. exact object_includes_last. Qed.
Print Assumptions included_overrides_earlier.
Definition number (z : Z) (s : string) : value := VScalar (SInt z (lit s)).
Example includes_in_order_ex : exists v, parse_string (disk [("b.conf", "x = 2, o { p = 2, q = 2 }, z = 2")]%string) [] 0 3 (quoted "x = 1, o { p = 1, r = 1 }, include 'b.conf', o.q = 3, z = 3") default_options 0 = Ok (v, 0%nat) /\
  get [lit "x"] v = Some (number 2 "2") /\ get [lit "o"; lit "p"] v = Some (number 2 "2") /\ get [lit "o"; lit "q"] v = Some (number 3 "3") /\
  get [lit "o"; lit "r"] v = Some (number 1 "1") /\ get [lit "z"] v = Some (number 3 "3").
Proof. eexists. split; [vm_compute; reflexivity|]. repeat split; vm_compute; reflexivity. Qed.

(** C42.  Including a name with the extension .conf, or with none, contributes nothing if no file is there.
    Missing, and false (below): names with the extension .json. *)
Theorem missing_include_contributes_nothing_partial : forall files environment resolve_depth n c before after ics kind name s ac next,
  (0 < resolve_depth)%nat -> include_name ics = Ok name -> (kind = KFile \/ kind = KHeuristic) ->
  (forall file, reads_file (p_dir c) name file -> files file = None) -> ~ (exists s, name = s ++ lit ".json") ->
  let includer := run_includer files environment resolve_depth (parse_parseable files environment resolve_depth (S n) 0) None c in
  parse_value CONF includer (NObject (before ++ NInclude ics kind :: after)) s ac next = parse_value CONF includer (NObject (before ++ after)) s ac next.
Proof. exact missing_contributes_nothing. Qed.
Print Assumptions missing_include_contributes_nothing_partial.
Example missing_include_ex : forall file, reads_file (lit "d/") (lit "more") file -> disk [("d/more.conf", "x = 2")]%string file = None.
Proof. intros file R. apply targets_of_right in R. vm_compute in R. destruct R as [<-|[<-|[]]]; vm_compute; reflexivity. Qed.

(** C42, refuted: a missing .json file is a parse error, wherever and however it is included. *)
Theorem missing_json_include_refuted : forall files environment resolve_depth n d c s next, (d < max_include_depth)%nat ->
  files (seen_from (p_dir c) (s ++ lit ".json")) = None ->
  forall kind, run_includer files environment resolve_depth (parse_parseable files environment resolve_depth (S n) d) None c kind (s ++ lit ".json") next = Throw EParse.
Proof. exact missing_json. Qed.
Print Assumptions missing_json_include_refuted.
Example missing_json_include_ex : parse_string (disk []) [] 0 5 (quoted "a = 1, include 'b.json'") default_options 0 = Throw EParse.
Proof. vm_compute. reflexivity. Qed.
