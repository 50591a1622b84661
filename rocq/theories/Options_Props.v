(** Properties C65 and C66: the options of documents, and includers put together. *)
From Verif Require Import Base Util_Model Num_Model Path_Model Path_Spec Token_Model PathParser_Model Doc_Model Edit_Model Value_Model Value_Spec Concat_Model ConfigParser_Model
  Include_Model Include_Spec Include_Lemmas JsonEdit_Spec Options_Model Options_Spec Options_Lemmas.

(** C65.  A text is read as a document in the syntax asked for, and edited in it from then on. *)
Theorem document_text_syntax : forall text o s, asks_for o None s ->
  rmap d_root (document_of_string text o) = parse_document s text /\
  forall d e, document_of_string text o = Ok d -> edited d e -> d_syntax e = s.
Proof. exact string_document. Qed.
Print Assumptions document_text_syntax.
Theorem document_file_syntax : forall files name text o s, asks_for o (Some name) s -> files name = Some text ->
  rmap d_root (document_of_file files name o) = parse_document s text /\
  forall d e, document_of_file files name o = Ok d -> edited d e -> d_syntax e = s.
Proof. exact file_document. Qed.
Print Assumptions document_file_syntax.

Definition json_options : parse_options := ParseOptions (Some JSON) None true None.
Definition listed : str -> option str := disk [("d/x.json", "{'a':1}"); ("y.txt", "a = 1")]%string.
Example document_syntax_ex :
  asks_for json_options None JSON /\ document_of_string (lit "a = 1") json_options = Throw EParse /\ is_ok (document_of_string (lit "a = 1") no_options) = true /\
  asks_for default_options (Some (lit "d/x.json")) JSON /\ asks_for default_options (Some (lit "y.txt")) CONF /\
  (exists d e, document_of_file listed (lit "d/x.json") default_options = Ok d /\ document_set d (lit "b") (lit "2") = Ok e /\ edited d e /\ document_text e = quoted "{'a':1, 'b' : 2}") /\
  (exists d e, document_of_file listed (lit "y.txt") default_options = Ok d /\ document_set d (lit "b") (lit "2") = Ok e /\ edited d e /\ document_text e = lit "a = 1, b : 2").
Proof.
  split; [apply asks_option; reflexivity|]. split; [vm_compute; reflexivity|]. split; [vm_compute; reflexivity|].
  split; [apply (asks_json _ _ (lit "d/x")); reflexivity|]. split; [apply asks_conf; [reflexivity|]; intros stem H; injection H as H; apply (f_equal (@rev ascii)) in H; rewrite rev_app_distr in H; discriminate H|].
  split; eexists _, _; (split; [vm_compute; reflexivity|]); (split; [vm_compute; reflexivity|]); (split; [|vm_compute; reflexivity]);
  (apply (edited_set _ _ _ (lit "b") (lit "2") (edited_not _)); vm_compute; reflexivity).
Qed.

(** C65.  So a value set in a JSON file is in the text of the document, which is JSON again, with everything else as it
    was; restricted as in json_set_value_partial. *)
Theorem json_file_edit_partial : forall files name text o d v ps p t n w,
  files name = Some text -> asks_for o (Some name) JSON -> document_of_file files name o = Ok d ->
  ~ In (ch 0) text -> forallb neat (d_root d) = true -> json_text (document_text d) v -> simple_object v ->
  path_text ps p -> way_open p v -> ~ In (ch 0) t -> json_value_text t n w -> neat n = true ->
  exists d' v', document_set d ps t = Ok d' /\ json_text (document_text d') v' /\ get p v' = Some w /\ forall q, apart p q -> get q v' = get q v.
Proof. exact json_file_set. Qed.
Print Assumptions json_file_edit_partial.

Example json_file_edit_ex : exists d n v, document_of_file listed (lit "d/x.json") default_options = Ok d /\ forallb neat (d_root d) = true /\
  json_text (document_text d) v /\ simple_object v /\ path_text (lit "b") [lit "b"] /\ way_open [lit "b"] v /\
  json_value_text (lit "2") n (VScalar (SInt 2 (lit "2"))) /\ neat n = true.
Proof.
  eexists _, _, (new_object [(lit "a", VScalar (SInt 1 (lit "1")))]). split; [vm_compute; reflexivity|]. split; [vm_compute; reflexivity|].
  split; [intros inc next; vm_compute; reflexivity|]. split; [eexists _, _, _; reflexivity|].
  split; [apply (text_plain (lit "b") []); [repeat (constructor; [split; [discriminate|]; repeat (constructor; [vm_compute; tauto|]); constructor|]); constructor|]; right; split; [left; reflexivity|]; repeat split; intros r H; discriminate H|].
  split; [intros [|x a] b u E A B; [destruct (A eq_refl)|]; injection E as _ E; symmetry in E; apply app_eq_nil in E; destruct (B (proj2 E))|].
  split; [split; [vm_compute; reflexivity|]|vm_compute; reflexivity]. intros inc st ac next. vm_compute. reflexivity.
Qed.

(** C65, refuted: parse_file(name) without options does not look at the name, since options made without arguments
    ask for HOCON; a value set in such a document of a JSON file makes it something else than JSON. *)
Theorem json_file_edit_refuted : exists d e, listed (lit "d/x.json") = Some (quoted "{'a':1}") /\
  document_of_file listed (lit "d/x.json") no_options = Ok d /\ document_set d (lit "b") (lit "2") = Ok e /\
  document_text e = quoted "{'a':1, b : 2}" /\ parse_document JSON (document_text e) = Throw EParse.
Proof. eexists _, _. split; [vm_compute; reflexivity|]. do 3 (split; [vm_compute; reflexivity|]). vm_compute. reflexivity. Qed.
Print Assumptions json_file_edit_refuted.

(** C65, refuted: whether missing files are allowed plays no role.  A missing file is an empty document, or an error if
    its syntax is JSON. *)
Theorem missing_document_refuted : forall files name o s, asks_for o (Some name) s -> files name = None ->
  match s with
  | CONF => exists d, document_of_file files name o = Ok d /\ document_text d = [] /\
              forall path p, new_path path = Ok p -> Edit_Model.has_path (d_root d) path = Ok false
  | JSON => document_of_file files name o = Throw EParse
  end.
Proof. exact missing_document. Qed.
Print Assumptions missing_document_refuted.
Example missing_document_ex :
  let refuse := ParseOptions None None false None in
  asks_for refuse (Some (lit "none.conf")) CONF /\ listed (lit "none.conf") = None /\ is_ok (document_of_file listed (lit "none.conf") refuse) = true /\
  asks_for default_options (Some (lit "none.json")) JSON /\ listed (lit "none.json") = None /\ document_of_file listed (lit "none.json") default_options = Throw EParse.
Proof.
  split; [apply asks_conf; [reflexivity|]; intros stem H; injection H as H; apply (f_equal (@rev ascii)) in H; rewrite rev_app_distr in H; discriminate H|].
  split; [vm_compute; reflexivity|]. split; [vm_compute; reflexivity|]. split; [apply (asks_json _ _ (lit "none")); reflexivity|]. split; vm_compute; reflexivity.
Qed.

(** C66.  An includer asks itself and its fallbacks in order, and puts the object of each over those of the later
    ones. *)
Theorem includers_in_order : forall i dir name next v next',
  include_with i dir name next = Ok (v, next') <-> contribute dir name (map by_name (order i)) next v next'.
Proof. exact include_order. Qed.
Print Assumptions includers_in_order.

(** C66.  An appended includer is asked last, unless it is asked already; a prepended one first.  No exception is
    thrown.  For includers that have not been through the parser (see below). *)
Theorem appended_asked_last_partial : forall c i fresh, proxy_free c ->
  exists r fresh', append_includer (Some c) i fresh = Ok (r, fresh') /\
    (~ In (number i) (members c) -> order r = order c ++ order i) /\ (In (number i) (members c) -> order r = order c).
Proof. exact append_order. Qed.
Print Assumptions appended_asked_last_partial.
Theorem prepended_asked_first_partial : forall c i fresh, proxy_free i -> ~ In (number c) (members i) ->
  exists r fresh', prepend_includer (Some c) i fresh = Ok (r, fresh') /\ order r = order i ++ order c.
Proof. exact prepend_order. Qed.
Print Assumptions prepended_asked_first_partial.

(** C66.  The parser adds the default includer at the end, once, however often options are passed on. *)
Theorem default_includer_last_partial : forall own zero c fresh, proxy_free c -> ~ In zero (members c) ->
  exists r fresh', fixup_includer (Own zero own None) (Some c) fresh = Ok (r, fresh') /\ order r = order c ++ [own] /\
    exists r' fresh'', fixup_includer (Own zero own None) (Some r) fresh' = Ok (r', fresh'') /\ order r' = order r.
Proof. exact fixup_order. Qed.
Print Assumptions default_includer_last_partial.

Definition answers (k : string) (z : Z) : asked := fun _ name next => Ok (VObj true false [(lit k, VScalar (SInt z (lit "0"))); (lit "name", VScalar (SStr name true))], next).
Definition says (k : string) (z : Z) : behaviour := Behaviour (answers k z) (Some (answers k z)).
Definition names_only (k : string) (z : Z) : behaviour := Behaviour (answers k z) None.
Example includers_ex :
  let first := Own 1 (says "a" 1) None in let second := Own 2 (says "b" 2) None in let default := Own 0 (says "a" 3) None in
  exists r1 r2 r3 v, append_includer None second 5 = Ok (second, 5%nat) /\ prepend_includer (Some second) first 5 = Ok (r1, 6%nat) /\ proxy_free r1 /\ ~ In 0%nat (members r1) /\
    append_includer (Some r1) second 6 = Ok (r2, 6%nat) /\ order r2 = order r1 /\
    fixup_includer default (Some r2) 6 = Ok (r3, 9%nat) /\ order r3 = [says "a" 1; says "b" 2; says "a" 3] /\
    include_with r3 [] (lit "n") 0 = Ok (v, 0%nat) /\ get [lit "a"] v = Some (VScalar (SInt 1 (lit "0"))) /\ get [lit "b"] v = Some (VScalar (SInt 2 (lit "0"))).
Proof.
  eexists _, _, _, _. split; [reflexivity|]. split; [vm_compute; reflexivity|]. split; [exact I|]. split; [intros [H|[H|[]]]; discriminate H|].
  split; [vm_compute; reflexivity|]. split; [reflexivity|]. split; [vm_compute; reflexivity|]. split; [reflexivity|]. split; [vm_compute; reflexivity|]. split; vm_compute; reflexivity.
Qed.

(** C66, refuted for options that have been through the parser, such as those of an include context: what is appended
    to them is never asked, and prepending their includer to others forgets the others. *)
Theorem appended_asked_last_refuted : forall own zero c fresh, exists r fresh', fixup_includer (Own zero own None) c fresh = Ok (r, fresh') /\
  (forall i f, append_includer (Some r) i f = Ok (r, f)) /\ forall other f, prepend_includer (Some other) r f = Ok (r, f) \/ number other = number r.
Proof. exact full_alone. Qed.
Print Assumptions appended_asked_last_refuted.

(** C66.  include file(...) asks all includers too, in the same order, if all of them can include files.  The parser
    asks a proxy in front of them. *)
Theorem files_asked_in_order_partial : forall default n i fs, proxy_free i -> map by_file (order i) = map Some fs ->
  exists g, include_file_of default (Proxy n i) = Some g /\
    forall dir name next v next', g dir name next = Ok (v, next') <-> contribute dir name fs next v next'.
Proof. exact files_asked. Qed.
Print Assumptions files_asked_in_order_partial.

(** C66, refuted for files: an includer that includes by name only hides all those after it, also those that can
    include files.  If it is the first, only the default is asked. *)
Theorem files_asked_in_order_refuted : forall default n i fs more, proxy_free i -> map by_file (order i) = map Some fs ++ None :: more ->
  exists g, include_file_of default (Proxy n i) = Some g /\
    forall dir name next v next', g dir name next = Ok (v, next') <-> contribute dir name (match fs with [] => [default] | _ => fs end) next v next'.
Proof. exact files_hidden. Qed.
Print Assumptions files_asked_in_order_refuted.

Example files_asked_ex :
  let can := Own 1 (says "a" 1) (Some (Own 2 (says "b" 2) (Some (Own 0 (says "a" 3) None)))) in
  let cannot := Own 1 (says "a" 1) (Some (Own 2 (names_only "b" 2) (Some (Own 0 (says "c" 3) None)))) in
  let default := answers "c" 3 in
  proxy_free can /\ map by_file (order can) = map Some [answers "a" 1; answers "b" 2; answers "a" 3] /\
  proxy_free cannot /\ map by_file (order cannot) = map Some [answers "a" 1] ++ None :: [Some default] /\
  (exists g v, include_file_of default (Proxy 5 can) = Some g /\ g [] (lit "n") 0%nat = Ok (v, 0%nat) /\
     get [lit "a"] v = Some (VScalar (SInt 1 (lit "0"))) /\ get [lit "b"] v = Some (VScalar (SInt 2 (lit "0")))) /\
  (exists g v, include_file_of default (Proxy 5 cannot) = Some g /\ g [] (lit "n") 0%nat = Ok (v, 0%nat) /\ get [lit "a"] v <> None /\ get [lit "c"] v = None).
Proof.
  split; [exact I|]. split; [reflexivity|]. split; [exact I|]. split; [reflexivity|].
  split; eexists _, _; (split; [reflexivity|]); (split; [vm_compute; reflexivity|]); (split; [vm_compute; (reflexivity || discriminate)|vm_compute; reflexivity]).
Qed.
