(** Property C64: [include file("f")] against [include "f"]. *)
From Verif Require Import Base Util_Model Num_Model Path_Model Token_Model PathParser_Model Doc_Model Edit_Model Value_Model Value_Spec
  ConfigParser_Model ConfigParser_Spec Resolve_Model Include_Model Include_Spec Include_Lemmas4 Include_Props2.

(** C64.  Without an includer of its own, [include file("f")] contributes what [include "f"] does, if that has no
    substitutions in it; if that is an exception then so is this.
    Missing (false, see below): files with substitutions. *)
Theorem include_file_is_include_partial : forall files environment depth n d context name next,
  let included := run_includer files environment (S depth) (parse_parseable files environment (S depth) n d) None context in
  match included KHeuristic name next with Ok (v, _) => is_resolved v = true | _ => True end ->
  included KFile name next = included KHeuristic name next.
Proof. exact file_is_plain. Qed.
Print Assumptions include_file_is_include_partial.
Example include_file_is_include_ex : let files := disk [("f.conf", "y = {z = 1}, y = {w = [2]}, y.z = 3")]%string in
  exists v, parse_string files [] 20 3 (quoted "x = 2, include file('f.conf'), w = 5") default_options 0 = Ok (v, 0%nat) /\
    parse_string files [] 20 3 (quoted "x = 2, include 'f.conf', w = 5") default_options 0 = Ok (v, 0%nat) /\ get [lit "y"; lit "z"] v = Some (number 3 "3").
Proof. eexists. split; [vm_compute; reflexivity|]. split; vm_compute; reflexivity. Qed.

(** C64 and C34, refuted.  The file is resolved on its own.  So [z] is the [w] of the file, not the one of the
    document, which is defined later.  And [y] is the [x] of the environment, if it has one, although the document
    defines [x]; only if neither the file nor the environment has one, it is the [x] of the document.  *)
Theorem include_file_is_include_refuted : let files := disk [("f.conf", "y = ${x}, z = ${w}, w = 1")]%string in
  let env := [(lit "x", lit "e")] in
  let result env text := '(v, _) <- parse_string files env 20 3 (quoted text) default_options 0 ;; resolve_config false true env 20 v in
  exists v1 v2 v3, result env "x = 2, include 'f.conf', w = 5"%string = Ok (Some v1) /\ get [lit "y"] v1 = Some (number 2 "2") /\ get [lit "z"] v1 = Some (number 5 "5") /\
    result env "x = 2, include file('f.conf'), w = 5"%string = Ok (Some v2) /\ get [lit "y"] v2 = Some (VScalar (SStr (lit "e") true)) /\ get [lit "z"] v2 = Some (number 1 "1") /\
    result [] "x = 2, include file('f.conf'), w = 5"%string = Ok (Some v3) /\ get [lit "y"] v3 = Some (number 2 "2") /\ get [lit "z"] v3 = Some (number 1 "1").
Proof. do 3 eexists. do 8 (split; [vm_compute; reflexivity|]). vm_compute. reflexivity. Qed.
Print Assumptions include_file_is_include_refuted.
