(** C23: what is rendered as JSON parses back to the same value. *)
From Verif Require Import Base Util_Model Num_Model Path_Model Token_Model Token_Spec PathParser_Model Doc_Model Edit_Model Value_Model Value_Spec Concat_Model ConfigParser_Model Render_Model Render_Spec Render_Lemmas6.

(** For all options with JSON output, formatted or concise, with or without comments: the rendered text is a
    HOCON document with the same contents, and a JSON document with the same contents if it has no comments.
    Missing from the full statement: objects with an empty key, see below.  A value that is neither an object nor
    a list is no document. *)
Theorem json_round_trip_partial : forall o ns v includer next,
  json o = true -> (origin_comments o || comments o = true -> one_line_comments ns) -> writable v -> a_document v ->
  exists text w, render_value o ns v = Ok text /\ same_contents v w /\ parse_config CONF includer text next = Ok (Some w, next) /\
    (origin_comments o = false -> comments o = false -> parse_config JSON includer text next = Ok (Some w, next)).
Proof. exact rendered_parses. Qed.
Print Assumptions json_round_trip_partial.

(** The key of a field is left out when it is empty, in every mode: the text is no longer a document. *)
Theorem json_round_trip_refuted : forall ns, let v := VObj true false [([], VScalar SNull)] in
  render_value concise ns v = Ok (lit "{null}") /\ forall r, parse_config JSON no_includes (lit "{null}") 0 <> Ok r.
Proof. intro ns. split; [reflexivity|]. intros r H. vm_compute in H. discriminate. Qed.
Print Assumptions json_round_trip_refuted.

(** A value that meets the hypotheses, with every kind of scalar, and comments. *)
Definition round : value :=
  VList [VObj true false [(lit "b", VList []); (lit "a.""b" ++ [nl; ch 92], VObj true false [(lit "10", VScalar (SInt (-5) [])); (lit "9", VScalar (SLong (2 ^ 40) (lit "1099511627776")))])];
         VScalar (SStr ([nl; ch 127] ++ lit " // no comment ${x}") false); VScalar (SBool true); VScalar SNull; VObj true false []; VScalar (SInt 7 (lit "007"))].
Example json_round_trip_case : writable round /\ a_document round /\ one_line_comments (fun _ => Some (lit "two" ++ [nl] ++ lit "lines", [lit " one"; lit "//"])) /\
  json default_options = true /\ comments default_options = true /\ json concise = true /\ comments concise = false /\ origin_comments concise = false.
Proof.
  assert (Q : forall s, forallb (fun c => ((32 <=? byte_of c) && (byte_of c <=? 127)) || existsb (Nat.eqb (nat_of_ascii c)) [8; 9; 10; 12; 13]%nat) s = true -> Forall quotable s).
  { intros s H. rewrite forallb_forall in H. apply Forall_forall. intros c I. specialize (H c I). unfold quotable. apply orb_prop in H. destruct H as [H|H].
    - left. apply andb_prop in H. destruct H. split; apply Z.leb_le; assumption.
    - right. apply existsb_exists in H. destruct H as [x [X E]]. apply Nat.eqb_eq in E. rewrite E. exact X. }
  split; [|split; [exact I|split; [|repeat split]]].
  - unfold round. apply w_list. repeat (apply Forall_cons || apply Forall_nil).
    + apply w_obj; [repeat constructor; cbn; intuition discriminate|]. repeat (apply Forall_cons || apply Forall_nil); cbn [fst snd].
      * split; [discriminate|]. split; [apply Q; reflexivity|]. apply w_list. constructor.
      * split; [discriminate|]. split; [apply Q; reflexivity|]. apply w_obj; [repeat constructor; cbn; intuition discriminate|]. repeat (apply Forall_cons || apply Forall_nil); cbn [fst snd].
        -- split; [discriminate|]. split; [apply Q; reflexivity|]. apply w_int; [reflexivity|left; reflexivity].
        -- split; [discriminate|]. split; [apply Q; reflexivity|]. apply w_long; [reflexivity|right]. exists [], (lit "1099511627776"). repeat split; auto. discriminate.
    + apply w_string. apply Q. reflexivity.
    + apply w_bool.
    + apply w_null.
    + apply w_obj; constructor.
    + apply w_int; [reflexivity|right]. exists [], (lit "007"). repeat split; auto. discriminate.
  - intro at_. eexists. eexists. split; [reflexivity|]. repeat (constructor; [cbn; intuition discriminate|]). constructor.
Qed.
(** The texts themselves, and what the parser makes of one. *)
Example json_round_trip_text : render_value concise (fun _ => None) round =
  Ok (lit "[{""a.\""b\n\\"":{""9"":1099511627776,""10"":-5},""b"":[]},""\n" ++ [ch 127] ++ lit " // no comment ${x}"",true,null,{},007]").
Proof. vm_compute. reflexivity. Qed.
Example json_round_trip_parsed : exists t w, render_value default_options (fun _ => Some (lit "two" ++ [nl] ++ lit "lines", [lit " one"; lit "//"])) round = Ok t /\
  parse_config CONF no_includes t 0 = Ok (Some w, 0%nat) /\ (forall r, parse_config JSON no_includes t 0 <> Ok r) /\ (300 < List.length t)%nat.
Proof. eexists. eexists. split; [vm_compute; reflexivity|]. split; [vm_compute; reflexivity|]. split; [|apply Nat.ltb_lt; reflexivity]. intros r H. vm_compute in H. discriminate. Qed.
