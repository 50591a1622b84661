(** C69: what is rendered as HOCON parses back to the same value. *)
From Verif Require Import Base Util_Model Num_Model Path_Model Token_Model Token_Spec PathParser_Model Doc_Model Edit_Model Value_Model Value_Spec Concat_Model ConfigParser_Model Render_Model Render_Spec Render_Props2 RenderConf_Spec RenderConf_Lemmas3.

(** For all options with HOCON output, formatted or concise, with or without comments: the rendered text is a
    HOCON document with the same contents.  Missing from the full statement: objects with an empty key and lists
    at the root that hold objects, see below. *)
Theorem hocon_round_trip_partial : forall o ns v includer next,
  json o = false -> (origin_comments o || comments o = true -> one_line_comments ns) -> writable v -> a_root v ->
  exists text w, render_value o ns v = Ok text /\ same_contents v w /\ parse_config CONF includer text next = Ok (Some w, next).
Proof. exact rendered_hocon_parses. Qed.
Print Assumptions hocon_round_trip_partial.

(** A list at the root renders the objects in it without their braces, and the text is no document; nor is it when
    the key of a field is empty. *)
Definition hocon : options := Options false false false false.
Theorem hocon_round_trip_refuted : forall ns,
  let v := VList [VObj true false [(lit "a", VScalar (SBool true))]] in let u := VObj true false [([], VScalar SNull)] in
  (writable v /\ render_value hocon ns v = Ok (lit "[a=true]") /\ forall r, parse_config CONF no_includes (lit "[a=true]") 0 <> Ok r) /\
  (render_value hocon ns u = Ok (lit "null") /\ forall r, parse_config CONF no_includes (lit "null") 0 <> Ok r).
Proof.
  intro ns. cbv zeta. split; [split; [|split; [reflexivity|intros r H; vm_compute in H; discriminate]]|split; [reflexivity|intros r H; vm_compute in H; discriminate]].
  apply w_list. constructor; [|constructor]. apply w_obj; [repeat constructor; cbn; intuition discriminate|]. constructor; [|constructor]. cbn [fst snd]. split; [discriminate|]. split; [|apply w_bool].
  repeat constructor; vm_compute; discriminate.
Qed.
Print Assumptions hocon_round_trip_refuted.

(** A value that meets the hypotheses: keys and strings that need quotes and such that do not, below a list of
    objects. *)
Definition field (k : string) (s : string) : str * value := (lit k, VScalar (SStr (lit s) true)).
Definition hround : value :=
  VObj true false [(lit "l", round); (lit "o", VObj true false [field "include" "true-ish"; field "a-b" "x-1"; field "-a" "1x"; field "a b" "nullable"]); field "e" ""; (lit "n", VObj true false [])].
Example hocon_round_trip_case : writable hround /\ a_root hround /\ one_line_comments (fun _ => Some (lit "two" ++ [nl] ++ lit "lines", [lit " one"; lit "//"])) /\ a_root (VList [VList [VScalar SNull]; VScalar SNull]).
Proof.
  assert (Q : forall s, forallb (fun c => (32 <=? byte_of c) && (byte_of c <=? 127)) s = true -> Forall quotable s).
  { intros s H. rewrite forallb_forall in H. apply Forall_forall. intros c I. specialize (H c I). left. apply andb_prop in H. destruct H. split; apply Z.leb_le; assumption. }
  split; [|split; [exact I|split; [exact (proj1 (proj2 (proj2 json_round_trip_case)))|repeat constructor]]].
  unfold hround, field. apply w_obj; [repeat constructor; cbn; intuition discriminate|]. repeat (apply Forall_cons || apply Forall_nil); cbn [fst snd]; (split; [discriminate|split; [apply Q; reflexivity|]]).
  - exact (proj1 json_round_trip_case).
  - apply w_obj; [repeat constructor; cbn; intuition discriminate|]. repeat (apply Forall_cons || apply Forall_nil); cbn [fst snd]; (split; [discriminate|split; [apply Q; reflexivity|apply w_string, Q; reflexivity]]).
  - apply w_string. constructor.
  - apply w_obj; constructor.
Qed.
(** The texts themselves. *)
Example hocon_round_trip_text : render_value hocon (fun _ => None) hround =
  Ok (lit "e="""",l=[{""a.\""b\n\\""{""9""=1099511627776,""10""=-5},b=[]},""\n" ++ [ch 127] ++ lit " // no comment ${x}"",true,null,{},007],n{},o{""-a""=""1x"",""a b""=""nullable"",a-b=x-1,""include""=""true-ish""}").
Proof. vm_compute. reflexivity. Qed.
Example hocon_round_trip_parsed : exists t w, render_value (Options true true true false) (fun _ => Some (lit "two" ++ [nl] ++ lit "lines", [lit " one"; lit "//"])) hround = Ok t /\
  parse_config CONF no_includes t 0 = Ok (Some w, 0%nat) /\ (300 < List.length t)%nat.
Proof. eexists. eexists. split; [vm_compute; reflexivity|]. split; [vm_compute; reflexivity|]. apply Nat.ltb_lt; reflexivity. Qed.
