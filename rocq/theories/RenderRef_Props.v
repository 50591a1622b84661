(** C70: an unresolved config that is rendered parses back to the same unresolved config. *)
From Verif Require Import Base Util_Model Num_Model Path_Model Token_Model Token_Spec PathParser_Model PathParser_Spec Doc_Model Edit_Model Value_Model Value_Spec Concat_Model ConfigParser_Model Resolve_Model Render_Model Render_Spec Render_Props2 RenderRef_Spec RenderRef_Lemmas6.

(** For all options, formatted or concise, with or without comments, with HOCON or JSON output: the rendered text is a
    HOCON document with the same contents, with the same references, concatenations and merges in the same places.
    Missing from the full statement: empty keys, lists at the root that hold objects, and unresolved merges when
    [merges_fit] does not hold. *)
Theorem unresolved_round_trip_partial : forall o ns merges v includer next,
  (origin_comments o || comments o = true -> one_line_comments ns) -> (merges = true -> merges_fit o ns) -> pending merges v -> a_pending_root v ->
  exists text w next', render_value o ns v = Ok text /\ alike v w /\ parse_config CONF includer text next = Ok (Some w, next').
Proof. exact pending_rendered. Qed.
Print Assumptions unresolved_round_trip_partial.

(** The quotes of strings are not kept, and when lists are joined strings made of blanks only count if they have
    quotes: what is read back may resolve although the config does not, or not resolve although the config does.  The
    comments for the layers of a merge put a description of several lines after one "#".  When a layer of a merge is a
    merge itself, the key is written only once for its layers. *)
Definition hocon : options := Options false false false false.
Definition read (t : string) : result (option value) := '(v, _) <- parse_config CONF no_includes (lit t) 0 ;; Ok v.
Definition again (o : options) (ns : notes) (v : result (option value)) : result (option value) :=
  v' <- v ;; match v' with Some v => text <- render_value o ns v ;; '(w, _) <- parse_config CONF no_includes text 0 ;; Ok w | None => Ok None end.
Definition resolved (v : result (option value)) : result (option value) := v' <- v ;; match v' with Some v => resolve_config false false [] 30 v | None => Ok None end.
Theorem unresolved_round_trip_refuted : let none := fun _ => None in let two_lines := fun _ => Some (lit "d" ++ [nl] ++ lit "e", []) in
  ((exists v, resolved (read "a=${b} ${c},b=[1],c=[2]") = Ok (Some v)) /\ resolved (again hocon none (read "a=${b} ${c},b=[1],c=[2]")) = Throw EConfig) /\
  (resolved (read "a=${b}""x"",b=[1]") = Throw EConfig /\ exists v, resolved (again hocon none (read "a=${b}""x"",b=[1]")) = Ok (Some v)) /\
  (exists v, read "a={b=1},a=${c}" = Ok (Some v)) /\ again (Options false true true false) two_lines (read "a={b=1},a=${c}") = Throw EParse /\
  (exists v, read "a={b=${d}},a={b={y=2},b=${c}}" = Ok (Some v)) /\ again hocon none (read "a={b=${d}},a={b={y=2},b=${c}}") = Throw EParse.
Proof. cbv zeta. repeat split; try (eexists; vm_compute; reflexivity); vm_compute; reflexivity. Qed.
Print Assumptions unresolved_round_trip_refuted.

(** A config that meets the hypotheses: a merge of three layers, references with keys that need quotes, and a
    concatenation of a list, a reference and an object. *)
Definition ref (p : list string) (q : bool) : value := VRef 7 (map lit p) q 0.
Definition obj (m : list (string * value)) : value := VObj false false (map (fun kv => (lit (fst kv), snd kv)) m).
Definition unready : value := obj
  [("l"%string, VList [ref ["x"%string; "a.b"%string; ""%string] true; VScalar (SStr (lit "w") false); VConcat [VScalar (SStr (lit "$1") false); ref ["u"%string] false; ref ["1 2"%string] true]]);
   ("m"%string, VMergeObj [obj [("a b"%string, ref ["y"%string] false)]; ref ["c"%string] true; obj [("k"%string, VScalar (SBool true))]]);
   ("c"%string, VConcat [VList [VScalar SNull]; ref ["z"%string] false; obj [("n"%string, VMerge [ref ["q"%string] false; VScalar (SBool false)])]])].
Definition described : notes := fun _ => Some (lit "d, line 3", [lit " one"; lit "//"]).
Example unresolved_round_trip_case : pending true unready /\ a_pending_root unready /\ one_line_comments described /\
  merges_fit (Options true true true false) described /\ merges_fit (Options true false false true) described.
Proof.
  assert (Q : forall s, forallb (fun c => (32 <=? byte_of c) && (byte_of c <=? 127)) s = true -> Forall quotable s).
  { intros s H. rewrite forallb_forall in H. apply Forall_forall. intros c I. specialize (H c I). left. apply andb_prop in H. destruct H. split; apply Z.leb_le; assumption. }
  assert (R : forall p q, map lit p <> [] -> forallb (fun s => forallb (fun c => (32 <=? byte_of c) && (byte_of c <=? 127)) s) (map lit p) = true -> word_key (hd [] (map lit p)) -> pending true (ref p q)).
  { intros p q N H W. apply p_ref; [exact N| |exact W]. rewrite forallb_forall in H. apply Forall_forall. intros s I. apply Q, H, I. }
  assert (L : forall c, isalpha c = true -> word_key [c]).
  { intros c A. right. split; [left; exact A|]. repeat split; intros r; discriminate. }
  assert (O : forall r i m, NoDup (map fst m) -> Forall (fun kv => fst kv <> [] /\ forallb (fun c => (32 <=? byte_of c) && (byte_of c <=? 127)) (fst kv) = true /\ pending true (snd kv)) m -> pending true (VObj r i m)).
  { intros r i m D F. apply p_obj; [exact D|]. eapply Forall_impl; [|exact F]. intros kv [H1 [H2 H3]]. auto. }
  split; [|split; [exact I|split; [|split]]].
  - unfold unready, obj. cbn [map fst snd].
    apply O; [repeat constructor; cbn; intuition discriminate|]. repeat apply Forall_cons; try apply Forall_nil; cbn [fst snd]; (split; [discriminate|split; [reflexivity|]]).
    + apply p_list; [repeat constructor|]. repeat apply Forall_cons; try apply Forall_nil.
      * apply R; [discriminate|reflexivity|apply L; reflexivity].
      * apply p_scalar. apply w_string, Q. reflexivity.
      * apply p_concat; [cbn; lia|cbn; auto|repeat constructor|repeat constructor|]. repeat apply Forall_cons; try apply Forall_nil; [apply p_scalar, w_string, Q; reflexivity|apply R; [discriminate|reflexivity|apply L; reflexivity]|].
        apply R; [discriminate|reflexivity|]. left. intros [_ F]. inversion F as [|? ? _ F2]; subst. inversion F2 as [|? ? X _]; subst. destruct X as [X|[X|X]]; discriminate X.
    + match goal with |- pending true (VMergeObj ?vs) => change (VMergeObj vs) with (merge_of vs) end. apply p_merge; [reflexivity|cbn; auto|repeat constructor|]. repeat apply Forall_cons; try apply Forall_nil.
      * apply O; [repeat constructor; cbn; tauto|]. constructor; [|constructor]. split; [discriminate|]. split; [reflexivity|]. apply R; [discriminate|reflexivity|apply L; reflexivity].
      * apply R; [discriminate|reflexivity|apply L; reflexivity].
      * apply O; [repeat constructor; cbn; tauto|]. constructor; [|constructor]. split; [discriminate|]. split; [reflexivity|]. apply p_scalar, w_bool.
    + apply p_concat; [cbn; lia|cbn; auto|repeat constructor|repeat constructor|]. repeat apply Forall_cons; try apply Forall_nil.
      * apply p_list; repeat constructor.
      * apply R; [discriminate|reflexivity|apply L; reflexivity].
      * apply O; [repeat constructor; cbn; tauto|]. constructor; [|constructor]. split; [discriminate|]. split; [reflexivity|].
        match goal with |- pending true ?x => match eval hnf in x with VMerge ?vs => change x with (merge_of vs) end end. apply p_merge; [reflexivity|cbn; auto|repeat constructor|]. repeat apply Forall_cons; try apply Forall_nil; [apply R; [discriminate|reflexivity|apply L; reflexivity]|apply p_scalar, w_bool].
  - intro at_. eexists. eexists. split; [reflexivity|]. repeat constructor; intro H; cbn in H; repeat (destruct H as [H|H]; [discriminate H|]); destruct H.
  - split; [reflexivity|]. intros _. split; [reflexivity|]. intros at_ d cs E. injection E as <- _. intro H; cbn in H; repeat (destruct H as [H|H]; [discriminate H|]); destruct H.
  - split; discriminate.
Qed.
(** The texts themselves. *)
Example unresolved_round_trip_text : render_value hocon (fun _ => None) unready =
  Ok (lit "c=[null]${z}{""n"":false,""n"":${q}},l=[${?x.""a.b"".""""},w,""$1""${u}${?""1 2""}],""m"":{k=true},""m"":${?c},""m"":{""a b""=${y}}").
Proof. vm_compute. reflexivity. Qed.
Example unresolved_round_trip_parsed : exists t w n, render_value (Options true true true false) described unready = Ok t /\ parse_config CONF no_includes t 0 = Ok (Some w, n) /\ n = 7%nat /\ (300 < List.length t)%nat.
Proof. eexists. eexists. eexists. split; [vm_compute; reflexivity|]. split; [vm_compute; reflexivity|]. split; [reflexivity|]. apply Nat.ltb_lt; reflexivity. Qed.
