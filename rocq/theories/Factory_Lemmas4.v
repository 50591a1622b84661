(** The witnesses. *)
From Verif Require Import Base BaseLemmas Util_Model Num_Model Path_Model PathParser_Model Token_Model Token_Spec Doc_Model Edit_Model Edit_Spec Value_Model Value_Spec Value_Lemmas3 Config_Model Concat_Model ConfigParser_Model
  Render_Model Render_Spec Render_Lemmas6 Factory_Model Factory_Spec Factory_Lemmas Factory_Lemmas2 Factory_Lemmas3.

Lemma rewraps : forall v, plain v -> exists u, unwrapped v = Ok u /\ matching v (from_any_ref u).
Proof. intros v P. destruct (plain_unwraps v P) as [u H]. exists u. split; [exact H|exact (unwrap_wrap v u H)]. Qed.
Lemma rewrapped_equal : forall v u, unwrapped v = Ok u -> well_keyed v -> comparable v ->
  value_eq v (from_any_ref u) = Ok true /\ value_eq (from_any_ref u) v = Ok true.
Proof.
  intros v u H K C. apply contents_equal; [exact K|exact (from_any_ref_keyed v u H K)|]. apply matching_contents; [exact (unwrap_wrap v u H)|exact K|exact C].
Qed.
Lemma rewrapped_reads : forall v u p, unwrapped v = Ok u ->
  let w := from_any_ref u in
  Config_Model.has_path v p = Config_Model.has_path w p /\ has_path_or_null v p = has_path_or_null w p /\ get_is_null v p = get_is_null w p /\
  get_bool v p = get_bool w p /\ get_int v p = get_int w p /\ get_long v p = get_long w p /\ get_double v p = get_double w p /\
  (forall unit, get_duration v p unit = get_duration w p unit) /\ get_any_ref v p = get_any_ref w p /\
  get_bool_list v p = get_bool_list w p /\ get_int_list v p = get_int_list w p /\ get_long_list v p = get_long_list w p /\
  get_double_list v p = get_double_list w p /\ get_string_list v p = get_string_list w p.
Proof. intros v u p H. apply getters_agree. exact (unwrap_wrap v u H). Qed.
Ltac comparing := repeat first [apply c_object | apply c_list | apply c_scalar; cbn; intro; (discriminate || (split; [reflexivity|split; [reflexivity|eexists; split; [vm_compute; reflexivity|split; vm_compute; reflexivity]]])) | apply Forall_cons; cbn [snd] | apply Forall_nil].
Lemma rewrapped_string_bad : exists v u, unwrapped v = Ok u /\ plain v /\ well_keyed v /\ comparable v /\
  get_string v (lit "a") = Ok (lit "007") /\ get_string (from_any_ref u) (lit "a") = Ok (lit "7").
Proof.
  exists (VObj true false [(lit "a", VScalar (SInt 7 (lit "007")))]). eexists. split; [vm_compute; reflexivity|].
  split; [repeat constructor; cbn; intuition discriminate|]. split; [repeat constructor; cbn; intuition discriminate|].
  split; [comparing|]. split; vm_compute; reflexivity.
Qed.

Lemma data_renders : forall o d u includer next, data u -> match u with UList _ | UMap _ => True | _ => False end ->
  json o = true -> origin_comments o = false -> comments o = false ->
  exists text w, render_value o (from_any_ref_notes d) (from_any_ref u) = Ok text /\ parse_config JSON includer text next = Ok (Some w, next) /\
    same_contents (from_any_ref u) w.
Proof.
  intros o d u includer next D A J C1 C2. destruct (rendered_parses o (from_any_ref_notes d) (from_any_ref u) includer next J) as [t [w [R [S [_ P]]]]].
  - rewrite C1, C2. discriminate.
  - exact (data_writable u D).
  - destruct u; try destruct A; exact I.
  - exists t, w. auto.
Qed.
Lemma data_stuck : forall o d u, origin_comments o = true \/ comments o = true -> with_parts u ->
  render_value o (from_any_ref_notes d) (from_any_ref u) = Stuck UNullDeref.
Proof. intros o d u C. apply parts_stuck. destruct C as [-> | ->]; [reflexivity|apply orb_true_r]. Qed.
Lemma quotable_by : forall s, forallb (fun c => (32 <=? byte_of c) && (byte_of c <=? 127)) s = true -> Forall quotable s.
Proof.
  intros s H. rewrite forallb_forall in H. apply Forall_forall. intros c I. specialize (H c I). apply andb_prop in H. destruct H. left. split; apply Z.leb_le; assumption.
Qed.
Lemma data_case : data (UMap [(lit "b", UList [UInt (-3); UBlank]); (lit "a", UString (lit "x""y"))]).
Proof.
  apply d_map; [repeat constructor; cbn; intuition discriminate|]. repeat constructor; cbn [fst snd]; try discriminate; try (apply quotable_by; reflexivity).
Qed.
Lemma double_bad : exists x text w, render_value concise (from_any_ref_notes []) (from_any_ref (UList [UDouble x])) = Ok text /\
  parse_config JSON no_includes text 0 = Ok (Some w, 0%nat) /\ ~ same_contents (from_any_ref (UList [UDouble x])) w /\ SFeqb x x = true.
Proof.
  exists (S754_finite false 4503599627370496 (-75)). eexists. eexists. split; [vm_compute; reflexivity|]. split; [vm_compute; reflexivity|].
  split; [|reflexivity]. intro H. apply contents_equal in H; [|repeat constructor|repeat constructor]. destruct H as [H _]. vm_compute in H. discriminate.
Qed.

Lemma set_means : forall includer v ns, writable v -> one_line_comments ns ->
  exists text n w, (forall root ps, document_with_value CONF root ps v ns = root_set_value root ps (Some n) CONF) /\
    (no_comments ns -> forall root ps, document_with_value JSON root ps v ns = root_set_value root ps (Some n) JSON) /\
    parse_value_text CONF text = Ok (Some n) /\ (forall st ac next, parse_value CONF includer n st ac next = Ok (w, next)) /\ same_contents v w.
Proof.
  intros inc v ns W C. destruct (set_text inc v ns W C) as [text [n [w [R [P [N [J [S M]]]]]]]]. exists (trim text), n, w.
  unfold document_with_value. rewrite R. cbn [bind]. unfold with_value_text. destruct (trim text) as [|c t]; [congruence|].
  split; [intros; rewrite P; reflexivity|]. split; [intros Q root ps; rewrite (J Q); reflexivity|]. auto.
Qed.
Lemma noted : one_line_comments (fun _ => Some ([], [lit "note"])).
Proof. intro at_. eexists. eexists. split; [reflexivity|]. repeat (constructor; [cbn; intuition discriminate|]). constructor. Qed.
Lemma listed : writable (VList [VScalar (SInt 2 []); VScalar (SStr (lit "x") true)]).
Proof. constructor. constructor; [constructor; [reflexivity|auto]|]. constructor; [constructor; apply quotable_by; reflexivity|constructor]. Qed.
Lemma set_case : exists root root', parse_document CONF (lit "{ a : 1 }") = Ok root /\
  document_with_value CONF root (lit "b.c") (VList [VScalar (SInt 2 []); VScalar (SStr (lit "x") true)]) (fun _ => Some ([], [lit "note"])) = Ok root' /\
  render_document root' = lit "{ a : 1, b : { c : [" ++ [nl] ++ lit "      # note" ++ [nl] ++ lit "      2," ++ [nl] ++ lit "      # note" ++ [nl] ++ lit "      ""x""" ++ [nl] ++ lit "  ] } }" /\
  Edit_Model.has_path root' (lit "b.c") = Ok true /\
  one_line_comments (fun _ => Some ([], [lit "note"])) /\ writable (VList [VScalar (SInt 2 []); VScalar (SStr (lit "x") true)]).
Proof.
  eexists. eexists. split; [vm_compute; reflexivity|]. split; [vm_compute; reflexivity|]. split; [vm_compute; reflexivity|]. split; [vm_compute; reflexivity|].
  split; [exact noted|exact listed].
Qed.
Lemma set_comment_bad : exists s root v ns, parse_document JSON s = Ok root /\ writable v /\ one_line_comments ns /\
  document_with_value JSON root (lit "a") v ns = Throw EConfig.
Proof.
  exists (lit "{}"). eexists. exists (VList [VScalar (SInt 2 []); VScalar (SStr (lit "x") true)]), (fun _ => Some ([], [lit "note"])).
  split; [vm_compute; reflexivity|]. split; [exact listed|]. split; [exact noted|]. vm_compute. reflexivity.
Qed.
Lemma set_endless_bad : exists s root v ns, parse_document CONF s = Ok root /\ writable v /\ one_line_comments ns /\
  document_with_value CONF root (lit "c") v ns = Stuck UNoTermination.
Proof.
  exists (lit "a : 1" ++ [nl] ++ lit "b : 2" ++ [nl]). eexists. exists (VList [VScalar (SInt 2 []); VScalar (SStr (lit "x") true)]), (fun _ => Some ([], [])).
  split; [vm_compute; reflexivity|]. split; [exact listed|]. split; [|vm_compute; reflexivity].
  intro at_. eexists. eexists. split; [reflexivity|constructor].
Qed.
