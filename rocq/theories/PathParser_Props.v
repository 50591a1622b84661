(** Property theorems of path expressions: C01, C02, C04. *)
From Verif Require Import Base BaseLemmas Util_Model Num_Model Path_Model Token_Model Token_Spec Token_Lemmas2
  PathParser_Model PathParser_Spec PathParser_Lemmas PathParser_Lemmas2 PathParser_Lemmas3.

(** C01.  Every non-empty path whose keys consist of characters that quoting can carry renders to a
    text that new_path reads back as the same path.  Missing from the English claim: when an
    unquoted run contains a digit the tokenizer may instead run into the undefined float cast (see
    [path_round_trip_refuted]); this cannot happen if no unquoted key has a digit or if the first
    key is quoted or starts like a word. *)
Theorem path_round_trip_partial : forall p, p <> [] -> Forall (Forall quotable) p ->
  (new_path (render_path p) = Ok p \/ new_path (render_path p) = Stuck UFloatCast) /\
  (no_plain_digit p \/ word_key (hd [] p) -> new_path (render_path p) = Ok p).
Proof. exact round_trip. Qed.
Print Assumptions path_round_trip_partial.

Example path_round_trip_ex :
  let p := [lit "a-b"; lit "x.y"; []; lit "12"; [ch 34; ch 92]] in
  p <> [] /\ Forall (Forall quotable) p /\ word_key (hd [] p) /\
  render_path p = lit "a-b." ++ ch 34 :: lit "x.y" ++ ch 34 :: lit "." ++ [ch 34; ch 34] ++ lit ".12." ++
    [ch 34; ch 92; ch 34; ch 92; ch 92; ch 34] /\
  new_path (render_path p) = Ok p.
Proof.
  cbv zeta. split; [discriminate|]. split.
  { repeat first [apply Forall_nil | apply Forall_cons | (apply quotable_b_spec; reflexivity)]. }
  split; [|split; vm_compute; reflexivity].
  right. cbn. split; [left; reflexivity|]. repeat split; intros r H; discriminate.
Qed.

(** C01 as stated is false of the code: the path with the key [1e300]. *)
Theorem path_round_trip_refuted : exists p, p <> [] /\ Forall (Forall quotable) p /\
  new_path (render_path p) = Stuck UFloatCast.
Proof.
  exists [lit "1e300"]. split; [discriminate|]. split; [repeat first [apply Forall_nil | apply Forall_cons | (apply quotable_b_spec; reflexivity)]|].
  exact round_trip_digits.
Qed.
Print Assumptions path_round_trip_refuted.

(** C02.  Whenever the shortcut is taken on a string without a newline, the full parser accepts the
    string with the same result, so new_path is the full parser.  Missing: strings that begin or end
    with a newline, see [fast_parser_refuted]. *)
Theorem fast_parser_agrees_partial : forall s, ~ In nl s ->
  (forall p, speculative_fast_parse_path s = Ok p -> p <> [] -> full_parse_path s = Ok p) /\
  new_path s = full_parse_path s.
Proof. intros s H. split; [intros p; exact (fast_agrees s p H)|exact (new_path_full s H)]. Qed.
Print Assumptions fast_parser_agrees_partial.

Example fast_parser_agrees_ex :
  speculative_fast_parse_path (lit " foo-bar.b_z  ") = Ok [lit "foo-bar"; lit "b_z"] /\
  full_parse_path (lit " foo-bar.b_z  ") = Ok [lit "foo-bar"; lit "b_z"] /\
  speculative_fast_parse_path (lit "a b") = Ok [] /\ full_parse_path (lit "a b") = Ok [lit "a b"].
Proof. repeat split; vm_compute; reflexivity. Qed.

(** C02 as stated is false of the code: a leading newline is trimmed by the shortcut and rejected by
    the full parser. *)
Theorem fast_parser_refuted : exists s p, speculative_fast_parse_path s = Ok p /\ p <> [] /\
  full_parse_path s = Throw EBadPath.
Proof. exists (nl :: lit "a"), [lit "a"]. destruct fast_newline as [H1 H2]. refine (conj H1 (conj _ H2)); discriminate. Qed.
Print Assumptions fast_parser_refuted.

(** C04.  For every byte string: a path is returned only with at least one key, and with no more
    empty keys than the text has quoted empty strings; otherwise bad_path or config_exception is
    raised.  Dotted text over the plain alphabet is rejected with bad_path exactly when one of its
    elements is empty.  Missing: the tokenizer's undefined behaviour on backslashes and digits, named
    exactly ([path_parser_safe_refuted] shows it happens). *)
Theorem empty_elements_rejected_partial : forall s,
  (forall p, new_path s = Ok p -> p <> [] /\ (empty_keys p <= empty_quotes (fst (lex true s)))%nat) /\
  ((exists p, new_path s = Ok p) \/ new_path s = Throw EBadPath \/ new_path s = Throw EConfig \/
   (exists u, new_path s = Stuck u /\
      ((In (ch 92) s /\ (u = UUninit \/ u = UUnspecified)) \/
       ((exists c, In c s /\ isdigit c = true) /\ u = UFloatCast)))) /\
  (forall w1 ps w2, s = w1 ++ dotted ps ++ w2 -> Forall blank w1 -> Forall blank w2 ->
     ps <> [] -> Forall (Forall plain_char) ps ->
     (In [] ps -> new_path s = Throw EBadPath \/ new_path s = Stuck UFloatCast) /\
     (~ In [] ps -> new_path s = Ok ps \/ new_path s = Stuck UFloatCast) /\
     (new_path s = Stuck UFloatCast -> exists p c, In p ps /\ In c p /\ isdigit c = true)).
Proof.
  exact (fun s => conj (new_path_empty_keys s) (conj (new_path_outcomes s)
    (fun w1 ps w2 E H1 H2 H3 H4 => eq_ind_r (fun s => _) (new_path_dotted w1 ps w2 H1 H2 H3 H4) E))).
Qed.
Print Assumptions empty_elements_rejected_partial.

Example empty_elements_rejected_ex :
  new_path [] = Throw EBadPath /\ new_path (lit ".a") = Throw EBadPath /\
  new_path (lit "a..b") = Throw EBadPath /\ new_path (lit "a.") = Throw EBadPath /\
  new_path (lit "a." ++ [ch 34; ch 34]) = Ok [lit "a"; []] /\
  dotted [lit "a"; []; lit "b"] = lit "a..b" /\ dotted [[]] = [] /\ dotted [[]; lit "a"] = lit ".a".
Proof. repeat split; vm_compute; reflexivity. Qed.

(** The last part of C04 is false of the code: an escape that sscanf cannot read leaves a variable
    uninitialised. *)
Theorem path_parser_safe_refuted : exists s, new_path s = Stuck UUninit.
Proof. exists (ch 34 :: ch 92 :: lit "uzzzz" ++ [ch 34]). vm_compute. reflexivity. Qed.
Print Assumptions path_parser_safe_refuted.
