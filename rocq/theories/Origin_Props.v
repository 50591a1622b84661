(** Property C45: merging origins. *)
From Verif Require Import Base Util_Model Origin_Model Origin_Spec Origin_Lemmas.

Definition at_line (n : Z) (cs : list str) : origin :=
  {| description := lit "app.conf"; line_number := n; end_line_number := n; otype := FILE; resource := []; comments := cs |}.
Definition elsewhere (n : Z) (cs : list str) : origin :=
  {| description := lit "lib.conf"; line_number := n; end_line_number := n; otype := FILE; resource := []; comments := cs |}.

(** C45.  Two lines of the same source give a range from the first to the last of them.
    Missing: ranges of several lines, refuted below. *)
Theorem merge_same_source_partial : forall a b m n, description a = description b -> single_source a -> one_line a m -> one_line b n ->
  covers (merge_two a b) (Z.min m n) (Z.max m n) /\ description (merge_two a b) = description a.
Proof. exact merge_same_lines. Qed.
Print Assumptions merge_same_source_partial.

Example merge_same_source_ex : single_source (at_line 7 []) /\ one_line (at_line 7 []) 7 /\ covers (merge_two (at_line 7 []) (at_line 3 [])) 3 7.
Proof. repeat split; [intros t E; discriminate|lia]. Qed.

(** C45.  The end of the merged range is the last of the two ends. *)
Theorem merge_end_line_covers : forall a b, description a = description b ->
  end_line_number (merge_two a b) = Z.max (end_line_number a) (end_line_number b).
Proof. exact merge_end_line. Qed.
Print Assumptions merge_end_line_covers.

(** C45, refuted for ranges: merging lines 1 to 3 with line 5 gives 3 to 5, the beginning is lost.
    Merging three lines of one file already does this. *)
Theorem merge_ranges_refuted :
  exists a b, description a = description b /\ single_source a /\ covers a 1 3 /\ covers b 5 5 /\ covers (merge_two a b) 3 5.
Proof.
  exists (merge_two (at_line 1 []) (at_line 3 [])), (at_line 5 []). repeat split. intros t E. discriminate.
Qed.
Print Assumptions merge_ranges_refuted.

Example merge_three_lines_ex :
  (o <- merge_origins [at_line 1 []; at_line 3 []; at_line 5 []] ;; Ok (line_number o, end_line_number o)) = Ok (3, 5).
Proof. vm_compute. reflexivity. Qed.

(** C45.  Different sources are both named, without line numbers. *)
Theorem merge_different_sources : forall a b, single_source a -> single_source b -> description a <> description b ->
  description (merge_two a b) = lit "merge of " ++ description a ++ lit "," ++ description b /\ covers (merge_two a b) (-1) (-1).
Proof. exact two_kept. Qed.
Print Assumptions merge_different_sources.

(** C45.  Comments of both are kept, the first one's first; equal ones are kept once. *)
Theorem merge_keeps_comments : forall a b, comments a <> comments b -> comments (merge_two a b) = comments a ++ comments b.
Proof. exact merge_comments. Qed.
Print Assumptions merge_keeps_comments.

Theorem merge_keeps_equal_comments : forall a b, comments a = comments b -> comments (merge_two a b) = comments a.
Proof. exact merge_comments_same. Qed.
Print Assumptions merge_keeps_equal_comments.

Example merge_keeps_comments_ex : comments (merge_two (at_line 1 [lit "x"]) (elsewhere 2 [lit "y"; lit "z"])) = [lit "x"; lit "y"; lit "z"].
Proof. vm_compute. reflexivity. Qed.

(** C45.  However many origins are merged, every source is named and, as long as no comment occurs twice,
    the comments are those of all origins in their order. *)
Theorem merge_stack : forall stack o, Forall single_source stack -> merge_origins stack = Ok o ->
  (forall s, In s stack -> occurs (description s) (description o)) /\
  (NoDup (concat (map comments stack)) -> comments o = concat (map comments stack)).
Proof. exact stack_merged. Qed.
Print Assumptions merge_stack.

Theorem merge_stack_defined : forall stack, (stack <> [] <-> exists o, merge_origins stack = Ok o) /\ (stack = [] <-> merge_origins stack = Throw EConfig).
Proof. exact stack_outcome. Qed.
Print Assumptions merge_stack_defined.

Example merge_stack_ex : exists o,
  merge_origins [at_line 1 [lit "a"]; elsewhere 2 [lit "b"]; at_line 3 [lit "c"]; elsewhere 4 []] = Ok o /\
  description o = lit "merge of app.conf,lib.conf,app.conf,lib.conf" /\ comments o = [lit "a"; lit "b"; lit "c"].
Proof. eexists. split; [vm_compute; reflexivity|]. split; reflexivity. Qed.

(** C45.  Comments are added after or before the present ones, and nothing else is lost but the end line. *)
Theorem comments_added_in_order : forall o cs, cs <> comments o ->
  comments (append_comments o cs) = comments o ++ cs /\ comments (prepend_comments o cs) = cs ++ comments o /\
  description (append_comments o cs) = description o /\ description (prepend_comments o cs) = description o /\
  line_number (append_comments o cs) = line_number o /\ line_number (prepend_comments o cs) = line_number o.
Proof. exact comments_added. Qed.
Print Assumptions comments_added_in_order.

(** C45, refuted: adding comments equal to the present ones adds nothing, and adding comments forgets the end line. *)
Theorem add_comments_refuted :
  (exists o cs, cs <> [] /\ comments (append_comments o cs) <> comments o ++ cs) /\
  (exists o cs, end_line_number (append_comments o cs) <> end_line_number o).
Proof.
  split.
  - exists (at_line 1 [lit "x"]), [lit "x"]. split; discriminate.
  - exists (merge_two (at_line 1 []) (at_line 3 [])), [lit "x"]. vm_compute. discriminate.
Qed.
Print Assumptions add_comments_refuted.

(** C45.  Giving an origin a line or other comments changes nothing else of it. *)
Theorem line_and_comments_set : forall o n cs,
  line_number (with_line_number o n) = n /\ end_line_number (with_line_number o n) = n /\
  description (with_line_number o n) = description o /\ otype (with_line_number o n) = otype o /\
  resource (with_line_number o n) = resource o /\ comments (with_line_number o n) = comments o /\
  (cs <> [] -> comments (with_comments o cs) = cs) /\
  line_number (with_comments o cs) = line_number o /\ end_line_number (with_comments o cs) = end_line_number o /\
  description (with_comments o cs) = description o /\ otype (with_comments o cs) = otype o /\
  resource (with_comments o cs) = resource o.
Proof. exact line_comments. Qed.
Print Assumptions line_and_comments_set.

Example line_and_comments_set_ex :
  line_number (with_line_number (at_line 1 [lit "x"]) 7) = 7 /\ comments (with_comments (at_line 1 [lit "x"]) [lit "y"]) = [lit "y"].
Proof. split; reflexivity. Qed.

(** C45, refuted: the comments of an origin cannot be taken away. *)
Theorem comments_cleared_refuted : exists o, comments (with_comments o []) <> [].
Proof. exists (at_line 1 [lit "x"]). vm_compute. discriminate. Qed.
Print Assumptions comments_cleared_refuted.

(** C45.  Three origins of which two neighbours have the same source name that source once.
    Missing: origins of different sources of the same kind with the same line number, refuted below. *)
Theorem merge_names_neighbours_once_partial : forall a b c, single_source a -> single_source b -> single_source c ->
  (description a = description b /\ same_kind a b /\ description b <> description c /\ apart b c \/
   description b = description c /\ same_kind b c /\ description a <> description b /\ apart a b) ->
  exists o, merge_origins [a; b; c] = Ok o /\ description o = lit "merge of " ++ description a ++ lit "," ++ description c.
Proof. exact three_kept. Qed.
Print Assumptions merge_names_neighbours_once_partial.

Example merge_names_neighbours_once_ex :
  (o <- merge_origins [at_line 1 []; at_line 3 []; elsewhere 5 []] ;; Ok (description o)) = Ok (lit "merge of app.conf,lib.conf") /\
  (o <- merge_origins [at_line 1 []; elsewhere 3 []; elsewhere 5 []] ;; Ok (description o)) = Ok (lit "merge of app.conf,lib.conf") /\
  same_kind (elsewhere 3 []) (elsewhere 5 []) /\ apart (at_line 3 []) (elsewhere 5 []).
Proof. repeat split; try (vm_compute; reflexivity). left. split; discriminate. Qed.
(** A line of a file and the same lines of a class path resource. *)
Definition in_resource (n : Z) : origin := {| description := lit "lib.conf"; line_number := n; end_line_number := n; otype := RESOURCE; resource := lit "lib"; comments := [] |}.
Example merge_names_neighbours_once_ex2 : apart (at_line 1 []) (in_resource 1) /\
  (o <- merge_origins [at_line 1 []; in_resource 1; in_resource 5] ;; Ok (description o)) = Ok (lit "merge of app.conf,lib.conf").
Proof. split; [right; split; discriminate|vm_compute; reflexivity]. Qed.

(** C45, refuted: equal line numbers count as similar in different files too. *)
Theorem merge_names_neighbours_once_refuted :
  (o <- merge_origins [at_line 1 []; at_line 3 []; elsewhere 3 []] ;; Ok (description o)) = Ok (lit "merge of app.conf,app.conf,lib.conf").
Proof. vm_compute. reflexivity. Qed.
Print Assumptions merge_names_neighbours_once_refuted.

(** C45.  Origins compare equal exactly when all their parts are equal. *)
Theorem origins_equal : forall a b, origin_eqb a b = true <-> a = b.
Proof. exact eqb_same. Qed.
Print Assumptions origins_equal.

Example origins_equal_ex : origin_eqb (at_line 1 [lit "x"]) (at_line 1 [lit "x"]) = true /\ origin_eqb (at_line 1 [lit "x"]) (at_line 1 [lit "x"; lit "x"]) = false.
Proof. split; vm_compute; reflexivity. Qed.
