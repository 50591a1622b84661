(** A text accepted as JSON is accepted as HOCON: the values of the nodes are the same. *)
From Verif Require Import Base BaseLemmas Util_Model Num_Model Path_Model Token_Model PathParser_Model Doc_Model Edit_Model Value_Model Concat_Model ConfigParser_Model ConfigParser_Lemmas Json_Lemmas Json_Lemmas2.

Lemma document_same : forall s ns, parse_document JSON s = Ok ns -> parse_document CONF s = Ok ns /\ forallb clean ns = true.
Proof. intros s ns H. eapply (text_same _ _ _ (fun ns => forallb clean ns = true)); [|exact H]. exact root_same. Qed.
Lemma value_text_same : forall s v, parse_value_text JSON s = Ok v -> parse_value_text CONF s = Ok v.
Proof.
  intros s v H. eapply (text_same _ _ _ (fun _ => True)); [|exact H]. intros e ts a T E. destruct (single_same _ _ _ T E). auto.
Qed.

Section Values.
Variables incj incc : include_kind -> str -> nat -> result (value * nat).
Notation inc f := (match f with JSON => incj | CONF => incc end).
Notation parse f := (ConfigParser_Model.parse_value f (inc f)).

Definition agrees (n : node) : Prop := clean n = true -> forall st ac next r, parse JSON n st ac next = Ok r -> parse CONF n st ac next = Ok r.
Definition deep (n : node) : Prop := agrees n /\ match n with NField fcs => Forall agrees fcs | _ => True end.

Lemma field_value_agrees : forall fcs, Forall agrees fcs -> forallb clean fcs = true -> forall st ac next r,
  parse_field_value (parse JSON) fcs st ac next = Ok r -> parse_field_value (parse CONF) fcs st ac next = Ok r.
Proof.
  intros fcs F. induction F as [|c fcs Hc F IH]; intros C st ac next r H; [exact H|]. cbn [forallb] in C. apply andb_true_iff in C. destruct C as [C1 C2].
  cbn [parse_field_value] in *. destruct (is_value_node c); [exact (Hc C1 _ _ _ _ H)|exact (IH C2 _ _ _ _ H)].
Qed.
Lemma parse_field_agrees : forall fcs, Forall agrees fcs -> forallb clean fcs = true -> forall st ac next r,
  ConfigParser_Model.parse_field (parse JSON) fcs st ac next = Ok r -> ConfigParser_Model.parse_field (parse CONF) fcs st ac next = Ok r.
Proof.
  intros fcs F C st ac next r H. unfold ConfigParser_Model.parse_field in *. step H as [p q] Hp. rewrite Hp. cbn [bind].
  destruct (_ && _); [discriminate|]. step H as [v n1] Hv. rewrite (field_value_agrees _ F C _ _ _ _ Hv). exact H.
Qed.
Lemma add_field_agrees : forall m p v m', add_field JSON m p v = Ok m' -> add_field CONF m p v = Ok m'.
Proof. intros m [|k [|k2 p]] v m' H; cbn [add_field] in *; try discriminate. destruct (find_key k m); [discriminate|exact H]. Qed.
Lemma object_nodes_agrees : forall cs, Forall deep cs -> forallb clean cs = true -> forall m st ac next r,
  parse_object_nodes JSON incj (parse JSON) cs m st ac next = Ok r -> parse_object_nodes CONF incc (parse CONF) cs m st ac next = Ok r.
Proof.
  intros cs F. induction F as [|c cs Hc F IH]; intros C m st ac next r H; [exact H|]. cbn [forallb] in C. apply andb_true_iff in C. destruct C as [C1 C2].
  destruct c; try discriminate C1; cbn [parse_object_nodes] in *; try exact (IH C2 _ _ _ _ _ H).
  step H as [[p v] n1] Hf. step H as m1 Ha. rewrite (parse_field_agrees _ (proj2 Hc) C1 _ _ _ _ Hf). cbn [bind]. rewrite (add_field_agrees _ _ _ _ Ha). exact (IH C2 _ _ _ _ _ H).
Qed.
Lemma values_agrees : forall cs, Forall deep cs -> forallb clean cs = true -> forall st ac next r,
  parse_values (parse JSON) cs st ac next = Ok r -> parse_values (parse CONF) cs st ac next = Ok r.
Proof.
  intros cs F. induction F as [|c cs Hc F IH]; intros C st ac next r H; [exact H|]. cbn [forallb] in C. apply andb_true_iff in C. destruct C as [C1 C2].
  cbn [parse_values] in *. destruct (is_value_node c); [|exact (IH C2 _ _ _ _ H)].
  step H as [v n1] Hv. step H as [vs n2] Hvs. rewrite (proj1 Hc C1 _ _ _ _ Hv). cbn [bind]. rewrite (IH C2 _ _ _ _ Hvs). exact H.
Qed.
Lemma deep_agrees : forall cs, Forall deep cs -> Forall agrees cs.
Proof. intros cs F. eapply Forall_impl; [|exact F]. intros c [H _]. exact H. Qed.
Lemma all_agree : forall n, deep n.
Proof.
  intro n. induction n as [t|t|p|t|cs F|cs k F|cs F|cs F|cs F] using node_induction; (split; [intros C st ac next r H|]); try exact I; try exact H; try exact (deep_agrees _ F).
  - discriminate H.
  - cbn [ConfigParser_Model.parse_value] in *. step H as [vs n1] Hv. rewrite (values_agrees _ F C _ _ _ _ Hv). exact H.
  - exact (object_nodes_agrees _ F C _ _ _ _ _ H).
Qed.
Lemma root_nodes_agrees : forall ns, forallb clean ns = true -> forall found next r,
  parse_root_nodes JSON incj found ns next = Ok r -> parse_root_nodes CONF incc found ns next = Ok r.
Proof.
  intro ns. induction ns as [|n ns IH]; intros C found next r H; [exact H|]. cbn [forallb] in C. apply andb_true_iff in C. destruct C as [C1 C2].
  cbn [parse_root_nodes] in *.
  assert (G : (if is_complex n then '(v, next') <- parse JSON n [] 0 next ;; parse_root_nodes JSON incj (Some v) ns next' else parse_root_nodes JSON incj found ns next) = Ok r ->
    (if is_complex n then '(v, next') <- parse CONF n [] 0 next ;; parse_root_nodes CONF incc (Some v) ns next' else parse_root_nodes CONF incc found ns next) = Ok r).
  { intro Q. destruct (is_complex n); [|exact (IH C2 _ _ _ Q)]. step Q as [v n1] Hv. rewrite (proj1 (all_agree n) C1 _ _ _ _ Hv). exact (IH C2 _ _ _ Q). }
  destruct n; try exact (G H). destruct t; try exact (G H). destruct found; [exact H|exact (IH C2 _ _ _ H)].
Qed.
Lemma config_same : forall s next r, parse_config JSON incj s next = Ok r -> parse_config CONF incc s next = Ok r.
Proof.
  intros s next r H. unfold parse_config in *. step H as ns Hd. destruct (document_same _ _ Hd) as [D C]. rewrite D. exact (root_nodes_agrees _ C _ _ _ H).
Qed.
End Values.
