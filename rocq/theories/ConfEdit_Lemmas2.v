(** What the nodes of a HOCON document without includes, substitutions and += mean. *)
From Verif Require Import Base BaseLemmas Util_Model Num_Model Path_Model Path_Spec Path_Lemmas Token_Model PathParser_Model Doc_Model Doc_Spec Doc_Lemmas Edit_Model Edit_Spec Edit_Lemmas Value_Model Value_Spec Value_Lemmas Value_Lemmas2 Concat_Model Concat_Spec Concat_Lemmas ConfigParser_Model ConfigParser_Spec ConfigParser_Lemmas ConfEdit_Spec ConfEdit_Lemmas.

(** ** Parsing never gives numbers back *)
Notation parse0 := (parse_value CONF no_includes).
Definition grows {A} (next : nat) (r : result (A * nat)) : Prop := match r with Ok (_, next') => (next <= next')%nat | _ => True end.
Definition growing (n : node) : Prop := forall s ac next, grows next (parse0 n s ac next).
Definition fields_growing (n : node) : Prop := match n with NField fcs => Forall growing fcs | _ => True end.

Lemma grows_bind : forall A B next (r : result (A * nat)) (k : A * nat -> result (B * nat)), grows next r ->
  (forall a next', (next <= next')%nat -> r = Ok (a, next') -> grows next' (k (a, next'))) -> grows next (bind r k).
Proof.
  intros A B next r k H G. destruct r as [[a n']|e|u]; cbn [bind]; try exact I. cbn in H. specialize (G a n' H eq_refl).
  destruct (k (a, n')) as [[b n2]|e|u]; try exact I. cbn in *. lia.
Qed.

Lemma token_grows : forall t next, grows next (token_value t next).
Proof.
  intros t next. destruct t; cbn [token_value]; try exact I; try apply le_n.
  destruct (parse_path_expression true CONF expression LEnd) as [[p ts]|e|u]; cbn; try exact I. lia.
Qed.
Lemma field_value_grows : forall fcs, Forall growing fcs -> forall s ac next, grows next (parse_field_value parse0 fcs s ac next).
Proof.
  intros fcs F. induction F as [|c fcs Hc F IH]; intros s ac next; [exact I|]. cbn [parse_field_value]. destruct (is_value_node c); [apply Hc|apply IH].
Qed.
Lemma values_grow : forall cs, Forall growing cs -> forall s ac next, grows next (parse_values parse0 cs s ac next).
Proof.
  intros cs F. induction F as [|c cs Hc F IH]; intros s ac next; [apply le_n|]. cbn [parse_values]. destruct (is_value_node c); [|apply IH].
  apply grows_bind; [apply Hc|]. intros v n1 _ _. apply grows_bind; [apply IH|]. intros vs n2 _ _. apply le_n.
Qed.
Lemma field_grows : forall fcs, Forall growing fcs -> forall s ac next, grows next (parse_field parse0 fcs s ac next) /\
  (is_plus_equals fcs = true -> forall x next', parse_field parse0 fcs s ac next = Ok (x, next') -> (next < next')%nat).
Proof.
  intros fcs F s ac next. unfold parse_field. destruct (field_path fcs) as [[p ts]|e|u]; cbn [bind]; [|split; [exact I|discriminate]..].
  match goal with |- context [if ?b then Throw EParse else _] => destruct b end; [split; [exact I|discriminate]|].
  pose proof (field_value_grows fcs F (s ++ [p]) (if is_plus_equals fcs then ac + 1 else ac) next) as G.
  destruct (parse_field_value parse0 fcs (s ++ [p]) _ next) as [[v n1]|e|u]; cbn [bind]; [|split; [exact I|discriminate]..]. cbn in G.
  destruct (is_plus_equals fcs); [|split; [exact G|discriminate]].
  unfold appended. destruct (full_current_path (s ++ [p])) as [fp|e|u]; cbn [bind]; [|split; [exact I|discriminate]..].
  destruct (concatenate _) as [[w|]|e|u]; cbn [bind]; try (split; [exact I|discriminate]). split; [cbn; lia|]. intros _ x next' H. injection H as <- <-. lia.
Qed.
Lemma object_grows : forall cs, Forall growing cs -> Forall fields_growing cs -> forall F s ac next, grows next (parse_object_nodes CONF no_includes parse0 cs F s ac next).
Proof.
  intros cs G. induction G as [|c cs Hc G IH]; intros H F s ac next; [apply le_n|]. inversion H as [|? ? H1 H2]; subst.
  destruct c; try (cbn [parse_object_nodes]; apply (IH H2)).
  - cbn [parse_object_nodes]. apply grows_bind; [apply (field_grows children H1)|]. intros [p v] n1 _ _.
    destruct (add_field CONF F p v); cbn [bind]; try exact I. apply (IH H2).
  - cbn [parse_object_nodes is_json]. unfold parse_include, no_includes.
    destruct kind; cbn [bind]; try exact I; (destruct (include_name children); cbn [bind]; exact I).
Qed.
Lemma all_grow : forall n, growing n /\ fields_growing n.
Proof.
  intro n. induction n as [t|t|p|t|cs F|cs k F|cs F|cs F|cs F] using node_induction; (split; [|try exact I]); try (intros s ac next; exact I).
  - intros s ac next. apply token_grows.
  - cbn [fields_growing]. apply Forall_forall. rewrite Forall_forall in F. intros c Hc. apply F, Hc.
  - intros s ac next. cbn [parse_value]. apply grows_bind; [apply values_grow; exact (Forall_impl _ (fun a H => proj1 H) F)|]. intros vs n1 _ _.
    destruct (concatenate vs) as [[w|]|e|u]; cbn [bind]; try exact I. apply le_n.
  - intros s ac next. cbn [parse_value]. apply grows_bind; [apply values_grow; exact (Forall_impl _ (fun a H => proj1 H) F)|]. intros vs n1 _ _. apply le_n.
  - intros s ac next. cbn [parse_value]. apply object_grows; [exact (Forall_impl _ (fun a H => proj1 H) F)|exact (Forall_impl _ (fun a H => proj2 H) F)].
Qed.

(** ** Without a number taken nothing depends on the surroundings *)
Definition steady_node (n : node) : Prop := forall s ac next v, parse0 n s ac next = Ok (v, next) -> plain v /\ stands_for n v.
Definition steady_fields (n : node) : Prop := match n with NField fcs => Forall steady_node fcs | _ => True end.

(** What the fields of an object say *)
Inductive says : list node -> path -> value -> Prop :=
| says_it : forall fcs p ts n v, field_path fcs = Ok (p, ts) -> is_plus_equals fcs = false -> field_value fcs = Ok n -> plain v -> stands_for n v -> says fcs p v.
Inductive runs : list node -> fields -> fields -> Prop :=
| runs_nil : forall F, runs [] F F
| runs_skip : forall c cs F F', is_field c = false -> no_include c -> runs cs F F' -> runs (c :: cs) F F'
| runs_field : forall fcs cs p v F F1 F', says fcs p v -> add_field CONF F p v = Ok F1 -> runs cs F1 F' -> runs (NField fcs :: cs) F F'.

Lemma says_parses : forall fcs p v, says fcs p v -> forall inc s ac next, parse_field (parse_value CONF inc) fcs s ac next = Ok (p, v, next).
Proof.
  intros fcs p v [fcs' p' ts n v' H1 H2 H3 _ H4] inc s ac next. unfold parse_field. rewrite H1. cbn [bind]. rewrite H2. cbn [andb].
  rewrite (field_value_first _ _ _ _ H3), H4. reflexivity.
Qed.
Lemma runs_parses : forall cs F F', runs cs F F' -> forall inc s ac next, parse_object_nodes CONF inc (parse_value CONF inc) cs F s ac next = Ok (new_object F', next).
Proof.
  intros cs F F' H. induction H as [F|c cs F F' N I H IH|fcs cs p v F F1 F' S A H IH]; intros inc s ac next; [reflexivity| |].
  - destruct c; try discriminate N; try contradiction I; cbn [parse_object_nodes]; apply IH.
  - cbn [parse_object_nodes]. rewrite (says_parses _ _ _ S). cbn [bind]. rewrite A. cbn [bind]. apply IH.
Qed.
Lemma runs_stands : forall cs F, runs cs [] F -> stands_for (NObject cs) (new_object F).
Proof. intros cs F H inc st ac next. cbn [parse_value]. apply (runs_parses _ _ _ H). Qed.

Lemma values_steady : forall cs, Forall steady_node cs -> forall s ac next vs, parse_values parse0 cs s ac next = Ok (vs, next) ->
  Forall plain vs /\ forall inc s ac next, parse_values (parse_value CONF inc) cs s ac next = Ok (vs, next).
Proof.
  intros cs F. induction F as [|c cs Hc F IH]; intros s ac next vs H; cbn [parse_values] in H |- *.
  - injection H as <-. split; [constructor|reflexivity].
  - destruct (is_value_node c); [|apply (IH _ _ _ _ H)]. inv_bind H. destruct a as [v n1]. inv_bind Hk. destruct a as [ws n2]. injection Hk0 as <- ->.
    pose proof (proj1 (all_grow c) s ac next) as G1. rewrite Hb in G1. cbn in G1.
    assert (G2 : grows n1 (parse_values parse0 cs s ac n1)) by (apply values_grow; apply Forall_forall; intros x _; apply all_grow).
    rewrite Hb0 in G2. cbn in G2. assert (n1 = next) by lia. subst n1.
    destruct (Hc _ _ _ _ Hb) as [P S]. destruct (IH _ _ _ _ Hb0) as [P' S']. split; [constructor; assumption|].
    intros inc s' ac' next'. rewrite S. cbn [bind]. rewrite S'. reflexivity.
Qed.

Lemma field_steady : forall fcs, Forall steady_node fcs -> forall s ac next p v, parse_field parse0 fcs s ac next = Ok (p, v, next) -> says fcs p v.
Proof.
  intros fcs F s ac next p v H. assert (P : is_plus_equals fcs = false).
  { destruct (is_plus_equals fcs) eqn:E; [|reflexivity]. exfalso. assert (L : (next < next)%nat); [|lia].
    eapply (field_grows fcs); [apply Forall_forall; intros x _; apply all_grow|exact E|exact H]. }
  unfold parse_field in H. destruct (field_path fcs) as [[p' ts]|e|u] eqn:Ep; try discriminate. cbn [bind] in H. rewrite P in H. cbn [andb] in H.
  inv_bind H. destruct a as [w n1]. cbn [bind] in Hk. injection Hk as -> -> ->.
  assert (V : exists n, field_value fcs = Ok n /\ In n fcs /\ parse0 n (s ++ [p]) ac next = Ok (v, next)).
  { clear -Hb. induction fcs as [|c fcs IH]; [discriminate|]. cbn [parse_field_value field_value] in *. destruct (is_value_node c).
    - exists c. repeat split; [left; reflexivity|exact Hb].
    - destruct (IH Hb) as [n [A [B C]]]. exists n. repeat split; [exact A|right; exact B|exact C]. }
  destruct V as [n [V1 [V2 V3]]]. rewrite Forall_forall in F. destruct (F n V2 _ _ _ _ V3) as [Pv Sv]. econstructor; eassumption.
Qed.

Lemma object_steady : forall cs, Forall steady_node cs -> Forall steady_fields cs -> forall F s ac next v,
  parse_object_nodes CONF no_includes parse0 cs F s ac next = Ok (v, next) -> exists F', v = new_object F' /\ runs cs F F'.
Proof.
  intros cs G. induction G as [|c cs Hc G IH]; intros H F s ac next v E; cbn [parse_object_nodes] in E.
  - injection E as <-. exists F. split; [reflexivity|constructor].
  - inversion H as [|? ? H1 H2]; subst. destruct c; try (destruct (IH H2 _ _ _ _ _ E) as [F' [E1 E2]]; exists F'; split; [exact E1|]; apply runs_skip; [reflexivity|exact I|exact E2]).
    + inv_bind E. destruct a as [[p w] n1]. inv_bind Hk. rename a into F1.
      assert (A1 : Forall growing children) by (apply Forall_forall; intros x _; apply all_grow).
      pose proof (proj1 (field_grows children A1 s ac next)) as G1. rewrite Hb in G1. cbn in G1.
      assert (G2 : grows n1 (parse_object_nodes CONF no_includes parse0 cs F1 s ac n1)) by (apply object_grows; apply Forall_forall; intros x _; apply all_grow).
      rewrite Hk0 in G2. cbn in G2. assert (n1 = next) by lia. subst n1. destruct (IH H2 _ _ _ _ _ Hk0) as [F' [E1 E2]].
      exists F'. split; [exact E1|]. eapply runs_field; [|exact Hb0|exact E2]. eapply field_steady; [exact H1|exact Hb].
    + exfalso. cbn [is_json] in E. inv_bind E. unfold parse_include, no_includes in Hb.
      destruct kind; cbn [bind] in Hb; try discriminate; (destruct (include_name children); cbn [bind] in Hb; discriminate).
Qed.

Lemma runs_plain : forall cs F F', runs cs F F' -> plain_fields F -> plain_fields F'.
Proof.
  intros cs F F' H. induction H as [F|c cs F F' N I H IH|fcs cs p v F F1 F' S A H IH]; intro P; [exact P|exact (IH P)|].
  apply IH. destruct S as [fcs p ts n v _ _ _ Pv _]. destruct (add_field_over F p v P Pv) as [F2 [E [P2 _]]]; [eapply add_field_ok; exact A|].
  rewrite A in E. injection E as <-. exact P2.
Qed.

Lemma all_steady : forall n, steady_node n /\ steady_fields n.
Proof.
  intro n. induction n as [t|t|p|t|cs F|cs k F|cs F|cs F|cs F] using node_induction; (split; [|try exact I]); try (intros s ac next v H; discriminate H).
  - intros s ac next v H. cbn [parse_value] in H. destruct t; cbn [token_value] in H; try discriminate.
    all: try (injection H as <-; split; [constructor|intros inc s' ac' next'; reflexivity]; fail).
    exfalso. inv_bind H. destruct a as [p ts]. injection Hk as _ Hk. lia.
  - cbn [steady_fields]. apply Forall_forall. rewrite Forall_forall in F. intros c Hc. apply F, Hc.
  - intros s ac next v H. cbn [parse_value] in H. inv_bind H. destruct a as [vs n1]. inv_bind Hk. destruct a as [w|]; [|discriminate]. injection Hk0 as -> ->.
    destruct (values_steady cs (Forall_impl _ (fun a H => proj1 H) F) _ _ _ _ Hb) as [P S]. split.
    + pose proof (concat_outcome vs P) as C. rewrite Hb0 in C. inversion C as [|u|ps L Q|u ps N L Q|u ps N O Q|]; subst.
      * inversion P; assumption.
      * constructor.
      * constructor. apply Forall_forall. intros x Hx. change (In x (elements (u :: ps))) in Hx. apply in_flat_map in Hx. destruct Hx as [y [Hy Hx]]. rewrite Forall_forall in P. specialize (P y Hy).
        destruct y; try contradiction Hx. inversion P as [|? Q'|]; subst. rewrite Forall_forall in Q'. apply Q', Hx.
      * change (bind (stack_of (rev (objects (u :: ps)))) (fun o => Ok (Some o)) = Ok (Some v)) in H0.
        destruct (stack_of (rev (objects (u :: ps)))) as [o|e|x] eqn:E; try discriminate. cbn [bind] in *.
        assert (Po : Forall plain (rev (objects (u :: ps)))).
        { apply Forall_rev. apply Forall_forall. intros x Hx. apply filter_In in Hx. rewrite Forall_forall in P. apply P, Hx. }
        injection H0 as ->.
        destruct (rev (objects (u :: ps))) as [|y l]; cbn [stack_of] in E.
        { injection E as <-. repeat constructor. }
        inversion Po as [|? ? Py Pl]; subst. destruct (with_fallbacks_plain l y Py Pl) as [z [Ez Pz]]. rewrite E in Ez. injection Ez as ->. exact Pz.
    + intros inc s' ac' next'. cbn [parse_value]. rewrite S. cbn [bind]. rewrite Hb0. reflexivity.
  - intros s ac next v H. cbn [parse_value] in H. inv_bind H. destruct a as [vs n1]. injection Hk as <- ->.
    destruct (values_steady cs (Forall_impl _ (fun a H => proj1 H) F) _ _ _ _ Hb) as [P S]. split; [constructor; exact P|].
    intros inc s' ac' next'. cbn [parse_value]. rewrite S. reflexivity.
  - intros s ac next v H. cbn [parse_value] in H.
    destruct (object_steady cs (Forall_impl _ (fun a H => proj1 H) F) (Forall_impl _ (fun a H => proj2 H) F) _ _ _ _ _ H) as [F' [-> R]].
    split; [|exact (runs_stands _ _ R)]. apply (obj_plain F'). apply (runs_plain _ _ _ R). split; constructor.
Qed.

Lemma stands_plain : forall n v, stands_for n v -> plain v.
Proof. intros n v H. exact (proj1 (proj1 (all_steady n) _ _ _ _ (H no_includes [] 0 0%nat))). Qed.
Lemma stands_runs : forall cs v, stands_for (NObject cs) v -> exists F, v = new_object F /\ runs cs [] F.
Proof.
  intros cs v H. specialize (H no_includes [] 0 0%nat). cbn [parse_value] in H.
  apply (object_steady cs) in H; [exact H|apply Forall_forall; intros x _; apply all_steady..].
Qed.
