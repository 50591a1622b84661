(** Program options. *)
From Verif Require Import Base BaseLemmas Util_Model Path_Model Token_Model Value_Model Value_Spec Config_Model Config_Spec Config_Lemmas2 Concat_Model
  ProgOpts_Model ProgOpts_Spec.

Lemma option_text_spec : forall v, plain v ->
  (is_list v || is_object v = false /\ option_text v = Some (transform_to_string v)) \/ (is_list v || is_object v = true /\ option_text v = None).
Proof.
  intros v P. inversion P as [s E|l Q E|i m N Q E]; [left|right; split; reflexivity|right; split; reflexivity]. split; [reflexivity|].
  destruct s as [|b|z t|z t|d t|s q]; try reflexivity; destruct b; reflexivity.
Qed.

Lemma list_values_spec : forall l, Forall plain l -> list_values l = match all_texts l with Some ts => Ok ts | None => Throw EUnknownOption end.
Proof.
  intros l F. induction F as [|v l P _ IH]; [reflexivity|]. cbn [list_values all_texts].
  destruct (option_text_spec v P) as [[-> ->]|[-> ->]]; [|reflexivity]. rewrite IH. destruct (all_texts l); reflexivity.
Qed.

Lemma values_spec : forall v, plain v -> leaf v ->
  match v with VList l => list_values l | _ => Ok [transform_to_string v] end = match option_values v with Some ts => Ok ts | None => Throw EUnknownOption end.
Proof.
  intros v P [L1 L2]. inversion P as [s E|l Q E|i m N Q E]; subst v.
  - destruct (option_text_spec _ P) as [[_ E]|[E _]]; [|discriminate]. cbn [option_values]. rewrite E. reflexivity.
  - apply list_values_spec, Q.
  - discriminate.
Qed.

Definition is_wanted (registered : str -> bool) (allow : bool) (pv : path * value) : bool :=
  negb allow || registered (render_path (fst pv)).
Definition is_option (registered : str -> bool) (allow : bool) (pv : path * value) : bool :=
  is_wanted registered allow pv && match option_values (snd pv) with Some (_ :: _) => true | _ => false end.
Definition the_values (w : value) : list str := match option_values w with Some ts => ts | None => [] end.

Lemma entry_options_ok : forall registered allow ps, Forall (fun pv => plain (snd pv) /\ leaf (snd pv)) ps ->
  Forall (fun pv => is_wanted registered allow pv = true -> option_values (snd pv) <> None) ps ->
  entry_options registered allow (map (fun pv => (render_path (fst pv), snd pv)) ps) =
  Ok (map (fun pv => (render_path (fst pv), the_values (snd pv))) (List.filter (is_option registered allow) ps)).
Proof.
  intros registered allow ps F W. induction F as [|[p v] ps [P L] _ IH]; [reflexivity|]. inversion W as [|? ? W1 W2]; subst. specialize (IH W2).
  cbn [map entry_options fst snd List.filter]. unfold is_option at 1. unfold is_wanted in *. cbn [fst snd] in *.
  replace (allow && negb (registered (render_path p))) with (negb (negb allow || registered (render_path p))) by (destruct allow, (registered (render_path p)); reflexivity).
  destruct (negb allow || registered (render_path p)); cbn [negb andb]; [|exact IH]. rewrite (values_spec v P L), IH.
  specialize (W1 eq_refl). destruct (option_values v) as [[|t ts]|] eqn:E; [reflexivity| |contradiction].
  cbn [bind map fst snd]. unfold the_values at 2. rewrite E. reflexivity.
Qed.

Lemma entry_options_throw : forall registered allow ps, Forall (fun pv => plain (snd pv) /\ leaf (snd pv)) ps ->
  (exists pv, In pv ps /\ is_wanted registered allow pv = true /\ option_values (snd pv) = None) ->
  entry_options registered allow (map (fun pv => (render_path (fst pv), snd pv)) ps) = Throw EUnknownOption.
Proof.
  intros registered allow ps F. induction F as [|[p v] ps [P L] _ IH]; intros [pv [I [W E]]]; [destruct I|].
  cbn [map entry_options fst snd]. unfold is_wanted in *. cbn [fst snd] in *.
  replace (allow && negb (registered (render_path p))) with (negb (negb allow || registered (render_path p))) by (destruct allow, (registered (render_path p)); reflexivity).
  destruct I as [<-|I].
  - cbn [fst snd] in *. rewrite W. cbn [negb]. rewrite (values_spec v P L), E. reflexivity.
  - rewrite IH by eauto. destruct (negb allow || registered (render_path p)); [|reflexivity]. cbn [negb]. rewrite (values_spec v P L).
    destruct (option_values v) as [ts|]; reflexivity.
Qed.

Lemma wanted_iff : forall registered allow p v, is_wanted registered allow (p, v) = true <-> (allow = true -> registered (render_path p) = true).
Proof. intros registered allow p v. unfold is_wanted. cbn [fst]. destruct allow, (registered (render_path p)); cbn; intuition congruence. Qed.

Lemma NoDup_map_filter : forall (A B : Type) (f : A -> B) (k : A -> bool) l, NoDup (map f l) -> NoDup (map f (List.filter k l)).
Proof.
  intros A B f k l. induction l as [|x l IH]; intro N; [exact N|]. inversion N as [|? ? Q1 Q2]; subst. cbn [List.filter].
  destruct (k x); [|auto]. cbn. constructor; [|auto]. intro I. apply Q1. apply in_map_iff in I. destruct I as [y [E I]]. apply filter_In in I. apply in_map_iff. exists y. tauto.
Qed.

Lemma plain_sub : forall p v w, plain v -> get p v = Some w -> plain w.
Proof.
  intro p. induction p as [|k p IH]; intros v w P G; cbn [get] in G; [injection G as <-; exact P|].
  destruct v as [s|l|r i m|n q o x|l|l|l]; try discriminate. destruct (find_key k m) as [u|] eqn:E; [|discriminate].
  inversion P as [|? ?|? ? N Q]; subst. apply (IH u); [|exact G]. clear -E Q. induction m as [|[k' u'] m IHm]; [discriminate|].
  inversion Q as [|? ? Q1 Q2]; subst. cbn [find_key] in E. destruct (str_eqb k k'); [injection E as <-; exact Q1|auto].
Qed.

Lemma parse_hocon_ok : forall registered allow cfg, plain cfg ->
  (forall p w, wanted registered allow cfg p w -> option_values w <> None) ->
  exists ps, parse_hocon registered allow cfg = Ok (map (fun pv => (render_path (fst pv), snd pv)) ps) /\
    NoDup (map fst ps) /\
    (forall p ts, In (p, ts) ps <-> ts <> [] /\ exists w, wanted registered allow cfg p w /\ option_values w = Some ts).
Proof.
  intros registered allow cfg P W. destruct (entry_set_spec cfg P) as [es [E [N I]]].
  exists (map (fun pv => (fst pv, the_values (snd pv))) (List.filter (is_option registered allow) es)). split; [|split].
  - unfold parse_hocon. rewrite E. cbn [bind]. rewrite entry_options_ok; [rewrite map_map; reflexivity| |].
    + apply Forall_forall. intros [p w] Q. apply I in Q. destruct Q as [_ [G L]]. cbn [snd]. split; [apply (plain_sub p cfg w P G)|exact L].
    + apply Forall_forall. intros [p w] Q H. apply I in Q. pose proof (proj1 (wanted_iff registered allow p w) H). apply (W p w). unfold wanted. tauto.
  - rewrite map_map. cbn [fst]. apply NoDup_map_filter, N.
  - intros p ts. rewrite in_map_iff. split.
    + intros [[p' w] [Q H]]. cbn [fst snd] in Q. injection Q as Qp Qt; subst p' ts. apply filter_In in H. destruct H as [H1 H2]. apply I in H1.
      unfold is_option in H2. apply andb_true_iff in H2. destruct H2 as [H2 H3]. pose proof (proj1 (wanted_iff registered allow p w) H2) as H4. cbn [snd] in H3. unfold the_values.
      destruct (option_values w) as [[|t ts]|] eqn:V; try discriminate. split; [discriminate|]. exists w. unfold wanted. tauto.
    + intros [T [w [[H1 [H2 [H3 H4]]] V]]]. exists (p, w). cbn [fst snd]. unfold the_values. rewrite V. split; [reflexivity|]. apply filter_In. split; [apply I; tauto|].
      unfold is_option. apply andb_true_iff. split; [exact (proj2 (wanted_iff registered allow p w) H4)|]. cbn [snd]. rewrite V. destruct ts; [contradiction|reflexivity].
Qed.

Lemma parse_hocon_throw : forall registered allow cfg p w, plain cfg -> wanted registered allow cfg p w -> option_values w = None ->
  parse_hocon registered allow cfg = Throw EUnknownOption.
Proof.
  intros registered allow cfg p w P [H1 [H2 [H3 H4]]] V. destruct (entry_set_spec cfg P) as [es [E [N I]]]. unfold parse_hocon. rewrite E. cbn [bind].
  apply entry_options_throw.
  - apply Forall_forall. intros [p' w'] Q. apply I in Q. destruct Q as [_ [G L]]. cbn [snd]. split; [apply (plain_sub p' cfg w' P G)|exact L].
  - exists (p, w). split; [apply I; tauto|]. split; [apply wanted_iff; exact H4|exact V].
Qed.
