(** A text accepted as JSON is accepted as HOCON: the document parser gives the same nodes. *)
From Verif Require Import Base BaseLemmas Util_Model Num_Model Path_Model Token_Model Token_Spec Token_Lemmas Token_Lemmas2 PathParser_Model Doc_Model Doc_Spec Doc_Lemmas Doc_Lemmas2 Doc_Lemmas3 Json_Lemmas.

Lemma bind_ext : forall A B (r : result A) (f g : A -> result B), (forall a, f a = g a) -> bind r f = bind r g.
Proof. intros A B [a|x|u] f g H; [apply H|reflexivity|reflexivity]. Qed.
Lemma exists_last_or_nil : forall A (l : list A), l = [] \/ exists l' z, l = l' ++ [z].
Proof. intros A l. induction l as [|l z _] using rev_ind; eauto. Qed.

Tactic Notation "step" hyp(H) "as" simple_intropattern(pa) ident(Ha) := apply bind_ok in H; destruct H as [pa [Ha H]].

(** ** Streams *)

(** Unquoted whitespace stands before a simple value. *)
Definition follow (ts : list token) : Prop :=
  forall a x b, ts = a ++ TUnquoted x :: b -> is_unquoted_whitespace (TUnquoted x) = true ->
  b = [] \/ exists y b', b = y :: b' /\ is_simple_value y = true.
Definition tidy (ts : list token) : Prop := no_double_blank ts /\ follow ts.

Lemma tidy_suffix : forall a b, tidy (a ++ b) -> tidy b.
Proof.
  intros a b [H1 H2]. split; [exact (ndb_suffix _ _ H1)|]. intros c x d -> W. apply (H2 (a ++ c) x d); [rewrite app_assoc; reflexivity|exact W].
Qed.
Lemma tidy_prefix : forall a b, tidy (a ++ b) -> tidy a.
Proof.
  intros a b [H1 H2]. split; [exact (ndb_prefix _ _ H1)|]. intros c x d -> W. destruct d as [|y d]; [left; reflexivity|]. right.
  destruct (H2 c x ((y :: d) ++ b)) as [K|[z [b' [K V]]]]; [rewrite <- app_assoc; reflexivity|exact W|discriminate|]. injection K as <- _. eauto.
Qed.
Lemma tidy_tl : forall t ts, tidy (t :: ts) -> tidy ts.
Proof. intros t ts. apply (tidy_suffix [t]). Qed.

Lemma pulled_solid : forall x, pulled (TUnquoted x) -> is_unquoted_whitespace (TUnquoted x) = false.
Proof. intros [|c x] [N F]; [congruence|]. inversion F as [|? ? W _]; subst. cbn. rewrite W. reflexivity. Qed.
Lemma classified_follow : forall ls ts, classified ls ts -> follow ts.
Proof.
  intros ls ts H. induction H as [ls|ls t ts P C IH|ls w t ts N B P C IH]; intros a x b E W.
  - destruct a; discriminate.
  - destruct a as [|y a]; injection E as E1 E2.
    + subst t. rewrite (pulled_solid _ P) in W. discriminate.
    + exact (IH _ _ _ E2 W).
  - destruct a as [|y a]; injection E as E1 E2.
    + right. exists t, ts. split; [exact (eq_sym E2)|]. destruct (is_simple_value t); [reflexivity|]. rewrite andb_false_r in E1. discriminate.
    + destruct a as [|z a]; injection E2 as E2 E3.
      * subst t. rewrite (pulled_solid _ P) in W. discriminate.
      * exact (IH _ _ _ E3 W).
Qed.

Definition took (ts r : list token) : Prop := exists pre, ts = pre ++ r /\ Forall allowed pre.
Lemma took_refl : forall ts, took ts ts.
Proof. intro ts. exists []. split; [reflexivity|constructor]. Qed.
Lemma took_trans : forall a b c, took a b -> took b c -> took a c.
Proof. intros a b c [p [-> P]] [q [-> Q]]. exists (p ++ q). rewrite app_assoc. split; [reflexivity|apply Forall_app; auto]. Qed.
Lemma took_tidy : forall a b, took a b -> tidy a -> tidy b.
Proof. intros a b [p [-> _]]. apply tidy_suffix. Qed.
Lemma took_length : forall a b, took a b -> (List.length b <= List.length a)%nat.
Proof. intros a b [p [-> _]]. rewrite app_length. lia. Qed.
Lemma took_one : forall t ts, allowed t -> took (t :: ts) ts.
Proof. intros t ts A. exists [t]. split; [reflexivity|]. constructor; [exact A|constructor]. Qed.

(** ** Whitespace and comments *)
Definition skipped (t : token) : bool :=
  match t with TIgnored _ | TNewline | TComment _ _ => true | _ => is_unquoted_whitespace t end.
Definition kept_blank (t : token) : node := match t with TComment _ _ => NComment t | _ => NTok t end.

Lemma collect_skip : forall f e t r, json_forbids f t = false -> skipped t = true ->
  collect f e (t :: r) = ('(ns, t', r') <- collect f e r ;; Ok (kept_blank t :: ns, t', r')).
Proof. intros f e t r A S. cbn [collect]. rewrite A. destruct t; cbn in S |- *; try discriminate; try reflexivity. rewrite S. reflexivity. Qed.
Lemma collect_stop : forall f e t r, json_forbids f t = false -> skipped t = false -> collect f e (t :: r) = Ok ([], t, r).
Proof. intros f e t r A S. cbn [collect]. rewrite A. destruct t; cbn in S |- *; try discriminate; try reflexivity. rewrite S. reflexivity. Qed.

Lemma collect_induction : forall e (P : list token -> list node -> token -> list token -> Prop),
  (forall t r, allowed t -> skipped t = false -> P (t :: r) [] t r) ->
  (forall x ts ns t r, allowed x -> skipped x = true -> collect JSON e ts = Ok (ns, t, r) -> P ts ns t r -> P (x :: ts) (kept_blank x :: ns) t r) ->
  forall ts ns t r, collect JSON e ts = Ok (ns, t, r) -> P ts ns t r.
Proof.
  intros e P P1 P2 ts. induction ts as [|x ts IH]; intros ns t r H.
  - cbn in H. destruct e; discriminate.
  - destruct (json_forbids JSON x) eqn:A; [cbn [collect] in H; rewrite A in H; discriminate|].
    destruct (skipped x) eqn:S.
    + rewrite (collect_skip _ _ _ _ A S) in H. inv_bind H. destruct a as [[ns' t'] r']. injection Hk as <- <- <-. apply P2; auto.
    + rewrite (collect_stop _ _ _ _ A S) in H. injection H as <- <- <-. apply P1; auto.
Qed.

Lemma collect_same : forall e ts ns t r, collect JSON e ts = Ok (ns, t, r) -> collect CONF e ts = Ok (ns, t, r).
Proof.
  intro e. apply collect_induction.
  - intros t r A S. apply collect_stop; [reflexivity|exact S].
  - intros x ts ns t r A S _ IH. rewrite collect_skip by (exact S || reflexivity). rewrite IH. reflexivity.
Qed.
Lemma collect_took : forall e ts ns t r, collect JSON e ts = Ok (ns, t, r) ->
  took ts (t :: r) /\ allowed t /\ skipped t = false.
Proof.
  intro e. apply collect_induction.
  - intros t r A S. split; [apply took_refl|auto].
  - intros x ts ns t r A S _ [IH1 IH2]. split; [|exact IH2]. eapply took_trans; [apply took_one, A|exact IH1].
Qed.
Lemma collect_again : forall e ts ns t r, collect JSON e ts = Ok (ns, t, r) -> forall f, collect f e (t :: r) = Ok ([], t, r).
Proof.
  intros e ts ns t r H f. apply collect_took in H. destruct H as [_ [A S]]. apply collect_stop; [|exact S]. destruct f; [reflexivity|exact A].
Qed.
Lemma collect_simple : forall e ts ns t r, collect JSON e ts = Ok (ns, t, r) -> follow ts ->
  forall x ts', ts = x :: ts' -> is_simple_value x = true -> is_simple_value t = true.
Proof.
  intro e. apply (collect_induction e (fun ts ns t r => follow ts -> forall x ts', ts = x :: ts' -> is_simple_value x = true -> is_simple_value t = true)).
  - intros t r A S _ x ts' E V. injection E as -> ->. exact V.
  - intros x ts ns t r A S C IH F y ts' E V. injection E as <- <-.
    destruct x; try discriminate; cbn in S. destruct (F [] text ts eq_refl S) as [->|[y [b [-> Y]]]]; [destruct e; discriminate C|].
    eapply IH; [|reflexivity|exact Y]. intros a z c K. apply (F (TUnquoted text :: a)). rewrite K. reflexivity.
Qed.

(** The token read after whitespace does not begin a value. *)
Definition stops (e : lex_end) (ts : list token) : Prop :=
  exists ns t r, collect JSON e ts = Ok (ns, t, r) /\ is_value_start t = false.

Lemma first_read : forall e ts, stops e ts -> tidy ts -> exists x r, ts = x :: r /\ is_value_start x = false /\ allowed x /\
  (forall w, x = TIgnored w -> stops e r).
Proof.
  intros e ts [ns [t [r [H N]]]] [_ F]. destruct ts as [|x ts]; [cbn in H; destruct e; discriminate|].
  exists x, ts. assert (A : json_forbids JSON x = false).
  { destruct (json_forbids JSON x) eqn:A; [cbn [collect] in H; rewrite A in H; discriminate|reflexivity]. }
  assert (K : is_simple_value x = true -> is_value_start t = true).
  { intro K. assert (Q := collect_simple _ _ _ _ _ H F _ _ eq_refl K). destruct t; try discriminate Q; reflexivity. }
  split; [reflexivity|]. split; [|split; [exact A|]].
  - destruct x; try reflexivity; try (rewrite K in N by reflexivity; discriminate).
    1,2: rewrite (collect_stop _ _ _ _ A) in H by reflexivity; injection H as <- <- <-; discriminate.
  - intros w ->. rewrite (collect_skip _ _ _ _ A eq_refl) in H. inv_bind H. destruct a as [[ns' t'] r']. injection Hk as <- <- <-. exists ns', t', r'. auto.
Qed.

(** ** No includes *)
Fixpoint clean (n : node) : bool :=
  match n with
  | NInclude _ _ => false
  | NField cs | NConcat cs | NArray cs | NObject cs => forallb clean cs
  | _ => true
  end.
Lemma collect_clean : forall e ts ns t r, collect JSON e ts = Ok (ns, t, r) -> forallb clean ns = true.
Proof.
  intro e. apply (collect_induction e (fun ts ns t r => forallb clean ns = true)); [reflexivity|].
  intros x ts ns t r A S _ IH. cbn [forallb]. rewrite IH. destruct x; reflexivity.
Qed.

(** ** Separators *)
Lemma separator_same : forall e ts ns t r, collect JSON e ts = Ok (ns, t, r) -> forall b,
  (t = TComma -> separator_conf b CONF e ts = Ok (ns ++ [NTok TComma], true, r)) /\
  (t <> TComma -> exists b', separator_conf b CONF e ts = Ok (ns, b', t :: r)).
Proof.
  intro e. apply (collect_induction e (fun ts ns t r => forall b,
    (t = TComma -> separator_conf b CONF e ts = Ok (ns ++ [NTok TComma], true, r)) /\
    (t <> TComma -> exists b', separator_conf b CONF e ts = Ok (ns, b', t :: r)))).
  - intros t r A S b. split; [intros ->; reflexivity|]. intro N. exists b. cbn [separator_conf]. change (json_forbids CONF t) with false. cbn iota.
    destruct t; cbn in S |- *; try discriminate; try reflexivity; [congruence|]. rewrite S. reflexivity.
  - intros x ts ns t r A S _ IH b. cbn [separator_conf]. change (json_forbids CONF x) with false. cbn iota.
    destruct x; cbn in S |- *; try discriminate.
    1: destruct (IH true) as [I1 I2]. 2,3,4: destruct (IH b) as [I1 I2].
    all: try rewrite S; split; [intro T; rewrite (I1 T); reflexivity|intro T; destruct (I2 T) as [b' ->]; exists b'; reflexivity].
Qed.

(** ** Values *)
Section Same.
Variable e : lex_end.
Variables pj pc : token -> list token -> result (node * list token).
Hypothesis same : forall t ts n r, tidy ts -> pj t ts = Ok (n, r) ->
  pc t ts = Ok (n, r) /\ took ts r /\ clean n = true /\ is_value_node n = true /\ is_value_start t = true.

Lemma loop_stops : forall k t ts, tidy (t :: ts) -> stops e (t :: ts) -> (List.length ts < k)%nat ->
  consolidate_loop pc CONF e k t ts = Ok ([], O, t, ts) \/
  exists w t' r, t = TIgnored w /\ ts = t' :: r /\ consolidate_loop pc CONF e k t ts = Ok ([NTok t], O, t', r).
Proof.
  intros k t ts T S L. destruct (first_read _ _ S T) as [x [r [E [V [A W]]]]]. injection E as <- <-.
  destruct k as [|k]; [lia|]. cbn [consolidate_loop].
  destruct t; try (left; rewrite V; reflexivity).
  right. specialize (W _ eq_refl). destruct (first_read _ _ W (tidy_tl _ _ T)) as [x [r [E [V' [A' _]]]]]. subst ts.
  exists text, x, r. split; [reflexivity|]. split; [reflexivity|]. cbn [next_token]. change (json_forbids CONF x) with false. cbn [bind].
  destruct k as [|k]; [cbn in L; lia|]. cbn [consolidate_loop].
  destruct x; try (rewrite V'; reflexivity). exfalso. destruct T as [T _]. exact (T [] _ _ _ eq_refl).
Qed.

Lemma consolidate_same : forall ts ws t r v r', tidy ts -> collect JSON e ts = Ok (ws, t, r) -> pj t r = Ok (v, r') -> stops e r' ->
  consolidate_values pc CONF e ts = Ok (ws, Some v, r').
Proof.
  intros ts ws t r v r' T C P St. unfold consolidate_values. rewrite (collect_same _ _ _ _ _ C). cbn [bind].
  destruct (collect_took _ _ _ _ _ C) as [K [A N]]. assert (T1 := took_tidy _ _ K T). assert (T2 := tidy_tl _ _ T1).
  destruct (same _ _ _ _ T2 P) as [P1 [P2 [_ [P4 P5]]]]. assert (T3 := took_tidy _ _ P2 T2).
  destruct (first_read _ _ St T3) as [x [r1 [E _]]]. subst r'. assert (L := took_length _ _ P2). cbn in L.
  assert (G : exists vs t' r'', consolidate_loop pc CONF e (S (List.length r)) t r = Ok (v :: vs, 1%nat, t', r'') /\
    single_value (Some v) (t' :: r'') vs = Ok ([], Some v, x :: r1)).
  { assert (H := loop_stops (List.length r) x r1 T3 St ltac:(lia)).
    assert (D : forall vs t' r'', consolidate_loop pc CONF e (List.length r) x r1 = Ok (vs, O, t', r'') ->
      consolidate_loop pc CONF e (Datatypes.S (List.length r)) t r = Ok (v :: vs, 1%nat, t', r'')).
    { intros vs t' r'' Q. cbn [consolidate_loop]. destruct t; try discriminate P5;
        (cbn [is_value_start]; rewrite P1; cbn [bind next_token]; change (json_forbids CONF x) with false; cbn [bind]; rewrite Q; reflexivity). }
    destruct H as [H|[w [t' [r'' [Hx [Hr H]]]]]].
    - exists [], x, r1. split; [exact (D _ _ _ H)|reflexivity].
    - exists [NTok x], t', r''. split; [exact (D _ _ _ H)|]. subst r1. reflexivity. }
  destruct G as [vs [t' [r'' [-> G]]]]. cbn [bind Nat.ltb Nat.leb]. cbn [single_value]. rewrite P4, G. cbn [bind]. rewrite app_nil_r. reflexivity.
Qed.
Lemma consolidate_none : forall ts ws t r, collect JSON e ts = Ok (ws, t, r) -> is_value_start t = false -> (forall w, t <> TIgnored w) ->
  consolidate_values pc CONF e ts = Ok (ws, None, t :: r).
Proof.
  intros ts ws t r C V I. unfold consolidate_values. rewrite (collect_same _ _ _ _ _ C). cbn [bind consolidate_loop].
  destruct t; try discriminate V; try (cbn [is_value_start bind Nat.ltb Nat.leb single_value]; rewrite app_nil_r; reflexivity). destruct (I _ eq_refl).
Qed.

(** ** Arrays *)
Lemma array_loop_same : forall k ts ns r, array_loop pj JSON e k ts = Ok (ns, r) -> tidy ts ->
  stops e ts /\ took ts r /\ forallb clean ns = true /\
  forall k', (List.length ts < k')%nat -> array_loop pc CONF e k' ts = Ok (ns, r).
Proof.
  intro k. induction k as [|k IH]; intros ts ns r H T; [discriminate|]. cbn [array_loop check_element_separator] in H.
  step H as [[sn b] r0] Hk0. step Hk0 as [[ws t] r1] Hb0. rename H into Hk. destruct (collect_took _ _ _ _ _ Hb0) as [K [A N]].
  assert (CL := collect_clean _ _ _ _ _ Hb0). assert (L := took_length _ _ K). cbn in L. assert (T1 := took_tidy _ _ K T).
  destruct (separator_same _ _ _ _ _ Hb0 false) as [S1 S2].
  assert (D : t = TComma \/ t <> TComma /\ b = false /\ sn = ws /\ r0 = t :: r1) by (destruct t; injection Hk0 as <- <- <-; auto; right; (split; [discriminate|auto])).
  destruct D as [->|[D1 [-> [-> ->]]]].
  - injection Hk0 as <- <- <-. cbn [negb consolidate_values bind] in Hk. step Hk as [[ws2 t2] r2] Hb.
    destruct (is_value_start t2) eqn:V; [|discriminate]. step Hk as [v r3] Hb1. step Hk as [rest r4] Hb2. injection Hk as <- <-.
    assert (T2 := tidy_tl _ _ T1). destruct (collect_took _ _ _ _ _ Hb) as [K2 [A2 _]]. assert (T3 := tidy_tl _ _ (took_tidy _ _ K2 T2)).
    destruct (same _ _ _ _ T3 Hb1) as [P1 [P2 [P3 [P4 P5]]]]. destruct (IH _ _ _ Hb2 (took_tidy _ _ P2 T3)) as [I1 [I2 [I3 I4]]].
    assert (L2 := took_length _ _ K2). cbn in L2. assert (L3 := took_length _ _ P2).
    split; [exists ws, TComma, r1; auto|]. split; [|split].
    + eapply took_trans; [exact K|]. eapply took_trans; [apply took_one, A|]. eapply took_trans; [exact K2|]. eapply took_trans; [apply took_one, A2|]. eapply took_trans; eassumption.
    + rewrite !forallb_app. cbn [forallb]. rewrite CL, (collect_clean _ _ _ _ _ Hb), P3, I3. reflexivity.
    + intros k' Lk. destruct k' as [|k']; [lia|]. cbn [array_loop check_element_separator]. rewrite (S1 eq_refl). cbn [bind negb].
      rewrite (consolidate_same _ _ _ _ _ _ T2 Hb Hb1 I1). cbn [bind]. rewrite I4 by lia. reflexivity.
  - cbn [negb] in Hk. rewrite (collect_again _ _ _ _ _ Hb0) in Hk. cbn [bind] in Hk. destruct t; try discriminate. injection Hk as <- <-.
    split; [exists ws, TCloseSquare, r1; auto|]. split; [|split].
    + eapply took_trans; [exact K|apply took_one, A].
    + rewrite forallb_app, CL. reflexivity.
    + intros k' Lk. destruct k' as [|[|k']]; [lia|lia|]. destruct (S2 D1) as [b' S3].
      set (k1 := S k'). cbn [array_loop check_element_separator]. rewrite S3. cbn [bind]. destruct b'; cbn [negb].
      * rewrite (consolidate_none (TCloseSquare :: r1) [] TCloseSquare r1) by (try reflexivity; discriminate). cbn [bind]. reflexivity.
      * rewrite (collect_again _ _ _ _ _ Hb0). reflexivity.
Qed.
Lemma array_same : forall ts n r, parse_array pj JSON e ts = Ok (n, r) -> tidy ts ->
  parse_array pc CONF e ts = Ok (n, r) /\ took ts r /\ clean n = true /\ is_value_node n = true.
Proof.
  intros ts n r H T. unfold parse_array in H. cbn [consolidate_values bind] in H. step H as [cs r'] Hk. injection H as <- <-.
  step Hk as [[ws t] r1] Hb0. destruct (collect_took _ _ _ _ _ Hb0) as [K [A N]]. assert (T1 := tidy_tl _ _ (took_tidy _ _ K T)).
  assert (CL := collect_clean _ _ _ _ _ Hb0). cbn [app] in Hk.
  assert (D : t = TCloseSquare /\ Ok (ws ++ [NTok t], r1) = Ok (cs, r') \/ t <> TCloseSquare /\ exists v r2 rest, pj t r1 = Ok (v, r2) /\ array_loop pj JSON e (S (List.length r2)) r2 = Ok (rest, r') /\ cs = ws ++ v :: rest).
  { destruct t; cbn [is_value_start] in Hk; try discriminate; try (left; split; [reflexivity|exact Hk]);
      right; (split; [discriminate|]); step Hk as [vv rr] Ha; step Hk as [rest r3] Hc; injection Hk as <- <-; eauto 7. }
  destruct D as [[-> D]|[D1 [v [r2 [rest [D2 [D3 ->]]]]]]].
  - injection D as <- <-. split; [|split; [|split; [|reflexivity]]].
    + unfold parse_array. rewrite (consolidate_none _ _ _ _ Hb0) by (try reflexivity; discriminate). cbn [bind]. rewrite (collect_again _ _ _ _ _ Hb0). reflexivity.
    + eapply took_trans; [exact K|apply took_one, A].
    + cbn. rewrite forallb_app, CL. reflexivity.
  - destruct (same _ _ _ _ T1 D2) as [P1 [P2 [P3 [P4 P5]]]]. destruct (array_loop_same _ _ _ _ D3 (took_tidy _ _ P2 T1)) as [I1 [I2 [I3 I4]]].
    split; [|split; [|split; [|reflexivity]]].
    + unfold parse_array. rewrite (consolidate_same _ _ _ _ _ _ T Hb0 D2 I1). cbn [bind]. rewrite I4 by lia. reflexivity.
    + eapply took_trans; [exact K|]. eapply took_trans; [apply took_one, A|]. eapply took_trans; eassumption.
    + cbn. rewrite forallb_app. cbn. rewrite CL, P3, I3. reflexivity.
Qed.

(** ** Objects *)
Lemma field_same : forall keys t ts n keys' r, parse_field pj JSON e keys t ts = Ok (n, keys', r) -> tidy ts -> 
  is_string_value t = true /\ took ts r /\ clean n = true /\
  (stops e r -> parse_field pc CONF e keys t ts = Ok (n, keys', r)).
Proof.
  intros keys t ts n keys' r H T. unfold parse_field in H. cbn [is_json negb andb] in H. step H as [pn r1] Hp.
  cbn [parse_key] in Hp. destruct (is_string_value t) eqn:Es; [|discriminate]. step Hp as pn' Hb0. injection Hp as -> <-.
  step H as [[ws ak] r2] Hb. step H as [nodes r3] Hb1. rename H into Hk1.
  assert (ak = TColon) as -> by (destruct ak; try discriminate Hb1; reflexivity). cbn [is_key_value_separator negb consolidate_values bind] in Hb1.
  step Hb1 as [[ws' t'] r4] Hb2. step Hb1 as [v r5] Hb3. injection Hb1 as <- <-.
  destruct (collect_took _ _ _ _ _ Hb) as [K [A N]]. destruct (collect_took _ _ _ _ _ Hb2) as [K2 [A2 N2]].
  assert (T1 := tidy_tl _ _ (took_tidy _ _ K T)). assert (T2 := tidy_tl _ _ (took_tidy _ _ K2 T1)).
  destruct (same _ _ _ _ T2 Hb3) as [P1 [P2 [P3 [P4 P5]]]].
  assert (R : n = NField (NPath pn :: ws ++ NTok TColon :: [] ++ ws' ++ [v]) /\ exists key, fst pn = [key] /\ existsb (str_eqb key) keys = false /\ keys' = key :: keys /\ r = r5).
  { destruct (fst pn) as [|key [|key2 rest]]; try discriminate. destruct (existsb (str_eqb key) keys) eqn:Ex; [discriminate|]. injection Hk1 as <- <- <-. split; [reflexivity|]. exists key. auto. }
  destruct R as [-> [key [R1 [R2 [-> ->]]]]].
  split; [reflexivity|]. split; [|split].
  - eapply took_trans; [exact K|]. eapply took_trans; [apply took_one, A|]. eapply took_trans; [exact K2|]. eapply took_trans; [apply took_one, A2|]. exact P2.
  - cbn. rewrite !forallb_app. cbn. rewrite forallb_app, (collect_clean _ _ _ _ _ Hb), (collect_clean _ _ _ _ _ Hb2). cbn. rewrite P3. reflexivity.
  - intro S. assert (S0 : stops e ts) by (exists ws, TColon, r2; auto). destruct (first_read _ _ S0 T) as [x [r' [-> [V [A' _]]]]].
    unfold parse_field. cbn [is_json negb andb parse_key].
    assert (KT : key_tokens CONF e t (x :: r') = Ok ([t], x :: r')).
    { destruct t; try discriminate Es. cbn [key_tokens]. change (json_forbids CONF x) with false. cbn iota. destruct x; try discriminate V; destruct r'; reflexivity. }
    rewrite KT. cbn [bind]. rewrite Hb0. cbn [bind]. rewrite (collect_same _ _ _ _ _ Hb). cbn [bind is_key_value_separator negb].
    rewrite (consolidate_same _ _ _ _ _ _ T1 Hb2 Hb3 S). cbn [bind]. rewrite R1, R2. cbn [app]. reflexivity.
Qed.
Lemma object_loop_same : forall k ac keys ts ns r, object_loop pj JSON e k true ac keys ts = Ok (ns, r) -> tidy ts ->
  took ts r /\ forallb clean ns = true /\
  forall k' ac', (List.length ts < k')%nat -> object_loop pc CONF e k' true ac' keys ts = Ok (ns, r).
Proof.
  intro k. induction k as [|k IH]; intros ac keys ts ns r H T; [discriminate|]. cbn [object_loop is_json negb andb] in H.
  step H as [[ws t] r0] Hb. rename H into Hk. destruct (collect_took _ _ _ _ _ Hb) as [K [A N]]. assert (CL := collect_clean _ _ _ _ _ Hb).
  assert (T1 := tidy_tl _ _ (took_tidy _ _ K T)). assert (L := took_length _ _ K). cbn in L.
  assert (D : t = TCloseCurly \/ t <> TCloseCurly) by (destruct t; auto; right; discriminate).
  destruct D as [->|D].
  { destruct ac; [discriminate|]. injection Hk as <- <-. split; [|split].
    - eapply took_trans; [exact K|apply took_one, A].
    - rewrite forallb_app, CL. reflexivity.
    - intros k' ac' Lk. destruct k' as [|k']; [lia|]. cbn [object_loop is_json negb andb]. rewrite (collect_same _ _ _ _ _ Hb). reflexivity. }
  assert (Hk' : ('(item, keys', r2) <- parse_field pj JSON e keys t r0 ;;
          '(sn, separated, r3) <- check_element_separator JSON e r2 ;;
          if separated then '(rest, r4) <- object_loop pj JSON e k true true keys' r3 ;; Ok (ws ++ item :: sn ++ rest, r4)
          else '(ws2, t2, r4) <- collect JSON e r3 ;;
            match t2 with TCloseCurly => Ok (ws ++ item :: sn ++ ws2 ++ [NTok t2], r4) | _ => Throw EParse end) = Ok (ns, r)).
  { destruct t; try (exfalso; apply D; reflexivity); rewrite <- Hk; repeat (apply bind_ext; intros [[? ?] ?]); reflexivity. }
  clear Hk. step Hk' as [[item keys'] r2] Hb0. destruct (field_same _ _ _ _ _ _ Hb0 T1) as [F1 [F2 [F3 F4]]].
  step Hk' as [[sn b] r3] Hk0. cbn [check_element_separator] in Hk0. step Hk0 as [[ws1 t1] r1] Hb2. rename Hk' into Hk.
  assert (T2 := took_tidy _ _ F2 T1). assert (L2 := took_length _ _ F2). destruct (collect_took _ _ _ _ _ Hb2) as [K1 [A1 _]]. assert (L1 := took_length _ _ K1). cbn in L1.
  assert (T3 := tidy_tl _ _ (took_tidy _ _ K1 T2)). assert (CL1 := collect_clean _ _ _ _ _ Hb2).
  destruct (separator_same _ _ _ _ _ Hb2 false) as [S1 S2].
  assert (W : stops e r2 -> forall k' ac', object_loop pc CONF e (S k') true ac' keys ts =
     ('(sn, separated, r3) <- check_element_separator CONF e r2 ;;
          if separated then '(rest, r4) <- object_loop pc CONF e k' true true keys' r3 ;; Ok (ws ++ item :: sn ++ rest, r4)
          else '(ws2, t2, r4) <- collect CONF e r3 ;;
            match t2 with TCloseCurly => Ok (ws ++ item :: sn ++ ws2 ++ [NTok t2], r4) | _ => Throw EParse end)).
  { intros St k' ac'. cbn [object_loop is_json negb andb]. rewrite (collect_same _ _ _ _ _ Hb). cbn [bind].
    destruct t; try discriminate F1. cbn [is_include_keyword]. rewrite (F4 St). cbn [bind]. reflexivity. }
  assert (E1 : t1 = TComma \/ t1 <> TComma /\ b = false /\ sn = ws1 /\ r3 = t1 :: r1) by (destruct t1; injection Hk0 as <- <- <-; auto; right; (split; [discriminate|auto])).
  destruct E1 as [->|[E1 [-> [-> ->]]]].
  - injection Hk0 as <- <- <-. step Hk as [rest r4] Hb1. injection Hk as <- <-. destruct (IH _ _ _ _ _ Hb1 T3) as [I1 [I2 I3]].
    split; [|split].
    + eapply took_trans; [exact K|]. eapply took_trans; [apply took_one, A|]. eapply took_trans; [exact F2|]. eapply took_trans; [exact K1|]. eapply took_trans; [apply took_one, A1|]. exact I1.
    + rewrite !forallb_app. cbn [forallb]. rewrite !forallb_app. cbn [forallb]. rewrite CL, F3, CL1, I2. reflexivity.
    + intros k' ac' Lk. destruct k' as [|k']; [lia|]. rewrite W by (exists ws1, TComma, r1; auto). cbn [check_element_separator]. rewrite (S1 eq_refl). cbn [bind]. rewrite I3 by lia. reflexivity.
  - rewrite (collect_again _ _ _ _ _ Hb2) in Hk. cbn [bind] in Hk. destruct t1; try discriminate. injection Hk as <- <-.
    split; [|split].
    + eapply took_trans; [exact K|]. eapply took_trans; [apply took_one, A|]. eapply took_trans; [exact F2|]. eapply took_trans; [exact K1|]. apply took_one, A1.
    + rewrite !forallb_app. cbn [forallb]. rewrite !forallb_app. cbn [forallb]. rewrite CL, F3, CL1. reflexivity.
    + intros k' ac' Lk. destruct k' as [|k']; [lia|]. rewrite W by (exists ws1, TCloseCurly, r1; auto). cbn [check_element_separator]. destruct (S2 E1) as [b' ->]. cbn [bind].
      destruct b'.
      * destruct k' as [|k']; [lia|]. cbn [object_loop is_json negb andb]. rewrite (collect_again _ _ _ _ _ Hb2). reflexivity.
      * rewrite (collect_again _ _ _ _ _ Hb2). reflexivity.
Qed.
Lemma object_same : forall ts n r, parse_object pj JSON e true ts = Ok (n, r) -> tidy ts ->
  parse_object pc CONF e true ts = Ok (n, r) /\ took ts r /\ clean n = true /\ is_value_node n = true.
Proof.
  intros ts n r H T. unfold parse_object in H. step H as [ns r'] Hb. injection H as <- <-.
  destruct (object_loop_same _ _ _ _ _ _ Hb T) as [I1 [I2 I3]]. split; [|split; [exact I1|split; [|reflexivity]]].
  - unfold parse_object. rewrite I3 by lia. reflexivity.
  - cbn. exact I2.
Qed.
End Same.

Lemma value_same : forall k e t ts n r, tidy ts -> parse_value k JSON e t ts = Ok (n, r) ->
  parse_value k CONF e t ts = Ok (n, r) /\ took ts r /\ clean n = true /\ is_value_node n = true /\ is_value_start t = true.
Proof.
  intro k. induction k as [|k IH]; intros e t ts n r T H; [discriminate|]. cbn [parse_value] in *.
  destruct t; try discriminate; try (injection H as <- <-; repeat split; apply took_refl).
  - destruct (object_same e _ _ (IH e) _ _ _ H T) as [A [B [C D]]]. auto.
  - destruct (array_same e _ _ (IH e) _ _ _ H T) as [A [B [C D]]]. auto.
Qed.

Lemma root_same : forall e ts ns, tidy ts -> parse_root JSON e ts = Ok ns ->
  parse_root CONF e ts = Ok ns /\ forallb clean ns = true /\ exists r, took ts (TEnd :: r).
Proof.
  intros e ts ns T H. unfold parse_root in *. cbn [is_json] in *. step H as [[ws t] r] Hb. rewrite (collect_same _ _ _ _ _ Hb). cbn [bind].
  destruct (collect_took _ _ _ _ _ Hb) as [K [A N]]. assert (T1 := tidy_tl _ _ (took_tidy _ _ K T)). assert (CL := collect_clean _ _ _ _ _ Hb).
  step H as [[mc cs] r1] Hb0. step H as [[ws2 t2] r2] Hb1.
  assert (D : exists v, parse_value (S (List.length ts)) JSON e t r = Ok (v, r1) /\ mc = false /\ cs = ws ++ [v] /\ (t = TOpenCurly \/ t = TOpenSquare)).
  { destruct t; try discriminate Hb0; step Hb0 as [vv r3] Hv; injection Hb0 as <- <- <-; eauto 6. }
  destruct D as [v [D1 [-> [-> D2]]]]. destruct (value_same _ _ _ _ _ _ T1 D1) as [V1 [V2 [V3 _]]].
  destruct (collect_took _ _ _ _ _ Hb1) as [K2 _]. destruct t2; try discriminate. injection H as <-.
  split; [|split].
  - destruct D2 as [->| ->]; rewrite V1; cbn [bind]; rewrite (collect_same _ _ _ _ _ Hb1); reflexivity.
  - rewrite !forallb_app. cbn [forallb]. rewrite CL, V3, (collect_clean _ _ _ _ _ Hb1). reflexivity.
  - exists r2. eapply took_trans; [exact K|]. eapply took_trans; [apply took_one, A|]. eapply took_trans; [exact V2|exact K2].
Qed.

Lemma single_same : forall e ts v, tidy ts -> parse_single_value JSON e ts = Ok v ->
  parse_single_value CONF e ts = Ok v /\ exists r, took ts (TEnd :: r).
Proof.
  intros e ts v T H. unfold parse_single_value in *. cbn [is_json] in *. step H as [t r] Hb. rename H into Hk.
  destruct ts as [|t0 ts]; [destruct e; discriminate Hb|]. cbn [next_token] in Hb. destruct (json_forbids JSON t0) eqn:A; [discriminate|]. injection Hb as -> ->.
  cbn [next_token]. change (json_forbids CONF t) with false. cbn [bind].
  assert (N : skipped t = false) by (destruct t; try reflexivity; try discriminate Hk; cbn in *; destruct (forallb _ _); [discriminate|reflexivity]).
  assert (D : exists v' r1 r2, v = Some v' /\ parse_value (S (List.length (t :: r))) JSON e t r = Ok (v', r1) /\ r1 = TEnd :: r2 /\ t <> TEnd).
  { assert (Hk' : t <> TEnd /\ ('(v, r1) <- parse_value (S (List.length (t :: r))) JSON e t r ;; '(t1, _) <- next_token JSON e r1 ;; match t1 with TEnd => Ok (Some v) | _ => Throw EParse end) = Ok v).
    { destruct t; try discriminate Hk; try discriminate N; (split; [discriminate|]); try exact Hk. cbn in Hk, N. rewrite N in Hk. exact Hk. }
    destruct Hk' as [Hk1 Hk2]. step Hk2 as [v' r1] Hb. step Hk2 as [t1 r2] Hb0.
    destruct t1; try discriminate. injection Hk2 as <-. exists v', r1, r2. split; [reflexivity|]. split; [exact Hb|]. split; [|exact Hk1].
    destruct r1 as [|x r1]; [destruct e; discriminate Hb0|]. cbn [next_token] in Hb0. destruct (json_forbids JSON x); [discriminate|]. injection Hb0 as -> ->. reflexivity. }
  destruct D as [v' [r1 [r2 [-> [D1 [-> D2]]]]]].
  assert (T1 := tidy_tl _ _ T). destruct (value_same _ _ _ _ _ _ T1 D1) as [V1 [V2 [V3 _]]].
  assert (C : collect JSON e (t :: r) = Ok ([], t, r)) by (apply collect_stop; [exact A|exact N]).
  assert (St : stops e (TEnd :: r2)) by (exists [], TEnd, r2; auto).
  assert (Q := consolidate_same e _ _ (value_same (S (List.length (t :: r))) e) _ _ _ _ _ _ T C D1 St).
  split.
  - assert (G : ('(_, v, r3) <- consolidate_values (parse_value (S (List.length (t :: r))) CONF e) CONF e (t :: r) ;; '(t1, _) <- next_token CONF e r3 ;; match t1 with TEnd => Ok v | _ => Throw EParse end) = Ok (Some v')).
    { rewrite Q. reflexivity. }
    destruct t; try discriminate N; try (exfalso; apply D2; reflexivity); try exact G. cbn in N. cbn [is_unquoted_whitespace]. rewrite N. exact G.
  - exists r2. eapply took_trans; [apply took_one, A|exact V2].
Qed.

(** ** Texts *)
Lemma text_same : forall A (pj pc : lex_end -> list token -> result A) (P : A -> Prop) s a,
  (forall e ts a, tidy ts -> pj e ts = Ok a -> pc e ts = Ok a /\ P a /\ exists r, took ts (TEnd :: r)) ->
  after_start JSON s pj = Ok a -> after_start CONF s pc = Ok a /\ P a.
Proof.
  intros A pj pc P s a Hs H. unfold after_start, lex in *. cbn [is_json negb] in *.
  destruct (lex_loop (S (List.length s)) false saver_init s) as [ts e] eqn:L. cbn iota in H.
  destruct (lex_loop_stream _ _ _ _ _ _ L) as [_ ND]. destruct (lex_loop_shape _ _ _ _ _ _ (le_n _) L) as [_ [Sh1 Sh2]].
  assert (T : tidy ts). { split; [exact ND|]. eapply classified_follow. exact (proj1 (lex_loop_classified _ _ _ _ _ _ _ L (Forall_nil _))). }
  assert (X : e <> LEnd -> match (removelast (TStart :: ts), e) with (_ :: ts, e) => pj e ts | ([], e) => raise_end e (Stuck UOutOfBounds) end = Ok a -> False).
  { intros Ne Q. destruct ts as [|t ts]; [destruct e; try discriminate Q; congruence|].
    change (removelast (TStart :: t :: ts)) with (TStart :: removelast (t :: ts)) in Q. cbn iota in Q.
    assert (E := app_removelast_last TEnd (l := t :: ts) ltac:(discriminate)).
    assert (T' : tidy (removelast (t :: ts))) by (rewrite E in T; exact (tidy_prefix _ _ T)).
    destruct (Hs _ _ _ T' Q) as [_ [_ [r [p [Ep _]]]]]. apply (Sh2 Ne). rewrite E, Ep, !in_app_iff. cbn. auto. }
  destruct e as [|x|u]; cbn [delivered] in H.
  - destruct (Hs _ _ _ T H) as [Q [Pa [r [p [Ep F]]]]]. destruct (Sh1 eq_refl) as [body [B1 [B2 _]]].
    assert (r = []) as ->.
    { destruct (exists_last_or_nil _ r) as [->|[r' [z ->]]]; [reflexivity|]. exfalso. apply B2. rewrite B1 in Ep. change (TEnd :: r' ++ [z]) with ((TEnd :: r') ++ [z]) in Ep. rewrite app_assoc in Ep. apply app_inj_tail in Ep. destruct Ep as [-> _]. apply in_or_app. right. left. reflexivity. }
    assert (Fa : Forall allowed ts) by (rewrite Ep; apply Forall_app; split; [exact F|constructor; [reflexivity|constructor]]).
    split; [|exact Pa]. assert (LJ : lex_loop (S (List.length s)) true saver_init s = (ts, LEnd)) by exact (lex_json _ _ _ _ _ L Fa). rewrite LJ. exact Q.
  - exfalso. apply X; [discriminate|exact H].
  - exfalso. apply X; [discriminate|exact H].
Qed.
