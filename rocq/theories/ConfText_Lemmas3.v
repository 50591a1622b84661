(** What the HOCON parser reads does not depend on what follows, beyond the token after it. *)
From Verif Require Import Base BaseLemmas Util_Model Num_Model Path_Model Token_Model Token_Spec Token_Lemmas Token_Lemmas2 PathParser_Model Doc_Model Doc_Lemmas Doc_Lemmas2 Value_Model Json_Lemmas Json_Lemmas2 ConfText_Lemmas ConfText_Lemmas2.

(** A token at which a value, and what may follow it on its way, has ended. *)
Definition fin (t : token) : bool := match t with TIgnored _ => false | _ => negb (is_value_start t) end.
Definition stop (r : list token) : Prop := match r with TIgnored _ :: t :: _ => fin t = true | t :: _ => fin t = true | [] => False end.
Definition gap (g : list token) : Prop := g = [] \/ exists w, g = [TIgnored w].
Lemma stop_inv : forall r, stop r -> exists g t r', r = g ++ t :: r' /\ gap g /\ fin t = true.
Proof.
  intros [|t r] H; [contradiction|]. destruct t; try (eexists [], _, _; split; [reflexivity|]; split; [left; reflexivity|]; first [exact H|destruct r; discriminate H]; fail).
  destruct r as [|t2 r]; [discriminate|]. eexists [_], _, _. split; [reflexivity|]. split; [right; eauto|exact H].
Qed.
Lemma stop_gap : forall g t r, gap g -> fin t = true -> stop (g ++ t :: r).
Proof. intros g t r [->|[w ->]] F; cbn [app stop]; [|exact F]. destruct t; try discriminate F; exact F. Qed.
Lemma fin_solid : forall t, fin t = true -> solid t = true.
Proof. intros [] H; try discriminate H; reflexivity. Qed.

Lemma next_conf : forall t r, next_token CONF LEnd (t :: r) = Ok (t, r).
Proof. reflexivity. Qed.

(** ** Layout *)
Lemma collect_frame : forall ts ns t r, collect CONF LEnd ts = Ok (ns, t, r) ->
  exists u, ts = u ++ t :: r /\ flat_map node_tokens ns = u /\ solid t = true /\ is_comment t = false /\ t <> TNewline /\ forall r2, collect CONF LEnd (u ++ t :: r2) = Ok (ns, t, r2).
Proof.
  induction ts as [|x ts IH]; intros ns t r H; cbn [collect] in H; [discriminate|]. change (json_forbids CONF x) with false in H. cbv iota in H.
  destruct (match x with TIgnored _ | TNewline => true | _ => is_unquoted_whitespace x end) eqn:W.
  - step H as [[ns' t'] r'] C. injection H as <- <- <-. destruct (IH _ _ _ C) as [u [-> [T [S [Cm [Nl A]]]]]]. exists (x :: u). split; [reflexivity|]. split; [cbn; rewrite T; reflexivity|]. split; [exact S|]. split; [exact Cm|]. split; [exact Nl|].
    intro r2. cbn [app collect]. change (json_forbids CONF x) with false. cbv iota. rewrite W, A. reflexivity.
  - assert (D : is_comment x = true \/ is_comment x = false) by (destruct (is_comment x); auto). destruct D as [D|D].
    + destruct x; try discriminate D. step H as [[ns' t'] r'] C. injection H as <- <- <-. destruct (IH _ _ _ C) as [u [-> [T [S [Cm [Nl A]]]]]]. exists (TComment double_slash text :: u). split; [reflexivity|]. split; [cbn; rewrite T; reflexivity|]. split; [exact S|]. split; [exact Cm|]. split; [exact Nl|].
      intro r2. cbn [app collect]. change (json_forbids CONF (TComment double_slash text)) with false. cbv iota. cbn [is_unquoted_whitespace]. rewrite A. reflexivity.
    + assert (E : ns = [] /\ t = x /\ r = ts) by (destruct x; try discriminate W; try discriminate D; injection H as <- <- <-; auto). destruct E as [-> [-> ->]].
      exists []. split; [reflexivity|]. split; [reflexivity|]. split; [destruct x; try discriminate W; try reflexivity; cbn; cbn in W; rewrite W; reflexivity|]. split; [exact D|]. split; [intros ->; discriminate W|].
      intro r2. cbn [app collect]. change (json_forbids CONF x) with false. cbv iota. rewrite W. destruct x; try discriminate D; reflexivity.
Qed.
Lemma collect_solid : forall t r, solid t = true -> is_comment t = false -> t <> TNewline -> collect CONF LEnd (t :: r) = Ok ([], t, r).
Proof.
  intros t r S C N. cbn [collect]. change (json_forbids CONF t) with false. cbv iota. destruct t; try discriminate C; try congruence; try discriminate S; try reflexivity.
  cbn in S. cbn [is_unquoted_whitespace]. apply negb_true_iff in S. rewrite S. reflexivity.
Qed.
Lemma sep_frame : forall ts b ns b' r, separator_conf b CONF LEnd ts = Ok (ns, b', r) ->
  exists u, ts = u ++ r /\ flat_map node_tokens ns = u /\ (u = [] -> b' = b) /\
    ((b' = true /\ (exists u', u = u' ++ [TComma]) /\ forall r2, separator_conf b CONF LEnd (u ++ r2) = Ok (ns, b', r2)) \/
     (exists t r', r = t :: r' /\ solid t = true /\ is_comment t = false /\ t <> TNewline /\ forall r2, separator_conf b CONF LEnd (u ++ t :: r2) = Ok (ns, b', t :: r2))).
Proof.
  induction ts as [|x ts IH]; intros b ns b' r H; cbn [separator_conf] in H; [discriminate|]. change (json_forbids CONF x) with false in H. cbv iota in H.
  assert (Go : forall n bb, (forall r, separator_conf b CONF LEnd (x :: r) = ('(ns, b', r') <- separator_conf bb CONF LEnd r ;; Ok (n :: ns, b', r'))) -> node_tokens n = [x] ->
    ('(ns, b', r') <- separator_conf bb CONF LEnd ts ;; Ok (n :: ns, b', r')) = Ok (ns, b', r) ->
    exists u, x :: ts = u ++ r /\ flat_map node_tokens ns = u /\ (u = [] -> b' = b) /\
    ((b' = true /\ (exists u', u = u' ++ [TComma]) /\ forall r2, separator_conf b CONF LEnd (u ++ r2) = Ok (ns, b', r2)) \/
     (exists t r', r = t :: r' /\ solid t = true /\ is_comment t = false /\ t <> TNewline /\ forall r2, separator_conf b CONF LEnd (u ++ t :: r2) = Ok (ns, b', t :: r2)))).
  { intros n bb Q T K. step K as [[ns' b''] r'] C. injection K as <- <- <-. destruct (IH _ _ _ _ C) as [u [-> [Tu [_ A]]]]. exists (x :: u). split; [reflexivity|]. split; [cbn; rewrite T, Tu; reflexivity|]. split; [discriminate|].
    destruct A as [[B [[u' ->] A]]|[t [r1 [E [S [Cm [Nl A]]]]]]]; [left; split; [exact B|]; split; [exists (x :: u'); reflexivity|]; intro r2; cbn [app]; rewrite Q, A; reflexivity|]. right. exists t, r1. split; [exact E|]. split; [exact S|]. split; [exact Cm|]. split; [exact Nl|]. intro r2. cbn [app]. rewrite Q, A. reflexivity. }
  destruct (match x with TIgnored _ => true | _ => is_unquoted_whitespace x end) eqn:W.
  - apply (Go (NTok x) b); [|reflexivity|exact H]. intro r2. cbn [separator_conf]. change (json_forbids CONF x) with false. cbv iota. rewrite W. reflexivity.
  - assert (Other : match x with TComment _ _ | TNewline | TComma => false | _ => true end = true -> ns = [] /\ b' = b /\ r = x :: ts /\ (forall r2, separator_conf b CONF LEnd (x :: r2) = Ok ([], b, x :: r2)) /\ solid x = true /\ is_comment x = false /\ x <> TNewline).
    { intro O. destruct x; try discriminate O; try discriminate W; cbn [is_unquoted_whitespace] in W; try rewrite W in H; injection H as <- <- <-; repeat split; try discriminate; try reflexivity.
      - intro r2. cbn [separator_conf is_unquoted_whitespace]. rewrite W. reflexivity.
      - cbn. rewrite W. reflexivity. }
    destruct (match x with TComment _ _ | TNewline | TComma => false | _ => true end) eqn:O.
    + destruct (Other eq_refl) as [-> [-> [-> [A [S [Cm Nl]]]]]]. exists []. split; [reflexivity|]. split; [reflexivity|]. split; [reflexivity|]. right. exists x, ts. split; [reflexivity|]. split; [exact S|]. split; [exact Cm|]. split; [exact Nl|exact A].
    + destruct x; try discriminate O.
      * injection H as <- <- <-. exists [TComma]. split; [reflexivity|]. split; [reflexivity|]. split; [discriminate|]. left. split; [reflexivity|]. split; [exists []; reflexivity|reflexivity].
      * apply (Go (NTok TNewline) true); [reflexivity|reflexivity|exact H].
      * apply (Go (NComment (TComment double_slash text)) b); [reflexivity|reflexivity|exact H].
Qed.

(** ** Values *)
Definition closed (t : token) : bool := match t with TIgnored _ | TComment _ _ => false | _ => true end.
Lemma last_app : forall {A} (a b : list A) d, b <> [] -> List.last (a ++ b) d = List.last b d.
Proof.
  intros A a b d N. induction a as [|x a IH]; [reflexivity|]. cbn [app]. destruct (a ++ b) as [|y l] eqn:E; [destruct a; [destruct b; [congruence|discriminate]|discriminate]|]. rewrite <- IH. reflexivity.
Qed.

Section Frames.
(** Two parsers of values: the second gives the same as the first, for values of at most [N] further tokens. *)
Variables pv pv2 : token -> list token -> result (node * list token).
Variable N : nat.
Hypothesis Hpv : forall t ts n r, no_double_blank (t :: ts) -> pv t ts = Ok (n, r) ->
  exists u, ts = u ++ r /\ is_value_node n = true /\ closed (List.last (t :: u) TEnd) = true /\ forall r2, (List.length u < N)%nat -> pv2 t (u ++ r2) = Ok (n, r2).
Hypothesis Hstart : forall t ts n r, pv t ts = Ok (n, r) -> is_value_start t = true.

Definition loop_list (p : token -> list token -> result (node * list token)) (k : nat) (ts : list token) :=
  match ts with t :: r => consolidate_loop p CONF LEnd k t r | [] => Stuck UFuel end.
Lemma loop_base : forall p k g t r, gap g -> fin t = true -> (List.length g < k)%nat -> loop_list p k (g ++ t :: r) = Ok (map NTok g, O, t, r).
Proof.
  intros p k g t r [->|[w ->]] F L; (destruct k as [|k]; [cbn in L; lia|]); cbn [app loop_list consolidate_loop map].
  - destruct t; try discriminate F; reflexivity.
  - rewrite next_conf. cbn [bind]. destruct k as [|k]; [cbn in L; lia|]. cbn [consolidate_loop]. destruct t; try discriminate F; reflexivity.
Qed.
Lemma loop_frame : forall k t ts vs c t' r', no_double_blank (t :: ts) -> consolidate_loop pv CONF LEnd k t ts = Ok (vs, c, t', r') ->
  exists u g core, t :: ts = u ++ g ++ t' :: r' /\ gap g /\ vs = core ++ map NTok g /\ fin t' = true /\ (c = O -> u = [] /\ core = []) /\
    (c <> O -> u <> [] /\ closed (List.last u TEnd) = true /\ exists core' v, core = core' ++ [v] /\ is_value_node v = true) /\
    (is_value_start t = true -> exists v core', core = v :: core' /\ is_value_node v = true /\ (c = 1%nat -> core' = [])) /\
    forall k2 g2 t2 r2, gap g2 -> fin t2 = true -> (List.length (u ++ g2) < k2)%nat -> (List.length u <= N)%nat -> loop_list pv2 k2 (u ++ g2 ++ t2 :: r2) = Ok (core ++ map NTok g2, c, t2, r2).
Proof.
  induction k as [|k IH]; intros t ts vs c t' r' D H; cbn [consolidate_loop] in H; [discriminate|].
  assert (Val : is_value_start t = true -> match t with TIgnored _ => false | _ => true end = true ->
    ('(v, r) <- pv t ts ;; '(t', r') <- next_token CONF LEnd r ;; '(vs, c, t'', r'') <- consolidate_loop pv CONF LEnd k t' r' ;; Ok (v :: vs, S c, t'', r'')) = Ok (vs, c, t', r') ->
    exists u g core, t :: ts = u ++ g ++ t' :: r' /\ gap g /\ vs = core ++ map NTok g /\ fin t' = true /\ (c = O -> u = [] /\ core = []) /\
    (c <> O -> u <> [] /\ closed (List.last u TEnd) = true /\ exists core' v, core = core' ++ [v] /\ is_value_node v = true) /\
    (is_value_start t = true -> exists v core', core = v :: core' /\ is_value_node v = true /\ (c = 1%nat -> core' = [])) /\
    forall k2 g2 t2 r2, gap g2 -> fin t2 = true -> (List.length (u ++ g2) < k2)%nat -> (List.length u <= N)%nat -> loop_list pv2 k2 (u ++ g2 ++ t2 :: r2) = Ok (core ++ map NTok g2, c, t2, r2)).
  { intros Vs Ni K. step K as [v r0] P. destruct (Hpv _ _ _ _ D P) as [uv [-> [Vn [Cl A]]]]. destruct r0 as [|t1 r1]; [discriminate|]. rewrite next_conf in K. cbn [bind] in K.
    step K as [[[vs1 c1] t1'] r1'] L. injection K as <- <- <- <-.
    destruct (IH _ _ _ _ _ _ (ndb_suffix (t :: uv) (t1 :: r1) D) L) as [u1 [g1 [core1 [E [G [-> [F [C0 [C1 [_ B]]]]]]]]]].
    exists (t :: uv ++ u1), g1, (v :: core1). rewrite E. split; [cbn [app]; rewrite <- !app_assoc; reflexivity|]. split; [exact G|]. split; [reflexivity|]. split; [exact F|]. split; [discriminate|]. split.
    - intros _. split; [discriminate|]. destruct c1 as [|c1].
      + destruct (C0 eq_refl) as [-> ->]. rewrite app_nil_r. split; [exact Cl|]. exists [], v. split; [reflexivity|exact Vn].
      + destruct (C1 ltac:(discriminate)) as [U [Cu [core' [v' [-> V']]]]]. split; [change (t :: uv ++ u1) with ((t :: uv) ++ u1); rewrite last_app by exact U; exact Cu|]. exists (v :: core'), v'. split; [reflexivity|exact V'].
    - split; [intros _; exists v, core1; split; [reflexivity|]; split; [exact Vn|]; intro Q; injection Q as ->; apply C0; reflexivity|].
      intros k2 g2 t2 r2 G2 F2 L2 LN. destruct k2 as [|k2]; [cbn in L2; lia|]. cbn [app loop_list consolidate_loop]. cbn [app List.length] in L2, LN. rewrite !app_length in L2. rewrite app_length in LN.
      assert (Q : forall X, match t with TIgnored _ => X | _ => if is_value_start t then ('(v, r) <- pv2 t ((uv ++ u1) ++ g2 ++ t2 :: r2) ;; '(t', r') <- next_token CONF LEnd r ;; '(vs, c, t'', r'') <- consolidate_loop pv2 CONF LEnd k2 t' r' ;; Ok (v :: vs, S c, t'', r'')) else Ok ([], O, t, (uv ++ u1) ++ g2 ++ t2 :: r2) end =
        ('(v, r) <- pv2 t ((uv ++ u1) ++ g2 ++ t2 :: r2) ;; '(t', r') <- next_token CONF LEnd r ;; '(vs, c, t'', r'') <- consolidate_loop pv2 CONF LEnd k2 t' r' ;; Ok (v :: vs, S c, t'', r''))) by (intro X; destruct t; try discriminate Vs; try discriminate Ni; reflexivity).
      rewrite Q. rewrite <- app_assoc, A by (clear -LN; lia). cbn [bind].
      assert (B' := B k2 g2 t2 r2 G2 F2). rewrite app_length in B'. specialize (B' ltac:(clear -L2; lia) ltac:(clear -LN; lia)). unfold loop_list in B'. destruct (u1 ++ g2 ++ t2 :: r2) as [|x xs] eqn:Ex; [discriminate|]. rewrite next_conf. cbn [bind]. rewrite B'. reflexivity. }
  assert (Base : fin t = true -> Ok ([], O, t, ts) = Ok (vs, c, t', r') -> exists u g core, t :: ts = u ++ g ++ t' :: r' /\ gap g /\ vs = core ++ map NTok g /\ fin t' = true /\ (c = O -> u = [] /\ core = []) /\
    (c <> O -> u <> [] /\ closed (List.last u TEnd) = true /\ exists core' v, core = core' ++ [v] /\ is_value_node v = true) /\
    (is_value_start t = true -> exists v core', core = v :: core' /\ is_value_node v = true /\ (c = 1%nat -> core' = [])) /\
    forall k2 g2 t2 r2, gap g2 -> fin t2 = true -> (List.length (u ++ g2) < k2)%nat -> (List.length u <= N)%nat -> loop_list pv2 k2 (u ++ g2 ++ t2 :: r2) = Ok (core ++ map NTok g2, c, t2, r2)).
  { intros F K. injection K as <- <- <- <-. exists [], [], []. split; [reflexivity|]. split; [left; reflexivity|]. split; [reflexivity|]. split; [exact F|]. split; [auto|]. split; [congruence|].
    split; [intro V; exfalso; destruct t; try discriminate V; discriminate F|]. intros k2 g2 t2 r2 G2 F2 L2 _. apply loop_base; assumption. }
  destruct t; try (apply (Val eq_refl eq_refl H)); try (apply (Base eq_refl H)).
  clear Val Base. destruct ts as [|t1 r1]; [discriminate|]. rewrite next_conf in H. cbn [bind] in H. step H as [[[vs1 c1] t1'] r1'] L. injection H as <- <- <- <-.
  destruct (IH _ _ _ _ _ _ (ndb_tl _ _ D) L) as [u1 [g1 [core1 [E [G [-> [F [C0 [C1 [_ B]]]]]]]]]].
  destruct c1 as [|c1].
  - destruct (C0 eq_refl) as [-> ->]. assert (g1 = []) as ->. { destruct G as [->|[w ->]]; [reflexivity|]. exfalso. cbn [app] in E. rewrite E in D. exact (D [] _ _ _ eq_refl). }
    exists [], [TIgnored text], []. rewrite E. split; [reflexivity|]. split; [right; eauto|]. split; [reflexivity|]. split; [exact F|]. split; [auto|]. split; [congruence|]. split; [discriminate|].
    intros k2 g2 t2 r2 G2 F2 L2 _. apply loop_base; assumption.
  - destruct (C1 ltac:(discriminate)) as [U [Cu [core' [v' [-> V']]]]]. exists (TIgnored text :: u1), g1, (NTok (TIgnored text) :: core' ++ [v']). rewrite E. split; [reflexivity|]. split; [exact G|]. split; [reflexivity|]. split; [exact F|]. split; [discriminate|]. split.
    + intros _. split; [discriminate|]. split; [change (TIgnored text :: u1) with ([TIgnored text] ++ u1); rewrite last_app by exact U; exact Cu|]. exists (NTok (TIgnored text) :: core'), v'. split; [reflexivity|exact V'].
    + split; [discriminate|]. intros k2 g2 t2 r2 G2 F2 L2 LN. destruct k2 as [|k2]; [cbn in L2; lia|]. cbn [app loop_list consolidate_loop]. cbn [app List.length] in L2, LN. rewrite app_length in L2.
      assert (B' := B k2 g2 t2 r2 G2 F2). rewrite app_length in B'. specialize (B' ltac:(clear -L2; lia) ltac:(clear -LN; lia)). unfold loop_list in B'. destruct (u1 ++ g2 ++ t2 :: r2) as [|x xs] eqn:Ex; [discriminate|]. rewrite next_conf. cbn [bind]. rewrite B'. reflexivity.
Qed.

Lemma single_gap : forall v X g, is_value_node v = true -> gap g -> single_value None X (v :: map NTok g) = Ok ([], Some v, g ++ X).
Proof. intros v X g V [->|[w ->]]; cbn [map single_value]; rewrite V; reflexivity. Qed.
Lemma put_back_gap : forall core v X g, is_value_node v = true -> gap g -> put_back_trailing (rev ((core ++ [v]) ++ map NTok g)) X = (core ++ [v], g ++ X).
Proof.
  intros core v X g V G. assert (B : put_back_trailing (rev (core ++ [v])) (g ++ X) = (core ++ [v], g ++ X)).
  { rewrite rev_unit. destruct v; try discriminate V; cbn [put_back_trailing rev]; rewrite rev_involutive; reflexivity. }
  destruct G as [->|[w ->]]; cbn [map]; [rewrite app_nil_r; exact B|]. rewrite rev_unit. cbn [put_back_trailing]. exact B.
Qed.
(** A value, or a concatenation of values. *)
Lemma consolidate_frame : forall ts ns v r, no_double_blank ts -> consolidate_values pv CONF LEnd ts = Ok (ns, v, r) ->
  match v with
  | Some n => exists u0 u, ts = u0 ++ u ++ r /\ flat_map node_tokens ns = u0 /\ u <> [] /\ solid (hd TEnd u) = true /\ is_comment (hd TEnd u) = false /\ hd TEnd u <> TNewline /\ closed (List.last u TEnd) = true /\ is_value_node n = true /\ stop r /\
      (forall r2, stop r2 -> (List.length u <= N)%nat -> consolidate_values pv2 CONF LEnd (u0 ++ u ++ r2) = Ok (ns, v, r2)) /\
      (forall r2, stop r2 -> (List.length u <= N)%nat -> consolidate_values pv2 CONF LEnd (u ++ r2) = Ok ([], v, r2))
  | None => exists t r', r = t :: r' /\ ts = flat_map node_tokens ns ++ r /\ fin t = true /\ is_comment t = false /\ t <> TNewline /\ forall r2, consolidate_values pv2 CONF LEnd (flat_map node_tokens ns ++ t :: r2) = Ok (ns, None, t :: r2)
  end.
Proof.
  intros ts ns v r D H. cbn [consolidate_values] in H. step H as [[nodes t] r0] C. destruct (collect_frame _ _ _ _ C) as [u0 [-> [T0 [S [Cm [Nl A]]]]]].
  step H as [[[values count] t'] r'] L. destruct (loop_frame _ _ _ _ _ _ _ (ndb_suffix _ _ D) L) as [u [g [core [E [G [-> [F [C0 [C1 [Cv B]]]]]]]]]].
  destruct (is_value_start t) eqn:Vs.
  - destruct (Cv eq_refl) as [v0 [core0 [-> [V0 C1']]]]. assert (Cn : count <> O) by (intros ->; destruct (C0 eq_refl) as [_ X]; discriminate).
    destruct (C1 Cn) as [U [Cl [core' [v' [Ec V']]]]]. destruct u as [|x u]; [congruence|]. cbn [app] in E. injection E as <- Er.
    assert (Ht : forall r2, stop r2 -> exists g2 t2 r2', r2 = g2 ++ t2 :: r2' /\ gap g2 /\ fin t2 = true) by (intros; apply stop_inv; assumption).
    assert (Fin : forall p w X g2, ((v0 :: core0) ++ map NTok g2, count) = (w, p) -> gap g2 ->
       (if (p <? 2)%nat then '(before, v, r'') <- single_value None X w ;; Ok (before, v, r'') else let '(values', r'') := put_back_trailing (rev w) X in Ok ([], Some (NConcat values'), r'')) = Ok ([], Some (if (count <? 2)%nat then v0 else NConcat (v0 :: core0)), g2 ++ X)).
    { intros p w X g2 Q G2. injection Q as <- <-. destruct (Nat.ltb_spec count 2) as [Lt|Ge].
      - rewrite C1' by lia. cbn [app]. rewrite single_gap by assumption. reflexivity.
      - change (v0 :: core0 ++ map NTok g2) with ((v0 :: core0) ++ map NTok g2). rewrite Ec. rewrite put_back_gap by assumption. reflexivity. }
    assert (Res : ns = nodes /\ v = Some (if (count <? 2)%nat then v0 else NConcat (v0 :: core0)) /\ r = g ++ t' :: r').
    { specialize (Fin count _ (t' :: r') g eq_refl G). destruct (count <? 2)%nat.
      - step Fin as [[b1 v1] r1] Sv. rewrite Sv in H. cbn [bind] in H. injection Fin as -> -> ->. injection H as <- <- <-. rewrite app_nil_r. auto.
      - destruct (put_back_trailing _ _) as [w X]. injection Fin as Fw ->. injection H as <- <- <-. rewrite Fw. auto. }
    destruct Res as [-> [-> ->]]. exists u0, (t :: u).
    assert (Any : forall p r2, (forall z, collect CONF LEnd (p ++ t :: z) = Ok ((if match p with [] => true | _ => false end then [] else nodes), t, z)) -> stop r2 -> (List.length (t :: u) <= N)%nat ->
       consolidate_values pv2 CONF LEnd (p ++ (t :: u) ++ r2) = Ok ((if match p with [] => true | _ => false end then [] else nodes), Some (if (count <? 2)%nat then v0 else NConcat (v0 :: core0)), r2)).
    { intros p r2 Cp St LN. destruct (Ht r2 St) as [g2 [t2 [r2' [-> [G2 F2]]]]]. cbn [consolidate_values app]. rewrite Cp. cbn [bind].
      assert (B' := B (Datatypes.S (List.length (u ++ g2 ++ t2 :: r2'))) g2 t2 r2' G2 F2). cbn [app] in B'. cbn [loop_list] in B'. rewrite B'; [|clear; cbn [List.length]; rewrite !app_length; cbn [List.length]; lia|exact LN]. cbn [bind].
      specialize (Fin count _ (t2 :: r2') g2 eq_refl G2). cbn [app] in Fin. destruct (count <? 2)%nat.
      - step Fin as [[b1 v1] r1] Sv. rewrite Sv. cbn [bind]. injection Fin as -> -> ->. rewrite app_nil_r. reflexivity.
      - match type of Fin with context [put_back_trailing ?a ?b] => destruct (put_back_trailing a b) as [w X] eqn:Pb end. injection Fin as -> ->. reflexivity. }
    split; [rewrite Er; reflexivity|]. split; [exact T0|]. split; [discriminate|]. split; [exact S|]. split; [exact Cm|]. split; [exact Nl|]. split; [exact Cl|]. split; [destruct (count <? 2)%nat; [exact V0|reflexivity]|]. split; [apply stop_gap; assumption|]. split.
    + intros r2 St LN. destruct u0 as [|z u0]; [|apply (Any (z :: u0) r2); [exact A|exact St|exact LN]].
      assert (nodes = []) as -> by (generalize (A []); cbn [app]; rewrite (collect_solid t [] S Cm Nl); intro Q; injection Q as <-; reflexivity).
      apply (Any [] r2); [exact A|exact St|exact LN].
    + intros r2 St LN. apply (Any [] r2); [|exact St|exact LN]. intro z. apply collect_solid; assumption.
  - assert (Ft : fin t = true) by (destruct t; try discriminate S; try reflexivity; discriminate Vs).
    assert (Z : count = O /\ core = [] /\ g = [] /\ t' = t /\ r' = r0 /\ u = []).
    { cbn [consolidate_loop] in L. destruct t; try discriminate Ft; injection L as L1 <- <- <-; destruct (C0 eq_refl) as [-> ->]; cbn [app] in L1; destruct g; try discriminate L1; repeat split. }
    destruct Z as [-> [-> [-> [-> [-> ->]]]]]. cbn [Nat.ltb Nat.leb app map] in H. cbn in H. injection H as <- <- <-. rewrite app_nil_r.
    exists t, r0. split; [reflexivity|]. rewrite T0. split; [reflexivity|]. split; [exact Ft|]. split; [exact Cm|]. split; [exact Nl|]. intro r2. cbn [consolidate_values]. rewrite A. cbn [bind].
    pose proof (loop_base pv2 (Datatypes.S (List.length r2)) [] t r2 (or_introl eq_refl) Ft) as Lb. cbn [app loop_list] in Lb. rewrite Lb by (cbn; lia). cbn. rewrite app_nil_r. reflexivity.
Qed.

(** A value that is not a concatenation was read alone. *)
Lemma consolidate_single : forall ts ns n r, no_double_blank ts -> consolidate_values pv CONF LEnd ts = Ok (ns, Some n, r) -> (forall cs, n <> NConcat cs) ->
  exists t r0, ts = flat_map node_tokens ns ++ t :: r0 /\ pv t r0 = Ok (n, r) /\ is_value_start t = true.
Proof.
  intros ts ns n r D H NC. cbn [consolidate_values] in H. step H as [[nodes t] r0] C. destruct (collect_frame _ _ _ _ C) as [u0 [-> [T0 [S [Cm [Nl A]]]]]].
  step H as [[[values count] t'] r'] L. destruct (loop_frame _ _ _ _ _ _ _ (ndb_suffix _ _ D) L) as [u [g [core [E [G [Ev [F [C0 [C1 [Cv _]]]]]]]]]]. subst values.
  destruct (count <? 2)%nat eqn:Lt; [|destruct (put_back_trailing _ _) as [w X]; injection H as _ <- _; destruct (NC w eq_refl)].
  step H as [[before v] r''] Sv. injection H as <- -> ->. destruct (is_value_start t) eqn:Vs.
  - destruct (Cv eq_refl) as [v0 [core0 [-> [V0 C1']]]]. destruct count as [|count]; [destruct (C0 eq_refl) as [_ X]; discriminate|]. apply Nat.ltb_lt in Lt. assert (count = O) as -> by (clear -Lt; lia). rewrite C1' in * by reflexivity. cbn [app] in Sv. rewrite single_gap in Sv by assumption. injection Sv as <- <- <-. rewrite app_nil_r.
    exists t, r0. rewrite T0. split; [reflexivity|]. split; [|exact Vs]. cbn [consolidate_loop] in L.
    assert (K : ('(v, r) <- pv t r0 ;; '(t', r') <- next_token CONF LEnd r ;; '(vs, c, t'', r'') <- consolidate_loop pv CONF LEnd (List.length r0) t' r' ;; Ok (v :: vs, Datatypes.S c, t'', r'')) = Ok ([v0] ++ map NTok g, 1%nat, t', r')) by (destruct t; try discriminate Vs; exact L).
    clear L. step K as [v1 r1] P. destruct (Hpv _ _ _ _ (ndb_suffix _ _ D) P) as [uv [-> _]]. destruct r1 as [|t1 r1]; [discriminate|]. rewrite next_conf in K. cbn [bind] in K. step K as [[[vs1 c1] t1'] r1'] L. cbn [app] in K. injection K as -> Evs -> -> ->. rewrite P. do 2 f_equal.
    destruct (loop_frame _ _ _ _ _ _ _ (ndb_suffix (t :: uv) _ (ndb_suffix _ _ D)) L) as [u1 [g1 [core1 [E1 [G1 [Ev1 [F1 [C01 _]]]]]]]]. destruct (C01 eq_refl) as [-> ->]. cbn [app] in Ev1, E1. rewrite E1. f_equal. rewrite Ev1 in Evs. clear -Evs.
    revert g Evs. induction g1 as [|x g1 IH]; intros [|y g] Q; try discriminate Q; [reflexivity|]. cbn [map] in Q. injection Q as -> Q. f_equal. apply IH, Q.
  - exfalso. assert (Ft : fin t = true) by (destruct t; try discriminate S; try reflexivity; discriminate Vs).
    cbn [consolidate_loop] in L. destruct t; try discriminate Ft; injection L as L1 <- _ _; rewrite <- L1 in Sv; discriminate Sv.
Qed.

(** ** Fields *)
Definition keyish (t : token) : bool := match t with TValue _ _ | TUnquoted _ => true | _ => false end.
Definition key_list (ts : list token) : result (list token * list token) := match ts with t :: r => key_tokens CONF LEnd t r | [] => Stuck UFuel end.
Lemma key_all : forall ks t2 r2, Forall (fun t => keyish t = true) ks -> keyish t2 = false -> key_list (ks ++ t2 :: r2) = Ok (ks, t2 :: r2).
Proof.
  induction ks as [|k ks IH]; intros t2 r2 F K; cbn [app key_list].
  - destruct t2; try discriminate K; destruct r2; reflexivity.
  - inversion F as [|? ? Fk F']; subst. specialize (IH t2 r2 F' K). unfold key_list in IH. destruct (ks ++ t2 :: r2) as [|x xs] eqn:E; [destruct ks; discriminate|].
    cbn [key_tokens]. destruct k; try discriminate Fk; change (json_forbids CONF x) with false; cbv iota; rewrite IH; reflexivity.
Qed.
Lemma key_parts : forall ts t ks r, key_tokens CONF LEnd t ts = Ok (ks, r) -> t :: ts = ks ++ r /\ Forall (fun t => keyish t = true) ks /\ exists t' r', r = t' :: r' /\ keyish t' = false.
Proof.
  induction ts as [|x ts IH]; intros t ks r H.
  - destruct (keyish t) eqn:K; [destruct t; try discriminate K; discriminate H|]. destruct t; try discriminate K; injection H as <- <-; (split; [reflexivity|]; split; [constructor|eauto]).
  - destruct (keyish t) eqn:K.
    + assert (H' : ('(ks, r') <- key_tokens CONF LEnd x ts ;; Ok (t :: ks, r')) = Ok (ks, r)) by (destruct t; try discriminate K; exact H). clear H. step H' as [ks' r'] Q. injection H' as <- <-. destruct (IH _ _ _ Q) as [E [F R]]. rewrite E. split; [reflexivity|]. split; [constructor; assumption|exact R].
    + destruct t; try discriminate K; injection H as <- <-; (split; [reflexivity|]; split; [constructor|eauto]).
Qed.
Definition keys_with (pn : path_node) (keys : list str) : list str :=
  if existsb (str_eqb (hd [] (fst pn))) keys && match fst pn with [_] => true | _ => false end then keys else hd [] (fst pn) :: keys.
Lemma field_parts : forall keys t ts n keys' r, no_double_blank (t :: ts) -> parse_field pv CONF LEnd keys t ts = Ok (n, keys', r) ->
  exists ks pn ws, Forall (fun t => keyish t = true) ks /\ hd TEnd ks = t /\ ks <> [] /\ parse_path_expression false CONF ks LEnd = Ok pn /\ fst pn <> [] /\ keys' = keys_with pn keys /\
  ((exists uv v, n = NField (NPath pn :: ws ++ [v]) /\ t :: ts = ks ++ flat_map node_tokens ws ++ TOpenCurly :: uv ++ r /\ pv TOpenCurly (uv ++ r) = Ok (v, r) /\ is_value_node v = true /\
      forall k2 r2, (List.length uv < N)%nat -> parse_field pv2 CONF LEnd k2 t (tl ks ++ flat_map node_tokens ws ++ TOpenCurly :: uv ++ r2) = Ok (n, keys_with pn k2, r2)) \/
   (exists sep ns u v, is_key_value_separator CONF sep = true /\ n = NField (NPath pn :: ws ++ NTok sep :: ns ++ [v]) /\ t :: ts = ks ++ flat_map node_tokens ws ++ sep :: flat_map node_tokens ns ++ u ++ r /\
      consolidate_values pv CONF LEnd (flat_map node_tokens ns ++ u ++ r) = Ok (ns, Some v, r) /\ u <> [] /\ stop r /\ solid (hd TEnd u) = true /\ is_comment (hd TEnd u) = false /\ hd TEnd u <> TNewline /\ closed (List.last u TEnd) = true /\ is_value_node v = true /\
      (forall r2, stop r2 -> (List.length u <= N)%nat -> consolidate_values pv2 CONF LEnd (u ++ r2) = Ok ([], Some v, r2)) /\
      forall k2 r2, stop r2 -> (List.length u <= N)%nat -> parse_field pv2 CONF LEnd k2 t (tl ks ++ flat_map node_tokens ws ++ sep :: flat_map node_tokens ns ++ u ++ r2) = Ok (n, keys_with pn k2, r2))).
Proof.
  intros keys t ts n keys' r D H. unfold parse_field in H. step H as [pn r1] K. cbn [parse_key] in K. step K as [ks r1'] Kt. destruct (key_parts _ _ _ _ Kt) as [E [Fk [t' [r' [-> Kl]]]]].
  destruct ks as [|k ks]; [discriminate|]. step K as pn' Pp. injection K as -> <-. cbn [app] in E. injection E as -> ->.
  step H as [[ws after_key] r2] C. destruct (collect_frame _ _ _ _ C) as [uw [Ew [Tw [Sw [Cw [Nw Aw]]]]]].
  assert (Ka : keyish after_key = false \/ True) by auto.
  change (k :: ks ++ t' :: r') with ((k :: ks) ++ t' :: r') in D. rewrite Ew in D.
  step H as [nodes r3] Hn.
  assert (Key : fst pn <> []) by (intro Z; rewrite Z in H; discriminate H).
  assert (Done : forall (k2 : list str) (n2 : node) (r4 : list token), (match fst pn with [] => Stuck UNullDeref | [key] => if existsb (str_eqb key) k2 then Ok (n2, k2, r4) else Ok (n2, key :: k2, r4) | key :: _ => Ok (n2, key :: k2, r4) end) =
     Ok (n2, keys_with pn k2, r4)).
  { intros k2 n2 r4. unfold keys_with. destruct (fst pn) as [|key [|key2 rest]]; [congruence| |]; cbn [hd]; [|rewrite andb_false_r; reflexivity]. destruct (existsb (str_eqb key) k2); reflexivity. }
  assert (En : n = NField (NPath pn :: nodes) /\ r = r3 /\ keys' = keys_with pn keys).
  { cbn [is_json] in H. rewrite Done in H. injection H as <- <- <-. auto. }
  destruct En as [-> [-> ->]]. clear H.
  assert (Kp : forall z, keyish (hd TEnd (uw ++ after_key :: z)) = false).
  { intro z. destruct uw as [|x uw]; cbn [app] in *; injection Ew as -> _; exact Kl. }
  assert (Pk : forall z, parse_key CONF LEnd k (ks ++ uw ++ after_key :: z) = Ok (pn, uw ++ after_key :: z)).
  { intro z. cbn [parse_key]. specialize (Kp z). destruct (uw ++ after_key :: z) as [|x xs] eqn:Ex; [destruct uw; discriminate|]. cbn [hd] in Kp. pose proof (key_all (k :: ks) x xs Fk Kp) as Q. cbn [app key_list] in Q. rewrite Q. cbn [bind]. rewrite Pp. reflexivity. }
  exists (k :: ks), pn, ws. split; [exact Fk|]. split; [reflexivity|]. split; [discriminate|]. split; [exact Pp|]. split; [exact Key|]. split; [reflexivity|]. rewrite Tw. cbn [tl].
  change (negb (is_json CONF)) with true in Hn. cbn [andb] in Hn.
  destruct (match after_key with TOpenCurly => true | _ => false end) eqn:B.
  - left. destruct after_key; try discriminate B. step Hn as [v r5] P. injection Hn as <- <-. destruct (Hpv _ _ _ _ (ndb_suffix uw _ (ndb_suffix _ _ D)) P) as [uv [-> [Vn [_ A]]]]. exists uv, v. split; [reflexivity|]. split; [rewrite Ew; reflexivity|]. split; [exact P|]. split; [exact Vn|].
    intros k2 z LN. unfold parse_field. rewrite Pk. cbn [bind]. rewrite Aw. cbn [bind andb negb is_json]. rewrite A by exact LN. cbn [bind is_json]. apply Done.
  - right. destruct (is_key_value_separator CONF after_key) eqn:Sp; cbn [negb] in Hn; [|discriminate]. step Hn as [[ns next] r4] Cv.
    pose proof (consolidate_frame _ _ _ _ (ndb_tl _ _ (ndb_suffix uw _ (ndb_suffix _ _ D))) Cv) as Fr. destruct next as [v|].
    + injection Hn as <- <-. destruct Fr as [u0 [u [-> [T0 [U [Hs [Hc [Hn [Cl [Vn [St [A1 A2]]]]]]]]]]]]. exists after_key, ns, u, v. rewrite T0. split; [exact Sp|]. split; [reflexivity|]. split; [rewrite Ew; reflexivity|]. split; [exact Cv|]. split; [exact U|]. split; [exact St|]. split; [exact Hs|]. split; [exact Hc|]. split; [exact Hn|]. split; [exact Cl|]. split; [exact Vn|]. split; [exact A2|].
      intros k2 z Sz LN. unfold parse_field. rewrite Pk. cbn [bind]. rewrite Aw. cbn [bind andb negb is_json]. rewrite B, Sp. cbn [negb]. rewrite A1 by assumption. cbn [bind is_json]. apply Done.
    + exfalso. destruct Fr as [t1 [r1' [-> [_ [Ft [Ct [Nt _]]]]]]]. step Hn as [[ws' t1'] r5] C1. rewrite (collect_solid t1 r1' (fin_solid _ Ft) Ct Nt) in C1. injection C1 as <- <- <-. step Hn as [v r6] P.
      apply Hstart in P. destruct t1; try discriminate Ft; discriminate P.
Qed.
End Frames.
