(** What the HOCON parser reads does not depend on what follows: objects and arrays. *)
From Verif Require Import Base BaseLemmas Util_Model Num_Model Path_Model Token_Model Token_Spec Token_Lemmas Token_Lemmas2 PathParser_Model Doc_Model Doc_Lemmas Doc_Lemmas2 Value_Model Json_Lemmas Json_Lemmas2 ConfText_Lemmas ConfText_Lemmas2 ConfText_Lemmas3.

Lemma include_frame : forall t ts n r, parse_include CONF LEnd t ts = Ok (n, r) -> exists u, ts = u ++ r /\ forall r2, parse_include CONF LEnd t (u ++ r2) = Ok (n, r2).
Proof.
  intros t ts n r H. unfold parse_include in H. step H as [[ws1 t1] r1] C1. destruct (collect_frame _ _ _ _ C1) as [u1 [-> [_ [_ [_ [_ A1]]]]]].
  assert (Simple : is_string_value t1 = true -> (if is_string_value t1 then Ok (NInclude (NTok t :: ws1 ++ [NSimple t1]) KHeuristic, r1) else Throw EParse) = Ok (n, r) -> exists u, u1 ++ t1 :: r1 = u ++ r /\ forall r2, parse_include CONF LEnd t (u ++ r2) = Ok (n, r2)).
  { intros S K. rewrite S in K. injection K as <- <-. exists (u1 ++ [t1]). split; [rewrite <- app_assoc; reflexivity|]. intro r2. rewrite <- app_assoc. cbn [app]. unfold parse_include. rewrite A1. cbn [bind]. destruct t1; try discriminate S. rewrite S. reflexivity. }
  destruct t1; try discriminate H; try (destruct (is_string_value _) eqn:S in H; [apply (Simple S); rewrite S; exact H|discriminate]).
  clear Simple. destruct (include_kind_of text) as [kind|] eqn:K; [|discriminate]. step H as [[ws2 t2] r2] C2. destruct (collect_frame _ _ _ _ C2) as [u2 [-> [_ [_ [_ [_ A2]]]]]].
  destruct (negb (is_string_value t2)) eqn:S2; [discriminate|]. step H as [[ws3 t3] r3] C3. destruct (collect_frame _ _ _ _ C3) as [u3 [-> [_ [_ [_ [_ A3]]]]]].
  destruct (negb (str_eqb (token_text t3) (lit ")"))) eqn:S3; [discriminate|]. injection H as <- <-.
  exists (u1 ++ TUnquoted text :: u2 ++ t2 :: u3 ++ [t3]). split; [rewrite <- !app_assoc; cbn [app]; rewrite <- !app_assoc; cbn [app]; rewrite <- !app_assoc; reflexivity|].
  intro z. unfold parse_include. replace ((u1 ++ TUnquoted text :: u2 ++ t2 :: u3 ++ [t3]) ++ z) with (u1 ++ TUnquoted text :: u2 ++ t2 :: u3 ++ t3 :: z) by (rewrite <- !app_assoc; cbn [app]; rewrite <- !app_assoc; cbn [app]; rewrite <- !app_assoc; reflexivity).
  rewrite A1. cbn [bind]. rewrite K, A2. cbn [bind]. rewrite S2, A3. cbn [bind]. rewrite S3. reflexivity.
Qed.
Lemma stop_more : forall a t r r2, stop (a ++ t :: r) -> match t with TIgnored _ => false | _ => true end = true -> stop (a ++ t :: r2).
Proof.
  intros [|x [|y a]] t r r2 S T; cbn [app] in *.
  - destruct t; try discriminate T; exact S.
  - destruct x; exact S.
  - destruct x; exact S.
Qed.
Lemma solid_seen : forall t, solid t = true -> match t with TIgnored _ => false | _ => true end = true.
Proof. intros [] H; try reflexivity. discriminate H. Qed.

Section Frames.
Variables pv pv2 : token -> list token -> result (node * list token).
Variable N : nat.
Hypothesis Hpv : forall t ts n r, no_double_blank (t :: ts) -> pv t ts = Ok (n, r) ->
  exists u, ts = u ++ r /\ is_value_node n = true /\ closed (List.last (t :: u) TEnd) = true /\ forall r2, (List.length u < N)%nat -> pv2 t (u ++ r2) = Ok (n, r2).
Hypothesis Hstart : forall t ts n r, pv t ts = Ok (n, r) -> is_value_start t = true.

(** One member of an object: an include or a field. *)
Definition member (p : token -> list token -> result (node * list token)) (keys : list str) (t : token) (r : list token) : result (node * list str * list token) :=
  if is_include_keyword t then '(inc, r2) <- parse_include CONF LEnd t r ;; Ok (inc, keys, r2) else parse_field p CONF LEnd keys t r.
Lemma member_frame : forall keys t ts n keys' r, no_double_blank (t :: ts) -> member pv keys t ts = Ok (n, keys', r) ->
  exists u, ts = u ++ r /\ forall z, (stop r -> stop z) -> (List.length u < N)%nat -> member pv2 keys t (u ++ z) = Ok (n, keys', z).
Proof.
  intros keys t ts n keys' r D H. unfold member in *. destruct (is_include_keyword t).
  - step H as [inc r2] I. injection H as <- <- <-. destruct (include_frame _ _ _ _ I) as [u [-> A]]. exists u. split; [reflexivity|]. intros z _ _. rewrite A. reflexivity.
  - destruct (field_parts pv pv2 N Hpv Hstart _ _ _ _ _ _ D H) as [ks [pn [ws [Fk [Hk [Nk [Pp [Np [-> Cs]]]]]]]]]. destruct Cs as [Cs|Cs].
    + destruct Cs as [uv [v [En [Et [P [Vn A]]]]]].
      destruct ks as [|k ks]; [congruence|]. cbn [app] in Et. injection Et as -> ->. exists (ks ++ flat_map node_tokens ws ++ TOpenCurly :: uv). split; [rewrite <- !app_assoc; reflexivity|]. intros z _ L. rewrite <- !app_assoc. cbn [app tl] in *. apply A. rewrite !app_length in L. cbn [List.length] in L. lia.
    + destruct Cs as [sep [ns [u [v [Sp [En [Et [Cv [U [St R]]]]]]]]]]. destruct R as [_ [_ [_ [_ [_ [_ A]]]]]].
      destruct ks as [|k ks]; [congruence|]. cbn [app] in Et. injection Et as -> ->. exists (ks ++ flat_map node_tokens ws ++ sep :: flat_map node_tokens ns ++ u). split; [rewrite <- !app_assoc; cbn [app]; rewrite <- !app_assoc; reflexivity|]. intros z Sz L.
      replace ((ks ++ flat_map node_tokens ws ++ sep :: flat_map node_tokens ns ++ u) ++ z) with (ks ++ flat_map node_tokens ws ++ sep :: flat_map node_tokens ns ++ u ++ z) by (rewrite <- !app_assoc; cbn [app]; rewrite <- !app_assoc; reflexivity).
      apply A; [apply Sz, St|]. rewrite !app_length in L. cbn [List.length] in L. rewrite app_length in L. lia.
Qed.
Lemma object_step : forall p k ac keys ts ws t r, collect CONF LEnd ts = Ok (ws, t, r) -> t <> TCloseCurly ->
  object_loop p CONF LEnd (S k) true ac keys ts =
    ('(item, keys', r2) <- member p keys t r ;; '(sn, separated, r3) <- separator_conf false CONF LEnd r2 ;;
     if separated then '(rest, r4) <- object_loop p CONF LEnd k true true keys' r3 ;; Ok (ws ++ item :: sn ++ rest, r4)
     else '(ws2, t2, r4) <- collect CONF LEnd r3 ;; match t2 with TCloseCurly => Ok (ws ++ item :: sn ++ ws2 ++ [NTok t2], r4) | _ => Throw EParse end).
Proof.
  intros p k ac keys ts ws t r C T. cbn [object_loop]. rewrite C. cbn [bind]. unfold member. change (negb (is_json CONF)) with true. cbn [andb].
  destruct t; try reflexivity. congruence.
Qed.
Lemma object_end : forall p k keys ac ts ws r, collect CONF LEnd ts = Ok (ws, TCloseCurly, r) -> object_loop p CONF LEnd (S k) true ac keys ts = Ok (ws ++ [NTok TCloseCurly], r).
Proof. intros p k keys ac ts ws r C. cbn [object_loop]. rewrite C. reflexivity. Qed.

Lemma object_frame : forall k ac keys ts cs r, no_double_blank ts -> object_loop pv CONF LEnd k true ac keys ts = Ok (cs, r) ->
  exists u, ts = u ++ r /\ (exists u', u = u' ++ [TCloseCurly]) /\ forall k2 r2, (List.length u < k2)%nat -> (List.length u <= N)%nat -> object_loop pv2 CONF LEnd k2 true ac keys (u ++ r2) = Ok (cs, r2).
Proof.
  induction k as [|k IH]; intros ac keys ts cs r D H; [discriminate H|].
  destruct (collect CONF LEnd ts) as [[[ws t] r0]|x|x] eqn:C; [|cbn [object_loop] in H; rewrite C in H; discriminate|cbn [object_loop] in H; rewrite C in H; discriminate].
  destruct (collect_frame _ _ _ _ C) as [u0 [-> [T0 [S0 [Cm0 [Nl0 A0]]]]]].
  assert (Dt : t = TCloseCurly \/ t <> TCloseCurly) by (destruct t; (left; reflexivity) || (right; discriminate)). destruct Dt as [->|Nt].
  { rewrite (object_end _ _ _ _ _ _ _ C) in H. injection H as <- <-. exists (u0 ++ [TCloseCurly]). split; [rewrite <- app_assoc; reflexivity|]. split; [eauto|]. intros k2 r2 L _. destruct k2 as [|k2]; [lia|]. rewrite <- app_assoc. cbn [app]. apply object_end, A0. }
  rewrite (object_step _ _ _ _ _ _ _ _ C Nt) in H. step H as [[item keys'] r2] M. destruct (member_frame _ _ _ _ _ _ (ndb_suffix _ _ D) M) as [um [-> Am]].
  step H as [[sn separated] r3] Sp. destruct (sep_frame _ _ _ _ _ Sp) as [us [-> [Ts [Us As]]]]. destruct separated.
  - step H as [rest r4] O. injection H as <- <-.
    destruct (IH _ _ _ _ _ (ndb_suffix us _ (ndb_suffix um _ (ndb_suffix [t] _ (ndb_suffix u0 _ D)))) O) as [ur [-> [[ur' Eu] Ar]]].
    exists (u0 ++ t :: um ++ us ++ ur). split; [rewrite <- !app_assoc; cbn [app]; rewrite <- !app_assoc; reflexivity|]. split; [exists (u0 ++ t :: um ++ us ++ ur'); rewrite Eu, <- !app_assoc; cbn [app]; rewrite <- !app_assoc; reflexivity|].
    intros k2 z L LN. destruct k2 as [|k2]; [lia|]. replace ((u0 ++ t :: um ++ us ++ ur) ++ z) with (u0 ++ t :: um ++ us ++ ur ++ z) by (rewrite <- !app_assoc; cbn [app]; rewrite <- !app_assoc; reflexivity).
    rewrite !app_length in L, LN. cbn [List.length] in L, LN. rewrite !app_length in L, LN.
    rewrite (object_step _ _ _ _ _ _ _ _ (A0 _) Nt). rewrite Am; [cbn [bind]| |lia].
    + assert (Sq : separator_conf false CONF LEnd (us ++ ur ++ z) = Ok (sn, true, ur ++ z)).
      { destruct As as [[_ [_ As]]|[t3 [r3' [E3 [_ [_ [_ As]]]]]]]; [apply As|]. destruct ur as [|y ur]; [destruct ur'; discriminate Eu|]. cbn [app] in *. injection E3 as <- _. apply As. }
      rewrite Sq. cbn [bind]. rewrite Ar by lia. reflexivity.
    + intro St. destruct As as [[_ [[us' ->] _]]|[t3 [r3' [E3 [S3 [_ [_ _]]]]]]].
      * rewrite <- app_assoc in St |- *. cbn [app] in *. eapply stop_more; [exact St|reflexivity].
      * destruct ur as [|y ur]; [destruct ur'; discriminate Eu|]. cbn [app] in *. injection E3 as <- _. eapply stop_more; [exact St|apply solid_seen, S3].
  - step H as [[ws2 t2] r4] C2. assert (t2 = TCloseCurly) as -> by (destruct t2; try discriminate H; reflexivity). injection H as <- <-. destruct (collect_frame _ _ _ _ C2) as [u2 [-> [T2 [S2 [Cm2 [Nl2 A2]]]]]].
    exists (u0 ++ t :: um ++ us ++ u2 ++ [TCloseCurly]). split; [rewrite <- !app_assoc; cbn [app]; rewrite <- !app_assoc; reflexivity|]. split; [exists (u0 ++ t :: um ++ us ++ u2); rewrite <- !app_assoc; cbn [app]; rewrite <- !app_assoc; reflexivity|].
    intros k2 z L LN. destruct k2 as [|k2]; [lia|]. replace ((u0 ++ t :: um ++ us ++ u2 ++ [TCloseCurly]) ++ z) with (u0 ++ t :: um ++ us ++ u2 ++ TCloseCurly :: z) by (rewrite <- !app_assoc; cbn [app]; rewrite <- !app_assoc; reflexivity).
    rewrite !app_length in L, LN. cbn [List.length] in L, LN. rewrite !app_length in L, LN.
    rewrite (object_step _ _ _ _ _ _ _ _ (A0 _) Nt). rewrite Am; [cbn [bind]| |lia].
    + assert (Sq : separator_conf false CONF LEnd (us ++ u2 ++ TCloseCurly :: z) = Ok (sn, false, u2 ++ TCloseCurly :: z)).
      { destruct As as [[As _]|[t3 [r3' [E3 [_ [_ [_ As]]]]]]]; [discriminate|]. destruct u2 as [|y u2]; cbn [app] in *; injection E3 as <- _; apply As. }
      rewrite Sq. cbn [bind]. rewrite A2. reflexivity.
    + intro St. rewrite app_assoc in St |- *. eapply stop_more; [exact St|reflexivity].
Qed.

Lemma square_end : forall p z, forall k, array_loop p CONF LEnd (S k) (TCloseSquare :: z) = Ok ([NTok TCloseSquare], z).
Proof. reflexivity. Qed.
Lemma array_loop_frame : forall k ts cs r, no_double_blank ts -> array_loop pv CONF LEnd k ts = Ok (cs, r) ->
  exists u, ts = u ++ r /\ (exists u', u = u' ++ [TCloseSquare]) /\ forall k2 r2, (List.length u < k2)%nat -> (List.length u <= N)%nat -> array_loop pv2 CONF LEnd k2 (u ++ r2) = Ok (cs, r2).
Proof.
  induction k as [|k IH]; intros ts cs r D H; cbn [array_loop] in H; [discriminate H|]. cbn [check_element_separator] in H.
  step H as [[sn separated] r0] Sp. destruct (sep_frame _ _ _ _ _ Sp) as [us [-> [Ts [Us As]]]]. destruct separated; cbn [negb] in H.
  - step H as [[ns next] r1] Cv. pose proof (consolidate_frame pv pv2 N Hpv _ _ _ _ (ndb_suffix _ _ D) Cv) as Fr. destruct next as [v|].
    + destruct Fr as [u0 [u [-> [T0 [U [Hs [Hc [Hn [Cl [Vn [St [A1 A2]]]]]]]]]]]]. step H as [rest r2] L. injection H as <- <-.
      destruct (IH _ _ _ (ndb_suffix u _ (ndb_suffix u0 _ (ndb_suffix us _ D))) L) as [ur [-> [[ur' Eu] Ar]]].
      exists (us ++ u0 ++ u ++ ur). split; [rewrite <- !app_assoc; reflexivity|]. split; [exists (us ++ u0 ++ u ++ ur'); rewrite Eu, <- !app_assoc; reflexivity|].
      intros k2 z L2 LN. destruct k2 as [|k2]; [lia|]. rewrite <- !app_assoc. rewrite !app_length in L2, LN. cbn [array_loop check_element_separator].
      assert (Lu : (0 < List.length u)%nat) by (destruct u; [congruence|cbn; lia]).
      assert (Sq : separator_conf false CONF LEnd (us ++ u0 ++ u ++ ur ++ z) = Ok (sn, true, u0 ++ u ++ ur ++ z)).
      { destruct As as [[_ [_ As]]|[t3 [r3' [E3 [_ [_ [_ As]]]]]]]; [apply As|]. destruct u as [|x u]; [congruence|]. destruct u0 as [|y u0]; cbn [app] in *; injection E3 as <- _; apply As. }
      rewrite Sq. cbn [bind negb]. rewrite A1; [cbn [bind]| |lia].
      * rewrite Ar by lia. reflexivity.
      * rewrite Eu, <- app_assoc in St |- *. cbn [app] in *. eapply stop_more; [exact St|reflexivity].
    + destruct Fr as [t1 [r1' [-> [-> [Ft [Ct [Nt A]]]]]]]. step H as [[ws t1'] r5] C1. rewrite (collect_solid t1 r1' (fin_solid _ Ft) Ct Nt) in C1. injection C1 as <- <- <-.
      assert (Vs : is_value_start t1 = false) by (destruct t1; try reflexivity; discriminate Ft). rewrite Vs in H. change (negb (is_json CONF)) with true in H. cbn [andb] in H.
      destruct t1; try discriminate H. cbn [app] in H. step H as [rest r3] L. destruct k as [|k]; [discriminate L|]. rewrite square_end in L. injection L as <- <-. injection H as <- <-.
      exists (us ++ flat_map node_tokens ns ++ [TCloseSquare]). split; [rewrite <- !app_assoc; reflexivity|]. split; [exists (us ++ flat_map node_tokens ns); rewrite <- !app_assoc; reflexivity|].
      intros k2 z L2 LN. rewrite !app_length in L2. cbn [List.length] in L2. assert (Lu : (0 < List.length us)%nat) by (destruct us; [discriminate (Us eq_refl)|cbn; lia]). destruct k2 as [|[|k2]]; try lia. rewrite <- !app_assoc. change ([TCloseSquare] ++ z) with (TCloseSquare :: z).
      assert (Sq : separator_conf false CONF LEnd (us ++ flat_map node_tokens ns ++ TCloseSquare :: z) = Ok (sn, true, flat_map node_tokens ns ++ TCloseSquare :: z)).
      { destruct As as [[_ [_ As]]|[t3 [r3' [E3 [_ [_ [_ As]]]]]]]; [apply As|]. destruct (flat_map node_tokens ns) as [|y u0]; cbn [app] in *; injection E3 as <- _; apply As. }
      remember (S k2) as k3 eqn:Ek. cbn [array_loop check_element_separator]. rewrite Sq. cbn [bind negb]. rewrite A. cbn [bind]. rewrite (collect_solid TCloseSquare z) by (reflexivity || discriminate). cbn [bind is_value_start is_json negb andb]. rewrite Ek, square_end. reflexivity.
  - step H as [[ws t] r1] C. assert (t = TCloseSquare) as -> by (destruct t; try discriminate H; reflexivity). injection H as <- <-. destruct (collect_frame _ _ _ _ C) as [u2 [-> [T2 [S2 [Cm2 [Nl2 A2]]]]]].
    exists (us ++ u2 ++ [TCloseSquare]). split; [rewrite <- !app_assoc; reflexivity|]. split; [exists (us ++ u2); rewrite <- !app_assoc; reflexivity|].
    intros k2 z L LN. destruct k2 as [|k2]; [lia|]. rewrite <- !app_assoc. change ([TCloseSquare] ++ z) with (TCloseSquare :: z). cbn [array_loop check_element_separator].
    assert (Sq : separator_conf false CONF LEnd (us ++ u2 ++ TCloseSquare :: z) = Ok (sn, false, u2 ++ TCloseSquare :: z)).
    { destruct As as [[As _]|[t3 [r3' [E3 [_ [_ [_ As]]]]]]]; [discriminate|]. destruct u2 as [|y u2]; cbn [app] in *; injection E3 as <- _; apply As. }
    rewrite Sq. cbn [bind negb]. rewrite A2. reflexivity.
Qed.
Lemma array_frame : forall ts n r, no_double_blank ts -> parse_array pv CONF LEnd ts = Ok (n, r) ->
  exists u, ts = u ++ r /\ (exists u', u = u' ++ [TCloseSquare]) /\ is_value_node n = true /\ forall r2, (List.length u <= N)%nat -> parse_array pv2 CONF LEnd (u ++ r2) = Ok (n, r2).
Proof.
  intros ts n r D H. unfold parse_array in H. step H as [[ns next] r0] Cv. pose proof (consolidate_frame pv pv2 N Hpv _ _ _ _ D Cv) as Fr. step H as [cs r'] K. injection H as <- <-. destruct next as [v|].
  - destruct Fr as [u0 [u [-> [T0 [U [Hs [Hc [Hn [Cl [Vn [St [A1 A2]]]]]]]]]]]]. step K as [rest r1] L. injection K as <- <-. destruct (array_loop_frame _ _ _ _ (ndb_suffix u _ (ndb_suffix u0 _ D)) L) as [ur [-> [[ur' Eu] Ar]]].
    exists (u0 ++ u ++ ur). split; [rewrite <- !app_assoc; reflexivity|]. split; [exists (u0 ++ u ++ ur'); rewrite Eu, <- !app_assoc; reflexivity|]. split; [reflexivity|]. intros z LN. rewrite !app_length in LN. rewrite <- !app_assoc. unfold parse_array. rewrite A1; [cbn [bind]| |lia].
    + rewrite Ar; [reflexivity| |lia]. rewrite app_length. lia.
    + rewrite Eu, <- app_assoc in St |- *. cbn [app] in *. eapply stop_more; [exact St|reflexivity].
  - destruct Fr as [t1 [r1' [-> [-> [Ft [Ct [Nt A]]]]]]]. step K as [[ws t1'] r5] C1. rewrite (collect_solid t1 r1' (fin_solid _ Ft) Ct Nt) in C1. injection C1 as <- <- <-.
    assert (t1 = TCloseSquare) as -> by (destruct t1; try discriminate Ft; try discriminate K; reflexivity). injection K as <- <-.
    exists (flat_map node_tokens ns ++ [TCloseSquare]). split; [rewrite <- !app_assoc; reflexivity|]. split; [eauto|]. split; [reflexivity|]. intros z _. rewrite <- app_assoc. cbn [app]. unfold parse_array. rewrite A. cbn [bind]. rewrite (collect_solid TCloseSquare z) by (reflexivity || discriminate). reflexivity.
Qed.
End Frames.

Lemma value_starts : forall k t ts n r, parse_value k CONF LEnd t ts = Ok (n, r) -> is_value_start t = true.
Proof. intros [|k] t ts n r H; [discriminate|]. cbn [parse_value] in H. destruct t; try discriminate H; reflexivity. Qed.
(** A value is read the same whatever follows it. *)
Lemma value_frame : forall k t ts n r, no_double_blank (t :: ts) -> parse_value k CONF LEnd t ts = Ok (n, r) ->
  exists u, ts = u ++ r /\ is_value_node n = true /\ closed (List.last (t :: u) TEnd) = true /\ forall k2 r2, (List.length u < k2)%nat -> parse_value k2 CONF LEnd t (u ++ r2) = Ok (n, r2).
Proof.
  induction k as [|k IH]; intros t ts n r D H; cbn [parse_value] in H; [discriminate|].
  assert (Hpv : forall m t ts n r, no_double_blank (t :: ts) -> parse_value k CONF LEnd t ts = Ok (n, r) ->
    exists u, ts = u ++ r /\ is_value_node n = true /\ closed (List.last (t :: u) TEnd) = true /\ forall r2, (List.length u < m)%nat -> parse_value m CONF LEnd t (u ++ r2) = Ok (n, r2)).
  { intros m t0 ts0 n0 r0 D0 H0. destruct (IH _ _ _ _ D0 H0) as [u [E [V [C A]]]]. exists u. split; [exact E|]. split; [exact V|]. split; [exact C|]. intros r2 L. apply A, L. }
  assert (Simple : is_simple_value t = true -> Ok (NSimple t, ts) = Ok (n, r) -> (forall k2 z, parse_value (S k2) CONF LEnd t z = Ok (NSimple t, z)) ->
     exists u, ts = u ++ r /\ is_value_node n = true /\ closed (List.last (t :: u) TEnd) = true /\ forall k2 r2, (List.length u < k2)%nat -> parse_value k2 CONF LEnd t (u ++ r2) = Ok (n, r2)).
  { intros S E Q. injection E as <- <-. exists []. split; [reflexivity|]. split; [reflexivity|]. split; [destruct t; try discriminate S; reflexivity|]. intros [|k2] r2 L; [cbn in L; lia|]. apply Q. }
  destruct t; try discriminate H; try (apply (Simple eq_refl H); reflexivity).
  - unfold parse_object in H. step H as [ns r0] Ob. injection H as <- <-.
    destruct (object_frame _ _ _ (Hpv 0%nat) (value_starts k) _ _ _ _ _ _ (ndb_tl _ _ D) Ob) as [u [-> [[u' Eu] _]]]. exists u. split; [reflexivity|]. split; [reflexivity|]. split; [rewrite Eu; change (TOpenCurly :: u' ++ [TCloseCurly]) with ((TOpenCurly :: u') ++ [TCloseCurly]); rewrite last_app by discriminate; reflexivity|].
    intros [|k2] r2 L; [lia|]. destruct (object_frame _ _ _ (Hpv k2) (value_starts k) _ _ _ _ _ _ (ndb_tl _ _ D) Ob) as [v [E [_ A]]]. apply app_inv_tail in E. subst v.
    cbn [parse_value]. unfold parse_object. rewrite A; [reflexivity|rewrite app_length; lia|lia].
  - destruct (array_frame _ _ _ (Hpv 0%nat) _ _ _ (ndb_tl _ _ D) H) as [u [-> [[u' Eu] [V _]]]]. exists u. split; [reflexivity|]. split; [exact V|]. split; [rewrite Eu; change (TOpenSquare :: u' ++ [TCloseSquare]) with ((TOpenSquare :: u') ++ [TCloseSquare]); rewrite last_app by discriminate; reflexivity|].
    intros [|k2] r2 L; [lia|]. destruct (array_frame _ _ _ (Hpv k2) _ _ _ (ndb_tl _ _ D) H) as [v [E [_ [_ A]]]]. apply app_inv_tail in E. subst v. cbn [parse_value]. apply A. lia.
Qed.
