(** Adding settings to tidily written objects. *)
From Verif Require Import Base BaseLemmas Util_Model Num_Model Path_Model Path_Spec Path_Lemmas Token_Model PathParser_Model Doc_Model Doc_Lemmas Edit_Model Json_Lemmas2 Edit_Lemmas3 JsonEdit_Lemmas6 ConfEdit_Spec ConfText_Spec ConfText_Lemmas7 ConfText_Lemmas8 ConfText_Lemmas10.

(** ** The new path *)
Section Path.
Variable tk : str -> token.
Definition undotted (t : token) : Prop := match t with TUnquoted s => str_eqb s (lit ".") | _ => false end = false.
Definition sure (k : str) : Prop := undotted (tk k) /\ forall tl, tl = [] \/ tl = [TEnd] -> key_ok ([k], tk k :: tl).
Lemma sure_first : forall k p' f, sure k -> path_node_first (key_node tk (k :: p')) = Ok f -> key_ok f.
Proof.
  intros k p' f [U K] H. unfold path_node_first, key_node in H. cbn [fst snd key_tokens before_period] in H. unfold undotted in U. destruct p' as [|k2 p'].
  - rewrite U in H. cbn in H. injection H as <-. apply K. auto.
  - rewrite U in H. cbn [before_period dot_token] in H. cbn in H. injection H as <-. apply K. auto.
Qed.
Lemma skip_all : forall p c n, Forall sure p -> p <> [] -> (1 <= n <= List.length p)%nat -> forall ts, skip_periods (Z.of_nat c) (Z.of_nat (c + n)) (key_tokens tk p) = Some ts -> (n < List.length p)%nat /\ ts = key_tokens tk (skipn n p).
Proof.
  induction p as [|k p IH]; intros c n F N L ts H; [congruence|]. inversion F as [|? ? [U _] F']; subst. unfold undotted in U. destruct p as [|k2 p].
  - exfalso. cbn [key_tokens skip_periods] in H. rewrite U in H. destruct (Z.of_nat c =? Z.of_nat (c + n)) eqn:E; [apply Z.eqb_eq in E; clear -E L; lia|]. discriminate.
  - change (key_tokens tk (k :: k2 :: p)) with (tk k :: dot_token :: key_tokens tk (k2 :: p)) in H. cbn [skip_periods] in H. rewrite U in H. destruct (Z.of_nat c =? Z.of_nat (c + n)) eqn:E; [apply Z.eqb_eq in E; clear -E L; lia|]. clear E.
    change (match dot_token with TUnquoted s => str_eqb s (lit ".") | _ => false end) with true in H. cbv iota in H.
    replace (Z.of_nat c + 1) with (Z.of_nat (S c)) in H by (clear; lia).
    destruct n as [|n]; [clear -L; lia|]. destruct n as [|n].
    + replace (c + 1)%nat with (S c) in H by (clear; lia). rewrite Z.eqb_refl in H. injection H as <-. split; [cbn; lia|reflexivity].
    + replace (c + S (S n))%nat with (S c + S n)%nat in H by (clear; lia). destruct (Z.of_nat (S c) =? Z.of_nat (S c + S n)) eqn:E; [apply Z.eqb_eq in E; clear -E; lia|].
      destruct (IH (S c) (S n) F' ltac:(discriminate) ltac:(cbn [List.length] in *; clear -L; lia) ts H) as [A B]. split; [cbn [List.length] in *; lia|exact B].
Qed.
Lemma sure_sub : forall p n d, Forall sure p -> p <> [] -> (1 <= n <= List.length p)%nat -> path_node_sub_path (key_node tk p) (Z.of_nat n) = Ok d -> (n < List.length p)%nat /\ d = key_node tk (skipn n p).
Proof.
  intros p n d F N L H. unfold path_node_sub_path, key_node in *. cbn [fst snd] in H. destruct (skip_periods 0 (Z.of_nat n) (key_tokens tk p)) as [ts|] eqn:E; [|discriminate]. injection H as <-.
  destruct (skip_all p 0 n F N L ts E) as [A ->]. split; [exact A|]. rewrite sub_path_spec by exact A. reflexivity.
Qed.
End Path.

(** ** The indentation *)
Definition gaps (cs : list node) : Prop := forall c, In c cs -> is_blank_node c = true -> is_gap c = true.
Lemma goes_gaps : forall cs s b, goes s cs b -> gaps cs.
Proof.
  induction cs as [|c cs IH]; intros s b H x I B; [destruct I|]. apply goes_cons in H. destruct H as [s' [S H]]. destruct I as [->|I]; [|exact (IH _ _ H x I B)].
  destruct x; try discriminate B. destruct t; try discriminate B. destruct s as [p h]. cbn [step] in S. cbn [is_gap]. destruct (blank_text text) eqn:E; [reflexivity|]. exfalso. destruct p; cbn [pass] in S; rewrite ?E in S; discriminate.
Qed.
Lemma blank_more : forall s, s = [] \/ blank_text s = true -> blank_text (s ++ lit "  ") = true.
Proof.
  intros s [->|B]; [reflexivity|]. destruct s as [|c s]; [discriminate|]. cbn [app blank_text] in *. change (c :: s ++ lit "  ") with ((c :: s) ++ lit "  "). rewrite forallb_app, B. reflexivity.
Qed.
Lemma after_newline_in : forall cs rest, after_newline cs = Some rest -> existsb is_newline cs = true /\ forall c, In c rest -> In c cs.
Proof.
  induction cs as [|c cs IH]; intros rest H; [discriminate|]. cbn [after_newline existsb] in *. destruct (is_newline c); [injection H as <-; split; [reflexivity|intros x I; right; exact I]|]. destruct (IH _ H) as [A B]. split; [exact A|]. intros x I. right. apply B, I.
Qed.
Lemma after_newline_none : forall cs, after_newline cs = None -> existsb is_newline cs = false.
Proof. induction cs as [|c cs IH]; intro H; [reflexivity|]. cbn [after_newline existsb] in *. destruct (is_newline c); [discriminate|exact (IH H)]. Qed.
Lemma field_indent_in : forall cs ws, field_indent cs = Some ws -> In ws cs /\ is_blank_node ws = true.
Proof.
  induction cs as [|c rest IH]; intros ws F; [discriminate|]. cbn [field_indent] in F. destruct rest as [|d rest]; [discriminate|].
  assert (K : field_indent (d :: rest) = Some ws -> In ws (c :: d :: rest) /\ is_blank_node ws = true) by (intro K; destruct (IH _ K); split; [right|]; assumption).
  destruct d; try exact (K F); destruct (is_blank_node c) eqn:B; try exact (K F); injection F as <-; split; try exact B; left; reflexivity.
Qed.
Lemma indentation_cases : forall cs indent, gaps cs -> indentation cs = Ok indent ->
  (existsb is_newline cs = false /\ ((cs = [] /\ indent = []) \/ indent = [blank_node (lit " ")])) \/ (existsb is_newline cs = true /\ line_lead indent = true /\ exists L, indent = map NTok L).
Proof.
  intros cs indent G H. destruct cs as [|c cs]; [injection H as <-; left; auto|]. unfold indentation in H. destruct (after_newline (c :: cs)) as [rest|] eqn:A.
  - right. destruct (after_newline_in _ _ A) as [E Sub]. split; [exact E|]. destruct (field_indent rest) as [ws|] eqn:Fi.
    + injection H as <-. destruct (field_indent_in _ _ Fi) as [I B]. pose proof (G _ (Sub _ I) B) as Gw. destruct ws; try discriminate B. cbn [line_lead forallb]. rewrite Gw, orb_true_r. split; [reflexivity|]. exists [TNewline; t]. reflexivity.
    + destruct (rev (c :: cs)) as [|l before] eqn:R; [injection H as <-; split; [reflexivity|exists [TNewline]; reflexivity]|]. destruct (is_close_curly l); [|injection H as <-; split; [reflexivity|exists [TNewline]; reflexivity]].
      destruct before as [|b before]; [discriminate|]. injection H as <-. assert (Ib : In b (c :: cs)) by (apply in_rev; rewrite R; right; left; reflexivity).
      split; [|eexists [TNewline; TIgnored _]; reflexivity]. cbn [line_lead forallb is_newline blank_node is_gap orb]. rewrite andb_true_r. apply blank_more.
      destruct b as [[]| | | | | | | |]; auto. right. exact (G _ Ib eq_refl).
  - left. split; [exact (after_newline_none _ A)|]. right. congruence.
Qed.

(** ** The place of the new field *)
Lemma scan_plain : forall br same new Y Z, (forall c, In c Y -> is_close_curly c = false) -> place_loop false br same new (List.length Y) (Y ++ Z) = Ok (Y ++ Z).
Proof.
  intros br same new Y. induction Y as [|c Y IH] using rev_ind; intros Z N; [reflexivity|]. rewrite app_length. cbn [List.length]. rewrite Nat.add_1_r. cbn [place_loop]. rewrite <- app_assoc. cbn [app]. rewrite nth_middle'. cbn [andb].
  rewrite (N c) by (apply in_or_app; right; left; reflexivity). rewrite andb_false_r. apply IH. intros x I. apply N, in_or_app. left. exact I.
Qed.
Lemma place_begin : forall commas same new X cs', place_loop commas true same new (List.length (NTok TOpenCurly :: X ++ [NTok TCloseCurly])) (NTok TOpenCurly :: X ++ [NTok TCloseCurly]) = Ok cs' ->
  exists Y V, X = Y ++ V /\ place_loop commas true same new (List.length (NTok TOpenCurly :: Y)) (NTok TOpenCurly :: Y ++ new :: V ++ [NTok TCloseCurly]) = Ok cs' /\
    (V = [] \/ (exists w, V = [NTok (TIgnored w)] /\ same = true) \/ (exists V', V = NTok TNewline :: V')).
Proof.
  intros commas same new X cs' H.
  change (NTok TOpenCurly :: X ++ [NTok TCloseCurly]) with ((NTok TOpenCurly :: X) ++ [NTok TCloseCurly]) in H. rewrite app_length in H. cbn [List.length] in H. rewrite Nat.add_1_r in H.
  change (S (List.length X)) with (List.length (NTok TOpenCurly :: X)) in H. cbn [place_loop] in H. rewrite (nth_middle' (NTok TOpenCurly :: X) []) in H. cbn [is_field andb is_close_curly] in H. rewrite andb_false_r in H. cbn [andb] in H.
  assert (Last : place_loop commas true same new (List.length (NTok TOpenCurly :: X)) (insert_at (List.length (NTok TOpenCurly :: X)) new ((NTok TOpenCurly :: X) ++ [NTok TCloseCurly])) = Ok cs' ->
    exists Y V, X = Y ++ V /\ place_loop commas true same new (List.length (NTok TOpenCurly :: Y)) (NTok TOpenCurly :: Y ++ new :: V ++ [NTok TCloseCurly]) = Ok cs' /\
    (V = [] \/ (exists w, V = [NTok (TIgnored w)] /\ same = true) \/ (exists V', V = NTok TNewline :: V'))).
  { intro E. exists X, []. rewrite app_nil_r. split; [reflexivity|]. rewrite insert_middle in E. split; [exact E|auto]. }
  destruct (exists_last_or_nil _ X) as [-> |[X1 [previous ->]]].
  - cbn [List.length nth_error app is_newline is_blank_node] in H. apply Last. exact H.
  - replace (List.length (NTok TOpenCurly :: X1 ++ [previous])) with (S (List.length (NTok TOpenCurly :: X1))) in * by (cbn [List.length]; rewrite app_length; cbn; lia). cbv beta iota in H.
    change (NTok TOpenCurly :: X1 ++ [previous]) with ((NTok TOpenCurly :: X1) ++ [previous]) in *. rewrite <- (app_assoc (NTok TOpenCurly :: X1)) in H. cbn [app] in H.
    change (NTok TOpenCurly :: X1 ++ [previous; NTok TCloseCurly]) with ((NTok TOpenCurly :: X1) ++ previous :: [NTok TCloseCurly]) in H. rewrite nth_middle' in H.
    assert (Last2 := Last). rewrite <- app_assoc in Last2. cbn [app] in Last2.
    destruct (is_newline previous) eqn:N1.
    { exists X1, [previous]. split; [reflexivity|]. rewrite insert_middle in H. split; [exact H|]. right. right. destruct previous as [[]| | | | | | | |]; try discriminate N1. exists []. reflexivity. }
    destruct (is_blank_node previous) eqn:N2; [|exact (Last2 H)].
    destruct (exists_last_or_nil _ X1) as [-> |[X2 [bp ->]]].
    + cbn [List.length nth_error app is_newline is_blank_node] in H. destruct same; [|exact (Last2 H)]. exists [], [previous]. split; [reflexivity|]. split; [exact H|]. right. left. destruct previous as [[]| | | | | | | |]; try discriminate N2. eauto.
    + replace (List.length (NTok TOpenCurly :: X2 ++ [bp])) with (S (List.length (NTok TOpenCurly :: X2))) in * by (cbn [List.length]; rewrite app_length; cbn; lia). cbv beta iota in H.
      destruct (nth_error ((NTok TOpenCurly :: X2 ++ [bp]) ++ [previous; NTok TCloseCurly]) (List.length (NTok TOpenCurly :: X2))) as [bp'|] eqn:Eb; [|discriminate].
      assert (bp' = bp) as -> by (change (NTok TOpenCurly :: X2 ++ [bp]) with ((NTok TOpenCurly :: X2) ++ [bp]) in Eb; rewrite <- app_assoc in Eb; cbn [app] in Eb; change (NTok TOpenCurly :: X2 ++ bp :: [previous; NTok TCloseCurly]) with ((NTok TOpenCurly :: X2) ++ bp :: [previous; NTok TCloseCurly]) in Eb; rewrite nth_middle' in Eb; congruence).
      clear Eb. destruct same.
      { exists (X2 ++ [bp]), [previous]. split; [reflexivity|].
        replace (S (List.length (NTok TOpenCurly :: X2))) with (List.length (NTok TOpenCurly :: X2 ++ [bp])) in H by (cbn [List.length]; rewrite app_length; cbn; lia). rewrite insert_middle in H. split; [exact H|]. right. left. destruct previous as [[]| | | | | | | |]; try discriminate N2. eauto. }
      destruct (is_newline bp) eqn:N3; [|exact (Last2 H)].
      exists X2, [bp; previous]. split; [rewrite <- app_assoc; reflexivity|]. change (NTok TOpenCurly :: X2 ++ [bp]) with ((NTok TOpenCurly :: X2) ++ [bp]) in H. rewrite <- app_assoc, insert_middle in H. split; [exact H|]. right. right.
      destruct bp as [[]| | | | | | | |]; try discriminate N3. eexists. reflexivity.
Qed.

(** On one line: the last field gets a comma if it has none. *)
Definition inline_child (c : node) : bool := one_line_child c && negb (is_newline c).
Lemma behind_field : forall Y s p, walk s Y = Some (Behind, false) -> p = s -> p = (Before, false) -> forallb inline_child Y = true -> exists Y0 fc, Y = Y0 ++ [NField fc] /\ walk s Y0 = Some (Before, false).
Proof.
  intros Y s p H E -> I. subst s. destruct (exists_last_or_nil _ Y) as [->|[Y0 [c ->]]]; [discriminate H|]. rewrite walk_app in H. destruct (walk (Before, false) Y0) as [[q h]|] eqn:W; [|discriminate]. cbn [walk] in H.
  destruct (step (q, h) c) as [s'|] eqn:S; [|discriminate]. injection H as ->. rewrite forallb_app in I. apply andb_true_iff in I. destruct I as [_ I]. cbn [forallb] in I. rewrite andb_true_r in I. unfold inline_child in I. apply andb_true_iff in I. destruct I as [O N].
  cbn [step] in S. destruct c; try discriminate S; try discriminate O.
  - exfalso. destruct q, t; try discriminate S; cbn [pass] in S; try (destruct (blank_text text)); destruct h; discriminate S.
  - exists Y0, children. split; [reflexivity|]. cbn [one_line_child] in O. destruct (line_lead (lead_of children)); [discriminate|]. destruct (inline_lead (lead_of children) && negb h) eqn:L; [|destruct q; discriminate S]. apply andb_true_iff in L. destruct L as [_ L]. destruct h; [discriminate|]. destruct q; try discriminate S. exact W.
Qed.
Lemma walk_snoc : forall Y c s s1 s2, walk s Y = Some s1 -> step s1 c = Some s2 -> walk s (Y ++ [c]) = Some s2.
Proof. intros Y c s s1 s2 A B. rewrite walk_app, A. cbn [walk]. rewrite B. reflexivity. Qed.
Lemma scan_same : forall m br new P Y Z s, (List.length Y < m)%nat -> (forall c, In c P -> is_field c = false /\ is_close_curly c = false) -> walk (Before, false) Y = Some s -> closes s = false -> forallb inline_child Y = true ->
  match Z with z :: _ => is_comma z = false | [] => True end ->
  exists Y2, place_loop true br true new (List.length (P ++ Y)) (P ++ Y ++ Z) = Ok (P ++ Y2 ++ Z) /\ walk (Before, false) Y2 = Some (Before, false) /\ (forall c, In c Y2 -> In c Y \/ c = NTok TComma).
Proof.
  induction m as [|m IH]; intros br new P Y Z s Lm HP W C I HZ; [lia|]. destruct (exists_last_or_nil _ Y) as [->|[Y0 [c ->]]].
  - exists []. rewrite app_nil_r. cbn [app]. split; [|split; [reflexivity|intros c []]]. clear -HP. revert Z. induction P as [|c P IH] using rev_ind; intro Z; [reflexivity|]. rewrite app_length. cbn [List.length]. rewrite Nat.add_1_r. cbn [place_loop]. rewrite <- app_assoc. cbn [app]. rewrite nth_middle'.
    destruct (HP c) as [A B]; [apply in_or_app; right; left; reflexivity|]. rewrite A, B. cbn [andb]. rewrite andb_false_r. apply IH. intros x X. apply HP, in_or_app. left. exact X.
  - rewrite walk_app in W. destruct (walk (Before, false) Y0) as [[q h]|] eqn:W0; [|discriminate]. cbn [walk] in W. destruct (step (q, h) c) as [s'|] eqn:S; [|discriminate]. injection W as ->.
    rewrite forallb_app in I. apply andb_true_iff in I. destruct I as [I0 I]. cbn [forallb] in I. rewrite andb_true_r in I. unfold inline_child in I. apply andb_true_iff in I. destruct I as [O N].
    rewrite app_length in Lm. cbn [List.length] in Lm.
    assert (Len : List.length (P ++ Y0 ++ [c]) = Datatypes.S (List.length (P ++ Y0))) by (rewrite !app_length; cbn; clear; lia). rewrite Len. clear Len. cbn [place_loop].
    replace (P ++ (Y0 ++ [c]) ++ Z) with ((P ++ Y0) ++ c :: Z) by (rewrite <- !app_assoc; reflexivity). rewrite nth_middle'.
    assert (Cq : q <> Closed) by (intros ->; cbn [step] in S; destruct c; try discriminate S; destruct t; try discriminate S; destruct h; discriminate S).
    assert (Next : nth_error ((P ++ Y0) ++ c :: Z) (Datatypes.S (List.length (P ++ Y0))) = nth_error Z 0) by (rewrite nth_error_app2 by (clear; lia); replace (Datatypes.S (List.length (P ++ Y0)) - List.length (P ++ Y0))%nat with 1%nat by (clear; lia); reflexivity).
    cbn [step] in S. destruct c as [t|t|p|t|fc|x k|x|x|x]; try discriminate S; try discriminate O.
    + assert (K : (exists w, t = TIgnored w /\ blank_text w = true) \/ (t = TComma /\ q = Behind /\ h = false)).
      { destruct t; try discriminate N; try discriminate S; try (destruct q; discriminate S).
        - right. destruct q; try discriminate S. destruct h; [discriminate|]. auto.
        - exfalso. destruct q; cbn [pass] in S; try discriminate S; destruct h; injection S as <-; discriminate C.
        - left. exists text. split; [reflexivity|]. destruct (blank_text text) eqn:E; [reflexivity|]. destruct q; cbn [pass] in S; rewrite ?E in S; discriminate S. }
      destruct K as [[w [-> Bw]]|[-> [-> ->]]].
      * cbn [is_field andb is_close_curly]. rewrite andb_false_r. destruct (IH br new P Y0 (NTok (TIgnored w) :: Z) (q, h)) as [Y2 [E [W2 In2]]]; auto; [clear -Lm; lia|destruct q; try reflexivity; congruence|].
        exists (Y2 ++ [NTok (TIgnored w)]). rewrite <- app_assoc. rewrite E. split; [rewrite <- app_assoc; reflexivity|]. split; [apply (walk_snoc _ _ _ _ _ W2); cbn [step pass]; rewrite Bw; reflexivity|].
        intros x X. apply in_app_or in X. destruct X as [X|[<-|[]]]; [|left; apply in_or_app; right; left; reflexivity]. destruct (In2 _ X) as [X'|X']; [left; apply in_or_app; left; exact X'|right; exact X'].
      * cbn [is_field andb is_close_curly]. rewrite andb_false_r. destruct (behind_field Y0 _ _ W0 eq_refl eq_refl I0) as [Y1 [fc [-> W1]]]. rewrite forallb_app in I0. apply andb_true_iff in I0. destruct I0 as [I1 _].
        assert (Len : List.length (P ++ Y1 ++ [NField fc]) = Datatypes.S (List.length (P ++ Y1))) by (rewrite !app_length; cbn; clear; lia). rewrite Len. clear Len. cbn [place_loop].
        replace ((P ++ Y1 ++ [NField fc]) ++ NTok TComma :: Z) with ((P ++ Y1) ++ NField fc :: NTok TComma :: Z) by (rewrite <- !app_assoc; reflexivity). rewrite nth_middle'.
        assert (Nx : nth_error ((P ++ Y1) ++ NField fc :: NTok TComma :: Z) (Datatypes.S (List.length (P ++ Y1))) = Some (NTok TComma)) by (rewrite nth_error_app2 by (clear; lia); replace (Datatypes.S (List.length (P ++ Y1)) - List.length (P ++ Y1))%nat with 1%nat by (clear; lia); reflexivity).
        rewrite Nx. cbn [is_field is_comma negb andb is_close_curly]. rewrite andb_false_r. rewrite app_length in Lm. cbn [List.length] in Lm.
        destruct (IH br new P Y1 (NField fc :: NTok TComma :: Z) (Before, false)) as [Y2 [E [W2 In2]]]; auto; [clear -Lm; lia|].
        exists (Y2 ++ [NField fc; NTok TComma]). rewrite <- app_assoc. rewrite E. split; [rewrite <- app_assoc; reflexivity|].
        assert (St : step (Before, false) (NField fc) = Some (Behind, false)) by (pose proof W0 as W0'; rewrite walk_app, W1 in W0'; cbn [walk] in W0'; destruct (step (Before, false) (NField fc)); [exact W0'|discriminate]).
        split; [rewrite walk_app, W2; cbn [walk]; rewrite St; reflexivity|].
        intros x X. apply in_app_or in X. destruct X as [X|[<-|[<-|[]]]]; [|left; apply in_or_app; left; apply in_or_app; right; left; reflexivity|right; reflexivity]. destruct (In2 _ X) as [X'|X']; [left; apply in_or_app; left; apply in_or_app; left; exact X'|right; exact X'].
    + rewrite Next. assert (Nc : match nth_error Z 0 with None => true | Some next => negb (is_comma next) end = true) by (destruct Z as [|z Z]; [reflexivity|cbn [nth_error]; rewrite HZ; reflexivity]). rewrite Nc. cbn [is_field andb].
      replace (Datatypes.S (List.length (P ++ Y0))) with (List.length (P ++ Y0 ++ [NField fc])) by (rewrite !app_length; cbn; clear; lia). replace ((P ++ Y0) ++ NField fc :: Z) with ((P ++ Y0 ++ [NField fc]) ++ Z) by (rewrite <- !app_assoc; reflexivity). rewrite insert_middle.
      exists (Y0 ++ [NField fc; NTok TComma]). split; [rewrite <- !app_assoc; reflexivity|]. cbn [one_line_child] in O. destruct (line_lead (lead_of fc)) eqn:LL; [discriminate|].
      assert (Sp : step (q, h) (NField fc) = Some (Behind, false) /\ q = Before /\ h = false) by (cbn [step]; rewrite LL; destruct (inline_lead (lead_of fc) && negb h) eqn:X; [|destruct q; discriminate S]; apply andb_true_iff in X; destruct X as [_ X]; destruct h; [discriminate|]; destruct q; try discriminate S; auto).
      destruct Sp as [Sp [-> ->]]. split; [rewrite walk_app, W0; cbn [walk]; rewrite Sp; reflexivity|].
      intros x X. apply in_app_or in X. destruct X as [X|[<-|[<-|[]]]]; [left; apply in_or_app; left; exact X|left; apply in_or_app; right; left; reflexivity|right; reflexivity].
Qed.

(** ** The parts of objects *)
Lemma closes_parts : forall cs s, goes s cs true -> closes s = false -> exists X s', cs = X ++ [NTok TCloseCurly] /\ walk s X = Some s' /\ closes s' = false /\ step s' (NTok TCloseCurly) = Some (Closed, false) /\ forall c, In c X -> is_close_curly c = false.
Proof.
  induction cs as [|c cs IH]; intros s G C.
  - destruct G as [e [E X]]. injection E as <-. congruence.
  - apply goes_cons in G. destruct G as [s1 [S G]]. destruct (closes s1) eqn:C1.
    + destruct s1 as [q h1]. destruct q; try discriminate C1. destruct G as [e [W _]]. destruct (walk_closed _ _ _ W) as [-> _]. destruct s as [p h]. cbn [step] in S.
      assert (c = NTok TCloseCurly /\ h1 = false) as [-> ->].
      { destruct c; try discriminate S.
        - destruct t; try discriminate S; destruct (pass p _) as [q|] eqn:Pq; try discriminate S; pose proof (pass_curly _ _ _ Pq) as Z; destruct h; try discriminate S; injection S as -> <-; destruct Z as [_ Z]; specialize (Z eq_refl); try discriminate Z; auto.
        - destruct t; try discriminate S. destruct h; [discriminate|]. destruct (pass p _) as [q|] eqn:Pq; try discriminate S. injection S as -> <-. apply pass_curly in Pq. destruct Pq as [_ Pq]. discriminate (Pq eq_refl).
        - exfalso. destruct (line_lead (lead_of children)); [destruct p; try discriminate S; try discriminate C|]. destruct (inline_lead (lead_of children) && negb h); destruct p; discriminate S. }
      exists [], (p, h). split; [reflexivity|]. split; [reflexivity|]. split; [exact C|]. split; [exact S|intros c []].
    + destruct (IH _ G C1) as [X [s' [-> [W [C2 [S2 N]]]]]]. exists (c :: X), s'. split; [reflexivity|]. split; [cbn [walk]; rewrite S; exact W|]. split; [exact C2|]. split; [exact S2|].
      intros x [<-|I]; [|exact (N _ I)]. destruct c; try reflexivity. destruct t; try reflexivity. exfalso. destruct s as [p h]. cbn [step] in S. destruct (pass p TCloseCurly) as [q|] eqn:Pq; [|discriminate]. apply pass_curly in Pq. destruct Pq as [Pq _]. rewrite (Pq eq_refl) in S. destruct h; injection S as <-; discriminate C1.
Qed.
Lemma open_parts : forall cs s e, walk s cs = Some e -> closes e = false -> forall c, In c cs -> is_close_curly c = false.
Proof.
  induction cs as [|c cs IH]; intros s e W C x I; [destruct I|]. cbn [walk] in W. destruct (step s c) as [s1|] eqn:S; [|discriminate]. destruct I as [<-|I]; [|exact (IH _ _ W C _ I)].
  destruct c; try reflexivity. destruct t; try reflexivity. exfalso. destruct s as [p h]. cbn [step] in S. destruct (pass p TCloseCurly) as [q|] eqn:Pq; [|discriminate]. apply pass_curly in Pq. destruct Pq as [Pq _]. rewrite (Pq eq_refl) in S. destruct h; injection S as <-; destruct (walk_closed _ _ _ W) as [_ ->]; discriminate C.
Qed.
Lemma walk_layout : forall l, forallb (fun c => is_newline c || is_gap c) l = true -> walk (Before, false) l = Some (Before, false).
Proof.
  induction l as [|c l IH]; intro H; [reflexivity|]. cbn [forallb] in H. apply andb_true_iff in H. destruct H as [Hc H]. cbn [walk].
  assert (S : step (Before, false) c = Some (Before, false)) by (destruct c; try discriminate Hc; destruct t; try discriminate Hc; [reflexivity|]; cbn [is_newline is_gap orb] in Hc; cbn [step pass]; rewrite Hc; reflexivity). rewrite S. exact (IH H).
Qed.
Lemma new_field : forall indent f nv, (exists L, indent = map NTok L) -> key_ok f -> tame nv -> field_thing nv = true ->
  let fc := indent ++ [NPath f; blank_node (lit " "); NTok TColon; blank_node (lit " "); nv] in field_ok fc /\ lead_of fc = indent.
Proof.
  intros indent f nv [L ->] K T Th fc. unfold fc. destruct (core_lead L f [blank_node (lit " "); NTok TColon; blank_node (lit " "); nv]) as [A B]. split; [|exact A]. split; [|split].
  - unfold field_shape. rewrite B. cbn. exact Th.
  - intros q I. apply in_app_or in I. destruct I as [I|I]; [apply in_map_iff in I; destruct I as [x [X _]]; discriminate X|]. destruct I as [I|[I|[I|[I|[I|[]]]]]]; try discriminate I; [injection I as <-; exact K|subst nv; discriminate Th].
  - intros v I V. apply in_app_or in I. destruct I as [I|I]; [apply in_map_iff in I; destruct I as [x [<- _]]; discriminate V|]. destruct I as [<-|[<-|[<-|[<-|[<-|[]]]]]]; try discriminate V; exact T.
Qed.
Lemma step_swap : forall s fc fc', lead_of fc' = lead_of fc -> step s (NField fc') = step s (NField fc).
Proof. intros [p h] fc fc' E. cbn [step]. rewrite E. reflexivity. Qed.
Lemma walk_swap : forall A fc fc' B s, lead_of fc' = lead_of fc -> walk s (A ++ NField fc' :: B) = walk s (A ++ NField fc :: B).
Proof. intros A fc fc' B s E. rewrite !walk_app. destruct (walk s A); [|reflexivity]. cbn [walk]. rewrite (step_swap _ _ _ E). reflexivity. Qed.
Lemma lines_swap : forall A fc fc' B, lead_of fc' = lead_of fc -> lines (A ++ NField fc' :: B) = lines (A ++ NField fc :: B).
Proof. intros A fc fc' B E. unfold lines. rewrite !existsb_app, !forallb_app. cbn [existsb forallb is_newline one_line_child]. rewrite E. reflexivity. Qed.
Lemma braced_swap : forall A fc fc' B, lead_of fc' = lead_of fc -> braced (A ++ NField fc' :: B) = braced (A ++ NField fc :: B).
Proof. intros [|a A] fc fc' B E; [reflexivity|]. cbn [app]. destruct a; try reflexivity. destruct t; try reflexivity. cbn [braced]. rewrite (walk_swap _ _ _ _ _ E), (lines_swap _ _ _ _ E). reflexivity. Qed.
Lemma unbraced_swap : forall A fc fc' B, lead_of fc' = lead_of fc -> unbraced (A ++ NField fc' :: B) = unbraced (A ++ NField fc :: B).
Proof. intros A fc fc' B E. unfold unbraced. rewrite (walk_swap _ _ _ _ _ E), (lines_swap _ _ _ _ E). reflexivity. Qed.
Lemma object_gaps : forall cs, braced cs = true \/ unbraced cs = true -> gaps cs /\ forall fc, In (NField fc) cs -> inline_lead (lead_of fc) = true \/ line_lead (lead_of fc) = true.
Proof.
  intros cs [B|B].
  - apply change_closes in B. destruct B as [cs' [-> [G _]]]. split; [intros c [<-|I] X; [discriminate|exact (goes_gaps _ _ _ G c I X)]|]. intros fc [I|I]; [discriminate|exact (goes_lead _ _ _ G fc I)].
  - apply open_closes in B. destruct B as [G _]. split; [exact (goes_gaps _ _ _ G)|exact (goes_lead _ _ _ G)].
Qed.
Lemma hold : forall s c r b fc, goes s (c :: r) b -> c = NTok TNewline \/ c = NTok TCloseCurly -> line_lead (lead_of fc) = true -> goes s (NField fc :: c :: r) b.
Proof.
  intros [p h] c r b fc G C L. pose proof G as G0. apply goes_cons in G. destruct G as [s' [S G]]. apply goes_cons. exists (p, true). split.
  - cbn [step]. rewrite L. destruct p; try reflexivity. destruct C as [-> | ->]; discriminate S.
  - apply goes_cons. exists s'. split; [|exact G]. destruct C as [-> | ->]; cbn [step] in *; destruct (pass p _); try discriminate S; destruct h; exact S.
Qed.
Lemma one_inline : forall cs, existsb is_newline cs = false -> lines cs = true -> forallb inline_child cs = true.
Proof.
  intros cs N L. unfold lines in L. rewrite N in L. cbn [orb] in L. rewrite forallb_forall in *. intros c I. unfold inline_child. rewrite (L _ I). cbn [andb].
  destruct (is_newline c) eqn:E; [|reflexivity]. assert (X : existsb is_newline cs = true) by (apply existsb_exists; eauto). congruence.
Qed.
Lemma inline_all : forall cs, forallb inline_child cs = true -> lines cs = true.
Proof. intros cs H. unfold lines. apply orb_true_iff. right. rewrite forallb_forall in *. intros c I. specialize (H _ I). unfold inline_child in H. apply andb_true_iff in H. tauto. Qed.
Lemma inline_more : forall (a b : list node), (forall c, In c b -> In c a \/ inline_child c = true) -> forallb inline_child a = true -> forallb inline_child b = true.
Proof. intros a b S H. rewrite forallb_forall in *. intros c I. destruct (S c I) as [J|J]; [exact (H _ J)|exact J]. Qed.

Lemma placed_same : forall cs fc cs', braced cs = true -> existsb is_newline cs = false -> inline_lead (lead_of fc) = true -> line_lead (lead_of fc) = false ->
  place_loop true true true (NField fc) (List.length cs) cs = Ok cs' -> braced cs' = true /\ forall c, In c cs' -> In c cs \/ c = NTok TComma \/ c = NField fc.
Proof.
  intros cs fc cs' B N Il Ll H. apply change_closes in B. destruct B as [r [-> [G Ln]]]. destruct (closes_parts _ _ G eq_refl) as [X [s [-> [W [C [S Nc]]]]]].
  cbn [existsb is_newline orb] in N. pose proof (one_inline _ N Ln) as I1. rewrite forallb_app in I1. apply andb_true_iff in I1. destruct I1 as [I1 _].
  destruct (place_begin _ _ _ _ _ H) as [Y [V [-> [P Vs]]]]. rewrite forallb_app in I1. apply andb_true_iff in I1. destruct I1 as [Iy Iv].
  rewrite walk_app in W. destruct (walk (Before, false) Y) as [sy|] eqn:Wy; [|discriminate].
  assert (Cy : closes sy = false).
  { destruct sy as [q h]. destruct q; try reflexivity. exfalso. destruct (walk_closed _ _ _ W) as [_ ->]. discriminate C. }
  assert (V' : V = [] \/ exists w, V = [NTok (TIgnored w)] /\ blank_text w = true).
  { destruct Vs as [->|[[w [-> _]]|[V' ->]]]; [auto| |discriminate Iv]. right. exists w. split; [reflexivity|].
    assert (Gp : gaps [NTok (TIgnored w)]) by (apply (goes_gaps _ sy (closes s)); exists s; auto). exact (Gp _ (or_introl eq_refl) eq_refl). }
  destruct (scan_same (Datatypes.S (List.length Y)) true (NField fc) [NTok TOpenCurly] Y (NField fc :: V ++ [NTok TCloseCurly]) sy) as [Y2 [E [W2 In2]]]; [lia|intros c [<-|[]]; split; reflexivity|exact Wy|exact Cy|exact Iy|reflexivity|].
  cbn [app List.length] in E, P. rewrite E in P. injection P as <-. split.
  - apply change_closes. eexists. split; [reflexivity|]. split.
    + exists (Closed, false). split; [|reflexivity]. rewrite walk_app, W2. cbn [walk step]. rewrite Ll, Il. cbn [andb negb]. destruct V' as [->|[w [-> Bw]]]; cbn [app walk step pass]; [reflexivity|]. rewrite Bw. reflexivity.
    + apply inline_all. apply (inline_more (Y ++ V)); [|rewrite forallb_app, Iy, Iv; reflexivity]. intros c I. apply in_app_or in I. destruct I as [I|[<-|I]].
      * destruct (In2 _ I) as [J| ->]; [left; apply in_or_app; auto|right; reflexivity].
      * right. unfold inline_child. cbn [one_line_child is_newline]. rewrite Ll. reflexivity.
      * apply in_app_or in I. destruct I as [I|[<-|[]]]; [left; apply in_or_app; auto|right; reflexivity].
  - intros c [<-|I]; [left; left; reflexivity|]. apply in_app_or in I. destruct I as [I|[<-|I]]; [|auto|].
    + destruct (In2 _ I) as [J|J]; [left; right; rewrite <- app_assoc; apply in_or_app; left; exact J|auto].
    + left. right. rewrite <- app_assoc. apply in_or_app. right. exact I.
Qed.
Lemma placed_lines : forall cs fc cs', braced cs = true -> existsb is_newline cs = true -> line_lead (lead_of fc) = true ->
  place_loop false true false (NField fc) (List.length cs) cs = Ok cs' -> braced cs' = true /\ forall c, In c cs' -> In c cs \/ c = NTok TComma \/ c = NField fc.
Proof.
  intros cs fc cs' B N Ll H. apply change_closes in B. destruct B as [r [-> [G Ln]]]. destruct (closes_parts _ _ G eq_refl) as [X [s [-> [W [C [S Nc]]]]]].
  cbn [existsb is_newline orb] in N. destruct (place_begin _ _ _ _ _ H) as [Y [V [-> [P Vs]]]].
  change (NTok TOpenCurly :: Y ++ NField fc :: V ++ [NTok TCloseCurly]) with ((NTok TOpenCurly :: Y) ++ NField fc :: V ++ [NTok TCloseCurly]) in P. rewrite scan_plain in P by (intros c [<-|I]; [reflexivity|apply Nc, in_or_app; left; exact I]). injection P as <-. split.
  - apply change_closes. eexists. split; [reflexivity|]. split.
    + destruct G as [e [We Ce]]. rewrite <- app_assoc in We. rewrite walk_app in We. destruct (walk (Before, false) Y) as [sy|] eqn:Wy; [|discriminate].
      assert (Gy : goes sy (NField fc :: V ++ [NTok TCloseCurly]) true).
      { destruct (V ++ [NTok TCloseCurly]) as [|c V'] eqn:Ev; [destruct V; discriminate|]. apply hold; [exists e; auto| |exact Ll]. destruct Vs as [->|[[w [-> Z]]|[V2 ->]]]; [|discriminate Z|]; cbn [app] in Ev; injection Ev as <- _; auto. }
      destruct Gy as [e' [We' Ce']]. exists e'. split; [|exact Ce']. rewrite walk_app, Wy. exact We'.
    + unfold lines. apply orb_true_iff. left. rewrite <- app_assoc in N. rewrite existsb_app in *. cbn [existsb is_newline orb]. exact N.
  - intros c [<-|I]; [left; left; reflexivity|]. apply in_app_or in I. destruct I as [I|[<-|I]]; [|auto|].
    + left. right. rewrite <- app_assoc. apply in_or_app. left. exact I.
    + left. right. rewrite <- app_assoc. apply in_or_app. right. exact I.
Qed.
Lemma open_first : forall cs, unbraced cs = true -> match cs with c :: _ => is_open_curly c | [] => false end = false.
Proof. intros [|c cs] U; [reflexivity|]. destruct c; try reflexivity. destruct t; try reflexivity. discriminate U. Qed.
Lemma placed_open_same : forall cs fc cs1 cs', unbraced cs = true -> existsb is_newline cs = false -> inline_lead (lead_of fc) = true -> line_lead (lead_of fc) = false ->
  place_loop true false true (NField fc) (List.length cs) cs = Ok cs1 ->
  match rev cs1 with last :: before => if is_newline last then Ok (rev before ++ [NField fc; last]) else Ok (cs1 ++ [NField fc]) | [] => Ok [NField fc] end = Ok cs' ->
  unbraced cs' = true /\ forall c, In c cs' -> In c cs \/ c = NTok TComma \/ c = NField fc.
Proof.
  intros cs fc cs1 cs' U N Il Ll H R. apply open_closes in U. destruct U as [[s [W C]] Ln]. pose proof (one_inline _ N Ln) as I1.
  destruct (scan_same (Datatypes.S (List.length cs)) false (NField fc) [] cs [] s) as [Y2 [E [W2 In2]]]; [lia|intros c []|exact W|exact C|exact I1|exact I|]. cbn [app] in E. rewrite !app_nil_r in E. rewrite E in H. injection H as <-.
  assert (I2 : forallb inline_child Y2 = true) by (apply (inline_more cs); [|exact I1]; intros c I; destruct (In2 _ I) as [J| ->]; auto).
  assert (E' : cs' = Y2 ++ [NField fc]).
  { destruct (rev Y2) as [|l before] eqn:Er; [apply (f_equal (@rev _)) in Er; rewrite rev_involutive in Er; cbn in Er; subst Y2; injection R as <-; reflexivity|].
    assert (Nl : is_newline l = false). { rewrite forallb_forall in I2. assert (Il' : In l Y2) by (apply in_rev; rewrite Er; left; reflexivity). specialize (I2 _ Il'). unfold inline_child in I2. apply andb_true_iff in I2. destruct I2 as [_ I2]. destruct (is_newline l); [discriminate|reflexivity]. }
    rewrite Nl in R. congruence. }
  subst cs'. split.
  - apply open_closes. split.
    + exists (Behind, false). split; [|reflexivity]. apply (walk_snoc _ _ _ _ _ W2). cbn [step]. rewrite Ll, Il. reflexivity.
    + apply inline_all. rewrite forallb_app, I2. cbn [forallb]. unfold inline_child. cbn [one_line_child is_newline]. rewrite Ll. reflexivity.
  - intros c I. apply in_app_or in I. destruct I as [I|[<-|[]]]; [destruct (In2 _ I); auto|auto].
Qed.
Lemma placed_open_lines : forall cs fc cs', unbraced cs = true -> existsb is_newline cs = true -> line_lead (lead_of fc) = true ->
  match rev cs with last :: before => if is_newline last then Ok (rev before ++ [NField fc; last]) else Ok (cs ++ [NField fc]) | [] => Ok [NField fc] end = Ok cs' ->
  unbraced cs' = true /\ forall c, In c cs' -> In c cs \/ c = NTok TComma \/ c = NField fc.
Proof.
  intros cs fc cs' U N Ll R. apply open_closes in U. destruct U as [[s [W C]] Ln]. destruct (rev cs) as [|l before] eqn:Er; [apply (f_equal (@rev _)) in Er; rewrite rev_involutive in Er; cbn in Er; subst cs; discriminate N|].
  apply (f_equal (@rev _)) in Er. rewrite rev_involutive in Er. cbn [rev] in Er. destruct (is_newline l) eqn:Nl; injection R as <-.
  - subst cs. destruct l as [[]| | | | | | | |]; try discriminate Nl. rewrite walk_app in W. destruct (walk (Before, false) (rev before)) as [sb|] eqn:Wb; [|discriminate]. split.
    + apply open_closes. split; [|unfold lines; rewrite existsb_app in *; cbn [existsb is_newline orb] in *; rewrite N; reflexivity].
      destruct (hold sb (NTok TNewline) [] false fc) as [e [We Ce]]; auto; [exists s; auto|]. exists e. split; [rewrite walk_app, Wb; exact We|exact Ce].
    + intros c I. apply in_app_or in I. destruct I as [I|[<-|[<-|[]]]]; [left; apply in_or_app; auto|auto|left; apply in_or_app; right; left; reflexivity].
  - clear Er. split.
    + apply open_closes. split; [|unfold lines; rewrite existsb_app, N; reflexivity]. destruct s as [p h]. exists (p, true). split; [apply (walk_snoc _ _ _ _ _ W)|destruct p; try reflexivity; discriminate C]. cbn [step]. rewrite Ll. destruct p; try reflexivity; discriminate C.
    + intros c I. apply in_app_or in I. destruct I as [I|[<-|[]]]; auto.
Qed.

(** ** add_value_on_path *)
Lemma fresh_braced : forall indent, indent = [] \/ indent = [blank_node (lit " ")] \/ line_lead indent = true ->
  let cs := NTok TOpenCurly :: match indent with [] => [NTok TNewline] | _ => [] end ++ indent ++ [NTok TCloseCurly] in braced cs = true /\ tame_fields cs.
Proof.
  intros indent H cs. assert (Lay : indent <> [] -> forallb (fun c => is_newline c || is_gap c) indent = true).
  { intro N. destruct H as [->|[->|H]]; [congruence|reflexivity|]. destruct indent as [|c l]; [discriminate|]. destruct c; try discriminate H. destruct t; try discriminate H. cbn [forallb is_newline orb andb]. exact H. }
  split.
  - unfold cs. destruct H as [->|[->|H]]; [reflexivity|reflexivity|]. destruct indent as [|c l]; [discriminate|]. specialize (Lay ltac:(discriminate)). cbn [app]. change (c :: l ++ [NTok TCloseCurly]) with ((c :: l) ++ [NTok TCloseCurly]).
    cbn [braced]. rewrite walk_app, (walk_layout _ Lay). cbn [walk step pass]. destruct c; try discriminate H. destruct t; try discriminate H. reflexivity.
  - apply tame_fields_ok. intros fc I. exfalso. unfold cs in I. destruct I as [I|I]; [discriminate|]. destruct indent as [|c l]; [destruct I as [I|[I|[]]]; discriminate|]. specialize (Lay ltac:(discriminate)). rewrite forallb_forall in Lay. cbn [app] in I. change (c :: l ++ [NTok TCloseCurly]) with ((c :: l) ++ [NTok TCloseCurly]) in I.
    apply in_app_or in I. destruct I as [I|[I|[]]]; [|discriminate]. specialize (Lay _ I). discriminate Lay.
Qed.

Lemma object_tame : forall cs, braced cs = true -> tame_fields cs -> tame (NObject cs).
Proof. intros cs B [A1 [A2 A3]]. apply tame_object; assumption. Qed.
Lemma more_fields : forall cs cs' fc, tame_fields cs -> field_ok fc -> (forall c, In c cs' -> In c cs \/ c = NTok TComma \/ c = NField fc) -> tame_fields cs'.
Proof. intros cs cs' fc T F H. rewrite tame_fields_ok in *. intros f I. destruct (H _ I) as [J|[J|J]]; [exact (T _ J)|discriminate J|injection J as ->; exact F]. Qed.

Lemma add_all : forall tk n p cs v cs', p <> [] -> Forall (sure tk) p -> vok v -> tame_fields cs -> braced cs = true \/ unbraced cs = true ->
  add_value_n n CONF cs (key_node tk p) v = Ok cs' -> (braced cs = true -> braced cs' = true) /\ (unbraced cs = true -> unbraced cs' = true) /\ tame_fields cs'.
Proof.
  intro tk. induction n as [|n IH]; intros p cs v cs' Np Sp Vv Tf BU H; cbn [add_value_n] in H; [discriminate|]. step H as indent Hi. step H as indented Hd.
  assert (indented = v). { destruct Vv as [_ [_ Nf]]. destruct (rev indent) as [|b l]; [congruence|]. destruct (is_complex v); [exact (indent_same _ _ _ Nf Hd)|congruence]. } subst indented. clear Hd.
  step H as below Hbe. destruct (object_gaps _ BU) as [Gp Ld]. destruct below as [cs2|].
  - injection H as ->. destruct (length (fst (key_node tk p)) >? 1); [|discriminate]. apply add_below_split in Hbe.
    destruct Hbe as [pre [fc [post [fc' [key [toks [ocs [rest [ocs' [-> [-> K]]]]]]]]]]]. destruct K as [E1 [E2 [E3 [E4 [E5 E6]]]]]. cbn [key_node fst] in E2. rewrite tame_fields_ok in Tf.
    assert (If : In (NField fc) (pre ++ NField fc :: post)) by (apply in_or_app; right; left; reflexivity). pose proof (Tf _ If) as Fok. specialize (Ld _ If). pose proof Fok as [Sh [Kk Vl]].
    destruct (field_view fc Sh Ld) as [L [pn [M [v0 [Efc [EL [T0 _]]]]]]]. destruct (thing_value _ T0) as [V0 _]. pose proof (field_parts' L pn M v0 V0) as [P1 [P2 _]]. rewrite <- Efc in P1, P2. rewrite P1 in E1. rewrite P2 in E3. injection E1 as ->. injection E3 as ->.
    assert (Ip : In (NPath (key, toks)) fc) by (rewrite Efc; apply in_or_app; right; left; reflexivity). assert (Io : In (NObject ocs) fc) by (rewrite Efc; apply in_or_app; right; right; apply in_or_app; right; left; reflexivity).
    destruct (Kk _ Ip) as [ks [pn' [_ [_ [_ [_ [_ [_ Nk]]]]]]]]. cbn [fst] in Nk. destruct (starts_with_spec p key Np) as [r [R1 R2]]. rewrite R1 in E2. injection E2 as ->. destruct (proj1 R2 eq_refl) as [q Eq].
    rewrite (length_spec key Nk) in E4. destruct (sure_sub tk p (List.length key) rest Sp Np) as [Lt ->]; [|exact E4|].
    { rewrite Eq, app_length. destruct key; [congruence|cbn; lia]. }
    destruct (tame_kids _ (Vl _ Io eq_refl)) as [Br To].
    destruct (IH (skipn (List.length key) p) ocs v ocs') as [B' [_ T']]; auto.
    { intro Z. apply (f_equal (@List.length _)) in Z. rewrite skipn_length in Z. cbn in Z. lia. }
    { rewrite <- (firstn_skipn (List.length key) p) in Sp. apply Forall_app in Sp. apply Sp. }
    specialize (B' Br). destruct (field_replaced fc (NObject ocs') fc' Fok Ld (object_tame _ B' T') B' (or_introl B') E6) as [Fok' El].
    split; [intro B; rewrite (braced_swap _ _ _ _ El); exact B|]. split; [intro U; rewrite (unbraced_swap _ _ _ _ El); exact U|].
    rewrite tame_fields_ok. intros f I. apply in_app_or in I. destruct I as [I|[I|I]]; [apply Tf, in_or_app; auto|injection I as <-; exact Fok'|apply Tf, in_or_app; right; right; exact I].
  - clear Hbe. step H as f Hf. step H as nv Hn. destruct p as [|k p']; [congruence|]. inversion Sp as [|? ? Sk Sp']; subst. pose proof (sure_first tk k p' f Sk Hf) as Kf.
    pose proof (indentation_cases _ _ Gp Hi) as Ic.
    assert (Nv : tame nv /\ field_thing nv = true).
    { destruct (length (fst (key_node tk (k :: p'))) =? 1) eqn:E1; [injection Hn as <-; destruct Vv as [A [B _]]; auto|]. step Hn as rest Hr. step Hn as ocs Ho. injection Hn as <-.
      change 1 with (Z.of_nat 1) in Hr. destruct (sure_sub tk (k :: p') 1 rest Sp Np) as [Lt ->]; [cbn [List.length]; lia|exact Hr|]. cbn [skipn] in Ho.
      assert (Fi : indent = [] \/ indent = [blank_node (lit " ")] \/ line_lead indent = true) by (destruct Ic as [[_ [[_ X]|X]]|[_ [X _]]]; auto).
      destruct (fresh_braced indent Fi) as [Fb Ft]. assert (Np' : p' <> []) by (intros ->; cbn in Lt; lia). destruct (IH p' _ v ocs Np' Sp' Vv Ft (or_introl Fb) Ho) as [B' [_ T']]. specialize (B' Fb). split; [apply object_tame; assumption|exact B']. }
    destruct Nv as [Tn Thn]. assert (Im : exists L, indent = map NTok L) by (destruct Ic as [[_ [[_ X]|X]]|[_ [_ X]]]; [exists []; exact X|eexists [TIgnored _]; exact X|exact X]).
    destruct (new_field indent f nv Im Kf Tn Thn) as [Fok El]. set (fc := indent ++ [NPath f; blank_node (lit " "); NTok TColon; blank_node (lit " "); nv]) in *. clearbody fc.
    change (is_json CONF) with false in H. cbn [orb] in H.
    assert (Lead : (existsb is_newline cs = false /\ inline_lead (lead_of fc) = true /\ line_lead (lead_of fc) = false /\ match indent with c :: _ => negb (is_newline c) | [] => true end = true) \/
      (existsb is_newline cs = true /\ line_lead (lead_of fc) = true /\ match indent with c :: _ => negb (is_newline c) | [] => true end = false)).
    { rewrite El. destruct Ic as [[N [[_ ->] | ->]]|[N [X _]]]; [left; auto|left; auto|right]. destruct indent as [|c l]; [discriminate|]. destruct c; try discriminate X. destruct t; try discriminate X. auto. }
    destruct (braced cs) eqn:B.
    + assert (O : match cs with c :: _ => is_open_curly c | [] => false end = true) by (apply change_closes in B; destruct B as [r [-> _]]; reflexivity). rewrite O in H. cbn [orb] in H.
      assert (U : unbraced cs <> true) by (intro U; rewrite (open_first _ U) in O; discriminate). destruct Lead as [[N [Il [Ll E]]]|[N [Ll E]]]; rewrite E in H; step H as cs2 Hp; injection H as ->.
      * destruct (placed_same _ _ _ B N Il Ll Hp) as [B' Sub]. split; [auto|]. split; [congruence|exact (more_fields _ _ _ Tf Fok Sub)].
      * destruct (placed_lines _ _ _ B N Ll Hp) as [B' Sub]. split; [auto|]. split; [congruence|exact (more_fields _ _ _ Tf Fok Sub)].
    + destruct BU as [X|U]; [discriminate|]. rewrite (open_first _ U) in H. cbn [orb] in H. destruct Lead as [[N [Il [Ll E]]]|[N [Ll E]]]; rewrite E in H; step H as cs2 Hp.
      * destruct (placed_open_same _ _ _ _ U N Il Ll Hp H) as [U' Sub]. split; [discriminate|]. split; [auto|exact (more_fields _ _ _ Tf Fok Sub)].
      * injection Hp as <-. destruct (placed_open_lines _ _ _ U N Ll H) as [U' Sub]. split; [discriminate|]. split; [auto|exact (more_fields _ _ _ Tf Fok Sub)].
Qed.
