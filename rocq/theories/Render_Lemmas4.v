(** Parsing the tokens of rendered JSON gives the value back. *)
From Verif Require Import Base BaseLemmas Util_Model Num_Model Path_Model Token_Model Token_Spec Token_Lemmas Token_Lemmas2 PathParser_Model Doc_Model Edit_Model Value_Model Value_Spec Value_Lemmas Concat_Model ConfigParser_Model ConfigParser_Lemmas Json_Lemmas Json_Lemmas2 Render_Model Render_Spec Render_Lemmas Render_Lemmas2 Render_Lemmas3.
From Coq Require Import Permutation.

Section Parsing.
Variables (e : lex_end) (inc : include_kind -> str -> nat -> result (value * nat)).
Notation parse := (ConfigParser_Model.parse_value JSON inc).
Notation read k := (Doc_Model.parse_value k JSON e).

Lemma gap_skipped : forall g, gap g -> Forall (fun t => allowed t /\ skipped t = true) g.
Proof. intros g G. induction G; repeat (constructor; [split; reflexivity|]); assumption || constructor. Qed.
Lemma collect_gap : forall g t r, gap g -> allowed t -> skipped t = false -> collect JSON e (g ++ t :: r) = Ok (map kept_blank g, t, r).
Proof.
  intros g t r G A S. apply gap_skipped in G. induction G as [|x g [X1 X2] G IH]; cbn [app].
  - apply collect_stop; assumption.
  - rewrite collect_skip by assumption. rewrite IH. reflexivity.
Qed.
Lemma blank_nodes : forall g, gap g -> Forall (fun n => is_value_node n = false /\ match n with NField _ | NInclude _ _ | NPath _ | NTok TColon | NTok TPlusEquals | NTok TEquals => False | _ => True end) (map kept_blank g).
Proof. intros g G. induction G; repeat (constructor; [split; [reflexivity|exact I]|]); assumption || constructor. Qed.
Definition dull (n : node) : Prop := is_value_node n = false /\ match n with NField _ | NInclude _ _ | NPath _ | NTok TPlusEquals => False | _ => True end.
Lemma blank_dull : forall g, gap g -> Forall dull (map kept_blank g).
Proof. intros g G. eapply Forall_impl; [|exact (blank_nodes g G)]. intros n [H1 H2]. split; [exact H1|]. destruct n as [[]| | | | | | | |]; try exact I; exact H2. Qed.

Lemma values_dull : forall ns cs st ac next, Forall dull ns -> parse_values parse (ns ++ cs) st ac next = parse_values parse cs st ac next.
Proof. intros ns cs st ac next H. induction H as [|n ns [N _] H IH]; [reflexivity|]. cbn [app parse_values]. rewrite N. exact IH. Qed.
Lemma fields_dull : forall ns cs m st ac next, Forall dull ns -> parse_object_nodes JSON inc parse (ns ++ cs) m st ac next = parse_object_nodes JSON inc parse cs m st ac next.
Proof.
  intros ns cs m st ac next H. induction H as [|n ns [N D] H IH]; [reflexivity|]. cbn [app]. destruct n; try destruct D; cbn [parse_object_nodes]; exact IH.
Qed.
Lemma field_value_dull : forall ns cs st ac next, Forall dull ns -> parse_field_value parse (ns ++ cs) st ac next = parse_field_value parse cs st ac next.
Proof. intros ns cs st ac next H. induction H as [|n ns [N _] H IH]; [reflexivity|]. cbn [app parse_field_value]. rewrite N. exact IH. Qed.

(** A node with the value [w] *)
Definition means (n : node) (w : value) : Prop := forall st ac next, parse n st ac next = Ok (w, next).
(** A token that begins a value *)
Definition starts (t : token) : Prop := is_value_start t = true /\ allowed t /\ skipped t = false.

Lemma scalar_same : forall s t, scalar_token s t -> exists s', t = TValue s' (token_text t) /\ same_contents (VScalar s) (VScalar s').
Proof. intros s t H. destruct H; eexists; (split; [reflexivity|]); constructor. assumption. Qed.
Lemma scalar_starts : forall s t, scalar_token s t -> starts t.
Proof. intros s t H. destruct H; repeat split. Qed.

Lemma find_none_append : forall m k v, find_key k m = None -> set_key m k v = m ++ [(k, v)].
Proof.
  induction m as [|[q w] m IH]; intros k v H; [reflexivity|]. cbn [find_key set_key] in *. destruct (str_eqb k q); [discriminate|]. rewrite (IH _ _ H). reflexivity.
Qed.

(** The rest of an object after a field: config_document_parser.cc:435-460 *)
Definition after_field (k f : nat) (keys : list str) (ts : list token) : result (list node * list token) :=
  '(sn, separated, r3) <- check_element_separator JSON e ts ;;
  if separated then '(rest, r4) <- object_loop (read k) JSON e f true true keys r3 ;; Ok (sn ++ rest, r4)
  else '(ws2, t2, r4) <- collect JSON e r3 ;;
       match t2 with TCloseCurly => Ok (sn ++ ws2 ++ [NTok t2], r4) | _ => Throw EParse end.

Definition value_parsed (v : value) (tv : list token) : Prop :=
  exists t tl n w, tv = t :: tl /\ starts t /\ is_value_node n = true /\ means n w /\ same_contents v w /\
    (forall k r, (List.length tv <= k)%nat -> read k t (tl ++ r) = Ok (n, r)).
Definition others_parsed (vs : list value) (ts : list token) : Prop :=
  exists ns ws, Forall2 same_contents vs ws /\ (forall st ac next, parse_values parse ns st ac next = Ok (ws, next)) /\
    (forall k f r, (List.length ts <= k)%nat -> (List.length ts < f)%nat -> array_loop (read k) JSON e f (ts ++ TCloseSquare :: r) = Ok (ns, r)).
Definition entry_parsed (k : str) (v : value) (te : list token) : Prop :=
  exists x tl fcs w, te = TValue (SStr k true) x :: tl /\ same_contents v w /\
    (forall st ac next, ConfigParser_Model.parse_field parse fcs st ac next = Ok ([k], w, next)) /\
    (forall n keys r, (List.length te <= n)%nat -> existsb (str_eqb k) keys = false ->
       Doc_Model.parse_field (read n) JSON e keys (TValue (SStr k true) x) (tl ++ r) = Ok (NField fcs, k :: keys, r)).
Definition same_entries (m m' : fields) : Prop := Forall2 (fun a b => fst a = fst b /\ same_contents (snd a) (snd b)) m m'.
Definition entries_parsed (m : fields) (ts : list token) : Prop :=
  exists ns ws, same_entries m ws /\
    (forall m0 st ac next, NoDup (map fst m) -> (forall k, In k (map fst m) -> ~ In k (map fst m0)) ->
       parse_object_nodes JSON inc parse ns m0 st ac next = Ok (new_object (m0 ++ ws), next)) /\
    (forall n f keys r, (List.length ts <= n)%nat -> (List.length ts < f)%nat -> NoDup (map fst m) -> (forall k, In k (map fst m) -> ~ In k keys) ->
       after_field n f keys (ts ++ TCloseCurly :: r) = Ok (ns, r)).

Lemma not_in_keys : forall k keys, ~ In k keys -> existsb (str_eqb k) keys = false.
Proof.
  intros k keys H. destruct (existsb (str_eqb k) keys) eqn:E; [|reflexivity]. apply existsb_exists in E. destruct E as [q [I E]]. apply str_eqb_eq in E. subst q. contradiction.
Qed.
Lemma quoted_key : forall k x, k <> [] -> parse_path_expression false CONF [TValue (SStr k true) x] LEnd = Ok ([k], [TValue (SStr k true) x]).
Proof. intros [|c k] x H; [congruence|]. reflexivity. Qed.

(** A field read by the loop *)
Lemma object_step : forall k x tl fcs n f b keys g r,
  Doc_Model.parse_field (read n) JSON e keys (TValue (SStr k true) x) (tl ++ r) = Ok (NField fcs, k :: keys, r) -> gap g ->
  object_loop (read n) JSON e (S f) true b keys (g ++ (TValue (SStr k true) x :: tl) ++ r) =
    ('(rest, r4) <- after_field n f (k :: keys) r ;; Ok (map kept_blank g ++ NField fcs :: rest, r4)).
Proof.
  intros k x tl fcs n f b keys g r P G. cbn [object_loop app]. rewrite collect_gap by (assumption || reflexivity). cbn [bind is_json negb andb]. rewrite P. cbn [bind].
  unfold after_field. destruct (check_element_separator JSON e r) as [[[sn sep] r3]|?|?]; [|reflexivity|reflexivity]. cbn [bind]. destruct sep.
  - destruct (object_loop (read n) JSON e f true true (k :: keys) r3) as [[rest r4]|?|?]; [|reflexivity|reflexivity]. cbn [bind]. reflexivity.
  - destruct (collect JSON e r3) as [[[ws2 t2] r4]|?|?]; [|reflexivity|reflexivity]. cbn [bind]. destruct t2; reflexivity.
Qed.
Lemma separator_comma : forall g r, gap g -> check_element_separator JSON e (g ++ TComma :: r) = Ok (map kept_blank g ++ [NTok TComma], true, r).
Proof. intros g r G. unfold check_element_separator. rewrite collect_gap by (assumption || reflexivity). reflexivity. Qed.
Lemma separator_none : forall g t r, gap g -> allowed t -> skipped t = false -> t <> TComma -> check_element_separator JSON e (g ++ t :: r) = Ok (map kept_blank g, false, t :: r).
Proof. intros g t r G A S N. unfold check_element_separator. rewrite collect_gap by assumption. cbn [bind]. destruct t; try reflexivity. congruence. Qed.

Lemma comma_dull : forall g, gap g -> Forall dull (map kept_blank g ++ [NTok TComma]).
Proof. intros g G. apply Forall_app. split; [apply blank_dull, G|]. repeat constructor. Qed.

Lemma spelled_parsed :
  (forall v tv, spelled v tv -> value_parsed v tv) /\ (forall vs ts, others vs ts -> others_parsed vs ts) /\
  (forall k v te, entry k v te -> entry_parsed k v te) /\ (forall m ts, entries m ts -> entries_parsed m ts).
Proof.
  apply spelled_mutual.
  - intros s t T. destruct (scalar_same s t T) as [s' [E S]]. exists t, [], (NSimple t), (VScalar s'). repeat split; auto; try apply (scalar_starts s t T).
    + intros st ac next. rewrite E. reflexivity.
    + intros [|k] r L; [cbn in L; lia|]. rewrite E. reflexivity.
  - exists TOpenSquare, [TCloseSquare], (NArray [NTok TOpenSquare; NTok TCloseSquare]), (VList []). repeat split; auto.
    + constructor. constructor.
    + intros [|k] r L; [cbn in L; lia|]. reflexivity.
  - intros g v vs tv ts G S [t [tl [n [w [-> [[T1 [T2 T3]] [N [M [C P]]]]]]]]] O [ns [ws [F [V A]]]].
    exists TOpenSquare, (g ++ (t :: tl) ++ ts ++ [TCloseSquare]), (NArray (NTok TOpenSquare :: map kept_blank g ++ n :: ns)), (VList (w :: ws)). repeat split; auto.
    + intros st ac next. cbn [ConfigParser_Model.parse_value]. change (parse_values parse (NTok TOpenSquare :: map kept_blank g ++ n :: ns) st (ac + 1) next) with (parse_values parse (map kept_blank g ++ n :: ns) st (ac + 1) next).
      rewrite values_dull by (apply blank_dull, G). cbn [parse_values]. rewrite N, M. cbn [bind]. rewrite V. reflexivity.
    + constructor. constructor; assumption.
    + intros [|k] r L; [cbn in L; lia|]. cbn [List.length] in L. rewrite !app_length in L. cbn [List.length] in L.
      cbn [Doc_Model.parse_value]. unfold parse_array. cbn [consolidate_values bind].
      rewrite <- !app_assoc. cbn [app]. rewrite collect_gap by assumption. cbn [bind].
      destruct t; try discriminate T1; cbn [is_value_start]; (rewrite P by (cbn [List.length]; lia)); cbn [bind];
        (rewrite A by (rewrite ?app_length; cbn; lia)); reflexivity.
  - intros r i. exists TOpenCurly, [TCloseCurly], (NObject [NTok TOpenCurly; NTok TCloseCurly]), (new_object []). repeat split; auto.
    + apply same_objects; [reflexivity|]. intros k v H. discriminate.
    + intros [|k] r' L; [cbn in L; lia|]. reflexivity.
  - intros r i m k v m' g te ts D P G E [x [tl [fcs [w [-> [C [F R]]]]]]] O [ns [ws [S [V A]]]].
    assert (D' : NoDup (map fst ((k, v) :: m'))) by (eapply Permutation_NoDup; [apply Permutation_map, P|exact D]). cbn [map fst] in D'. inversion D' as [|? ? D1 D2]; subst.
    exists TOpenCurly, (g ++ (TValue (SStr k true) x :: tl) ++ ts ++ [TCloseCurly]), (NObject (NTok TOpenCurly :: map kept_blank g ++ NField fcs :: ns)), (new_object ((k, w) :: ws)). repeat split; auto.
    + intros st ac next. cbn [ConfigParser_Model.parse_value].
      change (parse_object_nodes JSON inc parse (NTok TOpenCurly :: map kept_blank g ++ NField fcs :: ns) [] st ac next) with (parse_object_nodes JSON inc parse (map kept_blank g ++ NField fcs :: ns) [] st ac next).
      rewrite fields_dull by (apply blank_dull, G). cbn [parse_object_nodes]. rewrite F. cbn [bind add_field find_key set_key].
      rewrite V; [reflexivity|exact D2|]. intros q I [<-|[]]. exact (D1 I).
    + apply same_objects.
      * apply Permutation_length in P. rewrite P. cbn [List.length]. f_equal. exact (Forall2_length _ _ _ _ _ S).
      * intros q u H. apply find_key_in in H. eapply Permutation_in in H; [|exact P].
        assert (FF : same_entries ((k, v) :: m') ((k, w) :: ws)) by (constructor; [split; [reflexivity|exact C]|exact S]).
        assert (U : find_key q ((k, v) :: m') = Some u) by (apply find_key_unique; assumption).
        revert U. clear -FF. generalize dependent ((k, v) :: m'). generalize ((k, w) :: ws). intros l l' FF. induction FF as [|[a1 a2] [b1 b2] la lb [Q1 Q2] FF IH]; intro U; [discriminate|].
        cbn [fst snd] in *. subst b1. cbn [find_key] in *. destruct (str_eqb q a1); [injection U as <-; eauto|auto].
    + intros [|n] r' L; [cbn in L; lia|]. cbn [List.length] in L. rewrite !app_length in L. cbn [List.length] in L.
      cbn [Doc_Model.parse_value]. unfold parse_object. rewrite <- !app_assoc. change ([TCloseCurly] ++ r') with (TCloseCurly :: r').
      rewrite (object_step k x tl fcs); [|apply R; [cbn [List.length]; lia|reflexivity]|exact G].
      rewrite A; [reflexivity|lia|rewrite ?app_length; cbn [List.length]; rewrite ?app_length; cbn [List.length]; lia|exact D2|]. intros q I [<-|[]]. exact (D1 I).
  - intros g G. exists (map kept_blank g ++ [NTok TCloseSquare]), []. split; [constructor|]. split.
    + intros st ac next. rewrite values_dull by (apply blank_dull, G). reflexivity.
    + intros k [|f] r L1 L2; [lia|]. cbn [array_loop]. rewrite separator_none by (assumption || reflexivity || discriminate). cbn [bind negb].
      rewrite collect_stop by reflexivity. reflexivity.
  - intros g g' v vs tv ts G G' S [t [tl [n [w [-> [[T1 [T2 T3]] [N [M [C P]]]]]]]]] O [ns [ws [F [V A]]]].
    exists ((map kept_blank g ++ [NTok TComma]) ++ map kept_blank g' ++ n :: ns), (w :: ws). split; [constructor; assumption|]. split.
    + intros st ac next. rewrite values_dull by (apply comma_dull, G). rewrite values_dull by (apply blank_dull, G'). cbn [parse_values]. rewrite N, M. cbn [bind]. rewrite V. reflexivity.
    + intros k [|f] r L1 L2; [lia|]. cbn [array_loop]. rewrite !app_length in L1, L2. cbn [List.length] in L1, L2. rewrite !app_length in L1, L2. cbn [List.length] in L1, L2.
      rewrite <- !app_assoc. cbn [app]. rewrite separator_comma by exact G. cbn [bind negb consolidate_values]. rewrite <- !app_assoc. cbn [app]. rewrite collect_gap by assumption. cbn [bind]. rewrite T1. rewrite <- ?app_assoc.
      rewrite P by (cbn [List.length]; lia). cbn [bind]. rewrite A by lia. cbn [bind app]. rewrite <- !app_assoc. reflexivity.
  - intros k v g g' tv K Q G G' S [t [tl [n [w [-> [[T1 [T2 T3]] [N [M [C P]]]]]]]]].
    exists (render_json_string k), (g ++ TColon :: g' ++ t :: tl), (NPath ([k], [TValue (SStr k true) (render_json_string k)]) :: map kept_blank g ++ NTok TColon :: map kept_blank g' ++ [n]), w.
    split; [reflexivity|]. split; [exact C|]. split.
    + intros st ac next. unfold ConfigParser_Model.parse_field. cbn [field_path bind].
      assert (PE : forall l, Forall dull l -> forall r, is_plus_equals (l ++ NTok TColon :: r) = false).
      { intros l D r. induction D as [|a l [_ D] Dl IH]; [reflexivity|]. cbn [app]. destruct a as [[]| | | | | | | |]; try destruct D; cbn [is_plus_equals]; try exact IH; reflexivity. }
      change (is_plus_equals (NPath ([k], [TValue (SStr k true) (render_json_string k)]) :: map kept_blank g ++ NTok TColon :: map kept_blank g' ++ [n])) with (is_plus_equals (map kept_blank g ++ NTok TColon :: map kept_blank g' ++ [n])).
      rewrite PE by (apply blank_dull, G). cbn [andb].
      change (parse_field_value parse (NPath ([k], [TValue (SStr k true) (render_json_string k)]) :: map kept_blank g ++ NTok TColon :: map kept_blank g' ++ [n]) (st ++ [[k]]) ac next)
        with (parse_field_value parse (map kept_blank g ++ NTok TColon :: map kept_blank g' ++ [n]) (st ++ [[k]]) ac next).
      rewrite field_value_dull by (apply blank_dull, G). change (NTok TColon :: map kept_blank g' ++ [n]) with ([NTok TColon] ++ map kept_blank g' ++ [n]).
      rewrite field_value_dull by (repeat constructor). rewrite field_value_dull by (apply blank_dull, G'). cbn [parse_field_value]. rewrite N, M. reflexivity.
    + intros m keys r L E. cbn [List.length] in L. rewrite app_length in L. cbn [List.length] in L. rewrite app_length in L.
      unfold Doc_Model.parse_field, parse_key. cbn [is_string_value]. rewrite quoted_key by exact K. cbn [bind]. rewrite <- !app_assoc. cbn [app]. rewrite collect_gap by (assumption || reflexivity).
      cbn [bind is_json negb andb is_key_value_separator consolidate_values]. rewrite <- !app_assoc. cbn [app]. rewrite collect_gap by assumption. cbn [bind]. rewrite P by (cbn [List.length] in *; lia). cbn [bind fst]. rewrite E.
      cbn [app]. reflexivity.
  - intros g G. exists (map kept_blank g ++ [NTok TCloseCurly]), []. split; [constructor|]. split.
    + intros m0 st ac next _ _. rewrite fields_dull by (apply blank_dull, G). rewrite app_nil_r. reflexivity.
    + intros n f keys r L1 L2 _ _. unfold after_field. rewrite separator_none by (assumption || reflexivity || discriminate). cbn [bind].
      rewrite collect_stop by reflexivity. reflexivity.
  - intros g g' k v m te ts G G' E [x [tl [fcs [w [-> [C [F R]]]]]]] O [ns [ws [S [V A]]]].
    exists ((map kept_blank g ++ [NTok TComma]) ++ map kept_blank g' ++ NField fcs :: ns), ((k, w) :: ws). split; [constructor; [split; [reflexivity|exact C]|exact S]|]. split.
    + intros m0 st ac next D I. cbn [map fst] in D, I. inversion D as [|? ? D1 D2]; subst.
      rewrite fields_dull by (apply comma_dull, G). rewrite fields_dull by (apply blank_dull, G'). cbn [parse_object_nodes]. rewrite F. cbn [bind add_field].
      assert (Z : find_key k m0 = None) by (apply find_key_none; apply I; left; reflexivity).
      rewrite Z. cbn [bind]. rewrite find_none_append by exact Z. rewrite V.
      * rewrite <- app_assoc. reflexivity.
      * exact D2.
      * intros q Q. rewrite map_app, in_app_iff. intros [K|[<-|[]]]; [exact (I q (or_intror Q) K)|exact (D1 Q)].
    + intros n f keys r L1 L2 D I. cbn [map fst] in D, I. inversion D as [|? ? D1 D2]; subst. rewrite !app_length in L1, L2. cbn [List.length] in L1, L2. rewrite !app_length in L1, L2. cbn [List.length] in L1, L2.
      unfold after_field. rewrite <- !app_assoc. cbn [app]. rewrite separator_comma by exact G. cbn [bind].
      destruct f as [|f]; [lia|]. change (g' ++ TValue (SStr k true) x :: tl ++ ts) with (g' ++ (TValue (SStr k true) x :: tl) ++ ts). rewrite <- !app_assoc.
      rewrite (object_step k x tl fcs); [|apply R; [cbn [List.length]; lia|apply not_in_keys, I; left; reflexivity]|exact G'].
      rewrite A; [cbn [bind]; rewrite <- !app_assoc; reflexivity|lia|lia|exact D2|].
      intros q Q [<-|K]; [exact (D1 Q)|exact (I q (or_intror Q) K)].
Qed.
End Parsing.
