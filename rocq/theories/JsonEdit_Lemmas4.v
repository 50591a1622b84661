(** What the document parser gives for JSON tokens. *)
From Verif Require Import Base BaseLemmas Util_Model Num_Model Path_Model Token_Model Token_Spec Token_Lemmas Token_Lemmas2 PathParser_Model Doc_Model Edit_Model Value_Model Value_Spec Value_Lemmas Concat_Model ConfigParser_Model ConfigParser_Lemmas Json_Lemmas Json_Lemmas2 Render_Model Render_Lemmas3 Render_Lemmas4 JsonEdit_Lemmas JsonEdit_Lemmas2 JsonEdit_Lemmas3.

Lemma key_path : forall k x, parse_path_expression false CONF [TValue (SStr k true) x] LEnd = Ok ([k], [TValue (SStr k true) x]).
Proof. intros [|c k] x; reflexivity. Qed.

(** ** A text we know the tokens of *)
Section Spelled.
Variable e : lex_end.
Notation read k := (Doc_Model.parse_value k JSON e).

Lemma collect_white : forall g t r, white_gap g -> allowed t -> skipped t = false -> collect JSON e (g ++ t :: r) = Ok (map NTok g, t, r).
Proof.
  intros g t r G A S. induction G as [|w W|g G IH|w g W G IH]; cbn [app map].
  - apply collect_stop; assumption.
  - rewrite collect_skip by reflexivity. rewrite collect_stop by assumption. reflexivity.
  - rewrite collect_skip by reflexivity. rewrite IH. reflexivity.
  - rewrite !collect_skip by reflexivity. rewrite IH. reflexivity.
Qed.
Lemma gap_whites : forall g, white_gap g -> Forall white (map NTok g).
Proof. intros g G. induction G; repeat (constructor; try assumption). Qed.
Lemma elements_whites : forall l ws p cs vs, Forall white ws -> elements l p cs vs -> elements l p (ws ++ cs) vs.
Proof. intros l ws p cs vs W H. induction W as [|c ws C W IH]; [exact H|]. cbn [app]. constructor; assumption. Qed.
Lemma line_true : forall p cs m, members true p cs m -> members true (line p) cs m.
Proof. intros p cs m H. induction H; [apply me_blank; assumption|apply me_line; [assumption|destruct p; exact IHmembers]|apply me_comma; [apply orb_true_r|assumption]|apply me_field; [destruct H as [-> | ->]; cbn; auto|assumption|assumption]|constructor; destruct p; [exact H|discriminate|exact H]]. Qed.
Lemma members_spread : forall ws p cs m, Forall white ws -> members true p cs m -> members true p (ws ++ cs) m.
Proof.
  intros ws p cs m W. revert p. induction W as [|c ws C W IH]; intros p H; [exact H|]. cbn [app]. apply me_line; [exact C|]. apply IH, line_true, H.
Qed.

Definition value_read (v : value) (tv : list token) : Prop :=
  exists t tl n, tv = t :: tl /\ starts t /\ good true n v /\ (forall k r, (List.length tv <= k)%nat -> read k t (tl ++ r) = Ok (n, r)).
Definition others_read (vs : list value) (ts : list token) : Prop :=
  exists ns, (forall b, elements true (After b) ns vs) /\
    (forall k f r, (List.length ts <= k)%nat -> (List.length ts < f)%nat -> array_loop (read k) JSON e f (ts ++ TCloseSquare :: r) = Ok (ns, r)).
Definition entry_read (k : str) (v : value) (te : list token) : Prop :=
  exists x tl fcs, te = TValue (SStr k true) x :: tl /\ field true fcs k v /\
    (forall n keys r, (List.length te <= n)%nat -> existsb (str_eqb k) keys = false ->
       Doc_Model.parse_field (read n) JSON e keys (TValue (SStr k true) x) (tl ++ r) = Ok (NField fcs, k :: keys, r)).
Definition entries_read (m : fields) (ts : list token) : Prop :=
  exists ns, (forall b, members true (After b) ns m) /\
    (forall n f keys r, (List.length ts <= n)%nat -> (List.length ts < f)%nat -> NoDup (map fst m) -> (forall k, In k (map fst m) -> ~ In k keys) ->
       after_field e n f keys (ts ++ TCloseCurly :: r) = Ok (ns, r)).

Lemma object_read_step : forall k x tl fcs n f b keys g r,
  Doc_Model.parse_field (read n) JSON e keys (TValue (SStr k true) x) (tl ++ r) = Ok (NField fcs, k :: keys, r) -> white_gap g ->
  object_loop (read n) JSON e (S f) true b keys (g ++ (TValue (SStr k true) x :: tl) ++ r) =
    ('(rest, r4) <- after_field e n f (k :: keys) r ;; Ok (map NTok g ++ NField fcs :: rest, r4)).
Proof.
  intros k x tl fcs n f b keys g r P G. cbn [object_loop app]. rewrite collect_white by (assumption || reflexivity). cbn [bind is_json negb andb]. rewrite P. cbn [bind].
  unfold after_field. destruct (check_element_separator JSON e r) as [[[sn sep] r3]|?|?]; [|reflexivity|reflexivity]. cbn [bind]. destruct sep.
  - destruct (object_loop (read n) JSON e f true true (k :: keys) r3) as [[rest r4]|?|?]; [|reflexivity|reflexivity]. cbn [bind]. reflexivity.
  - destruct (collect JSON e r3) as [[[ws2 t2] r4]|?|?]; [|reflexivity|reflexivity]. cbn [bind]. destruct t2; reflexivity.
Qed.
Lemma white_comma : forall g r, white_gap g -> check_element_separator JSON e (g ++ TComma :: r) = Ok (map NTok g ++ [NTok TComma], true, r).
Proof. intros g r G. unfold check_element_separator. rewrite collect_white by (assumption || reflexivity). reflexivity. Qed.
Lemma white_none : forall g t r, white_gap g -> allowed t -> skipped t = false -> t <> TComma -> check_element_separator JSON e (g ++ t :: r) = Ok (map NTok g, false, t :: r).
Proof. intros g t r G A S N. unfold check_element_separator. rewrite collect_white by assumption. cbn [bind]. destruct t; try reflexivity. congruence. Qed.

Lemma spell_read :
  (forall v tv, spell v tv -> value_read v tv) /\ (forall vs ts, spell_others vs ts -> others_read vs ts) /\
  (forall k v te, spell_entry k v te -> entry_read k v te) /\ (forall m ts, spell_entries m ts -> entries_read m ts).
Proof.
  apply spell_mutual.
  - intros s x R. exists (TValue s x), [], (NSimple (TValue s x)). split; [reflexivity|]. split; [repeat split|]. split; [constructor; exact R|].
    intros [|k] r L; [cbn in L; lia|]. reflexivity.
  - intros g G. exists TOpenSquare, (g ++ [TCloseSquare]), (NArray (NTok TOpenSquare :: map NTok g ++ [NTok TCloseSquare])). split; [reflexivity|]. split; [repeat split|]. split.
    + constructor. apply elements_whites; [apply gap_whites, G|]. apply el_end. discriminate.
    + intros [|k] r L; [cbn in L; lia|]. cbn [Doc_Model.parse_value]. unfold parse_array. cbn [consolidate_values bind]. rewrite <- app_assoc. cbn [app].
      rewrite collect_white by (assumption || reflexivity). reflexivity.
  - intros g v vs tv ts G S [t [tl [n [-> [[T1 [T2 T3]] [M P]]]]]] O [ns [V A]].
    exists TOpenSquare, (g ++ (t :: tl) ++ ts ++ [TCloseSquare]), (NArray (NTok TOpenSquare :: map NTok g ++ n :: ns)). split; [reflexivity|]. split; [repeat split|]. split.
    + constructor. apply elements_whites; [apply gap_whites, G|]. apply el_value; auto.
    + intros [|k] r L; [cbn in L; lia|]. cbn [List.length] in L. rewrite !app_length in L. cbn [List.length] in L.
      cbn [Doc_Model.parse_value]. unfold parse_array. cbn [consolidate_values bind].
      rewrite <- !app_assoc. cbn [app]. rewrite collect_white by assumption. cbn [bind].
      destruct t; try discriminate T1; cbn [is_value_start]; (rewrite P by (cbn [List.length]; lia)); cbn [bind];
        (rewrite A by (rewrite ?app_length; cbn; lia)); reflexivity.
  - intros g G. exists TOpenCurly, (g ++ [TCloseCurly]), (NObject (NTok TOpenCurly :: map NTok g ++ [NTok TCloseCurly])). split; [reflexivity|]. split; [repeat split|]. split.
    + constructor; [constructor|]. apply members_spread; [apply gap_whites, G|]. apply me_end. discriminate.
    + intros [|k] r L; [cbn in L; lia|]. cbn [Doc_Model.parse_value]. unfold parse_object. cbn [object_loop]. rewrite <- app_assoc. cbn [app].
      rewrite collect_white by (assumption || reflexivity). reflexivity.
  - intros k v m g te ts D G E [x [tl [fcs [-> [F R]]]]] O [ns [V A]]. inversion D as [|? ? D1 D2]; subst.
    exists TOpenCurly, (g ++ (TValue (SStr k true) x :: tl) ++ ts ++ [TCloseCurly]), (NObject (NTok TOpenCurly :: map NTok g ++ NField fcs :: ns)). split; [reflexivity|]. split; [repeat split|]. split.
    + constructor; [exact D|]. apply members_spread; [apply gap_whites, G|]. apply me_field; auto.
    + intros [|n] r' L; [cbn in L; lia|]. cbn [List.length] in L. rewrite !app_length in L. cbn [List.length] in L.
      cbn [Doc_Model.parse_value]. unfold parse_object. rewrite <- !app_assoc. change ([TCloseCurly] ++ r') with (TCloseCurly :: r').
      rewrite (object_read_step k x tl fcs); [|apply R; [cbn [List.length]; lia|reflexivity]|exact G].
      rewrite A; [reflexivity|lia|rewrite ?app_length; cbn [List.length]; rewrite ?app_length; cbn [List.length]; lia|exact D2|]. intros q I [<-|[]]. exact (D1 I).
  - intros g G. exists (map NTok g ++ [NTok TCloseSquare]). split.
    + intro b. apply elements_whites; [apply gap_whites, G|]. apply el_end. discriminate.
    + intros k [|f] r L1 L2; [lia|]. cbn [array_loop]. rewrite white_none by (assumption || reflexivity || discriminate). cbn [bind negb].
      rewrite collect_stop by reflexivity. reflexivity.
  - intros g g' v vs tv ts G G' S [t [tl [n [-> [[T1 [T2 T3]] [M P]]]]]] O [ns [V A]].
    exists ((map NTok g ++ [NTok TComma]) ++ map NTok g' ++ n :: ns). split.
    + intro b. rewrite <- app_assoc. apply elements_whites; [apply gap_whites, G|]. cbn [app]. apply el_comma. apply elements_whites; [apply gap_whites, G'|]. apply el_value; auto.
    + intros k [|f] r L1 L2; [lia|]. cbn [array_loop]. rewrite !app_length in L1, L2. cbn [List.length] in L1, L2. rewrite !app_length in L1, L2. cbn [List.length] in L1, L2.
      rewrite <- !app_assoc. cbn [app]. rewrite white_comma by exact G. cbn [bind negb consolidate_values]. rewrite <- !app_assoc. cbn [app]. rewrite collect_white by assumption. cbn [bind]. rewrite T1. rewrite <- ?app_assoc.
      rewrite P by (cbn [List.length]; lia). cbn [bind]. rewrite A by lia. cbn [bind app]. rewrite <- !app_assoc. reflexivity.
  - intros k x v g g' tv Q G G' S [t [tl [n [-> [[T1 [T2 T3]] [M P]]]]]].
    exists x, (g ++ TColon :: g' ++ t :: tl), ([] ++ NPath ([k], [TValue (SStr k true) x]) :: map NTok g ++ NTok TColon :: map NTok g' ++ [n]).
    split; [reflexivity|]. split.
    + constructor; auto; apply gap_whites; assumption.
    + intros m keys r L E. cbn [List.length] in L. rewrite app_length in L. cbn [List.length] in L. rewrite app_length in L.
      unfold Doc_Model.parse_field, parse_key. cbn [is_string_value]. rewrite key_path. cbn [bind]. rewrite <- !app_assoc. cbn [app]. rewrite collect_white by (assumption || reflexivity).
      cbn [bind is_json negb andb is_key_value_separator consolidate_values]. rewrite <- !app_assoc. cbn [app]. rewrite collect_white by assumption. cbn [bind]. rewrite P by (cbn [List.length] in *; lia). cbn [bind fst]. rewrite E.
      cbn [app]. reflexivity.
  - intros g G. exists (map NTok g ++ [NTok TCloseCurly]). split.
    + intro b. apply members_spread; [apply gap_whites, G|]; apply me_end; discriminate.
    + intros n f keys r L1 L2 _ _. unfold after_field. rewrite white_none by (assumption || reflexivity || discriminate). cbn [bind].
      rewrite collect_stop by reflexivity. reflexivity.
  - intros g g' k v m te ts G G' E [x [tl [fcs [-> [F R]]]]] O [ns [V A]].
    exists ((map NTok g ++ [NTok TComma]) ++ map NTok g' ++ NField fcs :: ns). split.
    + intro b. assert (K : forall b', members true (After b') (NTok TComma :: map NTok g' ++ NField fcs :: ns) ((k, v) :: m)).
      { intro b'. apply me_comma; [apply orb_true_r|]. apply members_spread; [apply gap_whites, G'|]. apply me_field; auto. }
      rewrite <- app_assoc. apply members_spread; [apply gap_whites, G|apply K].
    + intros n f keys r L1 L2 D I. cbn [map fst] in D, I. inversion D as [|? ? D1 D2]; subst. rewrite !app_length in L1, L2. cbn [List.length] in L1, L2. rewrite !app_length in L1, L2. cbn [List.length] in L1, L2.
      unfold after_field. rewrite <- !app_assoc. cbn [app]. rewrite white_comma by exact G. cbn [bind].
      destruct f as [|f]; [lia|]. change (g' ++ TValue (SStr k true) x :: tl ++ ts) with (g' ++ (TValue (SStr k true) x :: tl) ++ ts). rewrite <- !app_assoc.
      rewrite (object_read_step k x tl fcs); [|apply R; [cbn [List.length]; lia|apply not_in_keys, I; left; reflexivity]|exact G'].
      rewrite A; [cbn [bind]; rewrite <- !app_assoc; reflexivity|lia|lia|exact D2|].
      intros q Q [<-|K]; [exact (D1 Q)|exact (I q (or_intror Q) K)].
Qed.
End Spelled.

(** ** Any text the parser accepts *)
Section Accepted.
Variable e : lex_end.
Notation read k := (Doc_Model.parse_value k JSON e).

Lemma collect_fine : forall ts ns t r, collect JSON e ts = Ok (ns, t, r) -> Forall fine ts -> Forall white ns /\ fine t /\ Forall fine r /\ allowed t /\ skipped t = false.
Proof.
  apply (collect_induction e (fun ts ns t r => Forall fine ts -> Forall white ns /\ fine t /\ Forall fine r /\ allowed t /\ skipped t = false)).
  - intros t r A S F. inversion F; subst. repeat split; auto.
  - intros x ts ns t r A S _ IH F. inversion F as [|? ? Fx Ft]; subst. destruct (IH Ft) as [H1 H2]. split; [|exact H2]. constructor; [|exact H1].
    destruct x; try discriminate S; cbn [kept_blank]; cbn [fine] in Fx; try (constructor; fail); try (constructor; exact Fx); [|destruct Fx].
    constructor. apply Fx, S.
Qed.
Lemma separator_fine : forall ts sn b r, check_element_separator JSON e ts = Ok (sn, b, r) -> Forall fine ts ->
  Forall fine r /\ if b then exists ws, sn = ws ++ [NTok TComma] /\ Forall white ws else Forall white sn /\ exists t r', r = t :: r' /\ allowed t /\ skipped t = false.
Proof.
  intros ts sn b r H F. unfold check_element_separator in H. inv_bind H. destruct a as [[ns t] r']. destruct (collect_fine _ _ _ _ Hb F) as [W [Ft [Fr [A S]]]].
  destruct t; injection Hk as <- <- <-; try (split; [constructor; assumption|]; split; [exact W|eauto]). split; [exact Fr|]. eauto.
Qed.
Definition accepts (k : nat) : Prop := forall t ts n r, read k t ts = Ok (n, r) -> allowed t -> skipped t = false -> Forall fine (t :: ts) -> exists v, good true n v /\ Forall fine r.
Lemma array_accepts : forall k, accepts k -> forall f ts ns r, array_loop (read k) JSON e f ts = Ok (ns, r) -> Forall fine ts ->
  exists vs, (forall b, elements true (After b) ns vs) /\ Forall fine r.
Proof.
  intros k P. induction f as [|f IH]; intros ts ns r H F; [discriminate|]. cbn [array_loop] in H. step H as [[sn sep] r1] H1.
  destruct (separator_fine _ _ _ _ H1 F) as [F1 S]. destruct sep; cbn [negb] in H.
  - cbn [consolidate_values bind] in H. step H as [[ws t] r2] H2. destruct (collect_fine _ _ _ _ H2 F1) as [W [Ft [Fr [A Sk]]]].
    destruct (is_value_start t); [|cbn [is_json negb andb] in H; discriminate]. step H as [n r3] H3. step H as [rest r4] H4. injection H as <- <-.
    destruct (P _ _ _ _ H3 A Sk (Forall_cons _ Ft Fr)) as [v [G Fr3]]. destruct (IH _ _ _ H4 Fr3) as [vs [E Fr4]]. destruct S as [ws0 [-> W0]].
    exists (v :: vs). split; [|exact Fr4]. intro b. rewrite <- app_assoc. apply elements_whites; [exact W0|]. cbn [app]. apply el_comma. apply elements_whites; [exact W|]. apply el_value; auto.
  - destruct S as [W0 [t [r' [-> [A Sk]]]]]. rewrite collect_stop in H by assumption. cbn [bind] in H. destruct t; try discriminate. injection H as <- <-. inversion F1; subst.
    exists []. split; [|assumption]. intro b. cbn [app]. apply elements_whites; [exact W0|]. apply el_end. discriminate.
Qed.
Lemma field_accepts : forall k, accepts k -> forall keys t ts n keys' r, Doc_Model.parse_field (read k) JSON e keys t ts = Ok (n, keys', r) -> Forall fine (t :: ts) ->
  exists fc q v, n = NField fc /\ field true fc q v /\ keys' = q :: keys /\ ~ In q keys /\ Forall fine r.
Proof.
  intros k P keys t ts n keys' r H F. inversion F as [|? ? Ft Fts]; subst. unfold Doc_Model.parse_field in H. step H as [pn r1] H1. unfold parse_key in H1.
  destruct (is_string_value t) eqn:S; [|discriminate]. destruct t as [| | | | | | | | | | | | | | |s x]; try discriminate S. destruct s as [| | | | |q b]; try discriminate S. cbn [fine] in Ft. destruct Ft as [Rd Q].
  rewrite (Q q b eq_refl) in *. rewrite key_path in H1. cbn [bind] in H1. injection H1 as <- <-.
  step H as [[ws after] r2] H2. destruct (collect_fine _ _ _ _ H2 Fts) as [W [Fa [F2 _]]]. cbn [is_json negb andb] in H.
  step H as [nodes r3] H3. destruct (is_key_value_separator JSON after) eqn:K; cbn [negb] in H3; [|discriminate]. cbn [consolidate_values bind] in H3.
  step H3 as [[ws' t'] r4] H4. destruct (collect_fine _ _ _ _ H4 F2) as [W' [Ft' [F4 [A Sk]]]]. step H3 as [v r5] H5. injection H3 as <- <-.
  destruct (P _ _ _ _ H5 A Sk (Forall_cons _ Ft' F4)) as [w [G F5]].
  destruct after; try discriminate K. cbn [fst app] in H. destruct (existsb (str_eqb q) keys) eqn:E; [discriminate|]. injection H as <- <- <-.
  eexists _, q, w. split; [reflexivity|]. split; [exact (a_field true [] q (TValue (SStr q true) x) [] ws ws' v w (Forall_nil _) Rd (or_introl eq_refl) W W' G)|]. split; [reflexivity|]. split; [|exact F5].
  intro I. assert (X : existsb (str_eqb q) keys = true); [|congruence]. apply existsb_exists. exists q. split; [exact I|apply str_eqb_eq; reflexivity].
Qed.
Lemma object_accepts : forall k, accepts k -> forall f b keys ts ns r, object_loop (read k) JSON e f true b keys ts = Ok (ns, r) -> Forall fine ts ->
  exists m, members true (if b then Comma else Open) ns m /\ NoDup (map fst m) /\ (forall q, In q (map fst m) -> ~ In q keys) /\ Forall fine r.
Proof.
  intros k P. induction f as [|f IH]; intros b keys ts ns r H F; [discriminate|]. cbn [object_loop] in H. step H as [[ws t] r1] H1.
  destruct (collect_fine _ _ _ _ H1 F) as [W [Ft [F1 [A Sk]]]].
  assert (Step : ('(item, keys', r2) <- Doc_Model.parse_field (read k) JSON e keys t r1 ;;
    '(sn, separated, r3) <- check_element_separator JSON e r2 ;;
    if separated then '(rest, r4) <- object_loop (read k) JSON e f true true keys' r3 ;; Ok (ws ++ item :: sn ++ rest, r4)
    else '(ws2, t2, r4) <- collect JSON e r3 ;; match t2 with TCloseCurly => Ok (ws ++ item :: sn ++ ws2 ++ [NTok t2], r4) | _ => Throw EParse end) = Ok (ns, r) ->
    exists m, members true (if b then Comma else Open) ns m /\ NoDup (map fst m) /\ (forall q, In q (map fst m) -> ~ In q keys) /\ Forall fine r).
  { clear H. intro H. step H as [[item keys'] r2] H2. destruct (field_accepts k P _ _ _ _ _ _ H2 (Forall_cons _ Ft F1)) as [fc [q [v [-> [Fd [-> [NI F2]]]]]]].
    step H as [[sn sep] r3] H3. destruct (separator_fine _ _ _ _ H3 F2) as [F3 S]. destruct sep.
    - step H as [rest r4] H4. injection H as <- <-. destruct (IH _ _ _ _ _ H4 F3) as [m [M [D [X F4]]]]. destruct S as [ws0 [-> W0]].
      exists ((q, v) :: m). split; [|split; [|split; [|exact F4]]].
      + apply members_spread; [exact W|]. apply me_field; [destruct b; auto|exact Fd|]. rewrite <- app_assoc. apply members_spread; [exact W0|]. cbn [app]. apply me_comma; [reflexivity|exact M].
      + cbn [map fst]. constructor; [|exact D]. intro I. apply (X q I). left. reflexivity.
      + intros p [<-|I]; [exact NI|]. intro J. apply (X p I). right. exact J.
    - destruct S as [W0 [t3 [r' [-> [A3 Sk3]]]]]. rewrite collect_stop in H by assumption. cbn [bind] in H. destruct t3; try discriminate. injection H as <- <-. inversion F3; subst.
      exists [(q, v)]. split; [|split; [|split; [|assumption]]].
      + apply members_spread; [exact W|]. apply me_field; [destruct b; auto|exact Fd|]. cbn [app]. apply members_spread; [exact W0|]. apply me_end. discriminate.
      + repeat constructor. intros [].
      + intros p [<-|[]]. exact NI. }
  cbn [is_json negb andb] in H. destruct t; try exact (Step H). cbn [andb] in H. destruct b; [discriminate|]. injection H as <- <-.
  exists []. split; [|split; [constructor|split; [intros q []|exact F1]]]. apply members_spread; [exact W|]. apply me_end. discriminate.
Qed.
Lemma accepts_all : forall k, accepts k.
Proof.
  induction k as [|k P]; intros t ts n r H A S F; [discriminate|]. inversion F as [|? ? Ft Fts]; subst. cbn [Doc_Model.parse_value] in H. destruct t; try discriminate.
  - unfold parse_object in H. step H as [ns r1] H1. injection H as <- <-. destruct (object_accepts k P _ _ _ _ _ _ H1 Fts) as [m [M [D [_ F1]]]]. exists (new_object m). split; [|exact F1]. constructor; assumption.
  - unfold parse_array in H. cbn [consolidate_values bind] in H. step H as [cs r1] H1. injection H as <- <-. step H1 as [[ws t] r2] H2. destruct (collect_fine _ _ _ _ H2 Fts) as [W [Ft' [F2 [A2 S2]]]].
    assert (Step : (if is_value_start t then '(v, r3) <- read k t r2 ;; '(rest, r4) <- array_loop (read k) JSON e (Datatypes.S (List.length r3)) r3 ;; Ok ([] ++ ws ++ v :: rest, r4) else Throw EParse) = Ok (cs, r1) ->
      exists v, good true (NArray (NTok TOpenSquare :: cs)) v /\ Forall fine r1).
    { clear H1. intro H1. destruct (is_value_start t); [|discriminate]. step H1 as [n r3] H3. step H1 as [rest r4] H4. injection H1 as <- <-.
      destruct (P _ _ _ _ H3 A2 S2 (Forall_cons _ Ft' F2)) as [v [G F3]]. destruct (array_accepts k P _ _ _ _ H4 F3) as [vs [E F4]]. exists (VList (v :: vs)). split; [|exact F4].
      constructor. cbn [app]. apply elements_whites; [exact W|]. apply el_value; auto. }
    destruct t; try exact (Step H1). injection H1 as <- <-. exists (VList []). split; [|exact F2]. constructor. cbn [app]. apply elements_whites; [exact W|]. apply el_end. discriminate.
  - unfold allowed in A. cbn in A, S. rewrite S in A. discriminate.
  - injection H as <- <-. exists (VScalar v). split; [|exact Fts]. constructor. apply Ft.
Qed.
End Accepted.

(** ** Texts *)
(** The children of the root node of a JSON document with the value [v] *)
Definition document (loose : bool) (ns : list node) (v : value) : Prop :=
  exists pre n post, ns = pre ++ n :: post /\ Forall white pre /\ Forall white post /\ is_complex n = true /\ good loose n v.

Lemma delivered_fine : forall s t ts e, no_nul s -> delivered (lex false s) = (t :: ts, e) -> Forall fine ts.
Proof.
  intros s t ts e N H. unfold lex in H. destruct (lex_loop _ false saver_init s) as [ts' e'] eqn:L. pose proof (lexed_fine _ _ _ _ _ _ N (Forall_nil _) L) as F.
  destruct e'; cbn [delivered] in H; [injection H as _ <- _; exact F| |].
  - destruct ts' as [|a ts']; [discriminate|]. cbn [removelast] in H. injection H as _ <- _. destruct (exists_last (l := a :: ts') ltac:(discriminate)) as [l [z E]].
    change (match ts' with [] => [] | _ :: _ => a :: removelast ts' end) with (removelast (a :: ts')). rewrite E in *. rewrite removelast_last. apply Forall_app in F. apply F.
  - destruct ts' as [|a ts']; [discriminate|]. cbn [removelast] in H. injection H as _ <- _. destruct (exists_last (l := a :: ts') ltac:(discriminate)) as [l [z E]].
    change (match ts' with [] => [] | _ :: _ => a :: removelast ts' end) with (removelast (a :: ts')). rewrite E in *. rewrite removelast_last. apply Forall_app in F. apply F.
Qed.
Lemma parsed_document : forall s ns, no_nul s -> parse_document JSON s = Ok ns -> exists v, document true ns v.
Proof.
  intros s ns N H. unfold parse_document, after_start in H. cbn [is_json negb] in H. destruct (delivered (lex false s)) as [[|t0 ts] e] eqn:D; [destruct e; discriminate|].
  pose proof (delivered_fine _ _ _ _ N D) as F. unfold parse_root in H. step H as [[ws t] r] H1. destruct (collect_fine _ _ _ _ _ H1 F) as [W [Ft [Fr [A S]]]].
  step H as [[mc ch] r1] H2. step H as [[ws2 t2] r2] H3.
  assert (X : exists n, mc = false /\ ch = ws ++ [n] /\ Doc_Model.parse_value (Datatypes.S (List.length ts)) JSON e t r = Ok (n, r1) /\ (t = TOpenCurly \/ t = TOpenSquare)).
  { destruct t; try discriminate H2; step H2 as [n r1'] H2'; injection H2 as <- <- <-; exists n; auto. }
  destruct X as [n [-> [-> [P O]]]]. destruct (accepts_all e _ _ _ _ _ P A S (Forall_cons _ Ft Fr)) as [v [G F1]].
  destruct (collect_fine _ _ _ _ _ H3 F1) as [W2 _]. destruct t2; try discriminate. injection H as <-. exists v, ws, n, ws2. split; [rewrite <- app_assoc; reflexivity|]. split; [exact W|]. split; [exact W2|]. split; [|exact G].
  destruct O as [-> | ->]; cbn [Doc_Model.parse_value] in P.
  - unfold parse_object in P. step P as [cs r'] Hc. injection P as <- _. reflexivity.
  - unfold parse_array in P. step P as [[ns' nx] r''] Hc. step P as [cs r3] Hd. injection P as <- _. reflexivity.
Qed.
Lemma parsed_value : forall s o, no_nul s -> parse_value_text JSON s = Ok o -> exists n v, o = Some n /\ good true n v.
Proof.
  intros s o N H. unfold parse_value_text, after_start in H. cbn [is_json negb] in H. destruct (delivered (lex false s)) as [[|t0 ts] e] eqn:D; [destruct e; discriminate|].
  pose proof (delivered_fine _ _ _ _ N D) as F. unfold parse_single_value in H. step H as [t r] H1. unfold next_token in H1. destruct ts as [|t1 ts]; [destruct e; discriminate|].
  destruct (json_forbids JSON t1) eqn:A; [discriminate|]. injection H1 as <- <-.
  destruct (match t1 with TIgnored _ | TNewline | TComment _ _ => true | _ => is_unquoted_whitespace t1 end) eqn:S; [discriminate|].
  assert (S' : skipped t1 = false) by (destruct t1; try discriminate S; try reflexivity; exact S).
  assert (X : exists v r1, Doc_Model.parse_value (Datatypes.S (List.length (t1 :: ts))) JSON e t1 ts = Ok (v, r1) /\ o = Some v).
  { destruct t1; try discriminate H; cbn [is_json] in H; step H as [v0 r1] H2; step H as [t2 r2] H3; destruct t2; try discriminate H; injection H as <-; eauto. }
  destruct X as [n [r1 [P ->]]]. destruct (accepts_all e _ _ _ _ _ P A S' F) as [v [G _]]. eauto.
Qed.

Lemma document_root : forall inc loose ns v, document loose ns v -> forall next, parse_root_nodes JSON inc None ns next = Ok (Some v, next).
Proof.
  intros inc loose ns v [pre [n [post [-> [W [W2 [C G]]]]]]] next. assert (E : forall cs, parse_root_nodes JSON inc None (pre ++ cs) next = parse_root_nodes JSON inc None cs next).
  { intro cs. induction W as [|c pre Wc W IH]; [reflexivity|]. cbn [app]. destruct Wc; exact IH. }
  rewrite E. assert (E2 : parse_root_nodes JSON inc (Some v) post next = Ok (Some v, next)).
  { clear -W2. induction W2 as [|c post Wc W IH]; [reflexivity|]. destruct Wc; [reflexivity|exact IH|exact IH]. }
  destruct n; try discriminate C; cbn [parse_root_nodes is_complex]; rewrite (good_means loose inc _ v G); cbn [bind]; exact E2.
Qed.
(** A JSON document is read back from its text. *)
Lemma document_text : forall loose ns v, document loose ns v -> exists ns', parse_document JSON (render_nodes ns) = Ok ns' /\ document true ns' v.
Proof.
  intros loose ns v [pre [n [post [-> [W [W2 [C G]]]]]]]. destruct (good_spelled loose n v G) as [tv [S E]].
  destruct (whites_gap pre W) as [g [Gg Eg]]. destruct (whites_gap post W2) as [g' [Gg' Eg']].
  assert (R : render_nodes (pre ++ n :: post) = render_tokens (g ++ tv ++ g')) by (rewrite nodes_app, nodes_cons, !render_app, E, Eg, Eg'; reflexivity).
  destruct (proj1 (spell_read LEnd) v tv S) as [t [tl [n' [-> [[T1 [T2 T3]] [G' P]]]]]].
  assert (O : t = TOpenCurly \/ t = TOpenSquare). { inversion G; subst; try discriminate C; inversion S; subst; auto. }
  assert (Rd : Doc_Model.parse_value (Datatypes.S (List.length (g ++ (t :: tl) ++ g' ++ [TEnd]))) JSON LEnd t (tl ++ g' ++ [TEnd]) = Ok (n', g' ++ [TEnd])).
  { apply P. rewrite !app_length. lia. }
  assert (X : is_complex n' = true).
  { destruct O as [-> | ->]; cbn [Doc_Model.parse_value] in Rd.
    - unfold parse_object in Rd. step Rd as [cs r'] Hc. injection Rd as <- _. reflexivity.
    - unfold parse_array in Rd. step Rd as [[ns' nx] r1] Hc. step Rd as [cs r2] Hd. injection Rd as <- _. reflexivity. }
  exists (map NTok g ++ n' :: map NTok g'). split.
  - unfold parse_document, after_start. cbn [is_json negb]. rewrite R, (spell_lex v (t :: tl) g g' S Gg Gg'). cbn [delivered]. unfold parse_root.
    change (g ++ (t :: tl) ++ g' ++ [TEnd]) with (g ++ t :: tl ++ g' ++ [TEnd]) in *. rewrite collect_white by assumption. cbn [bind].
    rewrite Rd. destruct O as [-> | ->]; cbn [bind]; rewrite collect_white by (assumption || reflexivity); cbn [bind]; rewrite <- app_assoc; reflexivity.
  - exists (map NTok g), n', (map NTok g'). repeat split; auto; apply gap_whites; assumption.
Qed.
