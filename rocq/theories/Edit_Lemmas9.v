(** Edits that end: nothing on the way fails. *)
From Verif Require Import Base BaseLemmas Util_Model Num_Model Path_Model Path_Spec Path_Lemmas Token_Model PathParser_Model PathParser_Lemmas3
  Doc_Model Doc_Spec Doc_Lemmas Doc_Lemmas2 Doc_Lemmas3 Edit_Model Edit_Spec Edit_Lemmas Edit_Lemmas2 Edit_Lemmas3 Edit_Lemmas4 Edit_Lemmas5 Edit_Lemmas8 ConfText_Spec.

(** ** Paths *)
Lemma skip_dots : forall ts k n, (0 <= k < n)%Z -> (n - k <= Z.of_nat (dots ts))%Z ->
  exists r, skip_periods k n ts = Some r /\ Z.of_nat (dots r) = (Z.of_nat (dots ts) - (n - k))%Z.
Proof.
  induction ts as [|t ts IH]; intros k n K L; cbn [dots skip_periods] in *; [lia|]. unfold is_dot in L. unfold is_dot at 1. destruct (match t with TUnquoted s => str_eqb s (lit ".") | _ => false end).
  - destruct (k + 1 =? n) eqn:E; [apply Z.eqb_eq in E; exists ts; split; [reflexivity|lia]|]. apply Z.eqb_neq in E.
    destruct (IH (k + 1)%Z n ltac:(lia) ltac:(lia)) as [r [R1 R2]]. exists r. split; [exact R1|lia].
  - destruct (k =? n) eqn:E; [apply Z.eqb_eq in E; lia|]. destruct (IH k n K L) as [r [R1 R2]]. exists r. split; [exact R1|lia].
Qed.
Definition counted (d : path_node) : Prop := List.length (fst d) = S (dots (snd d)).
Lemma sub_path_total : forall d key r, counted d -> key <> [] -> r <> [] -> fst d = key ++ r -> exists rest, path_node_sub_path d (length key) = Ok rest /\ fst rest = r /\ counted rest.
Proof.
  intros [dp dt] key r C Nk Nr E. unfold counted in *. cbn [fst snd] in *. unfold path_node_sub_path. cbn [fst snd]. rewrite length_spec by exact Nk.
  assert (L : (1 <= Z.of_nat (List.length key) <= Z.of_nat (dots dt))%Z).
  { rewrite E, app_length in C. destruct key; [congruence|]. destruct r; [congruence|]. cbn [List.length] in *. lia. }
  destruct (skip_dots dt 0 (Z.of_nat (List.length key)) ltac:(lia) ltac:(lia)) as [ts [S1 S2]]. rewrite S1. eexists. split; [reflexivity|]. cbn [fst snd].
  assert (Q : sub_path dp (Z.of_nat (List.length key)) = r).
  { rewrite E, sub_path_spec; [rewrite skipn_app, skipn_all, Nat.sub_diag; reflexivity|]. rewrite app_length. destruct r; [congruence|]. cbn. lia. }
  split; [exact Q|]. rewrite Q. rewrite E, app_length in C. lia.
Qed.
Lemma no_dots_before : forall ts, dots ts = O -> before_period ts = None.
Proof. induction ts as [|t ts IH]; intro H; [reflexivity|]. cbn [dots before_period] in *. unfold is_dot in H at 1. destruct (match t with TUnquoted s => str_eqb s (lit ".") | _ => false end); [discriminate|]. rewrite (IH H). reflexivity. Qed.
Lemma first_total : forall d, counted d -> fst d <> [] -> exists fp, path_node_first d = Ok fp.
Proof.
  intros [dp dt] C N. unfold counted in C. cbn [fst snd] in *. unfold path_node_first. cbn [fst snd]. destruct dp as [|k [|k2 r]]; [congruence| |].
  - rewrite no_dots_before by (cbn in C; lia). eexists. reflexivity.
  - destruct (before_period dt); [|eexists; reflexivity]. rewrite sub_path2_one by discriminate. eexists. reflexivity.
Qed.

(** ** Indenting *)
Definition indents (ind n : node) : Prop := wf_node n = true -> is_newline ind = false \/ newline_free n = true -> exists n', indent_text ind n = Ok n'.
Lemma indent_field_total : forall ind fc, Forall (indents ind) fc -> value_of fc <> None -> wfs fc = true -> is_newline ind = false \/ forallb newline_free fc = true ->
  exists fc', indent_field (indent_text ind) fc = Ok fc'.
Proof.
  intros ind. induction fc as [|x fc IH]; intros F V W N; [destruct (V eq_refl)|]. inversion F as [|? ? Fx F']; subst. unfold wfs in W. cbn [forallb] in W, N. apply andb_true_iff in W. destruct W as [Wx W].
  assert (Nx : (is_newline ind = false \/ newline_free x = true) /\ (is_newline ind = false \/ forallb newline_free fc = true)).
  { destruct N as [N|N]; [auto|]. apply andb_true_iff in N. destruct N. auto. }
  destruct Nx as [Nx N']. cbn [indent_field]. destruct (is_value_node x) eqn:Ev.
  - destruct (is_complex x); [|eexists; reflexivity]. destruct (Fx Wx Nx) as [x' X]. rewrite X. eexists. reflexivity.
  - destruct (IH F') as [r R]; [destruct x; try discriminate; exact V|exact W|exact N'|]. rewrite R. eexists. reflexivity.
Qed.
Lemma indent_children_total : forall ind cs, Forall (fun c => indents ind c /\ forall fc, c = NField fc -> Forall (indents ind) fc) cs -> wfs cs = true ->
  is_newline ind = false \/ forallb newline_free cs = true -> exists cs', indent_children (indent_text ind) ind cs = Ok cs'.
Proof.
  intros ind. induction cs as [|c cs IH]; intros F W N; [eexists; reflexivity|]. inversion F as [|? ? [Fc Ff] F']; subst. unfold wfs in W. cbn [forallb] in W, N. apply andb_true_iff in W. destruct W as [Wc W].
  assert (Nx : (is_newline ind = false \/ newline_free c = true) /\ (is_newline ind = false \/ forallb newline_free cs = true)).
  { destruct N as [N|N]; [auto|]. apply andb_true_iff in N. destruct N. auto. }
  destruct Nx as [Nc N']. destruct (IH F' W N') as [r R]. cbn [indent_children]. destruct c as [t|t|p|t|fc|ic k|cc|ac|oc]; rewrite ?R; cbn [bind]; try (eexists; reflexivity).
  - destruct t; cbn [bind]; try (eexists; reflexivity). destruct (is_newline ind) eqn:Ei; [|eexists; reflexivity]. destruct Nc as [Nc|Nc]; discriminate.
  - cbn [wf_node] in Wc. apply andb_true_iff in Wc. destruct Wc as [Wf Wc]. destruct (field_parts _ Wf) as [toks [v [_ [_ [_ [V _]]]]]].
    destruct (indent_field_total ind fc (Ff _ eq_refl)) as [fc' E]; [rewrite V; discriminate|exact Wc|exact Nc|]. rewrite E. cbn [bind]. eexists. reflexivity.
  - destruct (Fc Wc Nc) as [c' E]. rewrite E. cbn [bind]. eexists. reflexivity.
  - destruct (Fc Wc Nc) as [c' E]. rewrite E. cbn [bind]. eexists. reflexivity.
  - destruct (Fc Wc Nc) as [c' E]. rewrite E. cbn [bind]. eexists. reflexivity.
Qed.
Lemma indent_text_total : forall ind n, indents ind n.
Proof.
  intros ind n. assert (G : indents ind n /\ forall fc, n = NField fc -> Forall (indents ind) fc); [|apply G].
  induction n as [t|t|p|t|cs IH|cs k IH|cs IH|cs IH|cs IH] using node_ind'; try (split; [intros W N; eexists; reflexivity|discriminate]).
  - split; [intros W N; eexists; reflexivity|]. intros fc E. injection E as <-. eapply Forall_impl; [|exact IH]. intros a Ha. apply Ha.
  - split; [|discriminate]. intros W N. cbn [indent_text]. destruct (indent_children_total ind cs IH W N) as [cs' E]. rewrite E. eexists. reflexivity.
  - split; [|discriminate]. intros W N. cbn [indent_text]. destruct (indent_children_total ind cs IH W N) as [cs' E]. rewrite E. eexists. reflexivity.
  - split; [|discriminate]. intros W N. cbn [indent_text]. cbn [wf_node] in W. apply andb_true_iff in W. destruct W as [_ W].
    destruct (indent_children_total ind cs IH W N) as [cs' E]. rewrite E. eexists. reflexivity.
Qed.

(** ** Changing *)
Lemma replace_total : forall fc v w, value_of fc = Some w -> exists fc', replace_value fc v = Ok fc'.
Proof.
  induction fc as [|c fc IH]; intros v w H; [discriminate|]. cbn [replace_value]. destruct (is_value_node c) eqn:E; [eexists; reflexivity|].
  destruct (IH v w) as [r R]; [destruct c; try discriminate; exact H|]. rewrite R. eexists. reflexivity.
Qed.
Lemma indent_like_total : forall b v, wf_node v = true -> exists v', indent_like b v = Ok v'.
Proof.
  intros [b|] v W; [|eexists; reflexivity]. cbn [indent_like]. destruct (is_complex v && is_blank_node b) eqn:E; [|eexists; reflexivity].
  apply andb_true_iff in E. destruct E as [_ E]. apply indent_text_total; [exact W|]. left. destruct b as [[]| | | | | | | |]; try discriminate; reflexivity.
Qed.
Lemma change_children_total : forall rec f p v cs i prev, p <> [] -> wfs cs = true -> ok_value v ->
  (forall ocs r vc0, wfs ocs = true -> r <> [] -> (List.length r < List.length p)%nat -> ok_value vc0 -> exists ocs', rec ocs r vc0 = Ok ocs') ->
  exists after seen vc, change_children rec f p v i prev cs = Ok (after, seen, vc) /\ (vc = v \/ vc = None).
Proof.
  intros rec f p v. induction cs as [|c cs IH]; intros i prev Hp Hw Hv Hrec; cbn [change_children]; [exists [], false, v; auto|].
  unfold wfs in Hw. cbn [forallb] in Hw. apply andb_true_iff in Hw. destruct Hw as [Hc Hw].
  destruct (IH (S i) (Some c) Hp Hw Hv Hrec) as [after0 [seen0 [vc0 [E0 Hvc]]]]. rewrite E0. cbn [bind].
  assert (Hvc' : ok_value vc0) by (destruct Hvc as [-> | ->]; [exact Hv|exact I]).
  destruct c as [t|t|q|t|fc|ic k|cc|ac|oc]; try (do 3 eexists; split; [reflexivity|exact Hvc]).
  - destruct (_ && _); do 3 eexists; (split; [reflexivity|exact Hvc]).
  - destruct (_ && _); do 3 eexists; (split; [reflexivity|exact Hvc]).
  - cbn [wf_node] in Hc. apply andb_true_iff in Hc. destruct Hc as [Hf Hcs].
    destruct (field_parts _ Hf) as [toks [ov [E1 [Hne [E2 [E3 E4]]]]]]. rewrite E1. cbn [bind].
    destruct (relate_ops (key_of fc) p Hne Hp) as [O1 [O2 [O3 O4]]]. rewrite O1, O2, O3.
    destruct (relate (key_of fc) p) as [| |r|] eqn:Er.
    + destruct vc0 as [v0|]; cbn [bind andb negb]; [|do 3 eexists; split; [reflexivity|exact Hvc]].
      destruct (indent_like_total (if (2 <=? i)%nat then prev else None) v0 (proj1 Hvc')) as [v' V]. rewrite V. cbn [bind].
      destruct (replace_total fc v' ov E3) as [fc' R]. rewrite R. cbn [bind]. do 3 eexists. split; [reflexivity|auto].
    + destruct vc0; cbn [bind andb negb]; do 3 eexists; (split; [reflexivity|exact Hvc]).
    + destruct (O4 r eq_refl) as [O5 [O6 O7]]. rewrite E2, O5.
      assert (X : exists after seen vc, match ov with
         | NObject ocs => ocs' <- rec ocs r vc0 ;; fc' <- replace_value fc (NObject ocs') ;; Ok (NField fc' :: after0, true, vc0)
         | _ => Ok (NField fc :: after0, true, vc0) end = Ok (after, seen, vc) /\ (vc = v \/ vc = None)).
      { destruct ov; try (do 3 eexists; split; [reflexivity|exact Hvc]).
        pose proof (value_wf _ _ E3 Hcs) as Hvw. cbn in Hvw. apply andb_true_iff in Hvw. destruct Hvw as [_ Hvw].
        destruct (Hrec children r vc0 Hvw O6 (above_shorter _ _ _ Hne Er) Hvc') as [ocs' R]. rewrite R. cbn [bind].
        destruct (replace_total fc (NObject ocs') _ E3) as [fc' R']. rewrite R'. cbn [bind]. do 3 eexists. split; [reflexivity|exact Hvc]. }
      destruct vc0; cbn [bind andb negb]; exact X.
    + destruct vc0; cbn [bind andb negb]; do 3 eexists; (split; [reflexivity|exact Hvc]).
Qed.
Lemma change_value_total : forall n f cs p v, p <> [] -> (List.length p <= n)%nat -> wfs cs = true -> ok_value v -> exists cs', change_value_n n f cs p v = Ok cs'.
Proof.
  induction n as [|n IH]; intros f cs p v Hp Hl Hw Hv; [destruct p; [congruence|cbn in Hl; lia]|]. cbn [change_value_n].
  destruct (change_children_total (change_value_n n f) f p v cs O None Hp Hw Hv) as [a [s [vc [E _]]]]; [|rewrite E; eexists; reflexivity].
  intros ocs r vc0 W N L V. apply IH; try assumption. lia.
Qed.

(** ** Adding *)
Lemma after_newline_in : forall cs r, after_newline cs = Some r -> existsb is_newline cs = true.
Proof. induction cs as [|c cs IH]; intros r H; [discriminate|]. cbn [after_newline existsb] in *. destruct (is_newline c); [reflexivity|]. exact (IH r H). Qed.
Lemma indentation_total : forall cs, exists ind, indentation cs = Ok ind /\ (starts_open cs = true -> ends_close cs = true -> forall back r, rev ind = back :: r -> is_newline back = false).
Proof.
  intros cs. unfold indentation. destruct cs as [|c0 cs0]; [eexists; split; [reflexivity|discriminate]|]. destruct (after_newline (c0 :: cs0)) as [rest|] eqn:A.
  2:{ eexists. split; [reflexivity|]. intros _ _ back r E. injection E as <- _. reflexivity. }
  destruct (field_indent rest) as [ws|] eqn:Fi.
  { eexists. split; [reflexivity|]. intros _ _ back r E. injection E as <- _. clear -Fi. induction rest as [|x rest IH]; [discriminate|]. cbn [field_indent] in Fi.
    assert (G : (if is_blank_node x then Some x else field_indent rest) = Some ws -> is_newline ws = false).
    { destruct (is_blank_node x) eqn:B; [|exact IH]. intro E. injection E as <-. destruct x as [[]| | | | | | | |]; try discriminate; reflexivity. }
    destruct rest as [|[] rest]; try exact (IH Fi); try exact (G Fi). }
  destruct (rev (c0 :: cs0)) as [|last before] eqn:Er; [eexists; split; [reflexivity|]; intros; apply (f_equal (@List.length node)) in Er; rewrite rev_length in Er; discriminate|].
  destruct (is_close_curly last) eqn:El.
  - destruct before as [|b before].
    + exfalso. apply (f_equal (@rev node)) in Er. rewrite rev_involutive in Er. cbn [rev app] in Er. injection Er as -> ->. apply after_newline_in in A. cbn in A. rewrite orb_false_r in A. destruct last as [[]| | | | | | | |]; discriminate.
    + eexists. split; [reflexivity|]. intros _ _ back r E. injection E as <- _. reflexivity.
  - eexists. split; [reflexivity|]. intros _ Hc. exfalso. apply ends_close_split in Hc. destruct Hc as [pre [c [Ec Hc]]]. rewrite Ec, rev_app_distr in Er. injection Er as -> _. congruence.
Qed.
Lemma insert_length : forall i x cs, List.length (insert_at i x cs) = S (List.length cs).
Proof. intros i x cs. unfold insert_at. rewrite app_length. cbn [List.length]. rewrite <- (firstn_skipn i cs) at 3. rewrite app_length. lia. Qed.
Lemma place_total : forall commas brace same new k i1 cs, (i1 <= k)%nat -> (i1 <= List.length cs)%nat -> (brace = true -> starts_open cs = true) ->
  exists cs', place_loop commas brace same new i1 cs = Ok cs'.
Proof.
  intros commas brace same new. induction k as [|k IH]; intros [|i] cs Hk Hl Ho; try lia; try (eexists; reflexivity). cbn [place_loop].
  destruct (nth_error cs i) as [child|] eqn:Ec; [|apply nth_error_None in Ec; lia].
  destruct (_ && _ && _); [eexists; reflexivity|].
  destruct (brace && is_close_curly child) eqn:Eb; [|apply IH; [lia|lia|exact Ho]]. apply andb_true_iff in Eb. destruct Eb as [-> Eb]. specialize (Ho eq_refl).
  destruct cs as [|c0 cs]; [discriminate|]. cbn [starts_open] in Ho. assert (O0 : c0 = NTok TOpenCurly) by (destruct c0 as [[]| | | | | | | |]; try discriminate; reflexivity). subst c0.
  assert (Step : forall j, (0 < j <= i)%nat -> exists cs', place_loop commas true same new j (insert_at j new (NTok TOpenCurly :: cs)) = Ok cs').
  { intros [|j] J; [lia|]. apply IH; [lia|rewrite insert_length; lia|]. intros _. reflexivity. }
  destruct i as [|p]; [injection Ec as <-; discriminate|]. destruct (nth_error (NTok TOpenCurly :: cs) p) as [previous|] eqn:Ep; [|apply nth_error_None in Ep; lia].
  destruct (is_newline previous) eqn:En; [destruct p; [injection Ep as <-; discriminate|]; apply Step; lia|].
  destruct (is_blank_node previous) eqn:Ebl; [|apply Step; lia]. destruct p as [|q]; [injection Ep as <-; discriminate|].
  destruct (nth_error (NTok TOpenCurly :: cs) q) as [bp|] eqn:Eq; [|apply nth_error_None in Eq; lia]. destruct same; [apply Step; lia|].
  destruct (is_newline bp) eqn:Ebp; [destruct q; [injection Eq as <-; discriminate|]; apply Step; lia|]. apply Step; lia.
Qed.
(** The value fits: it has no newline, or the object and all the objects in it have braces. *)
Definition fits (v : node) (cs : list node) : Prop := newline_free v = true \/ starts_open cs = true.
Lemma add_below_total : forall rec d v cs, counted d -> fst d <> [] -> wfs cs = true -> (forall n, hasb n (fst d) cs = false) ->
  (forall ocs d', counted d' -> fst d' <> [] -> (List.length (fst d') < List.length (fst d))%nat -> wfs ocs = true -> braces ocs = true -> starts_open ocs = true ->
     (forall n, hasb n (fst d') ocs = false) -> exists ocs', rec ocs d' v = Ok ocs') ->
  exists o, add_below rec d v cs = Ok o.
Proof.
  intros rec d v cs C N W H Hrec. induction cs as [|c cs IH]; [eexists; reflexivity|]. unfold wfs in W. cbn [forallb] in W. apply andb_true_iff in W. destruct W as [Wc W].
  assert (Hc : forall n, hasb n (fst d) [c] = false) by (intro n; specialize (H n); rewrite hasb_cons in H; apply orb_false_iff in H; apply H).
  destruct IH as [o E]; [exact W|intro n; specialize (H n); rewrite hasb_cons in H; apply orb_false_iff in H; apply H|]. cbn [add_below]. rewrite E. cbn [bind].
  destruct o as [after|]; [eexists; reflexivity|]. destruct c as [t|t|q|t|fc|ic k|cc|ac|oc]; try (eexists; reflexivity).
  cbn [wf_node] in Wc. apply andb_true_iff in Wc. destruct Wc as [Wf Wc]. destruct (field_parts _ Wf) as [toks [ov [E1 [Nk [E2 [E3 _]]]]]]. rewrite E1. cbn [bind].
  destruct (relate_ops (key_of fc) (fst d) Nk N) as [_ [_ [O3 O4]]]. rewrite O3. cbn [bind]. pose proof (Hc 1%nat) as H1. rewrite hasb_field in H1.
  destruct (relate (key_of fc) (fst d)) as [| |r|] eqn:Er; try discriminate; try (eexists; reflexivity). rewrite E2. cbn [bind].
  destruct ov as [t|t|q|t|x|ic k|cc|ac|oc]; try (eexists; reflexivity). destruct (O4 r eq_refl) as [_ [Nr Ed]].
  destruct (sub_path_total d (key_of fc) r C Nk Nr Ed) as [rest [R1 [R2 R3]]]. rewrite R1. cbn [bind].
  pose proof (value_wf _ _ E3 Wc) as Wv. cbn [wf_node] in Wv. apply andb_true_iff in Wv. destruct Wv as [Wb Wv]. apply andb_true_iff in Wb. destruct Wb as [Wb Wo].
  destruct (Hrec oc rest R3) as [oc' R4]; try assumption; try (rewrite R2; assumption).
  - rewrite R2. exact (above_shorter _ _ _ Nk Er).
  - intro n. rewrite R2. specialize (Hc (S n)). rewrite hasb_field, Er, E3 in Hc. exact Hc.
  - rewrite R4. cbn [bind]. destruct (replace_total fc (NObject oc') _ E3) as [fc' R5]. rewrite R5. cbn [bind]. eexists. reflexivity.
Qed.
Lemma add_value_total : forall n f cs d v, counted d -> fst d <> [] -> (List.length (fst d) <= n)%nat -> wfs cs = true -> braces cs = true -> wf_node v = true -> is_value_node v = true ->
  (forall m, hasb m (fst d) cs = false) -> fits v cs -> exists cs', add_value_n n f cs d v = Ok cs'.
Proof.
  induction n as [|n IH]; intros f cs d v C N L W B V1 V2 H F; [destruct (fst d); [congruence|cbn in L; lia]|]. cbn [add_value_n].
  destruct (indentation_total cs) as [ind [Ei Hback]]. rewrite Ei. cbn [bind]. apply indentation_blank in Ei.
  assert (Hv : exists v', match rev ind with back :: _ => if is_complex v then indent_text back v else Ok v | [] => Ok v end = Ok v' /\ wf_node v' = true /\ is_value_node v' = true).
  { destruct (rev ind) as [|back r] eqn:Er; [exists v; auto|]. destruct (is_complex v); [|exists v; auto].
    assert (Hbk : blankish back = true) by (rewrite Forall_forall in Ei; apply Ei; rewrite in_rev, Er; left; reflexivity).
    destruct (indent_text_total back v V1) as [v' E].
    - destruct F as [F|F]; [auto|]. left. exact (Hback F (starts_open_braces _ B F) _ _ eq_refl).
    - exists v'. split; [exact E|]. apply indent_text_wf in E; [|exact Hbk|exact V1]. destruct E as [X1 X2]. rewrite X2. auto. }
  destruct Hv as [v' [Ev [W1 W2]]]. rewrite Ev. cbn [bind].
  assert (Hb : exists o, (if length (fst d) >? 1 then add_below (add_value_n n f) d v cs else Ok None) = Ok o).
  { destruct (_ >? _); [|eexists; reflexivity]. apply add_below_total; try assumption. intros ocs d' C' N' L' W' B' O' H'. apply IH; try assumption; [lia|]. right. exact O'. }
  destruct Hb as [o Eo]. rewrite Eo. cbn [bind]. destruct o as [cs'|]; [eexists; reflexivity|].
  destruct (first_total d C N) as [fp Efp]. rewrite Efp. cbn [bind].
  assert (Hn : exists nv, (if length (fst d) =? 1 then Ok v' else
      rest <- path_node_sub_path d 1 ;;
      ocs <- add_value_n n f (NTok TOpenCurly :: match ind with [] => [NTok TNewline] | _ => [] end ++ ind ++ [NTok TCloseCurly]) rest v' ;; Ok (NObject ocs)) = Ok nv).
  { destruct (length (fst d) =? 1) eqn:El; [eexists; reflexivity|]. destruct (fst d) as [|k r] eqn:Ed; [congruence|]. destruct r as [|k2 r]; [discriminate|].
    destruct (sub_path_total d [k] (k2 :: r) C ltac:(discriminate) ltac:(discriminate) Ed) as [rest [R1 [R2 R3]]]. change (length [k]) with 1 in R1. rewrite R1. cbn [bind].
    set (base := NTok TOpenCurly :: match ind with [] => [NTok TNewline] | _ :: _ => [] end ++ ind ++ [NTok TCloseCurly]).
    assert (Hbase : only_toks base).
    { constructor; [exact I|]. apply Forall_app. split; [destruct ind; repeat constructor|]. apply Forall_app. split; [|repeat constructor].
      eapply Forall_impl; [|exact Ei]. intros c Hc. apply blankish_tok in Hc. destruct Hc as [t [-> _]]. exact I. }
    destruct (IH f base rest v' R3) as [ocs R4]; [rewrite R2; discriminate|rewrite R2; cbn [List.length] in *; lia|apply toks_wf, Hbase|unfold base; rewrite app_assoc; apply braces_enclosed|exact W1|exact W2|intro m; apply hasb_toks, Hbase|right; reflexivity|].
    rewrite R4. eexists. reflexivity. }
  destruct Hn as [nv En]. rewrite En. cbn [bind].
  match goal with |- context [place_loop ?a ?b ?c ?x ?l ?y] => destruct (place_total a b c x l l y) as [cs1 Ep]; [lia|lia|intro X; exact X|] end.
  change (match cs with c :: _ => is_open_curly c | [] => false end) with (starts_open cs) in *.
  match goal with |- exists cs', (a <- (if ?b then _ else _) ;; _) = Ok cs' => destruct b end; rewrite ?Ep; cbn [bind]; (destruct (starts_open cs); [eexists; reflexivity|]);
    match goal with |- exists cs', match ?l with _ => _ end = Ok cs' => destruct l end; try (eexists; reflexivity); destruct (is_newline _); eexists; reflexivity.
Qed.

(** ** Setting and removing *)
Lemma set_value_total : forall cs d v f, counted d -> fst d <> [] -> wfs cs = true -> braces cs = true -> wf_node v = true -> is_value_node v = true -> fits v cs ->
  exists cs', set_value_on_path cs d v f = Ok cs'.
Proof.
  intros cs d v f C N W B V1 V2 F. unfold set_value_on_path, change_value_on_path.
  destruct (change_value_total (List.length (fst d)) f cs (fst d) (Some v) N ltac:(lia) W ltac:(split; assumption)) as [cs1 E]. rewrite E. cbn [bind].
  apply change_value_changed in E; [|exact N|exact W|split; assumption]. destruct (changed_edit _ _ _ _ W B E) as [D1 [D2 _]]. destruct (changed_braces _ _ _ _ E) as [_ [B2 _]].
  unfold has_value. rewrite has_value_n_spec by (assumption || lia). cbn [bind]. destruct (hasb (List.length (fst d)) (fst d) cs1) eqn:Hh; [eexists; reflexivity|].
  unfold add_value_on_path. apply add_value_total; try assumption; [lia| |].
  - intro m. destruct (Nat.le_gt_cases (List.length (fst d)) m) as [Hm|Hm].
    + rewrite (hasb_fuel m (List.length (fst d))) by (assumption || lia). exact Hh.
    + destruct (hasb m (fst d) cs1) eqn:X; [|reflexivity]. apply (hasb_mono m (List.length (fst d))) in X; [|lia]. congruence.
  - destruct F as [F|F]; [left; exact F|right; exact (B2 F)].
Qed.
Lemma on_root_total : forall {A} (g : list node -> result A) rebuild root ocs a, rooted root ocs -> g ocs = Ok a -> exists root', on_root g rebuild root = Ok (root', a).
Proof.
  intros A g rebuild root ocs a [pre [post [-> F]]] E. induction F as [|c pre Hc F IH].
  - cbn [app on_root]. rewrite E. eexists. reflexivity.
  - destruct IH as [r IH]. destruct c; try contradiction; cbn [app on_root]; rewrite IH; eexists; reflexivity.
Qed.
Lemma root_set_total : forall f root ocs ps p v, document f root -> rooted root ocs -> parse_path_node ps f = Ok p -> wf_node v = true -> is_value_node v = true ->
  newline_free v = true \/ starts_open ocs = true -> exists root', root_set_value root ps (Some v) f = Ok root'.
Proof.
  intros f root ocs ps p v D R P V1 V2 F. pose proof (document_wf _ _ D) as W. destruct (root_wf _ _ R W) as [W1 W2].
  destruct (set_value_total ocs p v f (path_node_dots _ _ _ P) (path_node_nonempty _ _ _ P) W1 W2 V1 V2 F) as [ocs' E]. unfold root_set_value, rmap.
  edestruct (on_root_total (fun o => p0 <- parse_path_node ps f ;; set_value_on_path o p0 v f)) as [root' Er]; [exact R|cbn beta; rewrite P; exact E|].
  rewrite Er. eexists. reflexivity.
Qed.
Lemma set_total : forall f root ocs ps p text v, document f root -> rooted root ocs -> parse_path_node ps f = Ok p -> parse_value_text f text = Ok (Some v) ->
  newline_free v = true \/ starts_open ocs = true -> exists root', with_value_text f root ps text = Ok root'.
Proof.
  intros f root ocs ps p text v D R P V F. pose proof (parse_value_text_sound _ _ _ V) as [n [En [V1 V2]]]. injection En as <-.
  unfold with_value_text. destruct text as [|c text]; [destruct f; discriminate V|]. rewrite V. cbn [bind]. eapply root_set_total; eassumption.
Qed.
Lemma remove_total : forall f root ocs ps p, document f root -> rooted root ocs -> parse_path_node ps f = Ok p -> exists root', without_path f root ps = Ok root'.
Proof.
  intros f root ocs ps p D R P. pose proof (document_wf _ _ D) as W. destruct (root_wf _ _ R W) as [W1 W2].
  destruct (change_value_total (List.length (fst p)) f ocs (fst p) None (path_node_nonempty _ _ _ P) ltac:(lia) W1 I) as [ocs' E].
  unfold without_path, root_set_value, rmap.
  edestruct (on_root_total (fun o => p0 <- parse_path_node ps f ;; change_value_on_path o (fst p0) None f)) as [root' Er]; [exact R|cbn beta; rewrite P; exact E|].
  rewrite Er. eexists. reflexivity.
Qed.

(** ** JSON documents have braces *)
Lemma json_root_wf : forall e ts ns, parse_root JSON e ts = Ok ns -> wfs ns = true.
Proof.
  intros e ts ns H. unfold parse_root in H. inv_bind H. destruct a as [[ws t] r].
  inv_bind Hk. destruct a as [[mc children] r1]. inv_bind Hk0. destruct a as [[ws2 t2] r2].
  apply collect_quiet in Hb. apply quiet_wf in Hb. destruct Hb as [W1 _]. apply collect_quiet in Hb1. apply quiet_wf in Hb1. destruct Hb1 as [V1 _].
  assert (C : mc = false /\ wfs children = true).
  { cbn [is_json] in Hb0. destruct t; try discriminate; (inv_bind Hb0; destruct a as [v r3]; injection Hk0 as <- <- <-; apply parse_value_sound in Hb; split; [reflexivity|]; rewrite wfs_app, wfs_cons, W1, (proj1 Hb); reflexivity). }
  destruct C as [-> C]. destruct t2; try discriminate. injection Hk as <-. rewrite wfs_app, C, V1. reflexivity.
Qed.
Lemma set_value_open : forall ocs pn v f ocs', fst pn <> [] -> wfs ocs = true -> braces ocs = true -> wf_node v = true -> is_value_node v = true ->
  set_value_on_path ocs pn v f = Ok ocs' -> starts_open ocs = true -> starts_open ocs' = true.
Proof.
  intros ocs pn v f ocs' N W B V1 V2 H Ho. unfold set_value_on_path in H. inv_bind H. inv_bind Hk. unfold change_value_on_path in Hb.
  apply change_value_changed in Hb; [|exact N|exact W|split; assumption]. destruct (changed_edit _ _ _ _ W B Hb) as [D1 [D2 _]]. destruct (changed_braces _ _ _ _ Hb) as [_ [B2 _]].
  unfold has_value in Hb0. rewrite has_value_n_spec in Hb0 by (assumption || lia). injection Hb0 as Ha0. destruct a0; [injection Hk0 as <-; exact (B2 Ho)|].
  unfold add_value_on_path in Hk0. apply add_value_added in Hk0; try assumption; [apply Hk0, B2, Ho|].
  intro m. destruct (Nat.le_gt_cases (List.length (fst pn)) m) as [Hm|Hm].
  - rewrite (hasb_fuel m (List.length (fst pn))) by (assumption || lia). exact Ha0.
  - destruct (hasb m (fst pn) a) eqn:X; [|reflexivity]. apply (hasb_mono m (List.length (fst pn))) in X; [|lia]. exact (match eq_true_false_abs _ X Ha0 with end).
Qed.
Lemma rooted_unique : forall root pre ocs post o, root = pre ++ NObject ocs :: post -> Forall (fun c => match c with NObject _ | NArray _ => False | _ => True end) pre -> rooted root o -> o = ocs.
Proof.
  intros root pre ocs post o E F R. rewrite <- (rooted_object _ _ R). apply rooted_object. exists pre, post. auto.
Qed.
Lemma json_open : forall root, document JSON root -> forall ocs, rooted root ocs -> starts_open ocs = true.
Proof.
  intros root D. induction D as [s root H|root p text root' D IH H|root p root' D IH H]; intros ocs R.
  - unfold parse_document, after_start in H. destruct (delivered _) as [[|t ts] e]; [destruct e; discriminate|]. apply json_root_wf in H.
    destruct R as [pre [post [-> _]]]. rewrite wfs_app, wfs_cons in H. apply andb_true_iff in H. destruct H as [_ H]. apply andb_true_iff in H. destruct H as [H _]. cbn [wf_node] in H.
    apply andb_true_iff in H. destruct H as [H _]. apply andb_true_iff in H. apply H.
  - pose proof (document_wf _ _ D) as W. unfold with_value_text in H. destruct text; [discriminate|]. inv_bind H. apply parse_value_text_sound in Hb.
    destruct Hb as [v [-> [V1 V2]]]. apply root_set_split in Hk. destruct Hk as [pre [o1 [post [o2 [pn [E1 [E0 [F [E2 E3]]]]]]]]].
    assert (R1 : rooted root o1) by (exists pre, post; auto). destruct (root_wf _ _ R1 W) as [W1 W2]. rewrite (rooted_unique _ _ _ _ _ E0 F R).
    eapply set_value_open; try eassumption; [eapply path_node_nonempty, E2|exact (IH _ R1)].
  - pose proof (document_wf _ _ D) as W. unfold without_path in H. apply root_set_split in H. destruct H as [pre [o1 [post [o2 [pn [E1 [E0 [F [E2 E3]]]]]]]]].
    assert (R1 : rooted root o1) by (exists pre, post; auto). destruct (root_wf _ _ R1 W) as [W1 W2]. rewrite (rooted_unique _ _ _ _ _ E0 F R).
    unfold change_value_on_path in E3. apply change_value_changed in E3; try assumption; [|eapply path_node_nonempty, E2|exact I]. destruct (changed_braces _ _ _ _ E3) as [_ [B2 _]]. exact (B2 (IH _ R1)).
Qed.

Lemma top_rooted : forall root cs, top_object root = Some cs -> rooted root cs.
Proof.
  induction root as [|c root IH]; intros cs H; [discriminate|]. cbn [top_object] in H.
  assert (G : match c with NObject _ | NArray _ => False | _ => True end -> top_object root = Some cs -> rooted (c :: root) cs).
  { intros Hc E. destruct (IH _ E) as [pre [post [-> F]]]. exists (c :: pre), post. split; [reflexivity|constructor; assumption]. }
  destruct c; try exact (G I H); try discriminate. injection H as ->. exists [], root. split; [reflexivity|constructor].
Qed.
Lemma root_set_ends : forall f root ps p v cs g text, document f root -> top_object root = Some cs -> parse_path_node ps f = Ok p -> parse_value_text g text = Ok (Some v) ->
  f = JSON \/ newline_free v = true \/ in_braces cs = true -> exists root', root_set_value root ps (Some v) f = Ok root'.
Proof.
  intros f root ps p v cs g text D T P V F. pose proof (parse_value_text_sound _ _ _ V) as [n [En [V1 V2]]]. injection En as <-. apply top_rooted in T. eapply root_set_total; try eassumption.
  destruct F as [-> |[F|F]]; [right; exact (json_open _ D _ T)|left; exact F|right]. destruct cs as [|[[]| | | | | | | |] cs]; try discriminate F. reflexivity.
Qed.
Lemma edit_set_ends : forall f root ps p text v cs, document f root -> top_object root = Some cs -> parse_path_node ps f = Ok p -> parse_value_text f text = Ok (Some v) ->
  f = JSON \/ newline_free v = true \/ in_braces cs = true -> exists root', with_value_text f root ps text = Ok root'.
Proof.
  intros f root ps p text v cs D T P V F. apply top_rooted in T. eapply set_total; try eassumption. destruct F as [-> |[F|F]]; [right; exact (json_open _ D _ T)|left; exact F|right].
  destruct cs as [|[[]| | | | | | | |] cs]; try discriminate F. reflexivity.
Qed.
Lemma edit_remove_ends : forall f root ps p cs, document f root -> top_object root = Some cs -> parse_path_node ps f = Ok p -> exists root', without_path f root ps = Ok root'.
Proof. intros f root ps p cs D T P. exact (remove_total _ _ _ _ _ D (top_rooted _ _ T) P). Qed.
