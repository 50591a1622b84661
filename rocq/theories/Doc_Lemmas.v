(** The document parser keeps the text. *)
From Verif Require Import Base BaseLemmas Util_Model Num_Model Path_Model Token_Model Token_Spec Token_Lemmas Token_Lemmas2
  PathParser_Model PathParser_Spec PathParser_Lemmas PathParser_Lemmas2 PathParser_Lemmas3 Doc_Model Doc_Spec.

(** ** Nodes *)

Section NodeInd.
Variable P : node -> Prop.
Hypothesis Htok : forall t, P (NTok t).
Hypothesis Hcom : forall t, P (NComment t).
Hypothesis Hpath : forall p, P (NPath p).
Hypothesis Hsimple : forall t, P (NSimple t).
Hypothesis Hfield : forall cs, Forall P cs -> P (NField cs).
Hypothesis Hinc : forall cs k, Forall P cs -> P (NInclude cs k).
Hypothesis Hcat : forall cs, Forall P cs -> P (NConcat cs).
Hypothesis Harr : forall cs, Forall P cs -> P (NArray cs).
Hypothesis Hobj : forall cs, Forall P cs -> P (NObject cs).
Fixpoint node_rect' (n : node) : P n :=
  let all := fix all (cs : list node) : Forall P cs :=
    match cs with [] => Forall_nil P | c :: r => Forall_cons c (node_rect' c) (all r) end in
  match n with
  | NTok t => Htok t | NComment t => Hcom t | NPath p => Hpath p | NSimple t => Hsimple t
  | NField cs => Hfield cs (all cs) | NInclude cs k => Hinc cs k (all cs)
  | NConcat cs => Hcat cs (all cs) | NArray cs => Harr cs (all cs) | NObject cs => Hobj cs (all cs)
  end.
End NodeInd.
Definition node_ind' := node_rect'.

Lemma render_tokens_app : forall a b, render_tokens (a ++ b) = render_tokens a ++ render_tokens b.
Proof. intros a b. unfold render_tokens. rewrite map_app, concat_app. reflexivity. Qed.
Lemma render_tokens_cons : forall t b, render_tokens (t :: b) = token_text t ++ render_tokens b.
Proof. reflexivity. Qed.
Lemma full_texts_app : forall a b, full_texts (a ++ b) = full_texts a ++ full_texts b.
Proof. intros a b. unfold full_texts. rewrite map_app, concat_app. reflexivity. Qed.
Lemma full_texts_cons : forall n b, full_texts (n :: b) = full_text n ++ full_texts b.
Proof. reflexivity. Qed.

Lemma render_tokens_flat : forall cs, render_tokens (flat_map node_tokens cs) = concat (map render_node cs).
Proof.
  induction cs as [|c cs IH]; [reflexivity|]. cbn [flat_map map concat]. rewrite render_tokens_app, IH. reflexivity.
Qed.

Lemma paren_free_render : forall n, paren_free n = true -> render_node n = full_text n.
Proof.
  assert (G : forall cs, Forall (fun n => paren_free n = true -> render_node n = full_text n) cs ->
    forallb paren_free cs = true -> render_tokens (flat_map node_tokens cs) = concat (map full_text cs)).
  { intros cs H. rewrite render_tokens_flat. induction H as [|c cs Hc H IH]; intro E; [reflexivity|].
    cbn in E. apply andb_prop in E. destruct E as [E1 E2]. cbn [map concat]. rewrite Hc, IH by assumption. reflexivity. }
  induction n using node_ind'; intro E; unfold render_node; cbn [node_tokens full_text paren_free] in *;
    try (unfold render_tokens; cbn; apply app_nil_r); try (apply G; assumption).
  - destruct p. reflexivity.
  - destruct k; try discriminate. apply G; assumption.
Qed.

Lemma paren_free_renders : forall ns, forallb paren_free ns = true -> render_nodes ns = full_texts ns.
Proof.
  intros ns H. unfold render_nodes, full_texts. rewrite render_tokens_flat.
  induction ns as [|n ns IH]; [reflexivity|]. cbn in *. apply andb_prop in H. destruct H.
  rewrite paren_free_render, IH by assumption. reflexivity.
Qed.

(** ** Token streams *)

Definition no_double_blank (ts : list token) : Prop :=
  forall a x y b, ts <> a ++ TIgnored x :: TIgnored y :: b.

Lemma ndb_suffix : forall a b, no_double_blank (a ++ b) -> no_double_blank b.
Proof. intros a b H c x y d E. apply (H (a ++ c) x y d). rewrite E, app_assoc. reflexivity. Qed.
Lemma ndb_prefix : forall a b, no_double_blank (a ++ b) -> no_double_blank a.
Proof. intros a b H c x y d E. apply (H c x y (d ++ b)). rewrite E, <- app_assoc. reflexivity. Qed.
Lemma ndb_tl : forall t b, no_double_blank (t :: b) -> no_double_blank b.
Proof. intros t b. apply (ndb_suffix [t]). Qed.

(** A value token that is not a string carries its own text. *)
Definition faithful (t : token) : Prop :=
  match t with
  | TValue (SStr _ _) _ => True
  | TValue v x => scalar_text v = x
  | _ => True
  end.

Lemma number_token_faithful : forall m s t, number_token m s = Ok t -> faithful t.
Proof.
  assert (V : forall v, faithful (value_token v)) by (intro v; destruct v; reflexivity || exact I).
  intros m s t H. unfold number_token, number_fallback in H. destruct (has_decimal_or_e m).
  - destruct (lexical_cast_double _).
    + inv_bind H. injection Hk as <-. apply V.
    + destruct (existsb _ _); [discriminate|]. injection H as <-. exact I.
  - destruct (lexical_cast_int64 _).
    + injection H as <-. apply V.
    + destruct (existsb _ _); [discriminate|]. injection H as <-. exact I.
Qed.

Lemma pull_faithful : forall n ac sv s t sv' r, pull_next_token n ac sv s = Ok (t, sv', r) -> faithful t.
Proof.
  intros [|n] ac [ws ls] s t sv' r H; [discriminate|]. cbn [pull_next_token] in H.
  destruct (next_char_after_whitespace ws s) as [ws' [[c s']|]]; [|injection H as <- <- <-; exact I].
  destruct (Ascii.eqb c nl); [injection H as <- <- <-; exact I|].
  inv_bind H. destruct a as [t' r']. injection Hk as -> <- <-.
  destruct (start_of_comment ac c s').
  { unfold pull_comment in Hb. destruct (Ascii.eqb c "/").
    - destruct s' as [|c' s'']; [discriminate|]. destruct (Ascii.eqb c' "/"); [|discriminate].
      destruct (comment_text s''). injection Hb as <- <-. exact I.
    - destruct (comment_text s'). injection Hb as <- <-. exact I. }
  destruct (Ascii.eqb c (ch 34)).
  { unfold pull_quoted_string in Hb. inv_bind Hb. destruct a as [[p o] r1]. inv_bind Hk. destruct a as [[p' o'] r2].
    injection Hk0 as <- <-. exact I. }
  destruct (Ascii.eqb c "$").
  { inv_bind Hb. destruct a as [o' s2]. apply (proj2 (pull_len _)) in Hk. destruct Hk as [_ [e ->]]. exact I. }
  repeat match type of Hb with (if Ascii.eqb c ?k then _ else _) = _ =>
    destruct (Ascii.eqb c k);
    [ first [ (injection Hb as <- <-; exact I)
            | (unfold pull_plus_equals in Hb; destruct s' as [|c' s'']; [discriminate|];
               destruct (Ascii.eqb c' "="); [injection Hb as <- <-; exact I|discriminate]) ] | ] end.
  destruct (mem c first_number_chars).
  { unfold pull_number in Hb. destruct (span_number s') as [m r1].
    inv_bind Hb. injection Hk as -> <-. apply number_token_faithful in Hb0. exact Hb0. }
  destruct (mem c not_in_unquoted_text); [discriminate|].
  apply Ok_inj in Hb. revert Hb. generalize (c :: s') (@nil ascii).
  intros l. induction l as [|y l IH]; intros l0 Hb; cbn [pull_unquoted_text] in Hb; [injection Hb as <- <-; exact I|].
  destruct (_ || _) in Hb; [injection Hb as <- <-; exact I|].
  repeat match type of Hb with (if ?b then _ else _) = _ => destruct b; [injection Hb as <- <-; reflexivity|] end.
  eapply IH, Hb.
Qed.

Lemma lex_loop_stream : forall n ac sv s ts e, lex_loop n ac sv s = (ts, e) ->
  Forall faithful ts /\ no_double_blank ts.
Proof.
  assert (N1 : forall t, no_double_blank [t]).
  { intros t a x y b E. destruct a as [|? [|]]; discriminate. }
  induction n as [|n IH]; intros ac [ws ls] s ts e H; cbn [lex_loop] in H.
  { injection H as <- <-. split; [constructor|]. intros a x y b E. destruct a; discriminate. }
  destruct (pull_next_token (S (List.length s)) ac (ws, ls) s) as [[[t sv'] r]|x|u] eqn:E.
  2,3: injection H as <- <-; split; [constructor|]; intros a x' y b E'; destruct a; discriminate.
  pose proof (pull_faithful _ _ _ _ _ _ _ E) as Hf.
  pose proof (pull_shape _ _ _ _ _ _ _ _ E) as [Hp _].
  assert (Ht : forall x, t <> TIgnored x) by (intros x ->; exact Hp).
  destruct sv' as [ws' ls']. rewrite saver_check_eq in H.
  set (wl := match match ws' with [] => None | _ :: _ =>
     Some (if ls' && is_simple_value t then TUnquoted ws' else TIgnored ws') end
     with Some wt => [wt] | None => [] end) in *.
  assert (Hw : wl = [] \/ exists x, wl = [x] /\ faithful x).
  { unfold wl. destruct ws'; [auto|]. right. eexists. split; [reflexivity|].
    destruct (ls' && is_simple_value t); exact I. }
  clearbody wl.
  assert (Hcont : forall ts', Forall faithful ts' /\ no_double_blank ts' ->
    Forall faithful ((wl ++ [t]) ++ ts') /\ no_double_blank ((wl ++ [t]) ++ ts')).
  { intros ts' [H1 H2]. split.
    - rewrite !Forall_app. repeat split; [|repeat constructor; exact Hf|exact H1].
      destruct Hw as [->|[x [-> Hx]]]; repeat constructor. exact Hx.
    - assert (H3 : no_double_blank (t :: ts')).
      { intros a x y b E'. destruct a as [|z a]; [injection E' as E' _; exact (Ht _ E')|].
        injection E' as _ E'. exact (H2 _ _ _ _ E'). }
      destruct Hw as [->|[z [-> Hx]]]; [exact H3|].
      cbn. intros a x y b E'. destruct a as [|z' a]; [injection E' as _ E' _; exact (Ht _ E')|].
      injection E' as _ E'. exact (H3 _ _ _ _ E'). }
  destruct (lex_loop n ac ([], is_simple_value t) r) as [ts' e'] eqn:El. apply IH in El. apply Hcont in El.
  assert (N0 : no_double_blank []) by (intros a x y b E'; destruct a; discriminate).
  specialize (Hcont [] (conj (Forall_nil _) N0)).
  rewrite app_nil_r in Hcont.
  destruct t; injection H as <- <-; first [exact El|exact Hcont].
Qed.

(** ** Path tokens carry the text of the key *)

Definition no_empty_inside (s : str) : Prop := Forall (fun p => p <> []) (removelast (tl (split_dots s))).

Lemma render_pieces : forall ps, ps <> [] ->
  render_tokens (flat_map (fun s => [TUnquoted s; dot_token]) ps) = dotted ps ++ lit "." /\
  render_tokens (removelast (flat_map (fun s => [TUnquoted s; dot_token]) ps)) = dotted ps.
Proof.
  induction ps as [|p ps IH]; intro H; [contradiction|]. destruct ps as [|q ps].
  - split; [reflexivity|]. cbn. apply app_nil_r.
  - destruct IH as [I1 I2]; [discriminate|].
    change (flat_map (fun s => [TUnquoted s; dot_token]) (p :: q :: ps)) with
      (TUnquoted p :: dot_token :: flat_map (fun s => [TUnquoted s; dot_token]) (q :: ps)).
    split.
    + rewrite !render_tokens_cons, I1. change (dotted (p :: q :: ps)) with (p ++ "."%char :: dotted (q :: ps)).
      cbn [token_text dot_token]. rewrite <- app_assoc. reflexivity.
    + change (removelast (TUnquoted p :: dot_token :: flat_map (fun s => [TUnquoted s; dot_token]) (q :: ps))) with
        (TUnquoted p :: dot_token :: removelast (flat_map (fun s => [TUnquoted s; dot_token]) (q :: ps))).
      rewrite !render_tokens_cons, I2. reflexivity.
Qed.

Lemma trim_right_dots_last : forall s c, c <> "."%char -> trim_right_dots (s ++ [c]) = s ++ [c].
Proof.
  induction s as [|d s IH]; intros c Hc; cbn.
  - destruct (Ascii.eqb_spec c "."); [contradiction|reflexivity].
  - rewrite IH by exact Hc. destruct s; reflexivity.
Qed.
Lemma trim_right_dots_dot : forall s, trim_right_dots (s ++ ["."%char]) = trim_right_dots s.
Proof. induction s as [|d s IH]; cbn; [reflexivity|]. rewrite IH. reflexivity. Qed.

Lemma split_token_text : forall t x, token_text t = x -> no_empty_inside x ->
  render_tokens (split_token_on_period t CONF) = x.
Proof.
  intros t x Hx Hi. unfold split_token_on_period. rewrite Hx. cbn [piece_token].
  destruct (str_eqb x (lit ".")) eqn:E1.
  { unfold render_tokens. cbn. rewrite Hx. apply app_nil_r. }
  destruct (render_pieces (split_dots (trim_right_dots x)) (split_dots_nonempty _)) as [R1 R2].
  rewrite dotted_split in R1, R2.
  destruct x as [|c0 x0] using rev_ind; [exact R2|]. clear IHx0.
  unfold ends_in_dot. rewrite rev_unit. destruct (Ascii.eqb_spec c0 ".") as [->|Hc0].
  - rewrite R1. f_equal. rewrite trim_right_dots_dot.
    destruct x0 as [|c1 x1] using rev_ind; [discriminate|]. clear IHx1.
    destruct (Ascii.eqb_spec c1 ".") as [->|Hc1].
    + exfalso. unfold no_empty_inside in Hi. rewrite <- app_assoc in Hi.
      change (["."%char] ++ ["."%char]) with ("."%char :: "."%char :: []) in Hi.
      rewrite split_dots_app_dot in Hi. change (split_dots ("."%char :: [])) with [[]; ([] : str)] in Hi.
      destruct (split_dots x1) as [|p ps] eqn:Es; [eapply split_dots_nonempty, Es|]. cbn [app tl] in Hi.
      change [[]; ([] : str)] with ([([] : str)] ++ [([] : str)]) in Hi. rewrite app_assoc, removelast_last in Hi.
      apply Forall_app in Hi. destruct Hi as [_ Hi]. inversion Hi. contradiction.
    + apply trim_right_dots_last, Hc1.
  - rewrite R2. apply trim_right_dots_last, Hc0.
Qed.

Lemma add_path_text_inside : forall s b, b <> [] ->
  Forall (fun e => fst e <> [] \/ snd e = true) (tl (add_path_text b false s)) ->
  no_empty_inside s /\ Forall (fun e => fst e <> [] \/ snd e = true) (tl b).
Proof.
  intros s [|[v e] b] Hb H; [contradiction|]. cbn [add_path_text] in H. unfold no_empty_inside.
  destruct (split_dots s) as [|p ps] eqn:E; [exfalso; eapply split_dots_nonempty, E|]. cbn [tl].
  rewrite rev_fold_push in H. destruct ps as [|q ps] using rev_ind.
  - cbn in *. split; [constructor|exact H].
  - clear IHps. rewrite map_app, rev_app_distr in H. cbn [map rev app tl] in H.
    apply Forall_app in H. destruct H as [H1 H2]. split.
    + rewrite removelast_last. apply Forall_rev in H1. rewrite rev_involutive in H1.
      rewrite Forall_forall in *. intros x Hx Hn. specialize (H1 (x, false) (in_map (fun q => (q, false)) _ _ Hx)).
      destruct H1 as [H1|H1]; [contradiction|discriminate].
    + inversion H2; subst. assumption.
Qed.

Lemma tok_buff_tl : forall t b, b <> [] ->
  Forall (fun e => fst e <> [] \/ snd e = true) (tl (tok_buff b t)) ->
  Forall (fun e => fst e <> [] \/ snd e = true) (tl b).
Proof.
  intros t b Hb H. assert (G : forall s, Forall (fun e => fst e <> [] \/ snd e = true) (tl (add_path_text b false s)) ->
    Forall (fun e => fst e <> [] \/ snd e = true) (tl b)) by (intros s Hs; apply (add_path_text_inside s b Hb Hs)).
  destruct t; cbn [tok_buff] in H; try exact H; try (eapply G, H).
  destruct v; try (eapply G, H). destruct b as [|[v e] b]; [contradiction|]. exact H.
Qed.

Lemma fold_tl : forall ts b, b <> [] ->
  Forall (fun e => fst e <> [] \/ snd e = true) (tl (fold_left tok_buff ts b)) ->
  Forall (fun e => fst e <> [] \/ snd e = true) (tl b).
Proof.
  induction ts as [|t ts IH]; intros b Hb H; [exact H|]. cbn [fold_left] in H.
  apply IH in H; [|apply tok_buff_ne, Hb]. eapply tok_buff_tl; eassumption.
Qed.

Lemma path_tokens_text : forall ts o b acc b' acc', Forall faithful ts -> b <> [] ->
  path_tokens_loop o CONF b acc ts = Ok (b', acc') ->
  Forall (fun e => fst e <> [] \/ snd e = true) b' ->
  render_tokens acc' = render_tokens acc ++ render_tokens ts.
Proof.
  induction ts as [|t ts IH]; intros o b acc b' acc' Hf Hb H Hall; cbn [path_tokens_loop] in H.
  - injection H as <- <-. rewrite app_nil_r. reflexivity.
  - inversion Hf as [|? ? Hft Hfs]; subst.
    assert (Htl : forall b0, b0 <> [] -> (exists ac, path_tokens_loop o CONF b0 ac ts = Ok (b', acc')) ->
      Forall (fun e => fst e <> [] \/ snd e = true) (tl b0)).
    { intros b0 Hb0 [ac Hp]. apply path_tokens_loop_inv in Hp. destruct Hp as [_ ->].
      apply (fold_tl ts b0 Hb0). destruct (fold_left tok_buff ts b0); [constructor|]. inversion Hall. assumption. }
    assert (Hsplit : forall x tk, token_text tk = x -> path_tokens_loop o CONF (add_path_text b false x) (acc ++ split_token_on_period tk CONF) ts = Ok (b', acc') ->
      render_tokens acc' = render_tokens acc ++ render_tokens (tk :: ts)).
    { intros x tk Hx Hp. assert (Hn : add_path_text b false x <> []) by (apply add_path_text_ne, Hb).
      pose proof (Htl _ Hn (ex_intro _ _ Hp)) as Hin. apply add_path_text_inside in Hin; [|exact Hb].
      eapply IH in Hp; try eassumption. rewrite Hp, render_tokens_app, (split_token_text tk x Hx) by tauto.
      rewrite render_tokens_cons, Hx, <- app_assoc. reflexivity. }
    assert (Hkeep : forall b0 tk, b0 <> [] -> path_tokens_loop o CONF b0 (acc ++ [tk]) ts = Ok (b', acc') ->
      render_tokens acc' = render_tokens acc ++ render_tokens (tk :: ts)).
    { intros b0 tk Hb0 Hp. eapply IH in Hp; try eassumption. rewrite Hp, render_tokens_app, render_tokens_cons, <- app_assoc.
      unfold render_tokens at 2. cbn. rewrite app_nil_r. reflexivity. }
    destruct t; try (unfold bad_path in H; destruct o; discriminate).
    + exact (Hkeep _ _ Hb H).
    + exact (Hsplit text (TUnquoted text) eq_refl H).
    + exact (Hkeep _ _ Hb H).
    + destruct v; try (refine (Hsplit _ (TValue _ text) _ H); symmetry; exact Hft).
      exact (Hkeep _ _ (add_path_text_ne _ _ _ Hb) H).
Qed.

Lemma parse_path_text : forall o ts p acc, Forall faithful ts ->
  parse_path_expression o CONF ts LEnd = Ok (p, acc) -> render_tokens acc = render_tokens ts /\ p <> [].
Proof.
  intros o ts p acc Hf H. unfold parse_path_expression in H.
  assert (Hb : exists b, path_tokens_loop o CONF [([], false)] [] ts = Ok (b, acc) /\ build_path o (rev b) [] = Ok p).
  { destruct ts as [|t ts]; [unfold bad_path in H; destruct o; discriminate|].
    apply bind_ok in H. destruct H as [[b acc0] [H1 H2]]. cbn [raise_end] in H2. apply bind_ok in H2.
    destruct H2 as [p0 [H2 H3]]. injection H3 as -> ->. eauto. }
  destruct Hb as [b [H1 H2]]. pose proof (build_path_inv _ _ _ _ H2) as F. split.
  - eapply path_tokens_text in H1; [exact H1|exact Hf|discriminate|]. apply Forall_rev in F. rewrite rev_involutive in F. exact F.
  - rewrite build_path_ok in H2 by exact F. injection H2 as <-. apply path_tokens_loop_inv in H1. destruct H1 as [_ ->].
    intro E. apply map_eq_nil in E.
    apply (f_equal (@rev element)) in E. rewrite rev_involutive in E. revert E. apply fold_ne. discriminate.
Qed.
