(** The tokens of a path text have a period between every two keys. *)
From Verif Require Import Base BaseLemmas Util_Model Num_Model Path_Model Path_Spec Path_Lemmas Token_Model Token_Lemmas PathParser_Model
  PathParser_Lemmas PathParser_Lemmas2 PathParser_Lemmas3 Doc_Model Doc_Spec Doc_Lemmas Doc_Lemmas2 Doc_Lemmas3 Edit_Model Edit_Spec Edit_Lemmas Edit_Lemmas2 Edit_Lemmas3
  Edit_Lemmas4 Edit_Lemmas5.

(** ** The periods of a path text *)
Definition is_dot (t : token) : bool := match t with TUnquoted s => str_eqb s (lit ".") | _ => false end.
Fixpoint dots (ts : list token) : nat := match ts with [] => O | t :: ts' => if is_dot t then S (dots ts') else dots ts' end.
Lemma dots_app : forall a b, dots (a ++ b) = (dots a + dots b)%nat.
Proof. induction a as [|t a IH]; intro b; [reflexivity|]. cbn [dots app]. rewrite IH. destruct (is_dot t); reflexivity. Qed.
Lemma split_dotless : forall s, Forall (fun p => ~ In "."%char p) (split_dots s).
Proof.
  induction s as [|c s IH]; [repeat constructor; intros []|]. cbn [split_dots]. destruct (Ascii.eqb_spec c ".") as [->|N]; [constructor; [intros []|exact IH]|].
  destruct (split_dots s) as [|p ps]; [repeat constructor; intros [E|[]]; congruence|]. inversion IH; subst. constructor; [intros [E|E]; [congruence|contradiction]|assumption].
Qed.
Lemma piece_not_dot : forall f p, ~ In "."%char p -> is_dot (piece_token f p) = false.
Proof.
  intros [] p N; [|reflexivity]. unfold is_dot, piece_token. destruct (str_eqb p (lit ".")) eqn:E; [|reflexivity]. apply str_eqb_eq in E. subst p. destruct N. left. reflexivity.
Qed.
Lemma pieces_dots : forall f ps, Forall (fun p => ~ In "."%char p) ps -> dots (flat_map (fun s => [piece_token f s; dot_token]) ps) = List.length ps.
Proof.
  intros f ps F. induction F as [|p ps N F IH]; [reflexivity|]. cbn [flat_map app dots List.length]. rewrite (piece_not_dot f p N), IH. reflexivity.
Qed.
Lemma removelast_dots : forall f ps, Forall (fun p => ~ In "."%char p) ps -> ps <> [] -> S (dots (removelast (flat_map (fun s => [piece_token f s; dot_token]) ps))) = List.length ps.
Proof.
  intros f ps F N. destruct (exists_last N) as [q [p ->]]. apply Forall_app in F. destruct F as [F1 F2]. inversion F2; subst. rewrite flat_map_app. cbn [flat_map app].
  change [piece_token f p; dot_token] with ([piece_token f p] ++ [dot_token]). rewrite (app_assoc _ [piece_token f p] [dot_token]), removelast_last, dots_app, app_length. pose proof (pieces_dots f q F1) as P. cbn [dots List.length].
  rewrite piece_not_dot by assumption. unfold str in *. unfold str in P. rewrite P. lia.
Qed.

(** A text without an empty piece in its middle: as many periods as pieces less one. *)
Lemma ends_dot : forall s, ends_in_dot s = true -> exists s', s = s' ++ ["."%char].
Proof.
  intros s H. unfold ends_in_dot in H. destruct (rev s) as [|c r] eqn:E; [discriminate|]. apply Ascii.eqb_eq in H. subst c. exists (rev r). rewrite <- (rev_involutive s), E. reflexivity.
Qed.
Lemma not_ends_dot : forall s, ends_in_dot s = false -> trim_right_dots s = s.
Proof.
  intros s H. unfold ends_in_dot in H. destruct (rev s) as [|c r] eqn:E.
  - apply (f_equal (@rev ascii)) in E. rewrite rev_involutive in E. subst s. reflexivity.
  - assert (s = rev r ++ [c]) by (rewrite <- (rev_involutive s), E; reflexivity). subst s. apply trim_right_dots_last. intros ->. discriminate H.
Qed.
Lemma split_dots_count : forall f t p ps, split_dots (token_text t) = p :: ps -> Forall (fun q => q <> []) (removelast ps) -> is_dot t = str_eqb (token_text t) (lit ".") ->
  dots (split_token_on_period t f) = List.length ps.
Proof.
  intros f t p ps E M D. unfold split_token_on_period. set (s := token_text t) in *. destruct (str_eqb s (lit ".")) eqn:Es.
  { apply str_eqb_eq in Es. rewrite Es in E. injection E as <- <-. cbn [dots]. rewrite D. reflexivity. }
  destruct (ends_in_dot s) eqn:Ed.
  - destruct (ends_dot s Ed) as [s' Es']. rewrite Es' in *. rewrite trim_right_dots_dot. rewrite (split_dots_app_dot s' []) in E. cbn [split_dots] in E.
    assert (Nd : ends_in_dot s' = false).
    { destruct (ends_in_dot s') eqn:X; [|reflexivity]. destruct (ends_dot s' X) as [s2 ->]. rewrite (split_dots_app_dot s2 []) in E. cbn [split_dots] in E. rewrite <- app_assoc in E. exfalso. clear -E M.
      destruct (split_dots s2) as [|a q] eqn:S2; [destruct (split_dots_nonempty s2 S2)|]. injection E as <- <-. cbn [app] in M. change [[]; []] with ([[] : str] ++ [[] : str]) in M. rewrite app_assoc, removelast_last in M. apply Forall_app in M. destruct M as [_ M]. inversion M; congruence. }
    rewrite (not_ends_dot s' Nd), pieces_dots by apply split_dotless. apply (f_equal (@List.length str)) in E. rewrite app_length in E. cbn [List.length] in E. unfold str in *. lia.
  - rewrite (not_ends_dot s Ed). pose proof (removelast_dots f (split_dots s) (split_dotless s) (split_dots_nonempty s)) as R. rewrite E in *. cbn [List.length] in R. injection R as R. exact R.
Qed.

(** No value read is a period. *)
Definition undotted_value (t : token) : Prop := match t with TValue (SStr _ _) _ => True | TValue _ x => x <> lit "." | _ => True end.
Lemma pull_undotted : forall n ac sv s t sv' r, pull_next_token n ac sv s = Ok (t, sv', r) -> undotted_value t.
Proof.
  intros [|n] ac [ws ls] s t sv' r H; [discriminate|]. cbn [pull_next_token] in H.
  destruct (next_char_after_whitespace ws s) as [ws' [[c s']|]]; [|injection H as <- <- <-; exact I].
  destruct (Ascii.eqb c nl); [injection H as <- <- <-; exact I|].
  inv_bind H. destruct a as [t' r']. injection Hk as -> <- <-.
  destruct (start_of_comment ac c s').
  { unfold pull_comment in Hb. destruct (Ascii.eqb c "/").
    - destruct s' as [|c' s'']; [discriminate|]. destruct (Ascii.eqb c' "/"); [|discriminate].
      destruct (comment_text s''). injection Hb as <- <-. exact I.
    - destruct (comment_text s'). injection Hb as <- <-. exact I. }
  destruct (Ascii.eqb c (ch 34)).
  { unfold pull_quoted_string in Hb. inv_bind Hb. destruct a as [[p o] r1]. inv_bind Hk. destruct a as [[p' o'] r2].
    injection Hk0 as <- <-. exact I. }
  destruct (Ascii.eqb c "$").
  { inv_bind Hb. destruct a as [o' s2]. apply (proj2 (pull_len _)) in Hk. destruct Hk as [_ [e ->]]. exact I. }
  repeat match type of Hb with (if Ascii.eqb c ?k then _ else _) = _ =>
    destruct (Ascii.eqb c k);
    [ first [ (injection Hb as <- <-; exact I)
            | (unfold pull_plus_equals in Hb; destruct s' as [|c' s'']; [discriminate|];
               destruct (Ascii.eqb c' "="); [injection Hb as <- <-; exact I|discriminate]) ] | ] end.
  destruct (mem c first_number_chars) eqn:F.
  { unfold pull_number in Hb. destruct (span_number s') as [m r1].
    inv_bind Hb. injection Hk as -> <-. apply number_token_text in Hb0. destruct t as [| | | | | | | | | | | | | | |v x]; try exact I. cbn [token_text] in Hb0. subst x. destruct v; try exact I; cbn [undotted_value]; intro X; injection X as -> _; discriminate F. }
  destruct (mem c not_in_unquoted_text); [discriminate|].
  apply Ok_inj in Hb. revert Hb. generalize (c :: s') (@nil ascii).
  intros l. induction l as [|y l IH]; intros l0 Hb; cbn [pull_unquoted_text] in Hb; [injection Hb as <- <-; exact I|].
  destruct (_ || _) in Hb; [injection Hb as <- <-; exact I|].
  repeat match type of Hb with (if ?b then _ else _) = _ => destruct b; [injection Hb as <- <-; discriminate|] end.
  eapply IH, Hb.
Qed.
Lemma lex_undotted : forall n ac sv s ts e, lex_loop n ac sv s = (ts, e) -> Forall undotted_value ts.
Proof.
  induction n as [|n IH]; intros ac sv s ts e H; cbn [lex_loop] in H; [injection H as <- _; constructor|].
  destruct (pull_next_token (S (List.length s)) ac sv s) as [[[t sv'] r]| |] eqn:P; try (injection H as <- _; constructor).
  destruct (saver_check sv' t) as [wt sv''] eqn:Sc.
  assert (W : Forall undotted_value (match wt with Some x => [x] | None => [] end ++ [t])).
  { apply Forall_app. split; [|constructor; [eapply pull_undotted, P|constructor]]. destruct wt as [w|]; [|constructor]. constructor; [|constructor]. unfold saver_check in Sc. destruct sv' as [ws ls]. destruct (is_simple_value t); injection Sc as Sc _; unfold create_whitespace_token in Sc; destruct ws; try discriminate Sc; destruct ls; injection Sc as <-; exact I. }
  assert (G : forall ts' e', lex_loop n ac sv'' r = (ts', e') -> Forall undotted_value ((match wt with Some x => [x] | None => [] end ++ [t]) ++ ts')).
  { intros ts' e' E. apply Forall_app. split; [exact W|]. eapply IH, E. }
  destruct t; try (injection H as <- _; exact W); destruct (lex_loop n ac sv'' r) as [ts' e'] eqn:L; injection H as <- _; exact (G _ _ eq_refl).
Qed.
Definition kept_element (e : element) : Prop := fst e <> [] \/ snd e = true.
Lemma buff_kept : forall ts b, b <> [] -> Forall kept_element (tl (fold_left tok_buff ts b)) -> Forall kept_element (tl b).
Proof.
  induction ts as [|t ts IH]; intros b N H; [exact H|]. cbn [fold_left] in H. apply (tok_buff_tl t b N). apply IH; [|exact H].
  destruct t; cbn [tok_buff]; try exact N; try (apply add_path_text_ne, N). destruct v; apply add_path_text_ne, N.
Qed.
Lemma fold_length : forall (ps : list str) (b : list element), List.length (fold_left (fun b q => (q, false) :: b) ps b) = (List.length b + List.length ps)%nat.
Proof. induction ps as [|q ps IH]; intro b; cbn [fold_left List.length]; [rewrite Nat.add_0_r; reflexivity|]. etransitivity; [exact (IH _)|]. cbn [List.length]. apply Nat.add_succ_comm. Qed.
Lemma add_text_length : forall s v e b p ps, split_dots s = p :: ps -> List.length (add_path_text ((v, e) :: b) false s) = (S (List.length b) + List.length ps)%nat.
Proof. intros s v e b p ps E. unfold add_path_text. rewrite E. exact (fold_length ps ((v ++ p, e) :: b)). Qed.
Lemma loop_dots : forall ts o f b acc b' acc', path_tokens_loop o f b acc ts = Ok (b', acc') -> b <> [] -> Forall faithful ts -> Forall undotted_value ts -> Forall kept_element (tl b') ->
  (List.length b' + dots acc = List.length b + dots acc')%nat.
Proof.
  induction ts as [|t ts IH]; intros o f b acc b' acc' H N Fa Un K; [injection H as <- <-; reflexivity|]. inversion Fa as [|? ? Ft Fa']; inversion Un as [|? ? Ut Un']; subst.
  assert (Same : forall t' b1, is_dot t' = false -> b1 <> [] -> List.length b1 = List.length b -> path_tokens_loop o f b1 (acc ++ [t']) ts = Ok (b', acc') -> (List.length b' + dots acc = List.length b + dots acc')%nat).
  { intros t' b1 D N1 L E. specialize (IH _ _ _ _ _ _ E N1 Fa' Un' K). rewrite dots_app in IH. cbn [dots] in IH. rewrite D in IH. lia. }
  assert (Text : forall x, token_text t = x -> is_dot t = str_eqb (token_text t) (lit ".") -> path_tokens_loop o f (add_path_text b false x) (acc ++ split_token_on_period t f) ts = Ok (b', acc') ->
    (List.length b' + dots acc = List.length b + dots acc')%nat).
  { intros x X D E. pose proof (add_path_text_ne b false x N) as N1. pose proof (proj2 (path_tokens_loop_inv _ _ _ _ _ _ _ E)) as Eb. subst b'. pose proof (buff_kept _ _ N1 K) as K1.
    apply (add_path_text_inside x b N) in K1. destruct K1 as [In1 _]. specialize (IH _ _ _ _ _ _ E N1 Fa' Un' K). destruct (split_dots x) as [|p ps] eqn:S; [destruct (split_dots_nonempty x S)|].
    unfold no_empty_inside in In1. rewrite S in In1. cbn [tl] in In1. rewrite dots_app in IH. rewrite (split_dots_count f t p ps) in IH; [|rewrite X; exact S|exact In1|exact D].
    destruct b as [|[v e] b]; [congruence|]. pose proof (add_text_length x v e b p ps S) as AL. unfold element, str in *. cbn [List.length] in *. lia. }
  cbn [path_tokens_loop] in H. destruct t; try (unfold bad_path in H; destruct o; discriminate H); try (eapply Same; [| | |exact H]; [reflexivity|exact N|reflexivity]).
  - apply (Text text); [reflexivity|reflexivity|exact H].
  - assert (D : (forall s q, v <> SStr s q) -> token_text (TValue v text) = scalar_text v /\ is_dot (TValue v text) = str_eqb (token_text (TValue v text)) (lit ".")).
    { intro Q. cbn [token_text is_dot]. destruct v; try (destruct (Q _ _ eq_refl)); cbn [faithful undotted_value] in *; (split; [symmetry; exact Ft|]); destruct (str_eqb text (lit ".")) eqn:Z; try reflexivity; apply str_eqb_eq in Z; contradiction. }
    destruct v; try (destruct D as [D1 D2]; [discriminate|]; exact (Text _ D1 D2 H)). eapply Same; [| | |exact H]; [reflexivity|apply add_path_text_ne, N|]. destruct b as [|[w e] b]; [congruence|]. reflexivity.
Qed.
Lemma no_end : forall f ts e pn, e <> LEnd -> parse_path_expression true f ts e <> Ok pn.
Proof.
  intros f ts e pn N H. unfold parse_path_expression in H. destruct ts as [|t ts]; destruct e; try congruence; inv_bind H; destruct a; discriminate Hk.
Qed.
Lemma path_node_dots : forall s f pn, parse_path_node s f = Ok pn -> List.length (fst pn) = S (dots (snd pn)).
Proof.
  intros s f pn H. unfold parse_path_node, lex in H. destruct (lex_loop _ _ saver_init s) as [ts e] eqn:El.
  pose proof (lex_undotted _ _ _ _ _ _ El) as Un. pose proof (lex_loop_stream _ _ _ _ _ _ El) as [Fa _].
  assert (e = LEnd) as ->.
  { destruct e as [|x|u]; [reflexivity| |]; exfalso; cbn [delivered removelast] in H; destruct ts as [|t ts]; try discriminate H; (eapply no_end; [|exact H]; discriminate). }
  cbn [delivered] in H. clear El. unfold parse_path_expression in H.
  assert (H' : ('(buff, acc) <- path_tokens_loop true f [([], false)] [] ts ;; (p <- build_path true (rev buff) [] ;; Ok (p, acc))) = Ok pn) by (destruct ts; [discriminate|exact H]).
  clear H. inv_bind H'. destruct a as [b acc]. inv_bind Hk. injection Hk0 as <-. cbn [fst snd].
  pose proof (build_path_inv _ _ _ _ Hb0) as F. rewrite build_path_ok in Hb0 by exact F. injection Hb0 as <-. cbn [app]. rewrite map_length, rev_length.
  apply Forall_rev in F. rewrite rev_involutive in F. pose proof (loop_dots _ _ _ _ _ _ _ Hb ltac:(discriminate) Fa Un) as L. cbn [dots List.length] in L. assert (K : Forall kept_element (tl b)) by (destruct b; [constructor|]; inversion F; subst; assumption). specialize (L K). rewrite Nat.add_0_r in L. exact L.
Qed.
