(** A text accepted as JSON is accepted as HOCON: lexing and parsing. *)
From Verif Require Import Base BaseLemmas Util_Model Num_Model Path_Model Token_Model Token_Spec Token_Lemmas Token_Lemmas2 PathParser_Model Doc_Model Doc_Spec Doc_Lemmas Doc_Lemmas2 Doc_Lemmas3.

Definition allowed (t : token) : Prop := json_forbids JSON t = false.

Lemma ok_same : forall A (a b : A), Ok a = Ok b -> a = b.
Proof. intros A a b H. injection H as H. exact H. Qed.

(** ** The tokens *)
Lemma unquoted_slash : forall ac s res t r, In "/"%char res -> pull_unquoted_text ac res s = (t, r) -> exists x, t = TUnquoted x.
Proof.
  intros ac s. induction s as [|c s IH]; intros res t r Hi H; cbn [pull_unquoted_text] in H; [injection H as <- <-; eauto|].
  destruct (_ || _) in H; [injection H as <- <-; eauto|].
  assert (Hi' : In "/"%char (res ++ [c])) by (apply in_or_app; left; exact Hi).
  assert (N : forall w, ~ In "/"%char w -> str_eqb (res ++ [c]) w = false).
  { intros w Nw. destruct (str_eqb (res ++ [c]) w) eqn:E; [|reflexivity]. apply str_eqb_eq in E. rewrite E in Hi'. contradiction. }
  rewrite !N in H by (cbn; intuition discriminate). exact (IH _ _ _ Hi' H).
Qed.
Lemma pull_unquoted_result : forall ac s res t r, pull_unquoted_text ac res s = (t, r) -> (exists x, t = TUnquoted x) \/ exists v x, t = TValue v x.
Proof.
  intros ac s. induction s as [|c s IH]; intros res t r H; cbn [pull_unquoted_text] in H; [injection H as <- <-; eauto|].
  destruct (_ || _) in H; [injection H as <- <-; eauto|].
  repeat match type of H with (if ?b then _ else _) = _ => destruct b; [injection H as <- <-; unfold value_token; eauto|] end. exact (IH _ _ _ H).
Qed.
Lemma unquoted_value : forall s res v x r, pull_unquoted_text false res s = (TValue v x, r) -> pull_unquoted_text true res s = (TValue v x, r).
Proof.
  intro s. induction s as [|c s IH]; intros res v x r H; cbn [pull_unquoted_text] in *; [discriminate|].
  destruct (mem c not_in_unquoted_text || is_whitespace c) eqn:E1; cbn [orb] in *; [discriminate|].
  destruct (start_of_comment true c s) eqn:E2.
  - exfalso. unfold start_of_comment in E2. cbn [andb] in E2. apply orb_true_iff in E2. destruct E2 as [E2|E2].
    + apply Ascii.eqb_eq in E2. subst c. discriminate.
    + apply andb_true_iff in E2. destruct E2 as [E2 _]. apply Ascii.eqb_eq in E2. subst c.
      assert (Hi : In "/"%char (res ++ ["/"%char])) by (apply in_or_app; right; left; reflexivity).
      assert (N : forall w, ~ In "/"%char w -> str_eqb (res ++ ["/"%char]) w = false).
      { intros w Nw. destruct (str_eqb (res ++ ["/"%char]) w) eqn:E; [|reflexivity]. apply str_eqb_eq in E. rewrite E in Hi. contradiction. }
      change (start_of_comment false "/" s) with false in H. cbn iota in H. rewrite !N in H by (cbn; intuition discriminate). destruct (unquoted_slash _ _ _ _ _ Hi H) as [y Y]. discriminate.
  - change (start_of_comment false c s) with false in H. cbn iota in H.
    repeat match goal with |- (if ?b then _ else _) = _ => destruct b; [exact H|] end. exact (IH _ _ _ _ H).
Qed.
Lemma pull_json : forall n ws ls s t sv r, pull_next_token n false (ws, ls) s = Ok (t, sv, r) -> allowed t -> pull_next_token n true (ws, ls) s = Ok (t, sv, r).
Proof.
  intros n ws ls s t sv r H A. assert (P := proj1 (pull_shape _ _ _ _ _ _ _ _ H)).
  assert (U : forall x, t <> TUnquoted x).
  { intros x ->. destruct P as [P1 P2]. unfold allowed, json_forbids in A. cbn [is_json andb is_unquoted_whitespace] in A. destruct x as [|c x]; [congruence|]. inversion P2 as [|? ? W _]; subst. cbn [forallb] in A. rewrite W in A. discriminate. }
  assert (Sb : forall o e, t <> TSubst o e) by (intros o e ->; discriminate).
  destruct n as [|n]; [discriminate|]. cbn [pull_next_token] in *. destruct (next_char_after_whitespace ws s) as [ws' nx]. destruct nx as [[c s']|]; [|exact H].
  destruct (Ascii.eqb c nl); [exact H|].
  destruct (proj1 (bind_ok _ _ _ _ _) H) as [[t' r'] [Hb Hk]]. injection Hk as -> <- ->. change (start_of_comment false c s') with false in Hb. cbn iota in Hb.
  destruct (start_of_comment true c s') eqn:Ec.
  - exfalso. unfold start_of_comment in Ec. cbn [andb] in Ec. apply orb_true_iff in Ec. destruct Ec as [Ec|Ec].
    + apply Ascii.eqb_eq in Ec. subst c. discriminate.
    + apply andb_true_iff in Ec. destruct Ec as [Ec _]. apply Ascii.eqb_eq in Ec. subst c. cbn -[pull_unquoted_text] in Hb. apply ok_same in Hb.
      cbn [pull_unquoted_text] in Hb. change (mem "/" not_in_unquoted_text || is_whitespace "/" || start_of_comment false "/" s') with false in Hb. cbn iota in Hb. cbn [app] in Hb.
      change (str_eqb ["/"%char] (lit "true")) with false in Hb. change (str_eqb ["/"%char] (lit "null")) with false in Hb. change (str_eqb ["/"%char] (lit "false")) with false in Hb. cbn iota in Hb.
      destruct (unquoted_slash false s' ["/"%char] t r) as [x X]; [left; reflexivity|exact Hb|]. exact (U x X).
  - destruct (Ascii.eqb c (ch 34)); [rewrite Hb; reflexivity|].
    destruct (Ascii.eqb c "$").
    { exfalso. destruct (proj1 (bind_ok _ _ _ _ _) Hb) as [[o s2] [_ Hs]]. apply (proj2 (pull_len _)) in Hs. destruct Hs as [_ [e Y]]. exact (Sb _ _ Y). }
    repeat match type of Hb with (if ?b then _ else _) = _ => destruct b; [rewrite Hb; reflexivity|] end. apply ok_same in Hb.
    destruct t as [| | | | | | | | | | |x|x|d x|o e|v x]; try (exfalso; destruct (pull_unquoted_result _ _ _ _ _ Hb) as [[y Y]|[y [z Y]]]; discriminate).
    + exfalso. exact (U x eq_refl).
    + rewrite (unquoted_value _ _ _ _ _ Hb). reflexivity.
Qed.
Lemma lex_json : forall n ws ls s ts, lex_loop n false (ws, ls) s = (ts, LEnd) -> Forall allowed ts -> lex_loop n true (ws, ls) s = (ts, LEnd).
Proof.
  intro n. induction n as [|n IH]; intros ws ls s ts H F; cbn [lex_loop] in *; [discriminate|].
  destruct (pull_next_token (S (List.length s)) false (ws, ls) s) as [[[t sv'] r]|e|u] eqn:E; try discriminate.
  destruct (saver_check sv' t) as [w [ws2 ls2]] eqn:Es.
  assert (A : allowed t).
  { destruct t; try (injection H as <-); try (destruct (lex_loop n false (ws2, ls2) r) as [ts' e']; injection H as <- ->); rewrite Forall_forall in F; apply F; rewrite !in_app_iff; cbn; auto. }
  rewrite (pull_json _ _ _ _ _ _ _ E A), Es.
  destruct t; try exact H; destruct (lex_loop n false (ws2, ls2) r) as [ts' e'] eqn:L; injection H as <- ->; apply Forall_app in F; destruct F as [_ F]; rewrite (IH _ _ _ _ L F); reflexivity.
Qed.
