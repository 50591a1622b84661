(** Layout and chunks of tokens: how a sequence of them is read. *)
From Verif Require Import Base BaseLemmas Util_Model Num_Model Path_Model Token_Model Token_Spec Token_Lemmas Token_Lemmas2 PathParser_Model Doc_Model Doc_Lemmas Doc_Lemmas2 Edit_Model Value_Model Json_Lemmas Json_Lemmas2 Render_Lemmas3 JsonEdit_Lemmas ConfEdit_Spec ConfText_Spec ConfText_Lemmas ConfText_Lemmas2 ConfText_Lemmas3.

(** A token of layout, or a node with the tokens it is read from. *)
Inductive item : Set := IL (t : token) | IX (n : node) (ts : list token).
Definition itoks (its : list item) : list token := flat_map (fun i => match i with IL t => [t] | IX _ ts => ts end) its.
Definition ibones (its : list item) : list node := flat_map (fun i => match i with IL _ => [] | IX n _ => [bones n] end) its.
Definition kept (ns : list node) : list node := flat_map (fun c => if is_layout c then [] else [bones c]) ns.
Definition pass' (p : place) (t : token) : option place := match t with TCloseCurly => None | TComma => match p with Apart => Some Before | _ => pass p t end | _ => pass p t end.
Fixpoint irun (p : place) (its : list item) : option place :=
  match its with
  | [] => Some p
  | IL t :: its' => match pass' p t with Some p' => irun p' its' | None => None end
  | IX _ _ :: its' => match p with Before => irun Behind its' | _ => None end
  end.
Definition is_blank_item (i : item) : bool := match i with IL (TIgnored _) => true | _ => false end.
Fixpoint squeezed (its : list item) : Prop :=
  match its with
  | [] => True
  | i :: its' => (is_blank_item i = true -> match its' with j :: _ => is_blank_item j = false | [] => True end) /\ squeezed its'
  end.

(** ** Reading the tokens *)
Definition chunk (ts : list token) : Prop :=
  (forall k r, neutral r -> spelt k ts r) /\ ts <> [] /\ solid (hd TEnd ts) = true /\ solid (List.last ts TEnd) = true /\ is_comment (List.last ts TEnd) = false.
Definition chunks (its : list item) : Prop := Forall (fun i => match i with IX _ ts => chunk ts | IL _ => True end) its.

Lemma blank_text_spec : forall w, blank_text w = true -> blanks w.
Proof.
  intros [|c w] H; [discriminate|]. split; [discriminate|]. apply Forall_forall. intros x I. unfold blank_text in H. rewrite forallb_forall in H. apply H, I.
Qed.
Lemma line_text_spec : forall c, line_text c = true -> ~ In nl c.
Proof. intros c H I. unfold line_text in H. rewrite forallb_forall in H. specialize (H _ I). rewrite Ascii.eqb_refl in H. discriminate. Qed.
Lemma read_comment : forall d c r, line_text c = true -> (r = [] \/ exists r2, r = nl :: r2) -> reads' (TComment d c) r.
Proof.
  intros d c r H E. apply line_text_spec in H. split; [destruct d; discriminate|]. split; [discriminate|]. intros n ws ls. destruct d.
  - change (pull_next_token (S n) true (ws, ls) (token_text (TComment true c) ++ r)) with
    ('(t, r') <- (let '(t, r') := comment_text (c ++ r) in Ok (TComment true t, r')) ;; Ok (t, (ws, ls), r')). rewrite (comment_either _ _ H E). reflexivity.
  - change (pull_next_token (S n) true (ws, ls) (token_text (TComment false c) ++ r)) with
    ('(t, r') <- (let '(t, r') := comment_text (c ++ r) in Ok (TComment false t, r')) ;; Ok (t, (ws, ls), r')). rewrite (comment_either _ _ H E). reflexivity.
Qed.
Lemma render_app' : forall a b, render_tokens (a ++ b) = render_tokens a ++ render_tokens b.
Proof. intros. unfold render_tokens. rewrite map_app, concat_app. reflexivity. Qed.
Lemma render_cons' : forall t b, render_tokens (t :: b) = token_text t ++ render_tokens b.
Proof. reflexivity. Qed.
Lemma blank_ender : forall w r, blanks w -> neutral (w ++ r).
Proof.
  intros [|c w] r [N F]; [congruence|]. inversion F as [|? ? H]; subst. unfold neutral, ender. cbn [app]. unfold is_whitespace_not_newline in H. apply andb_true_iff in H. destruct H as [_ H]. rewrite H. reflexivity.
Qed.
Definition tailed (e : place) (tail : list token) (r : str) : Prop :=
  (forall k, spelt k tail r) /\ neutral (render_tokens tail ++ r) /\ (tail <> [] -> solid (hd TEnd tail) = true /\ is_simple_value (hd TEnd tail) = false) /\ (e = Remark -> tail = [] /\ r = []).
Lemma lex_items : forall its p e tail r, irun p its = Some e -> squeezed its -> chunks its -> tailed e tail r ->
  (forall ls, (p = Before -> ls = false) -> spelt ls (itoks its ++ tail) r) /\
  (p = Behind -> neutral (render_tokens (itoks its ++ tail) ++ r)) /\
  (p = Remark -> render_tokens (itoks its ++ tail) ++ r = [] \/ exists r2, render_tokens (itoks its ++ tail) ++ r = nl :: r2).
Proof.
  induction its as [|i its IH]; intros p e tail r R Q Ck T; [cbn [irun itoks flat_map app] in *|].
  - injection R as <-. destruct T as [T1 [T2 [_ T4]]]. split; [intros; apply T1|]. split; [intros _; exact T2|]. intro E. destruct (T4 E) as [-> ->]. left. reflexivity.
  - destruct Q as [Q1 Q2]. inversion Ck as [|? ? Ci Ck']; subst. destruct i as [t|n ts]; cbn [irun] in R.
    + destruct (pass' p t) as [p'|] eqn:P; [|discriminate]. specialize (IH p' e tail r R Q2 Ck' T). destruct IH as [I1 [I2 I3]].
      change (itoks (IL t :: its) ++ tail) with (t :: itoks its ++ tail). rewrite render_cons', <- app_assoc.
      destruct (is_blank_item (IL t)) eqn:Bl.
      * destruct t; try discriminate Bl. clear Bl.
        assert (Pw : blank_text text = true /\ (p = Before \/ p = Behind \/ p = Apart) /\ (p = Before -> p' = Before) /\ (p <> Before -> p' = Apart)).
        { unfold pass', pass in P. destruct p; try discriminate P; destruct (blank_text text); try discriminate P; injection P as <-; repeat split; auto; congruence. }
        destruct Pw as [Wt [Pp [PB PA]]]. apply blank_text_spec in Wt. split; [|split].
        -- intros ls L. destruct T as [T1 [T2 [T3 T4]]]. destruct its as [|j its]; cbn [itoks flat_map app] in *.
           ++ destruct tail as [|t0 tail]; [apply sp_last, Wt|]. destruct (T3 ltac:(discriminate)) as [S1 S2]. cbn [hd] in S1, S2. eapply (spelt_gap ls ls); [exact Wt|apply T1|exact S1|rewrite S2; apply andb_false_r].
           ++ destruct j as [t0|n ts].
              ** cbn [app] in *. assert (S : solid t0 = true /\ is_simple_value t0 = false).
                 { specialize (Q1 eq_refl). cbn [irun] in R. destruct t0; try discriminate Q1; try (split; reflexivity); destruct p'; discriminate R. }
                 destruct S as [S1 S2]. eapply (spelt_gap ls false); [exact Wt|apply I1; reflexivity|exact S1|rewrite S2; apply andb_false_r].
              ** cbn [irun] in R. destruct p'; try discriminate R. assert (p = Before) as -> by (destruct Pp as [->|Pp]; [reflexivity|]; destruct Pp as [-> | ->]; specialize (PA ltac:(discriminate)); discriminate PA). rewrite (L eq_refl) in *.
                 inversion Ck' as [|? ? Cj _]; subst. destruct Cj as [_ [Nn [Sh _]]]. destruct ts as [|t0 ts]; [congruence|]. cbn [app hd] in *. eapply (spelt_gap false false); [exact Wt|apply I1; reflexivity|exact Sh|reflexivity].
        -- intros _. apply blank_ender, Wt.
        -- intros ->. destruct Pp as [X|[X|X]]; discriminate X.
      * assert (Rd : reads' t (render_tokens (itoks its ++ tail) ++ r) /\ is_simple_value t = false /\ (p = Behind -> neutral (token_text t ++ render_tokens (itoks its ++ tail) ++ r)) /\ (p = Remark -> exists r2, token_text t ++ render_tokens (itoks its ++ tail) ++ r = nl :: r2)).
        { unfold pass', pass in P. destruct t; try (destruct p; discriminate P); try discriminate Bl.
          - split; [apply reads_fuel, reads_mark; cbn; auto|]. split; [reflexivity|]. split; [reflexivity|]. intros ->. discriminate P.
          - split; [apply reads_fuel, reads_newline|]. split; [reflexivity|]. split; [reflexivity|]. intros _. eexists; reflexivity.
          - assert (X : line_text text = true /\ p' = Remark /\ (p = Behind -> double_slash = false) /\ p <> Remark).
            { destruct p; try discriminate P; try (destruct double_slash); try discriminate P; destruct (line_text text); try discriminate P; injection P as <-; repeat split; discriminate. }
            destruct X as [X1 [X2 [X3 X4]]]. split; [apply read_comment; [exact X1|apply I3, X2]|]. split; [reflexivity|]. split; [|congruence]. intro E. rewrite (X3 E). reflexivity. }
        destruct Rd as [Rd [Sm [Nt Nr]]]. split; [|split; [exact Nt|intro E; right; exact (Nr E)]]. intros ls _. apply sp_tok; [exact Rd|]. rewrite Sm. apply I1. reflexivity.
    + destruct p; try discriminate R. specialize (IH Behind e tail r R Q2 Ck' T). destruct IH as [I1 [I2 I3]]. destruct Ci as [C1 [C2 [C3 [C4 C5]]]].
      change (itoks (IX n ts :: its)) with (ts ++ itoks its). rewrite <- app_assoc. split; [|split; discriminate]. intros ls _.
      apply (spelt_app ls ts (render_tokens (itoks its ++ tail) ++ r)); [apply C1, I2; reflexivity|reflexivity|exact C4|]. intro k. apply I1. discriminate.
Qed.
