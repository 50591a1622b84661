(** The tokens of JSON texts, and that the tokenizer finds them. *)
From Verif Require Import Base BaseLemmas Util_Model Num_Model Path_Model Token_Model Token_Spec Token_Lemmas Token_Lemmas2 Value_Model Escape_Spec Escape_Lemmas Round_Spec
  Render_Model Render_Lemmas3 Round_Lemmas10 Round_Lemmas11 Rfc_Spec.

Section Scheme.
Variables (b : str -> Prop) (st : str -> str -> Prop) (nt : str -> Z -> Z -> Prop).
Scheme written_min := Minimality for written Sort Prop
  with items_min := Minimality for items Sort Prop
  with members_min := Minimality for members Sort Prop.
Combined Scheme written_mutual from written_min, items_min, members_min.
End Scheme.

(** ** Blanks *)
Definition wide (w : str) : Prop := w <> [] /\ Forall (fun c => is_whitespace_not_newline c = true) w.
Inductive layout : list token -> Prop :=
| layout_nil : layout []
| layout_blank : forall w, wide w -> layout [TIgnored w]
| layout_line : forall g, layout g -> layout (TNewline :: g)
| layout_blank_line : forall w g, wide w -> layout g -> layout (TIgnored w :: TNewline :: g).
Lemma blank_layout : forall s, blank s -> exists g, layout g /\ render_tokens g = s.
Proof.
  intros s H. induction H as [|c s C H [g [G E]]]; [exists []; split; [constructor|reflexivity]|].
  assert (X : c = nl \/ is_whitespace_not_newline c = true). { cbn in C. destruct C as [<-|[<-|[<-|[<-|[]]]]]; (left; reflexivity) || (right; reflexivity). }
  destruct X as [-> |X]; [exists (TNewline :: g); split; [constructor; exact G|rewrite <- E; reflexivity]|].
  assert (W : forall w, Forall (fun c => is_whitespace_not_newline c = true) w -> wide (c :: w)) by (intros w F; split; [discriminate|constructor; assumption]).
  destruct G as [|w [N F]|g G|w g [N F] G].
  - exists [TIgnored [c]]. split; [constructor; apply W; constructor|rewrite <- E; reflexivity].
  - exists [TIgnored (c :: w)]. split; [constructor; apply W, F|rewrite <- E; reflexivity].
  - exists (TIgnored [c] :: TNewline :: g). split; [constructor; [apply W; constructor|exact G]|rewrite <- E; reflexivity].
  - exists (TIgnored (c :: w) :: TNewline :: g). split; [constructor; [apply W, F|exact G]|rewrite <- E; reflexivity].
Qed.

(** ** Tokens *)
Definition string_token (w k : str) : token := TValue (SStr k true) (between_quotes w).
Inductive leaf_token : json -> token -> Prop :=
| leaf_null : leaf_token JNull (value_token SNull)
| leaf_bool : forall b, leaf_token (JBool b) (value_token (SBool b))
| leaf_string : forall w s, stands_for w s -> leaf_token (JString s) (string_token w s)
| leaf_number : forall v c more n x, denotes (JNumber (c :: more) n x) (VScalar v) -> mem c first_number_chars = true -> Forall (fun c => mem c number_chars = true) more ->
    number_token more (c :: more) = Ok (TValue v (c :: more)) -> leaf_token (JNumber (c :: more) n x) (TValue v (c :: more)).
Inductive spelled : json -> list token -> Prop :=
| sp_leaf : forall s t, leaf_token s t -> spelled s [t]
| sp_no_list : forall g, layout g -> spelled (JArray []) (TOpenSquare :: g ++ [TCloseSquare])
| sp_list : forall g v vs tv ts, layout g -> spelled v tv -> others vs ts -> spelled (JArray (v :: vs)) (TOpenSquare :: g ++ tv ++ ts ++ [TCloseSquare])
| sp_no_object : forall g, layout g -> spelled (JObject []) (TOpenCurly :: g ++ [TCloseCurly])
| sp_object : forall k v m g te ts, NoDup (k :: map fst m) -> layout g -> entry k v te -> entries m ts ->
    spelled (JObject ((k, v) :: m)) (TOpenCurly :: g ++ te ++ ts ++ [TCloseCurly])
with others : list json -> list token -> Prop :=
| ot_end : forall g, layout g -> others [] g
| ot_more : forall g g' v vs tv ts, layout g -> layout g' -> spelled v tv -> others vs ts -> others (v :: vs) (g ++ TComma :: g' ++ tv ++ ts)
with entry : str -> json -> list token -> Prop :=
| en_entry : forall w k v g g' tv, stands_for w k -> layout g -> layout g' -> spelled v tv -> entry k v (string_token w k :: g ++ TColon :: g' ++ tv)
with entries : list (str * json) -> list token -> Prop :=
| es_end : forall g, layout g -> entries [] g
| es_more : forall g g' k v m te ts, layout g -> layout g' -> entry k v te -> entries m ts -> entries ((k, v) :: m) (g ++ TComma :: g' ++ te ++ ts).
Scheme spelled_min := Minimality for spelled Sort Prop
  with others_min := Minimality for others Sort Prop
  with entry_min := Minimality for entry Sort Prop
  with entries_min := Minimality for entries Sort Prop.
Combined Scheme spelled_mutual from spelled_min, others_min, entry_min, entries_min.

(** ** Numbers *)
Lemma no_point : forall more, (forall a, In a more -> a <> "."%char /\ a <> "e"%char /\ a <> "E"%char) -> has_decimal_or_e more = false.
Proof.
  intros more P. unfold has_decimal_or_e. destruct (existsb _ more) eqn:E; [|reflexivity]. apply existsb_exists in E. destruct E as [a [Ha E]]. destruct (P a Ha) as [P1 [P2 P3]].
  apply orb_true_iff in E. destruct E as [E|E]; [apply orb_true_iff in E; destruct E as [E|E]|]; apply Ascii.eqb_eq in E; congruence.
Qed.
Lemma long_new : forall n t, new_number_int n t = if (-2147483648 <=? n) && (n <=? 2147483647) then SInt n t else SLong n t.
Proof. reflexivity. Qed.
Lemma number_leaf : forall c more n x, numeral (c :: more) n x -> (isdigit c = true \/ c = "-"%char) -> readable (c :: more) n x ->
  exists v, leaf_token (JNumber (c :: more) n x) (TValue v (c :: more)).
Proof.
  intros c more n x Nm C B. assert (F : mem c first_number_chars = true) by (destruct C as [C| ->]; [apply Render_Lemmas2.digit_facts in C; apply C|reflexivity]).
  assert (M := number_chars_of _ _ _ Nm). inversion M as [|? ? _ M']; subst. destruct B as [B|[T B]].
  - destruct (number_token_reads c more n x Nm F B) as [v [T [[R1 [R2 R3]] W]]]. exists v. constructor; try assumption. constructor; try assumption.
    intro I. rewrite W; [apply long_new|]. apply no_point. intros a A. apply I. right. exact A.
  - assert (Hd : has_decimal_or_e more = false) by (apply no_point; intros a A; apply T; right; exact A). destruct (whole_numeral c more n x Nm F Hd) as [-> L].
    assert (I : in_int64 n = true) by (unfold in_int64, int64_min, int64_max; apply andb_true_iff; split; apply Z.leb_le; lia). specialize (L I).
    destruct (new_int_reads n (c :: more) n 0 ltac:(discriminate) (integer_unit n ltac:(lia))) as [R1 [R2 R3]].
    exists (new_number_int n (c :: more)). constructor; try assumption; [constructor; try assumption; intros _; apply long_new|].
    unfold number_token. rewrite Hd, L. unfold value_token. rewrite R2. reflexivity.
Qed.

(** ** From texts to tokens *)
Lemma text_app : forall a b, render_tokens (a ++ b) = render_tokens a ++ render_tokens b.
Proof. exact render_app. Qed.
Ltac text := cbn [app]; rewrite ?render_cons; rewrite ?text_app; rewrite ?render_cons; rewrite ?text_app; rewrite ?render_cons; rewrite ?text_app; cbn [token_text string_token render_tokens map concat app];
  rewrite <- ?app_assoc; cbn [app]; rewrite ?app_nil_r; reflexivity.
Lemma written_spelled :
  (forall j s, written blank json_string json_number j s -> exists tv, spelled j tv /\ render_tokens tv = s) /\
  (forall js s, items blank json_string json_number js s -> exists v vs g tv ts, js = v :: vs /\ layout g /\ spelled v tv /\ others vs ts /\ render_tokens (g ++ tv ++ ts) = s) /\
  (forall ms s, members blank json_string json_number ms s -> exists k v m g te ts, ms = (k, v) :: m /\ layout g /\ entry k v te /\ entries m ts /\ render_tokens (g ++ te ++ ts) = s).
Proof.
  apply written_mutual.
  - exists [value_token SNull]. split; [repeat constructor|reflexivity].
  - exists [value_token (SBool true)]. split; [repeat constructor|reflexivity].
  - exists [value_token (SBool false)]. split; [repeat constructor|reflexivity].
  - intros t n x [c more n' x' Nm C B]. destruct (number_leaf c more n' x' Nm C B) as [v L]. exists [TValue v (c :: more)]. split; [constructor; exact L|]. apply app_nil_r.
  - intros t s0 [w s S]. exists [string_token w s]. split; [constructor; constructor; exact S|]. apply app_nil_r.
  - intros a A. destruct (blank_layout a A) as [g [G <-]]. exists (TOpenSquare :: g ++ [TCloseSquare]). split; [constructor; exact G|]. text.
  - intros js s _ [v [vs [g [tv [ts [-> [G [V [O <-]]]]]]]]]. exists (TOpenSquare :: g ++ tv ++ ts ++ [TCloseSquare]). split; [constructor; assumption|]. text.
  - intros a A. destruct (blank_layout a A) as [g [G <-]]. exists (TOpenCurly :: g ++ [TCloseCurly]). split; [constructor; exact G|]. text.
  - intros ms s _ [k [v [m [g [te [ts [-> [G [V [O <-]]]]]]]]]] N. exists (TOpenCurly :: g ++ te ++ ts ++ [TCloseCurly]). split; [constructor; assumption|]. text.
  - intros a j s b A _ [tv [V <-]] B. destruct (blank_layout a A) as [g [G <-]]. destruct (blank_layout b B) as [g' [G' <-]]. exists j, [], g, tv, g'. split; [reflexivity|]. split; [exact G|]. split; [exact V|]. split; [constructor; exact G'|]. text.
  - intros a j s b js r A _ [tv [V <-]] B _ [v [vs [g2 [tv2 [ts2 [-> [G2 [V2 [O2 <-]]]]]]]]]. destruct (blank_layout a A) as [g [G <-]]. destruct (blank_layout b B) as [g' [G' <-]].
    exists j, (v :: vs), g, tv, (g' ++ TComma :: g2 ++ tv2 ++ ts2). split; [reflexivity|]. split; [exact G|]. split; [exact V|]. split; [constructor; assumption|]. text.
  - intros a t0 k0 b c j s d A [w k K] B C _ [tv [V <-]] D. destruct (blank_layout a A) as [ga [Ga <-]]. destruct (blank_layout b B) as [gb [Gb <-]]. destruct (blank_layout c C) as [gc [Gc <-]]. destruct (blank_layout d D) as [gd [Gd <-]].
    exists k, j, [], ga, (string_token w k :: gb ++ TColon :: gc ++ tv), gd. split; [reflexivity|]. split; [exact Ga|]. split; [constructor; assumption|]. split; [constructor; exact Gd|]. text.
  - intros a t0 k0 b c j s d ms r A [w k K] B C _ [tv [V <-]] D _ [k2 [v2 [m2 [g2 [te2 [ts2 [-> [G2 [V2 [O2 <-]]]]]]]]]]. destruct (blank_layout a A) as [ga [Ga <-]]. destruct (blank_layout b B) as [gb [Gb <-]]. destruct (blank_layout c C) as [gc [Gc <-]]. destruct (blank_layout d D) as [gd [Gd <-]].
    exists k, j, ((k2, v2) :: m2), ga, (string_token w k :: gb ++ TColon :: gc ++ tv), (gd ++ TComma :: g2 ++ te2 ++ ts2). split; [reflexivity|]. split; [exact Ga|]. split; [constructor; assumption|]. split; [constructor; assumption|]. text.
Qed.
