(** What is rendered as JSON is made of the tokens of the value. *)
From Verif Require Import Base BaseLemmas Util_Model Num_Model Path_Model Token_Model Token_Spec Value_Model Value_Spec Value_Lemmas Render_Model Render_Spec Render_Lemmas Render_Lemmas2 Render_Lemmas3.
From Coq Require Import Permutation.

Section Rendering.
Variables (o : options) (ns : notes).
Hypothesis J : json o = true.
Hypothesis C : origin_comments o || comments o = true -> one_line_comments ns.

(** Nothing is written in comments: they are switched off, or there are none. *)
Definition quiet : Prop := origin_comments o = false /\ (comments o = false \/ forall at_ d cs, ns at_ = Some (d, cs) -> cs = []).
Definition free (ts : list token) : Prop := quiet -> no_comment_in ts.
Lemma free_app : forall a b, free a -> free b -> free (a ++ b).
Proof. intros a b A B Q. apply Forall_app. split; [exact (A Q)|exact (B Q)]. Qed.
Lemma free_cons : forall t a, match t with TComment _ _ => False | _ => True end -> free a -> free (t :: a).
Proof. intros t a T A Q. constructor; [exact T|exact (A Q)]. Qed.
Lemma free_nil : free [].
Proof. intro Q. constructor. Qed.

(** ** What stands before a field or an element *)
Definition blank_toks (n : nat) : list token := match indent_text o n with [] => [] | w => [TIgnored w] end.
Lemma repeat_spaces : forall n, Forall (fun c => c = " "%char) (repeat " "%char n).
Proof. induction n; constructor; auto. Qed.
Lemma indent_spaces : forall n, Forall (fun c => c = " "%char) (indent_text o n).
Proof. intro n. unfold indent_text. destruct (formatted o); [apply repeat_spaces|constructor]. Qed.
Lemma blank_text : forall n, render_tokens (blank_toks n) = indent_text o n.
Proof. intro n. unfold blank_toks. destruct (indent_text o n) eqn:E; [reflexivity|]. cbn. rewrite app_nil_r. reflexivity. Qed.
Lemma blank_gap : forall n, gap (blank_toks n).
Proof.
  intro n. unfold blank_toks. pose proof (indent_spaces n) as H. destruct (indent_text o n); [constructor|]. constructor. split; [discriminate|exact H].
Qed.
Lemma blank_free : forall n, free (blank_toks n).
Proof. intros n _. unfold blank_toks. destruct (indent_text o n); repeat constructor. Qed.
Definition line_toks (n : nat) (l : str) : list token := blank_toks n ++ [TComment false l; TNewline].
Lemma line_text : forall n l, render_tokens (line_toks n l) = indent_text o n ++ lit "#" ++ l ++ [nl].
Proof. intros n l. unfold line_toks. rewrite render_app, blank_text. cbn. reflexivity. Qed.
Lemma line_gap : forall n l g, one_line l -> gap g -> gap (line_toks n l ++ g).
Proof.
  intros n l g L G. unfold line_toks, blank_toks. pose proof (indent_spaces n) as H. destruct (indent_text o n); cbn [app].
  - apply gap_comment; assumption.
  - apply gap_indented; auto. split; [discriminate|exact H].
Qed.
Lemma lines_gap : forall n ls g, Forall one_line ls -> gap g -> gap (concat (map (line_toks n) ls) ++ g).
Proof. intros n ls g L G. induction L as [|l ls H L IH]; [exact G|]. cbn [map concat]. rewrite <- app_assoc. apply line_gap; assumption. Qed.
Lemma lines_text : forall n f (ls : list str), render_tokens (concat (map (line_toks n) (map f ls))) = concat (map (fun l => indent_text o n ++ lit "#" ++ f l ++ [nl]) ls).
Proof. intros n f ls. induction ls as [|l ls IH]; [reflexivity|]. cbn [map concat]. rewrite render_app, line_text, IH, <- !app_assoc. reflexivity. Qed.
Lemma split_one_line : forall s, Forall one_line (split_lines s).
Proof.
  induction s as [|c s IH]; [constructor; [intros []|constructor]|]. cbn [split_lines]. destruct (Ascii.eqb_spec c nl) as [E|E].
  - constructor; [intros []|exact IH].
  - destruct (split_lines s) as [|l ls]; [constructor; [intros [K|[]]; congruence|constructor]|]. inversion IH; subst. constructor; [intros [K|K]; [congruence|contradiction]|assumption].
Qed.

Definition with_blank (l : str) : str := (match l with [] => [] | _ => lit " " end) ++ l.
Definition with_blank_object (c : str) : str := (if starts_with_str c (lit " ") then [] else lit " ") ++ c.
Lemma blanks_one_line : forall b l, one_line l -> one_line ((if b : bool then lit " " else []) ++ l).
Proof. intros [] l H; [|exact H]. intros [K|K]; [discriminate|exact (H K)]. Qed.
Lemma with_blank_lines : forall ls, Forall one_line ls -> Forall one_line (map with_blank ls).
Proof. intros ls H. induction H as [|l ls H _ IH]; constructor; auto. unfold with_blank. destruct l; [exact H|]. apply (blanks_one_line true). exact H. Qed.
Lemma with_blank_object_lines : forall ls, Forall one_line ls -> Forall one_line (map with_blank_object ls).
Proof. intros ls H. induction H as [|l ls H _ IH]; constructor; auto. unfold with_blank_object. destruct (starts_with_str l (lit " ")); [exact H|]. apply (blanks_one_line true). exact H. Qed.
Lemma space_lines : forall ls, Forall one_line ls -> Forall one_line (map (app (lit " ")) ls).
Proof. intros ls H. induction H as [|l ls H _ IH]; constructor; auto. apply (blanks_one_line true). exact H. Qed.

Lemma origin_text : forall n d, origin_lines o n d = render_tokens (concat (map (line_toks n) (map with_blank (split_lines d)))).
Proof. intros n d. rewrite lines_text. unfold origin_lines. f_equal. apply map_ext. intro l. unfold with_blank. rewrite <- !app_assoc. reflexivity. Qed.
Lemma object_comment_text : forall n cs, comment_lines_object o n cs = render_tokens (concat (map (line_toks n) (map with_blank_object cs))).
Proof. intros n cs. rewrite lines_text. unfold comment_lines_object. f_equal. apply map_ext. intro l. unfold with_blank_object. rewrite <- !app_assoc. reflexivity. Qed.
Lemma comment_text_lines : forall n cs, comment_lines o n cs = render_tokens (concat (map (line_toks n) (map (app (lit " ")) cs))).
Proof. intros n cs. rewrite lines_text. reflexivity. Qed.

(** Whatever is put before an item: the two kinds differ in the indentation and in the blank before a comment. *)
Lemma before_gap : forall n n' f at_, (forall cs, Forall one_line cs -> Forall one_line (map f cs)) ->
  exists g, gap g /\ free g /\
    ('(d, cs) <- origin_of ns (origin_comments o || comments o) at_ ;;
     Ok ((if origin_comments o then origin_lines o n d else []) ++
         (if comments o then render_tokens (concat (map (line_toks n') (map f cs))) else []) ++ indent_text o n')) = Ok (render_tokens g).
Proof.
  intros n n' f at_ Hf. destruct (origin_comments o || comments o) eqn:U.
  - destruct (C eq_refl at_) as [d [cs [E L]]]. unfold origin_of. rewrite E. cbn [bind].
    exists ((if origin_comments o then concat (map (line_toks n) (map with_blank (split_lines d))) else []) ++
            (if comments o then concat (map (line_toks n') (map f cs)) else []) ++ blank_toks n').
    split; [|split].
    + assert (G : gap ((if comments o then concat (map (line_toks n') (map f cs)) else []) ++ blank_toks n')).
      { destruct (comments o); [|apply blank_gap]. apply lines_gap; [apply Hf, L|apply blank_gap]. }
      destruct (origin_comments o); [|exact G]. apply lines_gap; [apply with_blank_lines, split_one_line|exact G].
    + intros [Q1 [Q2|Q2]]; [rewrite Q1, Q2 in U; discriminate|]. rewrite Q1, (Q2 _ _ _ E). destruct (comments o); apply blank_free; split; auto.
    + rewrite !render_app, blank_text. destruct (origin_comments o), (comments o); rewrite ?origin_text; reflexivity.
  - apply orb_false_iff in U. destruct U as [-> ->]. exists (blank_toks n'). split; [apply blank_gap|]. split; [apply blank_free|]. rewrite blank_text. reflexivity.
Qed.
Lemma before_element_gap : forall indent at_, exists g, gap g /\ free g /\ before_element o ns indent at_ = Ok (render_tokens g).
Proof.
  intros indent at_. destruct (before_gap (indent + 1) (indent + 1) (app (lit " ")) at_ space_lines) as [g [G [F E]]]. exists g. split; [exact G|]. split; [exact F|].
  rewrite <- E. unfold before_element. destruct (origin_of ns _ at_) as [[d cs]|?|?]; [|reflexivity|reflexivity]. cbn [bind]. rewrite comment_text_lines. reflexivity.
Qed.
Lemma before_field_gap : forall indent inner at_, exists g, gap g /\ free g /\ before_field o ns indent inner at_ = Ok (render_tokens g).
Proof.
  intros indent inner at_. destruct (before_gap (indent + 1) inner with_blank_object at_ with_blank_object_lines) as [g [G [F E]]]. exists g. split; [exact G|]. split; [exact F|].
  rewrite <- E. unfold before_field. destruct (origin_of ns _ at_) as [[d cs]|?|?]; [|reflexivity|reflexivity]. cbn [bind]. rewrite object_comment_text. reflexivity.
Qed.

(** ** Items *)
Definition line : list token := if formatted o then [TNewline] else [].
Definition blank : list token := if formatted o then [TIgnored (lit " ")] else [].
Definition closing (indent : nat) : list token := if formatted o then TNewline :: blank_toks indent else [].
Lemma line_text' : render_tokens line = if formatted o then [nl] else [].
Proof. unfold line. destruct (formatted o); reflexivity. Qed.
Lemma closing_text : forall indent, render_tokens (closing indent) = if formatted o then [nl] ++ indent_text o indent else [].
Proof. intro. unfold closing. destruct (formatted o); [|reflexivity]. rewrite render_cons, blank_text. reflexivity. Qed.
Lemma closing_gap : forall tail indent, tail = [] \/ tail = [TNewline] -> gap (tail ++ closing indent).
Proof.
  intros tail indent T. assert (G : gap (closing indent)) by (unfold closing; destruct (formatted o); [constructor; apply blank_gap|constructor]).
  destruct T as [->| ->]; [exact G|constructor; exact G].
Qed.
Lemma line_before : forall g, gap g -> gap (line ++ g).
Proof. intros g G. unfold line. destruct (formatted o); [constructor; exact G|exact G]. Qed.
Lemma tail_gap : forall tail, tail = [] \/ tail = [TNewline] -> gap tail.
Proof. intros tail [->| ->]; repeat constructor. Qed.
Lemma line_free : free line. Proof. unfold line. destruct (formatted o); intro Q; repeat constructor. Qed.
Lemma blank_free' : free blank. Proof. unfold blank. destruct (formatted o); intro Q; repeat constructor. Qed.
Lemma blank_gap' : gap blank.
Proof. unfold blank. destruct (formatted o); [|constructor]. constructor. split; [discriminate|]. repeat constructor. Qed.
Lemma closing_free : forall n, free (closing n).
Proof. intro n. unfold closing. destruct (formatted o); [|apply free_nil]. apply free_cons; [exact I|apply blank_free]. Qed.
Lemma tail_free : forall tail, tail = [] \/ tail = [TNewline] -> free tail.
Proof. intros tail [->| ->] Q; repeat constructor. Qed.

Lemma chop_app : forall a b n, List.length b = n -> chop n (a ++ b) = a.
Proof.
  intros a b n <-. unfold chop. rewrite app_length. replace (List.length a + List.length b - List.length b)%nat with (List.length a) by lia.
  rewrite firstn_app, Nat.sub_diag. cbn [firstn]. rewrite app_nil_r. apply firstn_all.
Qed.

Definition rendered (v : value) : Prop := forall at_ indent at_root, exists tv tail,
  render o ns v [] at_ indent at_root = Ok (render_tokens (tv ++ tail)) /\ spelled v tv /\ free tv /\ (tail = [] \/ tail = [TNewline]) /\ (at_root = false -> tail = []).

Lemma list_spelled : forall vs v at_ indent at_root i, rendered v -> Forall rendered vs ->
  exists X, sequence (list_items o ns at_ indent at_root i (v :: vs)) = Ok (render_tokens (X ++ TComma :: line)) /\ free X /\
    exists g tv ts, X ++ closing indent = g ++ tv ++ ts /\ gap g /\ spelled v tv /\ others vs ts.
Proof.
  induction vs as [|v' vs IH]; intros v at_ indent at_root i V F.
  - destruct (before_element_gap indent (at_ ++ [InList i])) as [g [G [Fg E]]]. destruct (V (at_ ++ [InList i]) (indent + 1)%nat at_root) as [tv [tail [R [S [Fv [T _]]]]]].
    exists (g ++ tv ++ tail). split; [|split].
    + cbn [list_items sequence]. rewrite E, R. cbn [bind]. rewrite app_nil_r, !render_app, render_cons, line_text', <- !app_assoc. reflexivity.
    + auto using free_app, tail_free.
    + exists g, tv, (tail ++ closing indent). rewrite <- !app_assoc. split; [reflexivity|]. split; [exact G|]. split; [exact S|]. apply ot_end, closing_gap, T.
  - inversion F as [|? ? V' F']; subst. destruct (IH v' at_ indent at_root (S i) V' F') as [X [Q [FX [g' [tv' [ts' [EX [G' [S' O']]]]]]]]].
    destruct (before_element_gap indent (at_ ++ [InList i])) as [g [G [Fg E]]]. destruct (V (at_ ++ [InList i]) (indent + 1)%nat at_root) as [tv [tail [R [S [Fv [T _]]]]]].
    exists (g ++ tv ++ tail ++ TComma :: line ++ X). split; [|split].
    + change (list_items o ns at_ indent at_root i (v :: v' :: vs)) with
        ((b <- before_element o ns indent (at_ ++ [InList i]) ;; t <- render o ns v [] (at_ ++ [InList i]) (indent + 1) at_root ;;
          Ok (b ++ t ++ lit "," ++ (if formatted o then [nl] else []))) :: list_items o ns at_ indent at_root (Datatypes.S i) (v' :: vs)).
      cbn [sequence]. rewrite Q, E, R. cbn [bind]. rewrite !render_app, !render_cons, !render_app, line_text', <- !app_assoc. reflexivity.
    + repeat (apply free_app; auto using tail_free). apply free_cons; [exact I|]. apply free_app; [apply line_free|exact FX].
    + exists g, tv, (tail ++ TComma :: (line ++ g') ++ tv' ++ ts'). split; [|split; [exact G|split; [exact S|]]].
      * rewrite <- !app_assoc. cbn [app]. rewrite <- !app_assoc, EX. reflexivity.
      * apply ot_more; auto using tail_gap, line_before.
Qed.

Lemma key_tokens_text : forall k v, k <> [] -> key_text o k v = render_tokens (TValue (SStr k true) (render_json_string k) :: blank ++ TColon :: blank).
Proof.
  intros [|c k] v K; [congruence|]. unfold key_text. rewrite J, render_cons, render_app, render_cons. unfold blank. destruct (formatted o); reflexivity.
Qed.
Lemma render_key : forall v k at_ indent at_root, writable v -> render o ns v k at_ indent at_root = (t <- render o ns v [] at_ indent at_root ;; Ok (key_text o k v ++ t)).
Proof.
  intros v k at_ indent at_root W. destruct v; try (inversion W; fail).
  - reflexivity.
  - rewrite !render_list. destruct vs; [reflexivity|]. destruct (sequence _); reflexivity.
  - rewrite !render_object. match goal with |- (t <- ?X ;; _) = _ => destruct X; reflexivity end.
Qed.

Definition sorted_items (at_ : list place) (indent : nat) (l : fields) : list (result str) := map (field_item o ns at_ indent (indent + 1)) l.
Lemma entries_spelled : forall l k v at_ indent, Forall (fun kv => fst kv <> [] /\ Forall quotable (fst kv) /\ writable (snd kv) /\ rendered (snd kv)) ((k, v) :: l) ->
  exists X, sequence (sorted_items at_ indent ((k, v) :: l)) = Ok (render_tokens (X ++ TComma :: line)) /\ free X /\
    exists g te ts, X ++ closing indent = g ++ te ++ ts /\ gap g /\ entry k v te /\ entries l ts.
Proof.
  induction l as [|[k' v'] l IH]; intros k v at_ indent F; inversion F as [|? ? [K [Q [W V]]] F']; subst; cbn [fst snd] in *;
    destruct (before_field_gap indent (indent + 1) (at_ ++ [InField k])) as [g [G [Fg E]]]; destruct (V (at_ ++ [InField k]) (indent + 1)%nat false) as [tv [tail [R [S [Fv [_ T]]]]]];
    rewrite (T eq_refl), app_nil_r in R;
    assert (Item : field_item o ns at_ indent (indent + 1) (k, v) = Ok (render_tokens (g ++ (TValue (SStr k true) (render_json_string k) :: blank ++ TColon :: blank ++ tv) ++ TComma :: line)))
      by (unfold field_item; cbn [fst snd]; rewrite E, (render_key v k _ _ _ W), R; cbn [bind]; rewrite (key_tokens_text k v K);
          rewrite !render_app, !render_cons, !render_app, !render_cons, !render_app, line_text'; unfold field_end; rewrite J, orb_true_r; rewrite <- !app_assoc; reflexivity);
    assert (En : entry k v (TValue (SStr k true) (render_json_string k) :: blank ++ TColon :: blank ++ tv)) by (constructor; auto using blank_gap');
    assert (Fe : free (TValue (SStr k true) (render_json_string k) :: blank ++ TColon :: blank ++ tv))
      by (apply free_cons; [exact I|]; apply free_app; [apply blank_free'|]; apply free_cons; [exact I|]; apply free_app; [apply blank_free'|exact Fv]);
    set (te := TValue (SStr k true) (render_json_string k) :: blank ++ TColon :: blank ++ tv) in *.
  - exists (g ++ te). split; [|split].
    + unfold sorted_items. cbn [map sequence]. rewrite Item. cbn [bind]. rewrite app_nil_r, <- app_assoc. reflexivity.
    + apply free_app; assumption.
    + exists g, te, (closing indent). rewrite <- app_assoc. split; [reflexivity|]. split; [exact G|]. split; [exact En|]. apply es_end. apply (closing_gap []). left. reflexivity.
  - destruct (IH k' v' at_ indent F') as [X [Qs [FX [g' [te' [ts' [EX [G' [En' O']]]]]]]]].
    exists (g ++ te ++ TComma :: line ++ X). split; [|split].
    + unfold sorted_items in *. change (map (field_item o ns at_ indent (indent + 1)) ((k, v) :: (k', v') :: l)) with
        (field_item o ns at_ indent (indent + 1) (k, v) :: map (field_item o ns at_ indent (indent + 1)) ((k', v') :: l)).
      cbn [sequence]. rewrite Item, Qs. cbn [bind]. rewrite !render_app, !render_cons, !render_app, <- !app_assoc. reflexivity.
    + apply free_app; [exact Fg|]. apply free_app; [exact Fe|]. apply free_cons; [exact I|]. apply free_app; [apply line_free|exact FX].
    + exists g, te, (TComma :: (line ++ g') ++ te' ++ ts'). split; [|split; [exact G|split; [exact En|]]].
      * rewrite <- !app_assoc. cbn [app]. rewrite <- !app_assoc, EX. reflexivity.
      * apply (es_more [] (line ++ g')); auto using gap_nil, line_before.
Qed.

(** Sorting keeps the items with their keys. *)
Lemma insert_map : forall A B (f : str * A -> B) x l, insert_key (fst x, f x) (map (fun kv => (fst kv, f kv)) l) = map (fun kv => (fst kv, f kv)) (insert_key x l).
Proof. intros A B f x l. induction l as [|y l IH]; [reflexivity|]. cbn [map insert_key fst]. destruct (compare_keys (fst x) (fst y)); [reflexivity|]. cbn [map]. rewrite IH. reflexivity. Qed.
Lemma sort_map : forall A B (f : str * A -> B) l, sort_keys (map (fun kv => (fst kv, f kv)) l) = map (fun kv => (fst kv, f kv)) (sort_keys l).
Proof. intros A B f l. induction l as [|x l IH]; [reflexivity|]. cbn [map]. change (sort_keys (x :: l)) with (insert_key x (sort_keys l)). rewrite <- insert_map, <- IH. reflexivity. Qed.

Lemma number_same : forall n c more, number_token more (c :: more) = Ok (TValue n (c :: more)) -> same_number n n /\ scalar_text n = c :: more.
Proof.
  intros n c more H. unfold number_token in H.
  assert (K : forall z t, same_number (new_number_int z t) (new_number_int z t)).
  { intros z t. unfold new_number_int. destruct (in_int z); (split; [reflexivity|]; split; [reflexivity|]; exists z; repeat split; apply number_self, integer_number). }
  destruct (has_decimal_or_e more).
  - destruct (lexical_cast_double (c :: more)) as [d|]; [|unfold number_fallback in H; destruct (existsb _ _); discriminate].
    unfold new_number_double in H. destruct (cast_int64 d) as [z|?|?] eqn:Z; try discriminate. cbn [bind] in H. injection H as <- E. split; [|exact E].
    destruct (SFeqb (int_to_double z) d); [apply K|]. split; [reflexivity|]. split; [reflexivity|]. exists z. repeat split; try exact Z. apply number_self. exact (cast_number _ _ Z).
  - destruct (lexical_cast_int64 (c :: more)) as [z|]; [|unfold number_fallback in H; destruct (existsb _ _); discriminate].
    injection H as <- E. split; [apply K|exact E].
Qed.
Lemma integer_spelled : forall n z t, (n = SInt z t \/ n = SLong z t) -> in_int64 z = true -> (t = [] \/ decimal z t) -> exists tok, scalar_token n tok /\ token_text tok = scalar_text n.
Proof.
  intros n z t N I D. assert (T : decimal z (scalar_text n)).
  { destruct t as [|c t].
    - destruct N as [-> | ->]; exact (integer_text z).
    - destruct D as [D|D]; [discriminate|]. destruct N as [-> | ->]; exact D. }
  destruct T as [sign [ds [E [S [Nd [Fd Z]]]]]]. destruct (read_integer sign ds z S Nd Fd Z I) as [c [more [E2 [F [M R]]]]]. rewrite E2 in E, R.
  exists (TValue (new_number_int z (c :: more)) (c :: more)). split; [|symmetry; exact E].
  assert (V : value_token (new_number_int z (c :: more)) = TValue (new_number_int z (c :: more)) (c :: more)) by (unfold value_token, new_number_int; destruct (in_int z); reflexivity).
  rewrite V in R. apply (st_number n _ c more); auto.
  unfold new_number_int. destruct N as [-> | ->]; destruct (in_int z); (split; [reflexivity|]; split; [reflexivity|]; exists z; repeat split; apply number_self, integer_number).
Qed.

Lemma writable_rendered : forall v, writable v -> rendered v.
Proof.
  intro v. induction v as [s|vs IH|r i m IH|n p q l|vs IH|vs IH|vs IH] using value_induction; intro W; try (inversion W; fail); intros at_ indent at_root.
  - assert (T : exists tok, scalar_token s tok /\ render o ns (VScalar s) [] at_ indent at_root = Ok (token_text tok)).
    { assert (N : forall tok, scalar_token s tok -> token_text tok = scalar_text s -> (forall t q, s <> SStr t q) -> exists tok, scalar_token s tok /\ render o ns (VScalar s) [] at_ indent at_root = Ok (token_text tok)).
      { intros tok S E X. exists tok. split; [exact S|]. rewrite E. destruct s; try reflexivity. destruct (X s quoted eq_refl). }
      inversion W as [|b|x q F|z t I D|z t I D|n' c more F M R| |]; subst.
      - apply (N (value_token SNull)); [constructor|reflexivity|discriminate].
      - apply (N (value_token (SBool b))); [constructor|reflexivity|discriminate].
      - exists (TValue (SStr x true) (render_json_string x)). split; [constructor; exact F|]. cbn [render key_text app]. rewrite J. reflexivity.
      - destruct (integer_spelled (SInt z t) z t (or_introl eq_refl) I D) as [tok [S E]]. apply (N tok S E). discriminate.
      - destruct (integer_spelled (SLong z t) z t (or_intror eq_refl) I D) as [tok [S E]]. apply (N tok S E). discriminate.
      - destruct (number_same s c more R) as [E1 E2]. apply (N (TValue s (c :: more))).
        + apply (st_number s s c more); assumption.
        + symmetry. exact E2.
        + intros t q ->. destruct E1 as [E1 _]. discriminate. }
    destruct T as [tok [S R]]. exists [tok], []. rewrite R. split; [cbn; rewrite app_nil_r; reflexivity|]. split; [constructor; exact S|]. split; [|split; [left; reflexivity|reflexivity]].
    intro Q. destruct S; repeat constructor.
  - inversion W as [| | | | | |? F|]; subst. rewrite render_list. cbn [key_text app]. destruct vs as [|v vs].
    + exists [TOpenSquare; TCloseSquare], []. split; [reflexivity|]. split; [constructor|]. split; [intro Q; repeat constructor|]. split; [left; reflexivity|reflexivity].
    + assert (R : Forall rendered (v :: vs)). { rewrite Forall_forall in *. intros x X. apply IH; auto. }
      inversion R as [|? ? R1 R2]; subst. destruct (list_spelled vs v at_ indent at_root 0%nat R1 R2) as [X [Q [FX [g [tv [ts [EX [G [S O]]]]]]]]].
      rewrite Q. cbn [bind]. exists (TOpenSquare :: (line ++ g) ++ tv ++ ts ++ [TCloseSquare]), []. split; [|split; [|split; [|split; [left; reflexivity|reflexivity]]]].
      * replace ((line ++ g) ++ tv ++ ts ++ [TCloseSquare]) with (line ++ (X ++ closing indent) ++ [TCloseSquare]) by (rewrite EX, <- !app_assoc; reflexivity).
        rewrite app_nil_r, render_cons, !render_app, line_text', closing_text, render_cons. unfold line. destruct (formatted o).
        -- rewrite chop_app by reflexivity. rewrite <- !app_assoc. reflexivity.
        -- rewrite chop_app by reflexivity. rewrite ?app_nil_r, <- ?app_assoc. reflexivity.
      * constructor; auto using line_before.
      * replace ((line ++ g) ++ tv ++ ts ++ [TCloseSquare]) with (line ++ (X ++ closing indent) ++ [TCloseSquare]) by (rewrite EX, <- !app_assoc; reflexivity).
        apply free_cons; [exact I|]. apply free_app; [apply line_free|]. apply free_app; [apply free_app; [exact FX|apply closing_free]|]. apply free_cons; [exact I|apply free_nil].
  - inversion W as [| | | | | | |? ? ? D F]; subst. rewrite render_object, J. cbn [orb key_text app].
    assert (T : exists tv, (match m with [] => Ok (lit "{}") | _ :: _ =>
        t <- sequence (map snd (sort_keys (object_items o ns at_ indent (indent + 1) m))) ;;
        Ok (lit "{" ++ (if formatted o then [nl] else []) ++ chop (List.length (field_end o)) t ++ (if formatted o then [nl] ++ indent_text o indent else []) ++ lit "}") end)
        = Ok (render_tokens tv) /\ spelled (VObj r i m) tv /\ free tv).
    { destruct m as [|kv0 m0]; [exists [TOpenCurly; TCloseCurly]; split; [reflexivity|]; split; [constructor|]; intro Q; repeat constructor|]. set (m := kv0 :: m0) in *.
      pose proof (sort_perm m) as P. destruct (sort_keys m) as [|[k v] l] eqn:E; [apply Permutation_sym, Permutation_nil in P; discriminate|].
      assert (Fs : Forall (fun kv => fst kv <> [] /\ Forall quotable (fst kv) /\ writable (snd kv) /\ rendered (snd kv)) ((k, v) :: l)).
      { eapply Permutation_Forall; [exact P|]. rewrite Forall_forall in *. intros x X. destruct (F x X) as [F1 [F2 F3]]. repeat split; auto. }
      destruct (entries_spelled l k v at_ indent Fs) as [X [Q [FX [g [te [ts [EX [G [S O]]]]]]]]].
      exists (TOpenCurly :: (line ++ g) ++ te ++ ts ++ [TCloseCurly]).
      assert (EX' : (line ++ g) ++ te ++ ts ++ [TCloseCurly] = line ++ (X ++ closing indent) ++ [TCloseCurly]) by (rewrite EX, <- !app_assoc; reflexivity).
      split; [|split].
      - rewrite EX'. unfold object_items. rewrite (sort_map _ _ (field_item o ns at_ indent (indent + 1)) m), E, map_map. cbn [snd].
        unfold sorted_items in Q.
        match goal with |- context [sequence ?x] => assert (Q' : sequence x = Ok (render_tokens (X ++ TComma :: line))) by exact Q; rewrite Q' end. cbn [bind].
        rewrite render_cons, !render_app, line_text', closing_text, render_cons. unfold field_end. rewrite J, orb_true_r. unfold line. destruct (formatted o).
        + rewrite chop_app by reflexivity. rewrite <- !app_assoc. reflexivity.
        + rewrite chop_app by reflexivity. rewrite ?app_nil_r, <- ?app_assoc. reflexivity.
      - apply (sp_object r i m k v l); auto using line_before.
      - rewrite EX'. apply free_cons; [exact I|]. apply free_app; [apply line_free|]. apply free_app; [apply free_app; [exact FX|apply closing_free]|]. apply free_cons; [exact I|apply free_nil]. }
    destruct T as [tv [T [S Fv]]]. exists tv, (if at_root && formatted o then [TNewline] else []). split; [|split; [exact S|split; [exact Fv|split]]].
    + match goal with |- bind ?x _ = _ => assert (T' : x = Ok (render_tokens tv)) by exact T; rewrite T' end. cbn [bind]. rewrite render_app. destruct (at_root && formatted o); reflexivity.
    + destruct (at_root && formatted o); auto.
    + intros ->. reflexivity.
Qed.
End Rendering.
