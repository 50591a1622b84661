(** Replacing and removing in the nodes of a JSON document. *)
From Verif Require Import Base BaseLemmas Util_Model Num_Model Path_Model Path_Spec Path_Lemmas Token_Model PathParser_Model Doc_Model Edit_Model Value_Model Value_Spec Value_Lemmas Render_Lemmas3 JsonEdit_Lemmas JsonEdit_Lemmas2.

Notation good' := (good false).
Notation members' := (members false).
Notation field' := (field false).

(** ** Values *)
Fixpoint change_m (p : path) (o : option value) (m : fields) : fields :=
  match p with
  | [] => m
  | k :: p' =>
      flat_map (fun '(q, v) =>
        if str_eqb k q then
          match p' with
          | [] => match o with Some w => [(q, w)] | None => [] end
          | _ :: _ => [(q, match v with VObj _ _ m' => new_object (change_m p' o m') | _ => v end)]
          end
        else [(q, v)]) m
  end.
Fixpoint present (p : path) (m : fields) : bool :=
  match p with
  | [] => false
  | k :: p' => existsb (fun '(q, v) => str_eqb k q && match p' with [] => true | _ :: _ => match v with VObj _ _ m' => present p' m' | _ => false end end) m
  end.
Definition change_entry (k : str) (p' : path) (o : option value) (q : str) (v : value) : fields :=
  if str_eqb k q then
    match p' with
    | [] => match o with Some w => [(q, w)] | None => [] end
    | _ :: _ => [(q, match v with VObj _ _ m' => new_object (change_m p' o m') | _ => v end)]
    end
  else [(q, v)].
Lemma change_m_cons : forall k p' o q v m, change_m (k :: p') o ((q, v) :: m) = change_entry k p' o q v ++ change_m (k :: p') o m.
Proof. reflexivity. Qed.
Lemma change_keys : forall k p' o m q, In q (map fst (change_m (k :: p') o m)) -> In q (map fst m).
Proof.
  intros k p' o m q. induction m as [|[a v] m IH]; [intros []|]. rewrite change_m_cons, map_app, in_app_iff. intros [H|H]; [|right; auto]. left. unfold change_entry in H.
  destruct (str_eqb k a); [destruct p'; [destruct o|]|]; cbn in H; try (destruct H as [H|[]]; exact H); destruct H.
Qed.
Lemma change_nodup : forall k p' o m, NoDup (map fst m) -> NoDup (map fst (change_m (k :: p') o m)).
Proof.
  intros k p' o m. induction m as [|[a v] m IH]; intro D; [constructor|]. inversion D as [|? ? D1 D2]; subst. rewrite change_m_cons, map_app.
  assert (K : ~ In a (map fst (change_m (k :: p') o m))) by (intro I; apply D1; eapply change_keys; exact I).
  unfold change_entry. destruct (str_eqb k a); [destruct p'; [destruct o|]|]; cbn [map fst app]; try (constructor; auto); auto.
Qed.
Lemma change_absent : forall k p' o m, ~ In k (map fst m) -> change_m (k :: p') o m = m.
Proof.
  intros k p' o m. induction m as [|[a v] m IH]; intro N; [reflexivity|]. rewrite change_m_cons, IH by (intro; apply N; right; assumption). unfold change_entry.
  destruct (str_eqb k a) eqn:E; [|reflexivity]. apply str_eqb_eq in E. subst. destruct N. left. reflexivity.
Qed.

(** ** Fields *)
Lemma whites_field_path : forall ws cs, Forall white ws -> field_path (ws ++ cs) = field_path cs.
Proof. intros ws cs W. induction W as [|c ws C W IH]; [reflexivity|]. cbn [app]. destruct C; exact IH. Qed.
Lemma whites_field_value : forall ws cs, Forall white ws -> field_value (ws ++ cs) = field_value cs.
Proof. intros ws cs W. induction W as [|c ws C W IH]; [reflexivity|]. cbn [app]. destruct C; exact IH. Qed.
Lemma whites_replace : forall ws cs v, Forall white ws -> replace_value (ws ++ cs) v = rmap (app ws) (replace_value cs v).
Proof.
  intros ws cs v W. induction W as [|c ws C W IH]; [cbn [app]; destruct (replace_value cs v); reflexivity|].
  cbn [app]. destruct C; cbn [replace_value is_value_node]; rewrite IH; destruct (replace_value cs v); reflexivity.
Qed.
Lemma field_parts : forall l fc k v, field l fc k v -> exists n ts, field_path fc = Ok ([k], ts) /\ field_value fc = Ok n /\ good l n v /\
  forall n' v', good l n' v' -> exists fc', replace_value fc n' = Ok fc' /\ field l fc' k v'.
Proof.
  intros l fc k v H. destruct H as [pre k t tl w1 w2 n v Wp R T W1 W2 G]. exists n, (t :: tl). split; [rewrite whites_field_path by exact Wp; reflexivity|].
  assert (V : is_value_node n = true) by exact (good_value_node l n v G). split; [|split; [exact G|]].
  - rewrite whites_field_value by exact Wp. cbn [field_value is_value_node]. rewrite whites_field_value by exact W1. cbn [field_value is_value_node]. rewrite whites_field_value by exact W2. cbn [field_value]. rewrite V. reflexivity.
  - intros n' v' G'. eexists. split; [|exact (a_field l pre k t tl w1 w2 n' v' Wp R T W1 W2 G')].
    rewrite whites_replace by exact Wp. cbn [replace_value is_value_node]. rewrite whites_replace by exact W1. cbn [replace_value is_value_node]. rewrite whites_replace by exact W2. cbn [replace_value]. rewrite V. reflexivity.
Qed.
Lemma good_object_only : forall l n v, good l n v -> match n with
  | NObject cs => exists cs' m, cs = NTok TOpenCurly :: cs' /\ v = new_object m /\ NoDup (map fst m) /\ members l Open cs' m
  | _ => forall r i m, v <> VObj r i m end.
Proof. intros l n v H. destruct H; try discriminate. exists cs, m. auto. Qed.

(** ** Indenting *)
Lemma indent_good_all : forall l ind, (exists w, ind = NTok (TIgnored w) /\ blanks w) ->
  (forall n v, good l n v -> exists n', indent_text ind n = Ok n' /\ good l n' v) /\
  (forall p cs vs, elements l p cs vs -> exists cs', indent_children (indent_text ind) ind cs = Ok cs' /\ elements l p cs' vs) /\
  (forall fc k v, field l fc k v -> exists fc', indent_field (indent_text ind) fc = Ok fc' /\ field l fc' k v) /\
  (forall p cs m, members l p cs m -> exists cs', indent_children (indent_text ind) ind cs = Ok cs' /\ members l p cs' m).
Proof.
  intros l ind [w [-> W]]. apply good_mutual.
  - intros s x R. eexists. split; [reflexivity|]. constructor. exact R.
  - intros cs vs _ [cs' [E H]]. cbn [indent_text indent_children]. rewrite E. eexists. split; [reflexivity|]. constructor. exact H.
  - intros cs m D _ [cs' [E H]]. cbn [indent_text indent_children]. rewrite E. eexists. split; [reflexivity|]. constructor; assumption.
  - intros p c cs vs Wc _ [cs' [E H]]. destruct Wc; cbn [indent_children is_newline]; rewrite E; (eexists; split; [reflexivity|]); repeat (apply el_white; [constructor; assumption|]); exact H.
  - intros b cs vs _ [cs' [E H]]. cbn [indent_children]. rewrite E. eexists. split; [reflexivity|]. apply el_comma, H.
  - intros p n v cs vs P G [n' [En Gn]] _ [cs' [E H]]. destruct n; try (inversion G; fail); cbn [indent_children].
    + cbn [indent_text] in En. injection En as <-. rewrite E. eexists. split; [reflexivity|]. apply el_value; assumption.
    + rewrite En, E. eexists. split; [reflexivity|]. apply el_value; assumption.
    + rewrite En, E. eexists. split; [reflexivity|]. apply el_value; assumption.
  - intros p P. eexists. split; [reflexivity|]. apply el_end, P.
  - intros pre k t tl w1 w2 n v Wp R T W1 W2 G [n' [En Gn]].
    assert (K : forall ws cs, Forall white ws -> indent_field (indent_text (NTok (TIgnored w))) (ws ++ cs) = rmap (app ws) (indent_field (indent_text (NTok (TIgnored w))) cs)).
    { intros ws cs Ws. induction Ws as [|c ws C Ws IH]; [cbn [app]; destruct (indent_field _ cs); reflexivity|].
      cbn [app]. destruct C; cbn [indent_field is_value_node]; rewrite IH; destruct (indent_field _ cs); reflexivity. }
    eexists. split; [|exact (a_field l pre k t tl w1 w2 n' v Wp R T W1 W2 Gn)].
    rewrite K by exact Wp. cbn [indent_field is_value_node]. rewrite K by exact W1. cbn [indent_field is_value_node]. rewrite K by exact W2. cbn [indent_field].
    rewrite (good_value_node l n v G). destruct (is_complex n) eqn:C; [rewrite En; reflexivity|]. destruct n; try discriminate C; cbn [indent_text] in En; injection En as <-; reflexivity.
  - intros p w0 cs m Wc _ [cs' [E H]]. cbn [indent_children]. rewrite E. eexists. split; [reflexivity|]. apply me_blank; assumption.
  - intros p c cs m Wc _ [cs' [E H]]. destruct Wc; cbn [indent_children is_newline]; rewrite E; (eexists; split; [reflexivity|]); (apply me_line; [constructor; assumption|]); try exact H.
    apply me_blank; assumption.
  - intros b cs m L _ [cs' [E H]]. cbn [indent_children]. rewrite E. eexists. split; [reflexivity|]. apply me_comma; assumption.
  - intros p fc k v cs m P _ [fc' [Ef Ff]] _ [cs' [E H]]. cbn [indent_children]. rewrite Ef, E. eexists. split; [reflexivity|]. apply me_field; assumption.
  - intros p P. eexists. split; [reflexivity|]. apply me_end, P.
Qed.
Lemma indent_good : forall l w n v, blanks w -> good l n v -> exists n', indent_text (NTok (TIgnored w)) n = Ok n' /\ good l n' v.
Proof. intros l w n v W G. apply (proj1 (indent_good_all l _ (ex_intro _ w (conj eq_refl W))) n v G). Qed.

(** ** Closing braces and separators *)
Inductive closing : list node -> Prop :=
| closing_end : closing [NTok TCloseCurly]
| closing_white : forall c cs, white c -> closing cs -> closing (c :: cs).
Lemma closing_members : forall l cs, closing cs -> forall p, p <> Comma -> members l p cs [].
Proof.
  intros l cs H. induction H as [|c cs C H IH]; intros p P; [apply me_end, P|]. apply me_line; [exact C|]. apply IH. destruct p; [discriminate|discriminate|exact P].
Qed.
Lemma comma_open : forall l cs m, members l Comma cs m -> members l Open cs m.
Proof.
  intros l cs m H. remember Comma as p eqn:E. induction H; subst; try discriminate.
  - apply me_blank; auto.
  - apply me_line; auto.
  - apply me_field; auto.
  - congruence.
Qed.
Lemma closing_drop : forall cs, closing cs -> closing (drop_separators cs).
Proof.
  intros cs H. induction H as [|c cs C H IH]; [constructor|]. cbn [drop_separators]. destruct C; cbn [is_blank_node is_comma orb]; [apply closing_white; [constructor|exact H]|exact IH|apply closing_white; [constructor; assumption|exact H]].
Qed.
Lemma no_more : forall cs m, members' (After false) cs m -> m = [].
Proof. intros cs m H. remember (After false) as p eqn:E. induction H; subst; auto; try discriminate. - injection E as ->. discriminate. - destruct H; discriminate. Qed.
Lemma comma_drop : forall cs m, members' Comma cs m -> members' Comma (drop_separators cs) m.
Proof.
  intros cs m H. remember Comma as p eqn:E. induction H; subst; try discriminate.
  - cbn [drop_separators is_blank_node is_comma orb]. auto.
  - destruct H as [|w W|w W]; cbn [drop_separators is_blank_node is_comma orb]; [apply me_line; [constructor|exact H0]|auto|apply me_line; [constructor; exact W|exact H0]].
  - cbn [drop_separators is_blank_node is_comma orb]. apply me_field; assumption.
  - congruence.
Qed.
Lemma drop_members : forall cs m, members' (After true) cs m -> m <> [] -> members' Comma (drop_separators cs) m.
Proof.
  intros cs m H. remember (After true) as p eqn:E. induction H; intro N; subst; try discriminate.
  - cbn [drop_separators is_blank_node is_comma orb]. auto.
  - cbn [line] in H0. destruct N. exact (no_more _ _ H0).
  - cbn [drop_separators is_blank_node is_comma orb]. apply comma_drop. assumption.
  - destruct H; discriminate.
  - congruence.
Qed.

(** ** Paths of one key *)
Lemma key_starts : forall q k p, starts_with [q] (k :: p) = Ok (path_eq [q] (k :: p)).
Proof.
  intros q k p. unfold starts_with. rewrite !length_spec by discriminate. destruct p as [|k2 p].
  - cbn. destruct (str_eqb k q) eqn:E; rewrite ?(str_eqb_sym q k), E; reflexivity.
  - replace (Z.of_nat (List.length (k :: k2 :: p)) <=? Z.of_nat (List.length [q])) with false by (symmetry; apply Z.leb_gt; cbn [List.length]; lia). cbn. rewrite andb_false_r. reflexivity.
Qed.
Lemma starts_key : forall q k p, starts_with (k :: p) [q] = Ok (str_eqb k q).
Proof.
  intros q k p. unfold starts_with. rewrite !length_spec by discriminate.
  replace (Z.of_nat (List.length [q]) <=? Z.of_nat (List.length (k :: p))) with true by (symmetry; apply Z.leb_le; cbn [List.length]; lia).
  cbn. rewrite (str_eqb_sym q k). destruct (str_eqb k q); reflexivity.
Qed.
Lemma sub_one : forall q k k2 p, sub_path (k :: k2 :: p) (length [q]) = k2 :: p.
Proof. intros. change (length [q]) with (Z.of_nat 1). rewrite sub_path_spec; [reflexivity|cbn [List.length]; lia]. Qed.

(** ** change_value_on_path *)
Definition replacement (o : option node) (ow : option value) : Prop :=
  match o, ow with Some n, Some w => good' n w | None, None => True | _, _ => False end.
(** What the recursive call does *)
Definition changes (rec : list node -> path -> option node -> result (list node)) (p : path) : Prop :=
  forall cs m o ow, NoDup (map fst m) -> members' Open cs m -> replacement o ow ->
  exists cs', rec (NTok TOpenCurly :: cs) p o = Ok (NTok TOpenCurly :: cs') /\ members' Open cs' (change_m p ow m).
Definition left_over (p : path) (m : fields) (o : option node) : option node :=
  match p with [k] => if existsb (fun kv => str_eqb k (fst kv)) m then None else o | _ => o end.
Definition result_members (st : place) (after : list node) (seen : bool) (m' : fields) : Prop :=
  if seen then m' <> [] /\ members' st after m' else m' = [] /\ closing after.

Lemma change_rest : forall rec k p', (p' <> [] -> changes rec p') -> forall st cs m, members' st cs m -> NoDup (map fst m) ->
  forall o ow i prev, replacement o ow -> (forall w, prev = Some (NTok (TIgnored w)) -> blanks w) ->
  exists after seen, change_children rec JSON (k :: p') o i prev cs = Ok (after, seen, left_over (k :: p') m o) /\ result_members st after seen (change_m (k :: p') ow m).
Proof.
  intros rec k p' R st cs m H.
  assert (White : forall c p p2 cs m, white c -> (forall cs m, members' p2 cs m -> members' p (c :: cs) m) ->
    (NoDup (map fst m) -> forall o ow i prev, replacement o ow -> (forall w, prev = Some (NTok (TIgnored w)) -> blanks w) ->
      exists after seen, change_children rec JSON (k :: p') o i prev cs = Ok (after, seen, left_over (k :: p') m o) /\ result_members p2 after seen (change_m (k :: p') ow m)) ->
    NoDup (map fst m) -> forall o ow i prev, replacement o ow -> (forall w, prev = Some (NTok (TIgnored w)) -> blanks w) ->
      exists after seen, change_children rec JSON (k :: p') o i prev (c :: cs) = Ok (after, seen, left_over (k :: p') m o) /\ result_members p after seen (change_m (k :: p') ow m)).
  { clear. intros c p p2 cs m C M IH D o ow i prev O P.
    destruct (IH D o ow (S i) (Some c) O) as [after [seen [E Rm]]]. { intros w X. destruct C; try discriminate X; injection X as <-; assumption. }
    exists (c :: after), seen. cbn [change_children]. rewrite E. cbn [bind]. split; [destruct C; cbn [is_comma]; rewrite ?andb_false_r; reflexivity|].
    destruct seen; cbn [result_members] in *; destruct Rm as [N Rm]; (split; [exact N|]); [apply M, Rm|apply closing_white; assumption]. }
  induction H as [st w cs m W H IH|st c cs m C H IH|b cs m L H IH|st fc q v cs m St F H IH|st St].
  - apply (White (NTok (TIgnored w)) st st); [constructor; exact W|intros cs' m'; apply me_blank, W|exact IH].
  - apply (White c st (line st)); [exact C|intros cs' m'; apply me_line, C|exact IH].
  - intros D o ow i prev O P. destruct (IH D o ow (S i) (Some (NTok TComma)) O) as [after [seen [E Rm]]]; [discriminate|].
    cbn [change_children]. rewrite E. cbn [bind is_json andb is_comma]. rewrite andb_true_r. destruct seen; cbn [negb]; eexists _, _; (split; [reflexivity|]); cbn [result_members] in *; destruct Rm as [N Rm]; (split; [exact N|]).
    + apply me_comma; assumption.
    + exact Rm.
  - intros D o ow i prev O P. cbn [map fst] in D. inversion D as [|? ? D1 D2]; subst.
    destruct (IH D2 o ow (S i) (Some (NField fc)) O) as [after [seen [E Rm]]]; [discriminate|]. cbn [change_children]. rewrite E. cbn [bind].
    destruct (field_parts _ _ _ _ F) as [n [ts [Fp [Fv [G Rep]]]]]. rewrite Fp. cbn [bind]. rewrite key_starts, starts_key. rewrite change_m_cons. unfold change_entry.
    assert (Keep : members' st (NField fc :: after) ((q, v) :: change_m (k :: p') ow m)).
    { apply me_field; auto. destruct seen; cbn [result_members] in Rm; destruct Rm as [N Rm]; [exact Rm|]. rewrite N. apply closing_members; [exact Rm|discriminate]. }
    assert (Drop : result_members st (drop_separators after) seen (change_m (k :: p') ow m)).
    { destruct seen; cbn [result_members] in *; destruct Rm as [N Rm]; (split; [exact N|]); [|apply closing_drop, Rm].
      pose proof (drop_members _ _ Rm N) as K. destruct St as [-> | ->]; [apply comma_open|]; exact K. }
    destruct (str_eqb k q) eqn:Kq.
    + apply str_eqb_eq in Kq. subst q. assert (Ab : existsb (fun kv => str_eqb k (fst kv)) m = false).
      { destruct (existsb (fun kv => str_eqb k (fst kv)) m) eqn:X; [|reflexivity]. apply existsb_exists in X. destruct X as [[a b] [I X]]. apply str_eqb_eq in X. cbn in X. subst a. destruct D1. apply (in_map fst) in I. exact I. }
      destruct p' as [|k2 p'].
      * cbn [left_over]. cbn [existsb fst]. rewrite (proj2 (str_eqb_eq k k) eq_refl). rewrite Ab. cbn [orb path_eq]. rewrite (proj2 (str_eqb_eq k k) eq_refl). cbn [andb negb].
        destruct o as [nv|]; destruct ow as [w|]; try (exfalso; exact O).
        -- cbn [bind]. assert (X : exists v', indent_like (if (2 <=? i)%nat then prev else None) nv = Ok v' /\ good' v' w).
           { destruct (2 <=? i)%nat; [|exists nv; split; [reflexivity|exact O]]. destruct prev as [b|]; [|exists nv; split; [reflexivity|exact O]]. cbn [indent_like].
             destruct (is_complex nv && is_blank_node b) eqn:B; [|exists nv; split; [reflexivity|exact O]]. apply andb_true_iff in B. destruct B as [_ B].
             destruct b as [[]| | | | | | | |]; try discriminate B. apply indent_good; [apply P; reflexivity|exact O]. }
           destruct X as [v' [X1 X2]]. rewrite X1. cbn [bind]. destruct (Rep v' w X2) as [fc' [R1 R2]]. rewrite R1. cbn [bind].
           eexists _, true. split; [reflexivity|]. cbn [result_members app]. split; [discriminate|]. rewrite change_absent in * by exact D1.
           apply me_field; auto. destruct seen; cbn [result_members] in Rm; destruct Rm as [N Rm]; [exact Rm|]. rewrite N. apply closing_members; [exact Rm|discriminate].
        -- cbn [bind]. exists (drop_separators after), seen. split; [reflexivity|]. exact Drop.
      * replace (path_eq [k] (k :: k2 :: p')) with false by (cbn; rewrite andb_false_r; reflexivity).
        replace (left_over (k :: k2 :: p') ((k, v) :: m) o) with o by reflexivity. replace (left_over (k :: k2 :: p') m o) with o by reflexivity.
        assert (X : (if match o with Some _ => false | None => false end then Ok true else b <- Ok false ;; Ok (b && negb false)) = Ok false) by (destruct o; reflexivity).
        rewrite X. cbn [bind]. rewrite Fv. cbn [bind]. pose proof (good_object_only _ _ _ G) as Go.
        destruct n as [t|t|p0|t|c0|c0 ki|c0|c0|ocs].
        9:{ destruct Go as [ocs' [mi [-> [-> [Di Mi]]]]]. rewrite sub_one. destruct (R ltac:(discriminate) ocs' mi o ow Di Mi O) as [cs' [Ec Mc]]. rewrite Ec. cbn [bind].
            destruct (Rep (NObject (NTok TOpenCurly :: cs')) (new_object (change_m (k2 :: p') ow mi))) as [fc' [R1 R2]]. { constructor; [apply change_nodup; exact Di|exact Mc]. }
            rewrite R1. cbn [bind]. eexists _, true. split; [reflexivity|]. split; [discriminate|]. cbn [new_object app]. apply me_field; auto. destruct seen; cbn [result_members] in Rm; destruct Rm as [N Rm]; [exact Rm|]. rewrite N. apply closing_members; [exact Rm|discriminate]. }
        all: eexists _, true; (split; [reflexivity|]); (split; [discriminate|]); destruct v; try exact Keep; destruct (Go _ _ _ eq_refl).
    + assert (X : path_eq [q] (k :: p') = false) by (cbn; rewrite (str_eqb_sym q k), Kq; reflexivity). rewrite X.
      assert (X2 : (if match left_over (k :: p') m o with Some _ => false | None => false end then Ok true else b <- Ok false ;; Ok (b && negb false)) = Ok false) by (destruct (left_over (k :: p') m o); reflexivity).
      rewrite X2. cbn [bind]. eexists _, true. split; [destruct (left_over (k :: p') m o) eqn:Lo|split; [discriminate|exact Keep]].
      * rewrite <- Lo. unfold left_over. destruct p'; [|reflexivity]. cbn [existsb fst]. rewrite Kq. reflexivity.
      * rewrite <- Lo. unfold left_over. destruct p'; [|reflexivity]. cbn [existsb fst]. rewrite Kq. reflexivity.
  - intros D o ow i prev O P. exists [NTok TCloseCurly], false. split; [destruct p'; reflexivity|]. split; [reflexivity|constructor].
Qed.
Lemma change_all : forall n p, p <> [] -> (List.length p <= n)%nat -> changes (change_value_n n JSON) p.
Proof.
  induction n as [|n IH]; intros [|k p'] N L; try congruence; [cbn in L; lia|]. intros cs m o ow D M O. cbn [change_value_n].
  destruct (change_rest (change_value_n n JSON) k p') with (st := Open) (cs := cs) (m := m) (o := o) (ow := ow) (i := 1%nat) (prev := Some (NTok TOpenCurly)) as [after [seen [E Rm]]]; auto; try discriminate.
  { intro N'. apply IH; [exact N'|cbn in L; lia]. }
  cbn [change_children]. rewrite E. cbn [bind is_comma]. rewrite andb_false_r. exists after. split; [reflexivity|].
  destruct seen; cbn [result_members] in Rm; destruct Rm as [Nn Rm]; [exact Rm|]. rewrite Nn. apply closing_members; [exact Rm|discriminate].
Qed.

(** ** has_value *)
Lemma has_rest : forall rec k p', (p' <> [] -> forall cs m, members' Open cs m -> rec (NTok TOpenCurly :: cs) p' = Ok (present p' m)) ->
  forall st cs m, members' st cs m -> has_children rec cs (k :: p') = Ok (present (k :: p') m).
Proof.
  intros rec k p' R st cs m H. induction H as [st w cs m W H IH|st c cs m C H IH|b cs m L H IH|st fc q v cs m St F H IH|st St].
  - exact IH.
  - destruct C; exact IH.
  - exact IH.
  - cbn [has_children]. destruct (field_parts _ _ _ _ F) as [n [ts [Fp [Fv [G _]]]]]. rewrite Fp. cbn [bind]. rewrite key_starts, starts_key.
    assert (X : (if path_eq [q] (k :: p') then Ok true else Ok (path_eq [q] (k :: p'))) = Ok (path_eq [q] (k :: p'))) by (destruct (path_eq [q] (k :: p')); reflexivity).
    rewrite X. cbn [bind]. change (present (k :: p') ((q, v) :: m)) with ((str_eqb k q && match p' with [] => true | _ :: _ => match v with VObj _ _ m' => present p' m' | _ => false end end) || present (k :: p') m).
    destruct (str_eqb k q) eqn:Kq.
    + apply str_eqb_eq in Kq. subst q. cbn [path_eq]. rewrite (proj2 (str_eqb_eq k k) eq_refl). destruct p' as [|k2 p']; [reflexivity|]. cbn [andb path_eq]. rewrite Fv. cbn [bind].
      pose proof (good_object_only _ _ _ G) as Go. destruct n as [t|t|p0|t|c0|c0 ki|c0|c0|ocs].
      9:{ destruct Go as [ocs' [mi [-> [-> [Di Mi]]]]]. rewrite sub_one. rewrite (R ltac:(discriminate) _ _ Mi). cbn [bind new_object]. destruct (present (k2 :: p') mi); [reflexivity|exact IH]. }
      all: cbn [bind]; destruct v; try exact IH; destruct (Go _ _ _ eq_refl).
    + cbn [path_eq]. rewrite (str_eqb_sym q k), Kq. cbn [andb bind orb]. exact IH.
  - reflexivity.
Qed.
Lemma has_all : forall n p, p <> [] -> (List.length p <= n)%nat -> forall cs m, members' Open cs m -> has_value_n n (NTok TOpenCurly :: cs) p = Ok (present p m).
Proof.
  induction n as [|n IH]; intros [|k p'] N L cs m M; try congruence; [cbn in L; lia|]. cbn [has_value_n has_children]. apply (has_rest _ k p') with (st := Open); [|exact M].
  intros N' cs' m' M'. apply IH; [exact N'|cbn in L; lia|exact M'].
Qed.
