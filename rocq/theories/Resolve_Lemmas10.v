(** Looking back: what a self-referential definition resolves to. *)
From Verif Require Import Base BaseLemmas Util_Model Num_Model Path_Model Token_Model Value_Model Value_Spec Value_Lemmas Value_Lemmas2 Path_Lemmas
  Duration_Model Config_Model Concat_Model Concat_Spec Concat_Lemmas Resolve_Model Resolve_Spec Resolve_Lemmas Resolve_Lemmas2 Resolve_Lemmas4 Resolve_Lemmas5 Resolve_Lemmas7.

Lemma resolved_run : forall allow use env n c v s, is_resolved v = true -> (forall r, find_memo (memos c) v = Some (Some r) -> r = v) ->
  resolve_n allow use env (S n) c v s = Ok (Some v, memoize c v (Some v)) \/ resolve_n allow use env (S n) c v s = Ok (Some v, c).
Proof.
  intros allow use env n c v s E M. cbn [resolve_n]. unfold resolve_step.
  assert (B : (if (match v with VRef id _ _ _ => is_marked c id | _ => false end) then Throw ENotPossible
      else '(r, c1) <- resolve_substitutions allow use env (resolve_n allow use env n) v c s ;;
        match r with
        | None => Ok (r, memoize c1 v r)
        | Some w => if is_resolved w then Ok (r, memoize c1 v r) else if is_restricted c then Ok (r, c1) else if allow then Ok (r, memoize c1 v r) else Throw EBug
        end) = Ok (Some v, memoize c v (Some v))).
  { destruct v as [sc|vs|r i m|id p o l|vs|vs|vs]; try discriminate; cbn [resolve_substitutions bind].
    - reflexivity.
    - unfold resolve_list. cbn [is_resolved] in E. rewrite E. cbn [bind is_resolved]. rewrite E. reflexivity.
    - cbn [is_resolved] in E. subst r. reflexivity. }
  destruct (find_memo (memos c) v) as [[r|]|] eqn:F; [right; rewrite (M r eq_refl); reflexivity|left; exact B|left; exact B].
Qed.

Lemma join_resolved : forall a b j, plain a -> plain b -> join_values a b = Ok (Some j) -> plain j.
Proof.
  intros a b j Pa Pb E. unfold join_values in E. destruct (is_object a && is_list b) eqn:X1; [destruct a; try discriminate; discriminate|]. cbn [bind] in E.
  destruct (is_list a && is_object b) eqn:X2; [destruct a; try discriminate; destruct b; try discriminate; cbn in E; discriminate|]. cbn [bind] in E.
  destruct (is_object a && is_object b) eqn:X3.
  - destruct (plain_merge b a Pb Pa) as [c [E1 P1]]. rewrite E1 in E. cbn [bind] in E. injection E as <-. exact P1.
  - destruct a as [sa|la|ra ia ma| | | |]; try (inversion Pa; fail); destruct b as [sb|lb|rb ib mb| | | |]; try (inversion Pb; fail); try discriminate;
      repeat match type of E with
      | (if ?c then _ else _) = _ => destruct c
      | (match ?x with [] => _ | _ :: _ => _ end) = _ => destruct x
      end; try discriminate; try (injection E as <-; first [exact Pa|constructor]); try (inversion Pa; inversion Pb; subst; apply Forall_app; split; assumption); cbn in E; try discriminate.
Qed.
Lemma join_some : forall a b j, plain a -> plain b -> join_values a b = Ok j -> j <> None.
Proof.
  intros a b j Pa Pb E. unfold join_values in E. destruct (plain_cases a Pa) as [[sa ->]|[[la ->]|[ia [ma ->]]]]; destruct (plain_cases b Pb) as [[sb ->]|[[lb ->]|[ib [mb ->]]]];
    cbn [is_object is_list andb orb bind is_concat is_unmergeable] in E; try discriminate;
    repeat match type of E with
    | (if ?c then _ else _) = _ => destruct c
    | (match ?x with [] => _ | _ :: _ => _ end) = _ => destruct x
    | bind ?x _ = _ => destruct x; cbn [bind is_object is_list andb orb is_concat is_unmergeable] in E
    end; try discriminate; try (injection E as <-; discriminate).
Qed.
Lemma join_all_plain : forall l b cs, plain b -> Forall plain l -> join_all [b] l = Ok cs -> exists c, cs = [c] /\ plain c.
Proof.
  intro l. induction l as [|a l IH]; intros b cs Pb Pl E; cbn [join_all] in E.
  - injection E as <-. exists b. auto.
  - inversion Pl as [|? ? Pa Pl']; subst. destruct (join_values b a) as [[j|]| |] eqn:J; cbn [bind] in E; try discriminate.
    + exact (IH j cs (join_resolved _ _ _ Pb Pa J) Pl' E).
    + exfalso. exact (join_some _ _ _ Pb Pa J eq_refl).
Qed.
Lemma consolidate_plain : forall ps cs, Forall plain ps -> consolidate ps = Ok cs -> (ps = [] /\ cs = []) \/ exists c, cs = [c] /\ plain c.
Proof.
  intros [|a [|b ps]] cs P E; cbn [consolidate] in E.
  - injection E as <-. auto.
  - injection E as <-. inversion P; subst. right. eauto.
  - rewrite (flattened_plain _ P) in E. cbn [join_all] in E. right. inversion P as [|? ? Pa Pl]; subst. exact (join_all_plain (b :: ps) a cs Pa Pl E).
Qed.
Lemma concat_consolidate : forall ps w, Forall plain ps -> concatenate ps = Ok (Some w) -> consolidate ps = Ok [w] /\ plain w.
Proof.
  intros ps w P E. unfold concatenate in E. destruct (consolidate ps) as [cs| |] eqn:Ec; cbn [bind] in E; try discriminate.
  destruct (consolidate_plain ps cs P Ec) as [[_ ->]|[c [-> Pc]]]; [discriminate|]. injection E as <-. auto.
Qed.
Section Look.
Variable use : bool.
Variable env : list (str * str).
Variable k : str.
Notation Rn := (resolve_n false use env).

Lemma walk_one : forall n r i m ms s, exists me, Rn (S n) (Context [k] ms []) (VObj r i m) s = Ok (Some (VObj r i m), Context [k] ms me).
Proof.
  intros n r i m ms s. cbn [resolve_n]. unfold resolve_step. cbn [memos find_memo resolve_substitutions]. unfold resolve_object. destruct r; [eexists; reflexivity|].
  assert (F : forall m0 s0, resolve_fields (Rn n) m0 (Context [k] ms []) s0 = Ok (map (fun kv => (fst kv, Some (snd kv))) m0, Context [k] ms [])).
  { intro m0. induction m0 as [|[k' w] m0 IHm]; intro s0; [reflexivity|]. cbn [resolve_fields]. unfold resolve_field. cbn [restriction]. destruct (str_eqb k' k); cbn [bind]; rewrite IHm; reflexivity. }
  rewrite F. cbn [bind]. assert (U : all_unchanged m (map (fun kv => (fst kv, Some (snd kv))) m) = true). { clear. induction m as [|[k w] m IH]; [reflexivity|]. cbn. rewrite same_refl. exact IH. }
  rewrite U. cbn. eexists. reflexivity.
Qed.
Lemma look_one : forall n r i m ms ps v, find_key k m = Some v ->
  lookup_subst use env (Rn (S n)) (Context [] ms []) [k] 0 (Source (VObj r i m) ps) = Ok (Some v, Context [] ms [], [VObj r i m]).
Proof.
  intros n r i m ms ps v F. unfold lookup_subst, find_in_object. cbn [root]. rewrite restrict_new by discriminate. destruct (walk_one n r i m ms (Source (VObj r i m) [])) as [me E]. rewrite E. cbn [bind is_object restriction].
  cbn [find_path peek bind]. rewrite F. cbn [bind]. rewrite restrict_new by discriminate. reflexivity.
Qed.

(** [f id] is what the substitution [id] stands for *)
Variable f : nat -> value.
Hypothesis fp : forall id, plain (f id).
Definition piece (p : value) : value := match p with VRef id _ _ _ => f id | _ => p end.
Definition mean (v : value) : result (option value) :=
  match v with
  | VRef id _ _ _ => Ok (Some (f id))
  | VConcat ps => concatenate (map piece ps)
  | VMerge _ | VMergeObj _ => Throw EBug
  | _ => Ok (Some v)
  end.
Definition memo_fine (me : list (value * option value)) : Prop := forall v r, In (v, Some r) me -> mean v = Ok (Some r).
Lemma fine_hit : forall me v r, memo_fine me -> find_memo me v = Some (Some r) -> mean v = Ok (Some r).
Proof. intros me v r H F. apply H. exact (find_memo_in _ _ _ F). Qed.
Lemma fine_memoize : forall ms me v r, memo_fine me -> (forall w, r = Some w -> mean v = Ok (Some w)) -> exists me', memoize (Context [] ms me) v r = Context [] ms me' /\ memo_fine me'.
Proof.
  intros ms me v r H M. unfold memoize. cbn [memos]. destruct (find_memo me v); [exists me; auto|]. exists (me ++ [(v, r)]). split; [reflexivity|]. intros x y I0. apply in_app_or in I0. destruct I0 as [I0|[E|[]]]; [exact (H _ _ I0)|]. injection E as <- ->. exact (M y eq_refl).
Qed.
Lemma plain_mean : forall v, plain v -> mean v = Ok (Some v).
Proof. intros v P. inversion P; reflexivity. Qed.

Definition settles (n : nat) (c : context) (v : value) (s : source) (r : option value) : Prop := exists me, Rn n c v s = Ok (r, Context [] (markers c) me) /\ memo_fine me.
Lemma plain_settles : forall n ms me v s, plain v -> memo_fine me -> settles (S n) (Context [] ms me) v s (Some v).
Proof.
  intros n ms me v s P F. destruct (resolved_run false use env n (Context [] ms me) v s (plain_resolved _ P)) as [E|E].
  - cbn [memos]. intros r H. apply (fine_hit _ _ _ F) in H. rewrite (plain_mean _ P) in H. congruence.
  - destruct (fine_memoize ms me v (Some v) F) as [me' [E1 E2]]; [intros w [= <-]; exact (plain_mean _ P)|]. exists me'. rewrite E, E1. auto.
  - exists me. auto.
Qed.
Lemma fine_nil : memo_fine [].
Proof. intros v r []. Qed.

(** where [id] is looked up, the value found is resolved to [f id] *)
Definition leads_to (n : nat) (ms : list nat) (O : value) (v : value) (id : nat) : Prop :=
  existsb (Nat.eqb id) ms = false /\ exists me, Rn n (Context [] (ms ++ [id]) []) v (Source O [O]) = Ok (Some (f id), Context [] (ms ++ [id]) me).
Lemma reference_settles : forall n ms me r i m ps v id o, find_key k m = Some v -> leads_to (S n) ms (VObj r i m) v id -> memo_fine me ->
  settles (S (S n)) (Context [] ms me) (VRef id [k] o 0) (Source (VObj r i m) ps) (Some (f id)).
Proof.
  intros n ms me r i m ps v id o F [Mk [me1 L]] Fm. unfold settles. remember (S n) as n1. cbn [resolve_n]. unfold resolve_step. cbn [memos markers].
  assert (B : exists me', (if is_marked (Context [] ms me) id then Throw ENotPossible
      else '(r0, c1) <- resolve_substitutions false use env (Rn n1) (VRef id [k] o 0) (Context [] ms me) (Source (VObj r i m) ps) ;;
        match r0 with
        | None => Ok (r0, memoize c1 (VRef id [k] o 0) r0)
        | Some w => if is_resolved w then Ok (r0, memoize c1 (VRef id [k] o 0) r0) else if is_restricted (Context [] ms me) then Ok (r0, c1) else if false then Ok (r0, memoize c1 (VRef id [k] o 0) r0) else Throw EBug
        end) = Ok (Some (f id), Context [] ms me') /\ memo_fine me').
  { unfold is_marked. cbn [markers]. rewrite Mk. cbn [resolve_substitutions]. unfold resolve_reference. unfold is_marked. cbn [markers]. rewrite Mk. cbn zeta. unfold add_marker. cbn [restriction markers].
    subst n1. rewrite (look_one n r i m (ms ++ [id]) ps v F). cbn [attempt bind List.last]. rewrite L. cbn [attempt bind finish_reference]. unfold remove_marker. cbn [restriction markers]. rewrite (filter_fresh id ms Mk).
    rewrite (plain_resolved _ (fp id)). destruct (fine_memoize ms [] (VRef id [k] o 0) (Some (f id)) fine_nil) as [me' [E1 E2]]; [intros w [= <-]; reflexivity|]. exists me'. rewrite E1. auto. }
  destruct (find_memo me (VRef id [k] o 0)) as [[w|]|] eqn:Fd; [|exact B|exact B]. apply (fine_hit _ _ _ Fm) in Fd. cbn [mean] in Fd. injection Fd as <-. exists me. auto.
Qed.
Lemma pieces_settle : forall n ms r i m s v, root s = VObj r i m -> find_key k m = Some v ->
  forall ps, Forall (fun p => plain p \/ exists id o, p = VRef id [k] o 0 /\ leads_to (S n) ms (VObj r i m) v id) ps -> forall me, memo_fine me ->
  exists me', resolve_pieces (Rn (S (S n))) ps (Context [] ms me) s = Ok (map piece ps, Context [] ms me') /\ memo_fine me'.
Proof.
  intros n ms r i m s v Rt Fk ps Fp. induction Fp as [|p ps Hp Fp IH]; intros me Fm; [exists me; split; [reflexivity|exact Fm]|]. remember (S n) as n1. cbn [resolve_pieces]. rewrite restrict_old.
  assert (Sp : settles (S n1) (Context [] ms me) p s (Some (piece p))).
  { destruct s as [rt pp]. cbn [root] in Rt. subst rt. destruct Hp as [P|[id [o [-> L]]]].
    - replace (piece p) with p by (inversion P; reflexivity). apply plain_settles; assumption.
    - cbn [piece]. subst n1. eapply reference_settles; eassumption. }
  destruct Sp as [me1 [E1 F1]]. rewrite E1. cbn [bind restriction markers]. rewrite restrict_old. destruct (IH me1 F1) as [me2 [E2 F2]]. rewrite E2. exists me2. split; [reflexivity|exact F2].
Qed.

Lemma piece_plain : forall ps, Forall (fun p => plain p \/ exists id o, p = VRef id [k] o 0) ps -> Forall plain (map piece ps).
Proof. intros ps F. rewrite Forall_map. rewrite Forall_forall in *. intros p Hp. destruct (F _ Hp) as [P|[id [o ->]]]; [|apply fp]. inversion P; subst; exact P. Qed.
Lemma redefinition_settles : forall n ms r i m s v, root s = VObj r i m -> find_key k m = Some v ->
  forall d, redefinition k d -> (forall id o, inside (VRef id [k] o 0) d -> leads_to (S n) ms (VObj r i m) v id) ->
  forall w, mean d = Ok (Some w) -> forall me, memo_fine me -> settles (S (S (S n))) (Context [] ms me) d s (Some w).
Proof.
  intros n ms r i m s v Rt Fk d D L w M me Fm. inversion D as [id o|ps Fp [id [o I0]]]; subst.
  - cbn [mean] in M. injection M as <-. destruct s as [rt pp]. cbn [root] in Rt. subst rt. eapply reference_settles; [exact Fk| |exact Fm]. destruct (L id o (inside_self _)) as [L1 [me1 L2]]. split; [exact L1|]. exists me1.
    destruct (resolve_below false use env (S n) (S (S n)) (Context [] (ms ++ [id]) []) v (Source (VObj r i m) [VObj r i m]) ltac:(lia)) as [X|X]; congruence.
  - unfold settles. remember (S (S n)) as n2. cbn [resolve_n]. unfold resolve_step. cbn [memos markers resolve_substitutions].
    assert (B : exists me', ('(r0, c1) <- resolve_concatenation false (Rn n2) ps (Context [] ms me) s ;;
        match r0 with
        | None => Ok (r0, memoize c1 (VConcat ps) r0)
        | Some w0 => if is_resolved w0 then Ok (r0, memoize c1 (VConcat ps) r0) else if is_restricted (Context [] ms me) then Ok (r0, c1) else if false then Ok (r0, memoize c1 (VConcat ps) r0) else Throw EBug
        end) = Ok (Some w, Context [] ms me') /\ memo_fine me').
    { unfold resolve_concatenation. subst n2. destruct (pieces_settle n ms r i m s v Rt Fk ps) with (me := me) as [me1 [E1 F1]]; [|exact Fm|].
      { rewrite Forall_forall in *. intros p Hp. destruct (Fp _ Hp) as [P|[id' [o' ->]]]; [left; exact P|right]. exists id', o'. split; [reflexivity|]. exact (L id' o' (inside_concat _ _ _ Hp (inside_self _))). }
      rewrite E1. cbn [bind]. cbn [mean] in M. assert (Pp := piece_plain ps Fp). destruct (concat_consolidate _ _ Pp M) as [Cc Pw]. rewrite Cc. cbn [bind List.length Nat.ltb Nat.leb andb]. rewrite (plain_resolved _ Pw).
      destruct (fine_memoize ms me1 (VConcat ps) (Some w) F1) as [me' [E2 F2]]; [intros x [= <-]; exact M|]. exists me'. rewrite E2. auto. }
    destruct (find_memo me (VConcat ps)) as [[x|]|] eqn:Fd; [|exact B|exact B]. apply (fine_hit _ _ _ Fm) in Fd. rewrite M in Fd. injection Fd as <-. exists me. auto.
Qed.
End Look.

Lemma plain_inside : forall p x, plain p -> inside x p -> plain x.
Proof.
  intros p x P I0. induction I0 as [|v vs Hv I0 IH|r i m k v Hv I0 IH|v vs Hv I0 IH|v vs Hv I0 IH|v vs Hv I0 IH]; [exact P| | | | |]; apply IH; inversion P as [|? F|? ? N F]; subst; rewrite Forall_forall in F; [exact (F _ Hv)|exact (F _ Hv)].
Qed.

(** ** The steps of a stack *)
Definition put (i : bool) (m1 : fields) (k : str) (m2 : fields) (x : value) : value := VObj (fields_resolved (m1 ++ (k, x) :: m2)) i (m1 ++ (k, x) :: m2).
Definition others (k : str) (m1 : fields) : Prop := ~ In k (map fst m1) /\ Forall (fun kv => plain (snd kv)) m1.

Lemma find_put : forall k (m1 m2 : fields) x, ~ In k (map fst m1) -> find_key k (m1 ++ (k, x) :: m2) = Some x.
Proof.
  intros k m1 m2 x N. induction m1 as [|[k' w] m1 IH]; cbn [app find_key].
  - rewrite (proj2 (str_eqb_eq k k) eq_refl). reflexivity.
  - destruct (str_eqb k k') eqn:E; [apply str_eqb_eq in E; subst; exfalso; apply N; left; reflexivity|]. apply IH. intro I0. apply N. right. exact I0.
Qed.
Lemma replace_put : forall k m1 m2 x y, Forall (fun kv => plain (snd kv)) m1 -> ~ plain x -> replace_in_fields (m1 ++ (k, x) :: m2) x (Some y) = Ok (m1 ++ (k, y) :: m2).
Proof.
  intros k m1 m2 x y F N. induction F as [|[k' w] m1 P F IH]; cbn [app replace_in_fields].
  - rewrite same_refl. reflexivity.
  - destruct (same w x) eqn:E; [apply same_eq in E; subst; exfalso; exact (N P)|]. rewrite IH. reflexivity.
Qed.
Lemma same_false : forall a b, a <> b -> same a b = false.
Proof. intros a b N. destruct (same a b) eqn:E; [apply same_eq in E; contradiction|reflexivity]. Qed.
Lemma replace_source : forall k r i m1 m2 x y, Forall (fun kv => plain (snd kv)) m1 -> ~ plain x -> x <> y ->
  replace_within_current_parent (Source (VObj r i (m1 ++ (k, x) :: m2)) [VObj r i (m1 ++ (k, x) :: m2)]) x (Some y) = Ok (Source (put i m1 k m2 y) [put i m1 k m2 y]).
Proof.
  intros k r i m1 m2 x y F Nx N. unfold replace_within_current_parent. rewrite (same_false _ _ N). cbn [parents replace_child]. rewrite (replace_put _ _ _ _ _ F Nx). cbn [bind is_container].
  rewrite same_false; [reflexivity|]. intros [= _ E]. apply app_inv_head in E. congruence.
Qed.

Section Stack.
Variable use : bool.
Variable env : list (str * str).
Variable k : str.
Notation Rn := (resolve_n false use env).

Definition memo_plain (me : list (value * option value)) : Prop := forall v r, In (v, Some r) me -> plain v -> r = v.
Lemma fine_plain : forall f me, memo_fine f me -> memo_plain me.
Proof. intros f me F v r I0 P. assert (E := F v r I0). rewrite (plain_mean f v P) in E. congruence. Qed.
Lemma memo_plain_hit : forall me v r, memo_plain me -> plain v -> find_memo me v = Some (Some r) -> r = v.
Proof.
  intros me. induction me as [|[w x] me IH]; intros v r M P E; [discriminate|]. cbn [find_memo] in E. destruct (same w v) eqn:S0.
  - apply same_eq in S0. subst w. injection E as ->. apply M; [left; reflexivity|exact P].
  - apply (IH v r); try assumption. intros a b I0. apply M. right. exact I0.
Qed.
Lemma memo_plain_memoize : forall ms me v r, memo_plain me -> (plain v -> r = Some v) -> exists me', memoize (Context [] ms me) v r = Context [] ms me' /\ memo_plain me'.
Proof.
  intros ms me v r M P. unfold memoize. cbn [memos]. destruct (find_memo me v); [exists me; auto|]. exists (me ++ [(v, r)]). split; [reflexivity|].
  intros a b I0 Pa. apply in_app_or in I0. destruct I0 as [I0|[E|[]]]; [exact (M _ _ I0 Pa)|]. injection E as -> ->. specialize (P Pa). congruence.
Qed.
Lemma plain_run : forall n ms me v s, plain v -> memo_plain me -> exists me', Rn (S n) (Context [] ms me) v s = Ok (Some v, Context [] ms me') /\ memo_plain me'.
Proof.
  intros n ms me v s P M. destruct (resolved_run false use env n (Context [] ms me) v s (plain_resolved _ P)) as [E|E].
  - intros r H. exact (memo_plain_hit _ _ _ M P H).
  - destruct (memo_plain_memoize ms me v (Some v) M) as [me' [E1 M1]]; [reflexivity|]. exists me'. rewrite E, E1. auto.
  - exists me. auto.
Qed.

Lemma redefinition_unmergeable : forall d, redefinition k d -> is_delayed d = false /\ is_unmergeable d = true /\ ignores_fallbacks d = false /\ is_object d = false /\ unmerged_values d = [d] /\ is_resolved d = false.
Proof. intros d D. inversion D; repeat split. Qed.
Lemma redefinition_fallback : forall d v, redefinition k d -> plain v -> with_fallback d v = Ok (VMerge [d; v]).
Proof. intros d v D P. inversion D; subst; inversion P; reflexivity. Qed.
Lemma plain_not_delayed : forall v, plain v -> is_delayed v = false.
Proof. intros v P. inversion P; reflexivity. Qed.
Lemma mean_plain : forall f d w, (forall id, plain (f id)) -> redefinition k d -> mean f d = Ok (Some w) -> plain w.
Proof.
  intros f d w Fp D M. inversion D as [id o|ps F X]; subst; cbn [mean] in M; [injection M as <-; apply Fp|]. destruct (concat_consolidate (map (piece f) ps) w) as [_ P]; [|exact M|exact P].
  apply (piece_plain k f Fp). exact F.
Qed.

(** the definition before is plain *)
Lemma two_settle : forall f r i m1 m2 d base, (forall id, plain (f id)) -> others k m1 -> redefinition k d -> plain base -> (forall id o, inside (VRef id [k] o 0) d -> f id = base) ->
  forall w, mean f d = Ok (Some w) -> forall v, with_fallback w base = Ok v -> forall n ms me, memo_fine f me -> (forall id o, inside (VRef id [k] o 0) d -> existsb (Nat.eqb id) ms = false) ->
  forall s, s = Source (VObj r i (m1 ++ (k, VMerge [d; base]) :: m2)) [VObj r i (m1 ++ (k, VMerge [d; base]) :: m2)] ->
  exists me', Rn (S (S (S (S n)))) (Context [] ms me) (VMerge [d; base]) s = Ok (Some v, Context [] ms me') /\ memo_plain me'.
Proof.
  intros f r i m1 m2 d base Fp [Nk Pm] D Pb Fb w M v Wv n ms me Fm Mk s Es. remember (S (S (S n))) as n3. cbn [resolve_n]. unfold resolve_step.
  assert (H : forall x, find_memo (memos (Context [] ms me)) (VMerge [d; base]) <> Some (Some x)). { intros x E. apply (fine_hit f _ _ _ Fm) in E. discriminate. }
  destruct (redefinition_unmergeable d D) as [U1 [U2 _]].
  assert (E : exists me1, resolve_stack (Rn n3) (VMerge [d; base]) [d; base] [d; base] 0 None (Context [] ms me) s = Ok (Some v, Context [] ms me1) /\ memo_fine f me1).
  { cbn [resolve_stack]. rewrite U1, U2. unfold make_replacement at 1. cbn [skipn merge_stack bind]. rewrite Es, replace_source; [|exact Pm|intro X; inversion X|intro X; rewrite <- X in Pb; inversion Pb]. cbn [bind reset_parents]. unfold reset_parents. cbn [root].
    destruct (redefinition_settles use env k f Fp n ms (fields_resolved (m1 ++ (k, base) :: m2)) i (m1 ++ (k, base) :: m2) (Source (put i m1 k m2 base) []) base eq_refl (find_put _ _ _ _ Nk) d D) with (w := w) (me := me) as [me1 [E1 F1]]; [|exact M|exact Fm|].
    { intros id o I0. split; [exact (Mk id o I0)|]. rewrite (Fb id o I0). destruct (plain_run n (ms ++ [id]) [] base (Source (VObj (fields_resolved (m1 ++ (k, base) :: m2)) i (m1 ++ (k, base) :: m2)) [VObj (fields_resolved (m1 ++ (k, base) :: m2)) i (m1 ++ (k, base) :: m2)]) Pb) as [me0 [E0 _]]; [intros ? ? []|]. eauto. }
    rewrite Heqn3, E1. cbn [bind markers]. rewrite (plain_not_delayed _ Pb), (plain_mergeable _ Pb). cbn [bind].
    destruct (plain_settles use env f (S (S n)) ms me1 base (push_parent (Source (VObj r i (m1 ++ (k, VMerge [d; base]) :: m2)) [VObj r i (m1 ++ (k, VMerge [d; base]) :: m2)]) (VMerge [d; base])) Pb F1) as [me2 [E2 F2]]. rewrite E2. cbn [bind]. rewrite Wv. cbn [bind markers]. eauto. }
  destruct E as [me1 [E F1]]. cbn [resolve_substitutions]. rewrite E. cbn [bind].
  destruct (plain_merge w base (mean_plain f d w Fp D M) Pb) as [v' [Ev Pv]]. rewrite Wv in Ev. injection Ev as <-. rewrite (plain_resolved _ Pv).
  destruct (memo_plain_memoize ms me1 (VMerge [d; base]) (Some v) (fine_plain f _ F1)) as [me2 [E2 M2]]; [intro X; inversion X|]. exists me2. rewrite E2.
  split; [|exact M2]. destruct (find_memo (memos (Context [] ms me)) (VMerge [d; base])) as [[x|]|] eqn:Fd; [exfalso; exact (H x eq_refl)|reflexivity|reflexivity].
Qed.

(** two definitions that look back *)
Lemma three_settle : forall f r i m1 m2 d3 d2 base, (forall id, plain (f id)) -> others k m1 -> redefinition k d3 -> redefinition k d2 -> plain base ->
  (forall id o, inside (VRef id [k] o 0) d2 -> f id = base) ->
  forall w2, mean f d2 = Ok (Some w2) -> forall v2, with_fallback w2 base = Ok v2 -> (forall id o, inside (VRef id [k] o 0) d3 -> f id = v2) ->
  (forall id o o', inside (VRef id [k] o 0) d2 -> inside (VRef id [k] o' 0) d3 -> False) ->
  forall w3, mean f d3 = Ok (Some w3) -> forall v3, with_fallback w3 v2 = Ok v3 -> forall n me, memo_fine f me ->
  forall s, s = Source (VObj r i (m1 ++ (k, VMerge [d3; d2; base]) :: m2)) [VObj r i (m1 ++ (k, VMerge [d3; d2; base]) :: m2)] ->
  exists me', Rn (S (S (S (S (S (S (S n))))))) (Context [] [] me) (VMerge [d3; d2; base]) s = Ok (Some v3, Context [] [] me') /\ memo_plain me'.
Proof.
  intros f r i m1 m2 d3 d2 base Fp [Nk Pm] D3 D2 Pb Fb w2 M2 v2 W2 F3 Dj w3 M3 v3 W3 n me Fm s Es.
  remember (S (S (S (S (S (S n)))))) as n6. cbn [resolve_n]. unfold resolve_step.
  assert (H : forall x, find_memo (memos (Context [] [] me)) (VMerge [d3; d2; base]) <> Some (Some x)). { intros x E. apply (fine_hit f _ _ _ Fm) in E. discriminate. }
  destruct (redefinition_unmergeable d3 D3) as [U1 [U2 _]]. destruct (redefinition_unmergeable d2 D2) as [V1 [V2 _]].
  assert (Pw2 := mean_plain f d2 w2 Fp D2 M2). assert (Pw3 := mean_plain f d3 w3 Fp D3 M3). destruct (plain_merge w2 base Pw2 Pb) as [v2' [Ev2 Pv2]]. rewrite W2 in Ev2. injection Ev2 as <-.
  destruct (plain_merge w3 v2 Pw3 Pv2) as [v3' [Ev3 Pv3]]. rewrite W3 in Ev3. injection Ev3 as <-. destruct (plain_merge w3 w2 Pw3 Pw2) as [w [Ew Pw]].
  assert (As : with_fallback w base = Ok v3) by (rewrite (fallback_assoc w3 w2 base w v2 Pw3 Pw2 Pb Ew W2); exact W3).
  assert (E : exists me1, resolve_stack (Rn n6) (VMerge [d3; d2; base]) [d3; d2; base] [d3; d2; base] 0 None (Context [] [] me) s = Ok (Some v3, Context [] [] me1) /\ memo_fine f me1).
  { cbn [resolve_stack]. rewrite U1, U2, V1, V2. unfold make_replacement. cbn [skipn merge_stack bind]. rewrite (redefinition_fallback d2 base D2 Pb). cbn [bind].
    rewrite Es, replace_source; [|exact Pm|intro X; inversion X|discriminate]. cbn [bind]. unfold reset_parents at 1. cbn [root].
    rewrite replace_source; [|exact Pm|intro X; inversion X|intro X; rewrite <- X in Pb; inversion Pb]. cbn [bind]. unfold reset_parents. cbn [root].
    destruct (redefinition_settles use env k f Fp (S (S (S n))) [] (fields_resolved (m1 ++ (k, VMerge [d2; base]) :: m2)) i (m1 ++ (k, VMerge [d2; base]) :: m2) (Source (put i m1 k m2 (VMerge [d2; base])) []) (VMerge [d2; base]) eq_refl (find_put _ _ _ _ Nk) d3 D3) with (w := w3) (me := me) as [me1 [E1 F1]]; [|exact M3|exact Fm|].
    { intros id o I0. split; [reflexivity|]. rewrite (F3 id o I0).
      destruct (two_settle f (fields_resolved (m1 ++ (k, VMerge [d2; base]) :: m2)) i m1 m2 d2 base Fp (conj Nk Pm) D2 Pb Fb w2 M2 v2 W2 n ([] ++ [id]) [] (fine_nil f)) with (s := Source (put i m1 k m2 (VMerge [d2; base])) [put i m1 k m2 (VMerge [d2; base])]) as [me0 [E0 _]]; [|reflexivity|exists me0; exact E0].
      intros id' o' I1. cbn [app existsb]. rewrite orb_false_r. apply Nat.eqb_neq. intros ->. exact (Dj _ _ _ I1 I0). }
    rewrite Heqn6, E1. cbn [bind markers].
    destruct (redefinition_settles use env k f Fp (S (S (S n))) [] (fields_resolved (m1 ++ (k, base) :: m2)) i (m1 ++ (k, base) :: m2) (Source (put i m1 k m2 base) []) base eq_refl (find_put _ _ _ _ Nk) d2 D2) with (w := w2) (me := me1) as [me2 [E2 F2]]; [|exact M2|exact F1|].
    { intros id o I0. split; [reflexivity|]. rewrite (Fb id o I0). destruct (plain_run (S (S (S n))) ([] ++ [id]) [] base (Source (VObj (fields_resolved (m1 ++ (k, base) :: m2)) i (m1 ++ (k, base) :: m2)) [VObj (fields_resolved (m1 ++ (k, base) :: m2)) i (m1 ++ (k, base) :: m2)]) Pb) as [me0 [E0 _]]; [intros ? ? []|]. eauto. }
    rewrite E2. cbn [bind markers]. rewrite Ew. cbn [bind]. rewrite (plain_not_delayed _ Pb), (plain_mergeable _ Pb). cbn [bind].
    match goal with |- context [Rn _ _ base ?s0] => destruct (plain_settles use env f (S (S (S (S (S n))))) [] me2 base s0 Pb F2) as [me3 [E3 F3']] end. rewrite E3. cbn [bind]. rewrite As. cbn [bind markers]. eauto. }
  destruct E as [me1 [E F1]]. cbn [resolve_substitutions]. rewrite E. cbn [bind]. rewrite (plain_resolved _ Pv3).
  destruct (memo_plain_memoize [] me1 (VMerge [d3; d2; base]) (Some v3) (fine_plain f _ F1)) as [me2 [E2 M2']]; [intro X; inversion X|]. exists me2. rewrite E2.
  split; [|exact M2']. destruct (find_memo (memos (Context [] [] me)) (VMerge [d3; d2; base])) as [[x|]|] eqn:Fd; [exfalso; exact (H x eq_refl)|reflexivity|reflexivity].
Qed.

(** ** The whole document *)
Lemma fields_run : forall n m me s, Forall (fun kv => plain (snd kv)) m -> memo_plain me ->
  exists me', resolve_fields (Rn (S n)) m (Context [] [] me) s = Ok (map (fun kv => (fst kv, Some (snd kv))) m, Context [] [] me') /\ memo_plain me'.
Proof.
  intros n m me s F. revert me. induction F as [|[k' w] m P F IH]; intros me M; [exists me; auto|]. cbn [resolve_fields]. unfold resolve_field. cbn [restriction].
  destruct (plain_run n [] me w s P M) as [me1 [E1 M1]]. cbn [snd]. rewrite E1. cbn [bind]. rewrite restrict_old. destruct (IH me1 M1) as [me2 [E2 M2]]. rewrite E2. exists me2. auto.
Qed.
Lemma fields_fine : forall f n m me s, (forall id, plain (f id)) -> Forall (fun kv => plain (snd kv)) m -> memo_fine f me ->
  exists me', resolve_fields (Rn (S n)) m (Context [] [] me) s = Ok (map (fun kv => (fst kv, Some (snd kv))) m, Context [] [] me') /\ memo_fine f me'.
Proof.
  intros f n m me s Fp F. revert me. induction F as [|[k' w] m P F IH]; intros me M; [exists me; auto|]. cbn [resolve_fields]. unfold resolve_field. cbn [restriction].
  destruct (plain_settles use env f n [] me w s P M) as [me1 [E1 M1]]. cbn [snd]. rewrite E1. cbn [bind markers]. rewrite restrict_old. destruct (IH me1 M1) as [me2 [E2 M2]]. rewrite E2. exists me2. auto.
Qed.
Lemma fields_app : forall n m1 m2 c s rs c1, resolve_fields (Rn n) m1 c s = Ok (rs, c1) ->
  resolve_fields (Rn n) (m1 ++ m2) c s = ('(rs2, c2) <- resolve_fields (Rn n) m2 c1 s ;; Ok (rs ++ rs2, c2)).
Proof.
  intros n m1. induction m1 as [|[k' w] m1 IH]; intros m2 c s rs c1 E; cbn [resolve_fields app] in *.
  - injection E as <- <-. destruct (resolve_fields (Rn n) m2 c s) as [[a b]| |]; reflexivity.
  - destruct (resolve_field (Rn n) k' w c s) as [[a b]| |]; cbn [bind] in *; try discriminate. destruct (resolve_fields (Rn n) m1 b s) as [[a2 b2]| |] eqn:E2; cbn [bind] in E; try discriminate. injection E as <- <-.
    rewrite (IH m2 b s a2 b2 E2). destruct (resolve_fields (Rn n) m2 b2 s) as [[a3 b3]| |]; reflexivity.
Qed.
Lemma kept_all : forall m, kept_fields (map (fun kv => (fst kv, Some (snd kv))) m) = m.
Proof. intro m. induction m as [|[k' w] m IH]; [reflexivity|]. cbn [map]. unfold kept_fields in *. cbn [flat_map fst snd app]. rewrite IH. reflexivity. Qed.
Lemma kept_app : forall a b, kept_fields (a ++ b) = kept_fields a ++ kept_fields b.
Proof. intros. unfold kept_fields. apply flat_map_app. Qed.
Lemma changed_middle : forall m1 m2 x v rs2, x <> v -> all_unchanged (m1 ++ (k, x) :: m2) (map (fun kv => (fst kv, Some (snd kv))) m1 ++ (k, Some v) :: rs2) = false.
Proof.
  intros m1 m2 x v rs2 N. induction m1 as [|[k' w] m1 IH]; cbn [app map all_unchanged fst snd unchanged].
  - rewrite same_false by congruence. reflexivity.
  - rewrite IH. apply andb_false_r.
Qed.
Lemma document_run : forall f n i m1 m2 x v, (forall id, plain (f id)) -> others k m1 -> Forall (fun kv => plain (snd kv)) m2 -> ~ plain x -> plain v ->
  (forall me, memo_fine f me -> forall s, s = Source (VObj false i (m1 ++ (k, x) :: m2)) [VObj false i (m1 ++ (k, x) :: m2)] -> exists me', Rn (S n) (Context [] [] me) x s = Ok (Some v, Context [] [] me') /\ memo_plain me') ->
  resolve_config false use env (S (S n)) (VObj false i (m1 ++ (k, x) :: m2)) = Ok (Some (VObj true i (m1 ++ (k, v) :: m2))).
Proof.
  intros f n i m1 m2 x v Fp [Nk P1] P2 Nx Pv Hx. unfold resolve_config, resolve_with. remember (S n) as n1. cbn [resolve_n]. unfold resolve_step, moved_from. cbn [memos find_memo resolve_substitutions].
  unfold resolve_object, push_parent. cbn [parents root is_object andb]. rewrite same_refl. cbn [andb]. subst n1.
  set (s := Source (VObj false i (m1 ++ (k, x) :: m2)) [VObj false i (m1 ++ (k, x) :: m2)]).
  destruct (fields_fine f n m1 [] s Fp P1 (fine_nil f)) as [me1 [E1 F1]]. rewrite (fields_app _ _ _ _ _ _ _ E1). cbn [resolve_fields]. unfold resolve_field at 1. cbn [restriction].
  destruct (Hx me1 F1 s eq_refl) as [me2 [E2 M2]]. rewrite E2. cbn [bind]. rewrite restrict_old. destruct (fields_run n m2 me2 s P2 M2) as [me3 [E3 M3]]. rewrite E3. cbn [bind].
  rewrite changed_middle by (intros ->; contradiction). rewrite kept_app, kept_all. unfold kept_fields at 1 2. cbn [flat_map snd fst app]. fold (kept_fields (map (fun kv : str * value => (fst kv, Some (snd kv))) m2)). rewrite kept_all.
  assert (R : fields_resolved (m1 ++ (k, v) :: m2) = true). { apply plain_fields_resolved. apply Forall_app. split; [exact P1|]. constructor; assumption. }
  rewrite R. cbn [bind is_resolved]. reflexivity.
Qed.

(** ** Against the specification *)
Definition ids (d : value) : list nat := match d with VRef id _ _ _ => [id] | VConcat ps => flat_map (fun p => match p with VRef id _ _ _ => [id] | _ => [] end) ps | _ => [] end.
Lemma inside_ids : forall d id o, redefinition k d -> inside (VRef id [k] o 0) d -> In id (ids d).
Proof.
  intros d id o D I0. inversion D as [id' o'|ps F X]; subst; cbn [ids].
  - inversion I0; subst. left. reflexivity.
  - inversion I0 as [|? ? ? ?|? ? ? ? ? ? ?|p ? Hp Ip| |]; subst. apply in_flat_map. exists p. split; [exact Hp|]. rewrite Forall_forall in F. destruct (F _ Hp) as [P|[id' [o' ->]]].
    + exfalso. assert (Q := plain_inside _ _ P Ip). inversion Q.
    + inversion Ip; subst. left. reflexivity.
Qed.
Lemma ids_inside : forall d id, redefinition k d -> In id (ids d) -> exists o, inside (VRef id [k] o 0) d.
Proof.
  intros d id D I0. inversion D as [id' o'|ps F X]; subst; cbn [ids] in I0.
  - destruct I0 as [->|[]]. exists o'. constructor.
  - apply in_flat_map in I0. destruct I0 as [p [Hp Ip]]. rewrite Forall_forall in F. destruct (F _ Hp) as [P|[id' [o' ->]]]; [inversion P; subst; destruct Ip|]. destruct Ip as [->|[]]. exists o'. exact (inside_concat _ _ _ Hp (inside_self _)).
Qed.
Lemma mean_spec : forall f d e, redefinition k d -> (forall id o, inside (VRef id [k] o 0) d -> f id = e) -> mean f d = looking_back k e d.
Proof.
  intros f d e D Fe. inversion D as [id o|ps F X]; subst; cbn [mean looking_back self].
  - rewrite (proj2 (path_eq_spec [k] [k]) eq_refl). rewrite (Fe id o (inside_self _)). reflexivity.
  - f_equal. apply map_ext_in. intros p Hp. rewrite Forall_forall in F. destruct (F _ Hp) as [P|[id [o ->]]]; [inversion P; reflexivity|]. cbn [piece self]. rewrite (proj2 (path_eq_spec [k] [k]) eq_refl). exact (Fe id o (inside_concat _ _ _ Hp (inside_self _))).
Qed.
Lemma looking_back_some : forall d e, redefinition k d -> plain e -> looking_back k e d <> Ok None.
Proof.
  intros d e D Pe E. rewrite <- (mean_spec (fun _ => e) d e D (fun _ _ _ => eq_refl)) in E. inversion D as [id o|ps F [id [o I0]]]; subst; cbn [mean] in E; [discriminate|].
  assert (Pp := piece_plain k (fun _ => e) (fun _ => Pe) ps F). unfold concatenate in E. destruct (consolidate (map (piece (fun _ => e)) ps)) as [cs| |] eqn:C; cbn [bind] in E; try discriminate.
  destruct (consolidate_plain _ _ Pp C) as [[Q _]|[c [-> _]]]; [|discriminate]. destruct ps; [destruct I0|discriminate].
Qed.

Lemma look_back_two : forall i m1 m2 d base v, others k m1 -> Forall (fun kv => plain (snd kv)) m2 -> redefinition k d -> plain base ->
  evolve k [d; base] = Ok (Some v) ->
  exists n, forall m, (n <= m)%nat -> resolve_config false use env m (VObj false i (m1 ++ (k, VMerge [d; base]) :: m2)) = Ok (Some (VObj true i (m1 ++ (k, v) :: m2))).
Proof.
  intros i m1 m2 d base v O1 P2 D Pb E. cbn [evolve bind] in E. destruct (looking_back k base d) as [[w|]| |] eqn:L; cbn [bind] in E; try discriminate; [|exfalso; exact (looking_back_some _ _ D Pb L)].
  destruct (with_fallback w base) as [v'| |] eqn:W; cbn [bind] in E; try discriminate. injection E as ->.
  set (f := fun _ : nat => base). assert (Fp : forall id, plain (f id)) by (intro; exact Pb). assert (M : mean f d = Ok (Some w)) by (rewrite (mean_spec f d base D); [exact L|reflexivity]).
  assert (Pw := mean_plain f d w Fp D M). destruct (plain_merge w base Pw Pb) as [v' [E' Pv]]. rewrite W in E'. injection E' as <-.
  exists 5%nat. intros m Hm. do 5 (destruct m as [|m]; [lia|]). apply document_run with (f := f); try assumption; [intro X; inversion X|].
  intros me Fm s Es. eapply two_settle; try eassumption; reflexivity.
Qed.
Lemma look_back_three : forall i m1 m2 d3 d2 base v, others k m1 -> Forall (fun kv => plain (snd kv)) m2 -> redefinition k d3 -> redefinition k d2 -> plain base ->
  (forall id, mentions d3 id -> mentions d2 id -> False) -> evolve k [d3; d2; base] = Ok (Some v) ->
  exists n, forall m, (n <= m)%nat -> resolve_config false use env m (VObj false i (m1 ++ (k, VMerge [d3; d2; base]) :: m2)) = Ok (Some (VObj true i (m1 ++ (k, v) :: m2))).
Proof.
  intros i m1 m2 d3 d2 base v O1 P2 D3 D2 Pb Dj E. cbn [evolve bind] in E. destruct (looking_back k base d2) as [[w2|]| |] eqn:L2; cbn [bind] in E; try discriminate; [|exfalso; exact (looking_back_some _ _ D2 Pb L2)].
  destruct (with_fallback w2 base) as [v2| |] eqn:W2; cbn [bind] in E; try discriminate.
  assert (M0 : mean (fun _ => base) d2 = Ok (Some w2)) by (rewrite (mean_spec (fun _ => base) d2 base D2); [exact L2|reflexivity]).
  assert (Pw2 := mean_plain (fun _ => base) d2 w2 (fun _ => Pb) D2 M0). destruct (plain_merge w2 base Pw2 Pb) as [v2' [E2 Pv2]]. rewrite W2 in E2. injection E2 as <-.
  destruct (looking_back k v2 d3) as [[w3|]| |] eqn:L3; cbn [bind] in E; try discriminate; [|exfalso; exact (looking_back_some _ _ D3 Pv2 L3)].
  destruct (with_fallback w3 v2) as [v3| |] eqn:W3; cbn [bind] in E; try discriminate. injection E as ->.
  set (f := fun id : nat => if existsb (Nat.eqb id) (ids d3) then v2 else base). assert (Fp : forall id, plain (f id)) by (intro id; unfold f; destruct (existsb (Nat.eqb id) (ids d3)); assumption).
  assert (F3 : forall id o, inside (VRef id [k] o 0) d3 -> f id = v2). { intros id o I0. unfold f. rewrite (proj2 (existsb_exists (Nat.eqb id) (ids d3))); [reflexivity|]. exists id. split; [exact (inside_ids d3 id o D3 I0)|apply Nat.eqb_refl]. }
  assert (F2 : forall id o, inside (VRef id [k] o 0) d2 -> f id = base). { intros id o I0. unfold f. destruct (existsb (Nat.eqb id) (ids d3)) eqn:X; [|reflexivity]. exfalso. apply existsb_exists in X. destruct X as [id' [I1 X]]. apply Nat.eqb_eq in X. subst id'.
    destruct (ids_inside d3 id D3 I1) as [o' I2]. apply (Dj id); [exists [k], o', 0|exists [k], o, 0]; assumption. }
  assert (M2 : mean f d2 = Ok (Some w2)) by (rewrite (mean_spec f d2 base D2 F2); exact L2). assert (M3 : mean f d3 = Ok (Some w3)) by (rewrite (mean_spec f d3 v2 D3 F3); exact L3).
  destruct (plain_merge w3 v2 (mean_plain f d3 w3 Fp D3 M3) Pv2) as [v' [E' Pv]]. rewrite W3 in E'. injection E' as <-.
  exists 8%nat. intros m Hm. do 8 (destruct m as [|m]; [lia|]). apply document_run with (f := f); try assumption; [intro X; inversion X|].
  intros me Fm s Es. eapply (three_settle f false i m1 m2 d3 d2 base); try eassumption.
  intros id o o' I2 I3. apply (Dj id); [exists [k], o', 0|exists [k], o, 0]; assumption.
Qed.

(** ** Beyond *)
Definition memo_tidy (me : list (value * option value)) : Prop := forall v r, In (v, r) me -> plain v /\ r = Some v.
Lemma tidy_find : forall me v, memo_tidy me -> ~ plain v -> find_memo me v = None.
Proof.
  intro me. induction me as [|[w x] me IH]; intros v M N; [reflexivity|]. cbn [find_memo]. rewrite same_false; [|intros ->; apply N; exact (proj1 (M _ _ (or_introl eq_refl)))]. apply IH; [|exact N]. intros a b I0. exact (M a b (or_intror I0)).
Qed.
Lemma tidy_run : forall n ms me v s, plain v -> memo_tidy me -> exists me', Rn (S n) (Context [] ms me) v s = Ok (Some v, Context [] ms me') /\ memo_tidy me'.
Proof.
  intros n ms me v s P M. destruct (resolved_run false use env n (Context [] ms me) v s (plain_resolved _ P)) as [E|E].
  - intros r H. apply (memo_plain_hit me v r); [|exact P|exact H]. intros a b I0 _. destruct (M a _ I0). congruence.
  - rewrite E. unfold memoize. cbn [memos]. destruct (find_memo me v); [eauto|]. exists (me ++ [(v, Some v)]). split; [reflexivity|]. intros a b I0. apply in_app_or in I0. destruct I0 as [I0|[X|[]]]; [exact (M _ _ I0)|]. injection X as <- <-. auto.
  - exists me. auto.
Qed.
Lemma fields_tidy : forall n m me s, Forall (fun kv => plain (snd kv)) m -> memo_tidy me ->
  exists me', resolve_fields (Rn (S n)) m (Context [] [] me) s = Ok (map (fun kv => (fst kv, Some (snd kv))) m, Context [] [] me') /\ memo_tidy me'.
Proof.
  intros n m me s F. revert me. induction F as [|[k' w] m P F IH]; intros me M; [exists me; auto|]. cbn [resolve_fields]. unfold resolve_field. cbn [restriction].
  destruct (tidy_run n [] me w s P M) as [me1 [E1 M1]]. cbn [snd]. rewrite E1. cbn [bind]. rewrite restrict_old. destruct (IH me1 M1) as [me2 [E2 M2]]. rewrite E2. exists me2. auto.
Qed.
(** a stack whose front is a stack *)
Definition nested (v : value) : Prop := exists inner l, v = VMerge (VMerge inner :: l).
Lemma nested_throws : forall n ms v s, nested v -> Rn (S n) (Context [] ms []) v s = Throw EBug.
Proof. intros n ms v s [inner [l ->]]. reflexivity. Qed.
Definition definition (d : value) : Prop := plain d \/ redefinition k d.
Lemma stacked_fallback : forall st d, definition d -> ignores_fallbacks (VMerge st) = true /\ with_fallback (VMerge st) d = Ok (VMerge st) \/ with_fallback (VMerge st) d = Ok (VMerge [VMerge st; d]).
Proof.
  intros st d D. destruct (ignores_fallbacks (VMerge st)) eqn:I0; [left; split; [reflexivity|]|right].
  - rewrite with_fallback_eq, I0. reflexivity.
  - rewrite with_fallback_eq, I0. destruct D as [P|D].
    + rewrite (plain_mergeable _ P). inversion P; unfold merged_with_non_object; rewrite I0; reflexivity.
    + destruct (redefinition_unmergeable d D) as [_ [U [_ [_ [V _]]]]]. rewrite U. unfold merged_with_the_unmergeable. rewrite I0, V. reflexivity.
Qed.
Lemma nested_stack : forall rest v, nested v -> Forall definition rest -> exists w, merge_stack v rest = Ok w /\ nested w.
Proof.
  intro rest. induction rest as [|d rest IH]; intros v N F; [exists v; auto|]. inversion F as [|? ? Fd Fr]; subst. cbn [merge_stack]. destruct N as [inner [l ->]].
  destruct (stacked_fallback (VMerge inner :: l) d Fd) as [[_ ->]| ->]; cbn [bind]; apply IH; try assumption; [exists inner, l|exists (VMerge inner :: l), [d]]; reflexivity.
Qed.
Lemma remainder_nested : forall d2 d3 x rest, redefinition k d2 -> redefinition k d3 -> definition x -> Forall definition rest ->
  exists w, merge_stack d2 (d3 :: x :: rest) = Ok w /\ nested w.
Proof.
  intros d2 d3 x rest D2 D3 Dx Dr. destruct (redefinition_unmergeable d2 D2) as [_ [_ [I2 [O2 [_ _]]]]]. destruct (redefinition_unmergeable d3 D3) as [_ [U3 [I3 [_ [V3 _]]]]].
  cbn [merge_stack]. rewrite with_fallback_eq, I2, U3. unfold merged_with_the_unmergeable, construct_delayed_merge. rewrite I2, O2, V3. cbn [new_delayed_merge bind].
  destruct (stacked_fallback [d2; d3] x Dx) as [[X _]| ->]; [exfalso; cbn in X; rewrite I3 in X; rewrite ?I2 in X; discriminate|]. cbn [bind].
  apply nested_stack; [exists [d2; d3], [x]; reflexivity|exact Dr].
Qed.
Lemma reference_throws : forall n ms me r i m ps v id o, find_key k m = Some v -> nested v -> existsb (Nat.eqb id) ms = false -> memo_tidy me ->
  Rn (S (S n)) (Context [] ms me) (VRef id [k] o 0) (Source (VObj r i m) ps) = Throw EBug.
Proof.
  intros n ms me r i m ps v id o F N Mk M. remember (S n) as n1. cbn [resolve_n]. unfold resolve_step. cbn [memos markers]. rewrite (tidy_find me _ M) by (intro X; inversion X).
  unfold is_marked. cbn [markers]. rewrite Mk. cbn [resolve_substitutions]. unfold resolve_reference. unfold is_marked. cbn [markers]. rewrite Mk. cbn zeta. unfold add_marker. cbn [restriction markers].
  subst n1. rewrite (look_one use env k n r i m (ms ++ [id]) ps v F). cbn [attempt bind List.last]. rewrite (nested_throws n (ms ++ [id]) v _ N). reflexivity.
Qed.
Lemma redefinition_throws : forall n me r i m ps v d, find_key k m = Some v -> nested v -> redefinition k d -> memo_tidy me ->
  Rn (S (S (S n))) (Context [] [] me) d (Source (VObj r i m) ps) = Throw EBug.
Proof.
  intros n me r i m ps v d F N D M. inversion D as [id o|qs Fq [id [o I0]]]; subst; [apply (reference_throws (S n) [] me r i m ps v id o F N eq_refl M)|].
  remember (S (S n)) as n2. cbn [resolve_n]. unfold resolve_step. cbn [memos markers]. rewrite (tidy_find me _ M) by (intro X; inversion X). cbn [resolve_substitutions]. unfold resolve_concatenation.
  assert (E : forall me0, memo_tidy me0 -> resolve_pieces (Rn n2) qs (Context [] [] me0) (Source (VObj r i m) ps) = Throw EBug).
  { clear D me M. induction Fq as [|q qs Hq Fq IH]; intros me M; [destruct I0|]. cbn [resolve_pieces]. rewrite restrict_old. destruct Hq as [P|[id' [o' ->]]].
    - subst n2. destruct (tidy_run (S n) [] me q (Source (VObj r i m) ps) P M) as [me1 [E1 M1]]. rewrite E1. cbn [bind restriction]. rewrite restrict_old. destruct I0 as [->|I0]; [inversion P|]. rewrite (IH I0 me1 M1). reflexivity.
    - subst n2. rewrite (reference_throws n [] me r i m ps v id' o' F N eq_refl M). reflexivity. }
  rewrite (E me M). reflexivity.
Qed.
Lemma look_back_fails : forall i m1 m2 d1 d2 d3 x rest, others k m1 -> redefinition k d1 -> redefinition k d2 -> redefinition k d3 -> definition x -> Forall definition rest ->
  exists n, forall m, (n <= m)%nat -> resolve_config false use env m (VObj false i (m1 ++ (k, VMerge (d1 :: d2 :: d3 :: x :: rest)) :: m2)) = Throw EBug.
Proof.
  intros i m1 m2 d1 d2 d3 x rest [Nk P1] D1 D2 D3 Dx Dr. exists 5%nat. intros m Hm. do 5 (destruct m as [|m]; [lia|]).
  set (X := VMerge (d1 :: d2 :: d3 :: x :: rest)). unfold resolve_config, resolve_with. remember (S (S (S (S m)))) as n4. cbn [resolve_n]. unfold resolve_step at 1, moved_from. cbn [memos find_memo resolve_substitutions].
  unfold resolve_object, push_parent. cbn [parents root is_object andb]. rewrite same_refl. cbn [andb]. subst n4. remember (S (S (S m))) as n3.
  set (s := Source (VObj false i (m1 ++ (k, X) :: m2)) [VObj false i (m1 ++ (k, X) :: m2)]).
  destruct (fields_tidy n3 m1 [] s P1) as [me1 [E1 M1]]; [intros ? ? []|]. rewrite (fields_app _ _ _ _ _ _ _ E1). cbn [resolve_fields]. unfold resolve_field at 1. cbn [restriction].
  assert (E : Rn (S n3) (Context [] [] me1) X s = Throw EBug); [|rewrite E; reflexivity].
  cbn [resolve_n]. unfold resolve_step. cbn [memos]. rewrite (tidy_find me1 X M1) by (intro Y; inversion Y). unfold X. cbn [resolve_substitutions resolve_stack].
  destruct (redefinition_unmergeable d1 D1) as [U1 [U2 _]]. rewrite U1, U2. unfold make_replacement. cbn [skipn]. destruct (remainder_nested d2 d3 x rest D2 D3 Dx Dr) as [w [Ew Nw]]. rewrite Ew. cbn [bind]. fold X. unfold s.
  rewrite replace_source; [|exact P1|intro Y; inversion Y|].
  - cbn [bind]. unfold reset_parents. cbn [root]. subst n3. unfold put. rewrite (redefinition_throws m me1 _ _ _ [] w d1 (find_put _ _ _ _ Nk) Nw D1 M1). reflexivity.
  - destruct Nw as [inner [l ->]]. unfold X. intros [= -> _]. discriminate.
Qed.

Lemma pile_up : forall ds base, ds <> [] -> Forall (redefinition k) ds -> plain base ->
  fold_right (fun d r => e <- r ;; with_fallback d e) (Ok base) ds = Ok (VMerge (ds ++ [base])).
Proof.
  intros ds base N F Pb. destruct F as [|d ds D F]; [congruence|]. clear N. revert d D. induction F as [|d' ds D' F IH]; intros d D.
  - cbn [fold_right bind app]. exact (redefinition_fallback d base D Pb).
  - change (fold_right (fun d r => e <- r ;; with_fallback d e) (Ok base) (d :: d' :: ds)) with (e <- fold_right (fun d r => e <- r ;; with_fallback d e) (Ok base) (d' :: ds) ;; with_fallback d e).
    rewrite (IH d' D'). cbn [bind]. destruct (redefinition_unmergeable d D) as [_ [_ [I0 [O0 _]]]]. rewrite with_fallback_eq, I0. cbn [is_unmergeable]. unfold merged_with_the_unmergeable, construct_delayed_merge. rewrite I0, O0. reflexivity.
Qed.
Lemma look_back : forall i m1 m2 ds base v, ~ In k (map fst m1) -> Forall (fun kv => plain (snd kv)) (m1 ++ m2) -> ds <> [] -> (List.length ds <= 2)%nat -> Forall (redefinition k) ds -> plain base ->
  ForallOrdPairs (fun d d' => forall id, mentions d id -> mentions d' id -> False) ds -> evolve k (ds ++ [base]) = Ok (Some v) ->
  exists n, forall m, (n <= m)%nat -> resolve_config false use env m (VObj false i (m1 ++ (k, VMerge (ds ++ [base])) :: m2)) = Ok (Some (VObj true i (m1 ++ (k, v) :: m2))).
Proof.
  intros i m1 m2 ds base v Nk P N L F Pb Dj E. apply Forall_app in P. destruct P as [P1 P2]. destruct ds as [|d [|d2 [|d3 ds]]]; cbn [List.length] in L; [congruence| | |lia].
  - inversion F; subst. apply look_back_two; try assumption. split; assumption.
  - inversion F as [|? ? D F']; subst. inversion F' as [|? ? D2 _]; subst. inversion Dj as [|? ? Q _]; subst. apply look_back_three; try assumption; [split; assumption|]. inversion Q; assumption.
Qed.
Lemma look_back_beyond : forall i m1 m2 ds base, ~ In k (map fst m1) -> Forall (fun kv => plain (snd kv)) m1 -> (2 < List.length ds)%nat -> Forall (redefinition k) ds -> plain base ->
  exists n, forall m, (n <= m)%nat -> resolve_config false use env m (VObj false i (m1 ++ (k, VMerge (ds ++ [base])) :: m2)) = Throw EBug.
Proof.
  intros i m1 m2 ds base Nk P1 L F Pb. destruct ds as [|d1 [|d2 [|d3 ds]]]; cbn [List.length] in L; try lia. inversion F as [|? ? D1 F1]; subst. inversion F1 as [|? ? D2 F2]; subst. inversion F2 as [|? ? D3 F3]; subst.
  assert (A : Forall definition (ds ++ [base])). { apply Forall_app. split; [|constructor; [left; exact Pb|constructor]]. rewrite Forall_forall in *. intros d Hd. right. exact (F3 _ Hd). }
  cbn [app]. destruct (ds ++ [base]) as [|x rest] eqn:X; [destruct ds; discriminate|]. inversion A; subst. apply look_back_fails; try assumption. split; assumption.
Qed.
End Stack.
