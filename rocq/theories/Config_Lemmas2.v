(** The entries of an object. *)
From Coq Require FinFun.
From Verif Require Import Base BaseLemmas Util_Model Num_Model Path_Model Path_Spec Path_Lemmas Token_Model Token_Spec PathParser_Model PathParser_Spec PathParser_Lemmas PathParser_Lemmas2 PathParser_Lemmas3
  Value_Model Value_Spec Value_Lemmas Value_Lemmas2 Duration_Model Duration_Spec Duration_Lemmas Config_Model Config_Spec Config_Lemmas.

Definition listed (parent : path) (ps : list (path * value)) : list (str * value) :=
  map (fun pv => (render_path (parent ++ fst pv), snd pv)) ps.

Lemma listed_app : forall parent a b, listed parent (a ++ b) = listed parent a ++ listed parent b.
Proof. intros. apply map_app. Qed.

Lemma leaf_get : forall p v w, p <> [] -> is_object v = false -> get p v = Some w -> False.
Proof. intros [|k p] v w Hp Ho H; [congruence|]. destruct v; discriminate. Qed.

Lemma find_paths_spec : forall v parent, plain v -> exists ps,
  find_paths parent v = Ok (listed parent ps) /\ NoDup (map fst ps) /\
  (forall p w, In (p, w) ps <-> p <> [] /\ get p v = Some w /\ leaf w).
Proof.
  intro v. induction v as [s|vs IH|r i m IH|n p o l|vs IH|vs IH|vs IH] using value_induction; intros parent H; try (inversion H; fail).
  - exists []. split; [reflexivity|]. split; [constructor|]. intros p w. split; [intros []|]. intros [Hp [G _]]. exfalso. exact (leaf_get p (VScalar s) w Hp eq_refl G).
  - exists []. split; [reflexivity|]. split; [constructor|]. intros p w. split; [intros []|]. intros [Hp [G _]]. exfalso. exact (leaf_get p (VList vs) w Hp eq_refl G).
  - inversion H as [| |? ? N F]; subst. clear H.
    assert (E : exists ps, find_paths parent (VObj true false m) = Ok (listed parent ps) /\ NoDup (map fst ps) /\
                (forall p w, In (p, w) ps <-> exists k q u, p = k :: q /\ In (k, u) m /\ get q u = Some w /\ leaf w)).
    { cbn [find_paths]. induction m as [|[k u] m IHm].
      - exists []. split; [reflexivity|]. split; [constructor|]. intros p w. split; [intros []|intros [k [q [u [_ [[] _]]]]]].
      - inversion IH as [|? ? IHu IHr]; inversion F as [|? ? Pu Fr]; inversion N as [|? ? Nk Nr]; subst. cbn [snd fst map] in *.
        destruct (IHm IHr Nr Fr) as [ps [E [D S]]]. clear IHm.
        assert (X : (match parent with [] => [k] | _ :: _ => prepend [k] parent end) = parent ++ [k]) by (destruct parent; [reflexivity|apply prepend_spec]).
        rewrite X. clear X.
        assert (Y : exists here, (if is_object u then find_paths (parent ++ [k]) u
                      else match u with VScalar SNull => Ok [] | _ => Ok [(render_path (parent ++ [k]), u)] end) = Ok (listed parent here) /\ NoDup (map fst here) /\
                    (forall p w, In (p, w) here <-> exists q, p = k :: q /\ get q u = Some w /\ leaf w)).
        { destruct (is_object u) eqn:O.
          - destruct (IHu (parent ++ [k]) Pu) as [pu [E2 [D2 S2]]]. exists (map (fun pv => (k :: fst pv, snd pv)) pu). split; [|split].
            + rewrite E2. f_equal. unfold listed. rewrite map_map. apply map_ext. intros [q w]. cbn [fst snd]. rewrite <- app_assoc. reflexivity.
            + rewrite map_map. cbn [fst]. rewrite <- (map_map fst (cons k)). apply FinFun.Injective_map_NoDup; [|exact D2]. intros x y Q. injection Q as ->. reflexivity.
            + intros p w. rewrite in_map_iff. split.
              * intros [[q w'] [Q I]]. cbn [fst snd] in Q. injection Q as <- <-. apply S2 in I. destruct I as [_ [I1 I2]]. exists q. auto.
              * intros [q [-> [G L]]]. exists (q, w). split; [reflexivity|]. apply S2. split; [|auto]. intros ->. injection G as ->. destruct L as [L _]. congruence.
          - destruct (is_null u) eqn:Nu.
            + exists []. destruct u as [[]| | | | | |]; try discriminate. split; [reflexivity|]. split; [constructor|]. intros p w. split; [intros []|].
              intros [q [-> [G [L1 L2]]]]. destruct q; [injection G as <-; discriminate|discriminate].
            + exists [([k], u)]. split; [destruct u as [[]| | | | | |]; try discriminate; reflexivity|]. split; [constructor; [intros []|constructor]|].
              intros p w. split.
              * intros [Q|[]]. injection Q as <- <-. exists []. repeat split; assumption.
              * intros [q [-> [G L]]]. destruct q as [|k2 q]; [injection G as ->; left; reflexivity|]. exfalso. apply (leaf_get (k2 :: q) u w); [discriminate|exact O|exact G]. }
        destruct Y as [here [-> [D2 S2]]]. cbn [bind]. rewrite E. cbn [bind]. exists (here ++ ps). split; [rewrite listed_app; reflexivity|]. split.
        + rewrite map_app. apply NoDup_app_intro; [exact D2|exact D|]. intros p I1 I2. apply in_map_iff in I1, I2. destruct I1 as [[p1 w1] [<- I1]], I2 as [[p2 w2] [Q I2]].
          cbn [fst] in *. subst p2. apply S2 in I1. apply S in I2. destruct I1 as [q [-> _]], I2 as [k2 [q2 [u2 [Q [I _]]]]]. injection Q as <- <-. apply Nk. apply (in_map fst) in I. exact I.
        + intros p w. rewrite in_app_iff, S2, S. split.
          * intros [[q [-> [G L]]]|[k2 [q [u2 [-> [I [G L]]]]]]].
            -- exists k, q, u. repeat split; try assumption; try apply L. left. reflexivity.
            -- exists k2, q, u2. repeat split; try assumption; try apply L. right. exact I.
          * intros [k2 [q [u2 [-> [[I|I] [G L]]]]]].
            -- injection I as <- <-. left. exists q. auto.
            -- right. exists k2, q, u2. auto. }
    destruct E as [ps [E [D S]]]. exists ps. split; [exact E|]. split; [exact D|]. intros p w. rewrite S. split.
    + intros [k [q [u [-> [I [G L]]]]]]. split; [discriminate|]. split; [|exact L]. cbn [get]. rewrite (find_key_unique _ k m u N I). exact G.
    + intros [Hp [G L]]. destruct p as [|k q]; [congruence|]. cbn [get] in G. destruct (find_key k m) as [u|] eqn:K; [|discriminate].
      exists k, q, u. split; [reflexivity|]. split; [apply find_key_in, K|]. auto.
Qed.

Lemma entry_set_spec : forall self, plain self -> exists ps,
  entry_set self = Ok (map (fun pv => (render_path (fst pv), snd pv)) ps) /\ NoDup (map fst ps) /\
  (forall p w, In (p, w) ps <-> p <> [] /\ get p self = Some w /\ leaf w).
Proof. intros self H. exact (find_paths_spec self [] H). Qed.

Lemma entry_readable : forall self l s v, plain self -> simple_object self -> entry_set self = Ok l -> In (s, v) l ->
  exists p, s = render_path p /\ get p self = Some v /\
    (Forall (Forall quotable) p -> no_plain_digit p -> get_value self s = Ok v).
Proof.
  intros self l s v H1 H2 E I. destruct (entry_set_spec self H1) as [ps [E2 [_ S]]]. rewrite E2 in E. injection E as <-.
  apply in_map_iff in I. destruct I as [[p w] [Q I]]. cbn [fst snd] in Q. injection Q as <- <-. apply S in I. destruct I as [Hp [G L]].
  exists p. split; [reflexivity|]. split; [exact G|]. intros Q1 Q2. destruct (round_trip p Hp Q1) as [_ R].
  rewrite (find_value self _ p H1 H2 (R (or_introl Q2))), G. cbn [outcome]. destruct L as [_ L]. rewrite L. reflexivity.
Qed.

(** ** Lists *)

Section ListGetter.
Context {A : Type}.
Variable pick : unwrapped_value -> option A.
Variable element : value -> A -> Prop.
Hypothesis pick_element : forall v u a, plain v -> unwrapped v = Ok u -> (pick u = Some a <-> element v a).

Lemma unwrapped_forall : forall vs l, unwrapped (VList vs) = Ok (UList l) -> Forall2 (fun v u => unwrapped v = Ok u) vs l.
Proof.
  intros vs l H. cbn [unwrapped] in H. inv_bind H. injection Hk as ->. revert l Hb. induction vs as [|v vs IH]; intros l Hb.
  - injection Hb as <-. constructor.
  - inv_bind Hb. inv_bind Hk. injection Hk0 as <-. constructor; [exact Hb0|apply IH; assumption].
Qed.

Lemma list_getter : forall self ps p, plain self -> simple_object self -> new_path ps = Ok p ->
  lists_elements element (get p self) (get_homogeneous pick self ps).
Proof.
  intros self ps p H1 H2 Hp. unfold get_homogeneous, the_list. rewrite (get_list_spec self ps p H1 H2 Hp). destruct (get p self) as [v|] eqn:G; [|reflexivity].
  pose proof (plain_get _ _ _ H1 G) as Pv. destruct v as [[]|vs| | | | |]; try reflexivity. cbn [lists_elements outcome is_null as_list bind].
  destruct (unwrapped_ok _ Pv) as [u Hu]. destruct (unwrapped_list _ _ Hu) as [l ->]. rewrite Hu. cbn [bind]. apply unwrapped_forall in Hu.
  inversion Pv as [|? F|]; subst. clear G Pv. induction Hu as [|v u vs l Hv Hl IH].
  - left. exists []. split; [reflexivity|constructor].
  - inversion F; subst. cbn [pick_all]. destruct (pick u) as [a|] eqn:P.
    + apply (pick_element v u a) in P; [|assumption|assumption]. destruct (IH H4) as [[r [-> E]]|[-> [w [I N]]]]; cbn [bind].
      * left. exists (a :: r). split; [reflexivity|constructor; assumption].
      * right. split; [reflexivity|]. exists w. split; [right; exact I|exact N].
    + right. split; [reflexivity|]. exists v. split; [left; reflexivity|]. intros a E. apply (pick_element v u a) in E; [congruence|assumption|assumption].
Qed.
End ListGetter.

Lemma unwrapped_scalar_of : forall v u, unwrapped v = Ok u -> (exists s, v = VScalar s /\ u = unwrapped_scalar s) \/ (exists l, u = UList l /\ exists vs, v = VList vs) \/ (exists m, u = UMap m /\ exists r i f, v = VObj r i f).
Proof.
  intros v u H. destruct v as [s|vs|r i f| | | |]; try discriminate.
  - injection H as <-. eauto.
  - destruct (unwrapped_list _ _ H) as [l ->]. right. left. eauto.
  - cbn [unwrapped] in H. inv_bind H. injection Hk as <-. right. right. eauto 6.
Qed.

Lemma list_getters : forall self ps p, plain self -> simple_object self -> new_path ps = Ok p ->
  lists_elements int_element (get p self) (get_int_list self ps) /\
  lists_elements long_element (get p self) (get_long_list self ps) /\
  lists_elements double_element (get p self) (get_double_list self ps) /\
  lists_elements string_element (get p self) (get_string_list self ps) /\
  lists_elements bool_element (get p self) (get_bool_list self ps).
Proof.
  intros self ps p H1 H2 Hp. repeat split; (apply list_getter; [|assumption|assumption|assumption]); intros v u a _ Hu;
    destruct (unwrapped_scalar_of v u Hu) as [[s [-> ->]]|[[l [-> [vs ->]]]|[m [-> [r [i [f ->]]]]]]];
    try (split; [discriminate|]; first [intros [t Q]; discriminate | intros [t [Q|Q]]; discriminate | intro Q; discriminate]);
    destruct s as [|b|z t|z t|d t|s q]; cbn [unwrapped_scalar];
    try (split; [discriminate|]; first [intros [? Q]; discriminate | intros [? [Q|Q]]; discriminate | intro Q; discriminate]);
    (split; [intro Q; injection Q as <-; repeat eexists; eauto | first [intros [? Q]; injection Q; intros; subst; reflexivity | intros [? [Q|Q]]; injection Q; intros; subst; reflexivity | intro Q; injection Q; intros; subst; reflexivity | intros [? [Q|Q]]; try discriminate; injection Q; intros; subst; reflexivity]]).
Qed.
