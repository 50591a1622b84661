(** Texts of doubles. *)
From Coq Require Import ZArith Lia Bool List.
From Verif Require Import Base Util_Model Num_Model Duration_Model Duration_Spec Duration_Lemmas Render_Lemmas2 Round_Spec Round_Lemmas2.
Local Open Scope Z_scope.

Lemma go_length : forall k fuel z acc, 0 <= z < 10 ^ Z.of_nat (S k) -> (List.length (digits_go fuel z acc) <= S k + List.length acc)%nat.
Proof.
  induction k as [|k IH]; intros fuel z acc H; destruct fuel as [|n]; cbn [digits_go]; try lia.
  - replace (z / 10) with 0 by (symmetry; apply Z.div_small; change (10 ^ Z.of_nat 1) with 10 in H; lia). cbn [Z.eqb List.length]. lia.
  - destruct (z / 10 =? 0); [cbn [List.length]; lia|]. eapply Nat.le_trans; [apply IH|cbn [List.length]; lia].
    split; [apply Z.div_pos; lia|]. apply Z.div_lt_upper_bound; [lia|]. rewrite (Nat2Z.inj_succ (S k)), Z.pow_succ_r in H by lia. lia.
Qed.
Lemma natural_text : forall z, 0 <= z -> Forall (fun c => isdigit c = true) (string_of_Z z) /\ digits_value (string_of_Z z) = z.
Proof.
  intros [|p|p] H; [split; [repeat constructor|reflexivity]| |lia]. cbn [string_of_Z]. destruct (pos_text p) as [_ [D V]]. split; [apply Forall_forall, forallb_forall, D|]. rewrite <- dec_spec. exact V.
Qed.
Lemma natural_length : forall z, 0 <= z < 10 ^ 6 -> (List.length (string_of_Z z) <= 6)%nat.
Proof.
  intros [|p|p] H; [cbn; lia| |lia]. cbn [string_of_Z]. change (string_of_pos p) with (digits_go (Pos.size_nat p) (Zpos p) []).
  pose proof (go_length 5 (Pos.size_nat p) (Zpos p) [] H) as G. rewrite Nat.add_0_r in G. exact G.
Qed.
Lemma digits_value_app : forall a b, digits_value (a ++ b) = digits_value a * 10 ^ Z.of_nat (List.length b) + digits_value b.
Proof.
  induction a as [|c a IH]; intro b; [cbn; lia|]. cbn [app digits_value]. rewrite IH, app_length, Nat2Z.inj_add, Z.pow_add_r by lia. ring.
Qed.
Lemma zeros_value : forall n, digits_value (repeat "0"%char n) = 0 /\ Forall (fun c => isdigit c = true) (repeat "0"%char n).
Proof. induction n as [|n [IH1 IH2]]; [split; [reflexivity|constructor]|]. cbn [repeat digits_value]. rewrite IH1. split; [reflexivity|constructor; [reflexivity|exact IH2]]. Qed.
Lemma pad_text : forall z, 0 <= z < 10 ^ 6 -> List.length (pad6 (string_of_Z z)) = 6%nat /\ Forall (fun c => isdigit c = true) (pad6 (string_of_Z z)) /\ digits_value (pad6 (string_of_Z z)) = z.
Proof.
  intros z H. destruct (natural_text z ltac:(lia)) as [D V]. pose proof (natural_length z H) as L. destruct (zeros_value (6 - List.length (string_of_Z z))) as [Z1 Z2]. unfold pad6. split; [rewrite app_length, repeat_length; lia|].
  split; [apply Forall_app; split; assumption|]. rewrite digits_value_app, Z1, V. lia.
Qed.
Lemma millionths_text : forall (s : bool) n, 0 <= n ->
  fraction ((if s then lit "-" else []) ++ string_of_Z (n / 1000000) ++ lit "." ++ pad6 (string_of_Z (n mod 1000000))) (signed s n) 6.
Proof.
  intros s n H. pose proof (Z.mod_pos_bound n 1000000 ltac:(lia)) as B. destruct (natural_text (n / 1000000)) as [D1 V1]; [apply Z.div_pos; lia|]. destruct (pad_text (n mod 1000000) B) as [L [D2 V2]].
  set (a := string_of_Z (n / 1000000)) in *. set (b := pad6 (string_of_Z (n mod 1000000))) in *. assert (F : Forall (fun c => isdigit c = true) (a ++ b)) by (apply Forall_app; split; assumption).
  assert (N : b <> []) by (intro E; rewrite E in L; discriminate). assert (V : digits_value (a ++ b) = n). { rewrite digits_value_app, V1, V2, L. change (10 ^ Z.of_nat 6) with 1000000. pose proof (Z.div_mod n 1000000 ltac:(lia)). lia. }
  destruct s; cbn [signed]; rewrite <- V, <- L; [exact (fraction_minus a b F N)|exact (fraction_plain a b F N)].
Qed.
Lemma double_text : forall s m e, exists n, 0 <= n /\ fraction (double_to_string (S754_finite s m e)) (signed s n) 6 /\ nearest_millionths (Zpos m) e n.
Proof.
  intros s m e. unfold double_to_string, nearest_millionths. destruct (Z.leb_spec 0 e) as [E|E].
  - exists (Zpos m * 2 ^ e * 1000000). assert (0 < 2 ^ e) by (apply Z.pow_pos_nonneg; lia). assert (0 <= Zpos m * 2 ^ e * 1000000) by (apply Z.mul_nonneg_nonneg; [apply Z.mul_nonneg_nonneg; lia|lia]). split; [assumption|]. split; [apply millionths_text; assumption|reflexivity].
  - assert (P : 0 < 2 ^ (- e)) by (apply Z.pow_pos_nonneg; lia). change (10 ^ 6) with 1000000. set (d := 2 ^ (- e)) in *. set (N := Zpos m * 1000000) in *. clearbody d. assert (N0 : 0 < N) by lia. clearbody N.
    pose proof (Z.div_mod N d ltac:(lia)) as Dv. pose proof (Z.mod_pos_bound N d P) as B. assert (Q0 : 0 <= N / d) by (apply Z.div_pos; lia). set (q := N / d) in *. set (r := N mod d) in *. clearbody q r. rewrite Z.mul_comm in Dv.
    destruct ((2 * r >? d) || (2 * r =? d) && Z.odd q) eqn:C.
    + exists (q + 1). split; [lia|]. split; [apply millionths_text; lia|]. assert (d <= 2 * r). { apply orb_prop in C. destruct C as [C|C]; [apply Z.gtb_lt in C; lia|]. apply andb_prop in C. destruct C as [C _]. apply Z.eqb_eq in C. lia. }
      rewrite Z.mul_add_distr_r. lia.
    + exists q. split; [lia|]. split; [apply millionths_text; lia|]. assert (2 * r <= d). { apply orb_false_iff in C. destruct C as [C _]. rewrite Z.gtb_ltb in C. apply Z.ltb_ge in C. exact C. } lia.
Qed.
