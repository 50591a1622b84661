(** Reading HOCON documents, alone and as fallbacks of each other. *)
From Verif Require Import Base BaseLemmas Util_Model Num_Model Path_Model Token_Model Token_Spec Token_Lemmas Token_Lemmas2 PathParser_Model PathParser_Spec Doc_Model Doc_Lemmas Edit_Model Edit_Lemmas4
  Value_Model Value_Spec Value_Lemmas Value_Lemmas2 Value_Lemmas3 Concat_Model ConfigParser_Model Duration_Model Config_Model Config_Spec Resolve_Model Resolve_Lemmas Include_Model Include_Spec Include_Lemmas2 Layers_Model Json_Lemmas2 Render_Lemmas3 JsonEdit_Lemmas ConfEdit_Spec ConfEdit_Lemmas5 ConfEdit_Lemmas6 ConfEdit_Lemmas7 ConfText_Spec ConfText_Lemmas ConfText_Lemmas2 ConfText_Lemmas3 ConfText_Lemmas4 ConfText_Lemmas5 ConfText_Lemmas6
  ConfText_Lemmas7 ConfText_Lemmas8 RenderConf_Lemmas RenderConf_Lemmas2 RenderConf_Lemmas3 Rfc_Spec Rfc_Spec2 Rfc_Spec3 Rfc_Lemmas6 Rfc_Lemmas7 Rfc_Lemmas8 Hocon_Spec Hocon_Lemmas Hocon_Lemmas2 Hocon_Lemmas3 Hocon_Lemmas4.

Lemma hocon_layered : forall files env self ds, hocon_loaded files env self ds -> hocon_layer ds self.
Proof.
  intros files env self ds [depth n text ds0 o next next' self0 H P|depth n name text ds0 o next next' self0 H F E O P|depth n m text ds0 o next next' self0 H L O P|depth n m name ds0 o next next' self0 H L O Sx P].
  - destruct (hocon_string_layer files env depth n text ds0 o next H) as [s [Q S]]. rewrite Q in P. injection P as <- _. exact S.
  - destruct (hocon_file_layer files env depth n name text ds0 o next H F E O) as [s [Q S]]. rewrite Q in P. injection P as <- _. exact S.
  - destruct (text_read_layer files env depth n text ds0 m o H L O) as [s [Q S]]. rewrite Q in P. injection P as <- _. exact S.
  - destruct (file_read_layer files env depth n name ds0 m o H L O Sx) as [s [Q S]]. rewrite Q in P. injection P as <- _. exact S.
Qed.

(** ** Reading *)
Lemma layer_plain : forall ds v, hocon_layer ds v -> plain v.
Proof. intros ds v [m [-> [_ [P _]]]]. exact P. Qed.
Lemma layer_unique : forall ds v, hocon_layer ds v -> uniques ds.
Proof. intros ds v [m [-> [_ [_ [U _]]]]]. inversion U; assumption. Qed.
Lemma layer_rooted : forall ds v, hocon_layer ds v -> rooted ds.
Proof. intros ds v [m [_ [R _]]]. exact R. Qed.
Lemma defined_uniques : forall ds, uniques ds -> unique (defined ds).
Proof.
  intros ds U. assert (X : uniquely (stack (([], JObject []) :: ds) None)) by (apply stack_unique; [constructor; [apply unique_object; [constructor|intros ? ? []]|exact U]|exact I]). rewrite defined_stack in X. exact X.
Qed.
Lemma layer_denotes : forall ds v, hocon_layer ds v -> denotes (defined ds) v.
Proof. intros ds v [m [-> [R C]]]. exact (object_denotes ds m R C). Qed.
Lemma layer_read : forall ds v, hocon_layer ds v -> readable_as v (defined ds) /\ forall allow use env k, resolve_config allow use env (S k) v = Ok (Some v).
Proof.
  intros ds v L. pose proof (layer_plain _ _ L) as P. split; [|exact (resolve_plain v P)].
  apply denoted_readable; [exact (defined_uniques _ (layer_unique _ _ L))|exact (layer_denotes _ _ L)|exact P|]. destruct L as [m [-> _]]. repeat eexists.
Qed.

(** ** Layers *)
Lemma defined_object : forall ds, rooted ds -> exists ms, defined ds = JObject ms.
Proof.
  intros ds R. pose proof (defined_stack ds) as E. change (stack (([], JObject []) :: ds) None) with (stack ds (Some (JObject []))) in E. destruct (rooted_stack ds [] R) as [ms E']. rewrite E' in E. injection E as <-. eauto.
Qed.
Lemma stack_over_defined : forall E ds, rooted E -> stack (([], JObject []) :: ds) (Some (defined E)) = Some (defined (E ++ ds)).
Proof.
  intros E ds R. destruct (defined_object E R) as [ms Em]. rewrite <- (defined_stack (E ++ ds)). change (([], JObject []) :: E ++ ds) with ((([], JObject []) :: E) ++ ds). rewrite stack_app, defined_stack, Em.
  change (stack (([], JObject []) :: ds) (Some (JObject ms))) with (stack ds (Some (overlay (JObject []) (JObject ms)))). do 2 f_equal. cbn [overlay map app]. f_equal. clear.
  induction ms as [|[k j] ms IH]; [reflexivity|]. cbn [filter member] in IH |- *. rewrite IH. reflexivity.
Qed.
Lemma hocon_layers_denote : forall dss vs, Forall2 hocon_layer dss vs -> forall ds v, hocon_layer ds v ->
  exists w, with_fallbacks v vs = Ok w /\ plain w /\ uniques (List.concat (rev dss) ++ ds) /\ rooted (List.concat (rev dss) ++ ds) /\ denotes (defined (List.concat (rev dss) ++ ds)) w.
Proof.
  intros dss vs H. induction H as [|d2 v2 dss vs L2 H IH]; intros ds v L.
  - exists v. split; [reflexivity|]. split; [exact (layer_plain _ _ L)|]. split; [exact (layer_unique _ _ L)|]. split; [exact (layer_rooted _ _ L)|exact (layer_denotes _ _ L)].
  - assert (Pvs : Forall plain vs) by (clear -H; induction H as [|? ? ? ? Q]; constructor; [exact (layer_plain _ _ Q)|assumption]). destruct (IH _ _ L2) as [x [X1 [X2 [X3 [X5 X4]]]]].
    destruct (chain_right vs v v2 (layer_plain _ _ L) (layer_plain _ _ L2) Pvs) as [x' [w [Y1 [_ [Y3 [Y4 Y5]]]]]]. rewrite X1 in Y1. injection Y1 as <-. exists w. split; [exact Y5|]. split; [exact Y4|].
    assert (Ec : List.concat (rev (d2 :: dss)) = List.concat (rev dss) ++ d2) by (cbn [rev]; rewrite concat_app; cbn [List.concat]; rewrite app_nil_r; reflexivity). rewrite Ec.
    set (E := List.concat (rev dss) ++ d2) in *. split; [apply Forall_app; split; [exact X3|exact (layer_unique _ _ L)]|]. split; [apply Forall_app; split; [exact X5|exact (layer_rooted _ _ L)]|].
    destruct L as [m [-> [R C]]]. destruct (object_acts ds m R C) as [_ [_ [_ A]]].
    destruct (A (Some (defined E)) (Some x) w (conj (defined_uniques _ X3) (conj X4 X2)) Y3) as [j [J D]].
    rewrite (stack_over_defined E ds X5) in J. injection J as <-. exact D.
Qed.
Lemma hocon_layers : forall files env first others ds dss, hocon_loaded files env first ds -> Forall2 (hocon_loaded files env) others dss ->
  exists merged, config_with_fallbacks first others = Ok merged /\ readable_as merged (defined (List.concat (rev dss) ++ ds)) /\
    forall allow use env' k, resolve_config allow use env' (S k) merged = Ok (Some merged).
Proof.
  intros files env first others ds dss H Hs. apply hocon_layered in H.
  assert (B : Forall2 hocon_layer dss others). { clear -Hs. induction Hs as [|s m others mss H Hs IH]; constructor; [exact (hocon_layered _ _ _ _ H)|exact IH]. }
  assert (Pl : Forall plain others). { clear -B. induction B as [|? ? ? ? Q]; constructor; [exact (layer_plain _ _ Q)|assumption]. }
  destruct (hocon_layers_denote _ _ B _ _ H) as [w [W1 [W2 [W3 [Rt W4]]]]]. exists w. assert (So : simple_object first) by (destruct H as [m [-> _]]; repeat eexists).
  rewrite (config_chain _ _ (layer_plain _ _ H) So Pl). split; [exact W1|]. split; [|exact (resolve_plain _ W2)].
  pose proof (defined_uniques _ W3) as U.
  destruct (defined_object _ Rt) as [ms E]. rewrite E in *. apply denoted_readable; try assumption. exact (denoted_object _ _ W4).
Qed.
Lemma hocon_string_read : forall files env depth n text ds o next, hocon_text text ds ->
  exists self, parse_string files env depth n text o next = Ok (self, next) /\ readable_as self (defined ds) /\
    forall allow use env' k, resolve_config allow use env' (S k) self = Ok (Some self).
Proof. intros files env depth n text ds o next H. destruct (hocon_string_layer files env depth n text ds o next H) as [self [P S]]. exists self. split; [exact P|exact (layer_read ds self S)]. Qed.
Lemma hocon_file_read : forall files env depth n name text ds o next, hocon_text text ds -> files name = Some text -> ends_with (lit ".conf") name = true -> o_syntax o <> Some JSON ->
  exists self, parse_file_any_syntax files env depth (S n) name o next = Ok (self, next) /\ readable_as self (defined ds) /\
    forall allow use env' k, resolve_config allow use env' (S k) self = Ok (Some self).
Proof. intros files env depth n name text ds o next H F E O. destruct (hocon_file_layer files env depth n name text ds o next H F E O) as [self [P S]]. exists self. split; [exact P|exact (layer_read ds self S)]. Qed.
Lemma including_string_read : forall files env depth n m text ds o next, text_makes files n text ds -> (n <= m)%nat -> o_includer o = None ->
  exists self, parse_string files env depth m text o next = Ok (self, next) /\ readable_as self (defined ds) /\
    forall allow use env' k, resolve_config allow use env' (S k) self = Ok (Some self).
Proof. intros files env depth n m text ds o next H L O. destruct (text_read_layer files env depth n text ds m o H L O) as [self [P S]]. exists self. split; [apply P|exact (layer_read ds self S)]. Qed.
Lemma including_file_read : forall files env depth n m name ds o next, file_makes files n name ds -> (n <= m)%nat -> o_includer o = None -> o_syntax o <> Some JSON ->
  exists self, parse_file_any_syntax files env depth m name o next = Ok (self, next) /\ readable_as self (defined ds) /\
    forall allow use env' k, resolve_config allow use env' (S k) self = Ok (Some self).
Proof. intros files env depth n m name ds o next H L O Sx. destruct (file_read_layer files env depth n name ds m o H L O Sx) as [self [P S]]. exists self. split; [apply P|exact (layer_read ds self S)]. Qed.
