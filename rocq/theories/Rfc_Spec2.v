(** Specification vocabulary for reading a JSON document with the getters. *)
From Verif Require Import Base Util_Model Num_Model Token_Model Value_Model Round_Spec Rfc_Spec Config_Model.

(** [found j p j']: from j, the names of p lead to j'. *)
Inductive found : json -> list str -> json -> Prop :=
| found_here : forall j, found j [] j
| found_member : forall ms k j p j', In (k, j) ms -> found j p j' -> found (JObject ms) (k :: p) j'.

(** What the getters of the config [self] give at the path expression [ps]. *)
Definition absent (self : value) (ps : str) : Prop :=
  has_path self ps = Ok false /\ has_path_or_null self ps = Ok false /\ get_value self ps = Throw EConfig /\ get_string self ps = Throw EConfig /\
  get_bool self ps = Throw EConfig /\ get_int self ps = Throw EConfig /\ get_long self ps = Throw EConfig /\ get_double self ps = Throw EConfig /\
  get_object self ps = Throw EConfig /\ get_list self ps = Throw EConfig.
Definition null_at (self : value) (ps : str) : Prop :=
  has_path self ps = Ok false /\ has_path_or_null self ps = Ok true /\ get_value self ps = Throw ENull /\ get_string self ps = Throw ENull /\
  get_bool self ps = Throw ENull /\ get_int self ps = Throw ENull /\ get_long self ps = Throw ENull /\ get_double self ps = Throw ENull /\
  get_object self ps = Throw ENull /\ get_list self ps = Throw ENull.
Definition present (self : value) (ps : str) : Prop := has_path self ps = Ok true /\ has_path_or_null self ps = Ok true.
Definition no_container (self : value) (ps : str) : Prop := get_object self ps = Throw EConfig /\ get_list self ps = Throw EConfig.
Definition no_scalar (self : value) (ps : str) : Prop :=
  get_string self ps = Throw EConfig /\ get_bool self ps = Throw EConfig /\ get_int self ps = Throw EConfig /\ get_long self ps = Throw EConfig /\
  get_double self ps = Throw EConfig.
Definition integer (j : json) (n : Z) : Prop := exists t x, j = JNumber t n x /\ integer_text t.
Definition fits_int (n : Z) : bool := (-2147483648 <=? n) && (n <=? 2147483647).
Definition gives (self : value) (ps : str) (j : json) : Prop :=
  match j with
  | JNull => null_at self ps
  | JBool b => present self ps /\ no_container self ps /\ get_bool self ps = Ok b /\ get_string self ps = Ok (lit (if b then "true" else "false")) /\
      get_int self ps = Throw EConfig /\ get_long self ps = Throw EConfig /\ get_double self ps = Throw EConfig
  | JNumber t n x => present self ps /\ no_container self ps /\ get_string self ps = Ok t /\ get_bool self ps = Throw EConfig /\
      (exists d, get_double self ps = Ok d /\ half_unit d n x) /\
      (integer_text t -> get_long self ps = Ok n /\ get_int self ps = if fits_int n then Ok n else Throw EConfig)
  | JString s => present self ps /\ no_container self ps /\ get_string self ps = Ok s
  | JArray js => present self ps /\ no_scalar self ps /\ get_object self ps = Throw EConfig /\
      (exists vs, get_list self ps = Ok (Some vs) /\ Forall2 denotes js vs) /\
      (forall l, js = map JString l -> get_string_list self ps = Ok l) /\ ((forall l, js <> map JString l) -> get_string_list self ps = Throw EConfig) /\
      (forall l, js = map JBool l -> get_bool_list self ps = Ok l) /\ ((forall l, js <> map JBool l) -> get_bool_list self ps = Throw EConfig) /\
      (forall l, Forall2 integer js l -> get_long_list self ps = Ok l /\ get_int_list self ps = if forallb fits_int l then Ok l else Throw EConfig) /\
      (forall l, js = map JObject l -> exists vs, get_object_list self ps = Ok vs /\ Forall2 denotes js vs)
  | JObject ms => present self ps /\ no_scalar self ps /\ get_list self ps = Throw EConfig /\ exists v, get_config self ps = Ok v /\ denotes (JObject ms) v
  end.
