(** Specification vocabulary for the meaning of parsed objects. *)
From Verif Require Import Base Path_Model Token_Model PathParser_Model Doc_Model Edit_Model Value_Model Value_Spec ConfigParser_Model.

(** [v] under the keys of [p]: [{k1 : {k2 : v}}]. *)
Fixpoint under (p : path) (v : value) : value :=
  match p with [] => v | k :: p' => VObj (is_resolved v) false [(k, under p' v)] end.

(** What the definitions (path and value, in the order of the text) say about the key [k]. *)
Fixpoint definitions_of (k : str) (defs : list (path * value)) : list value :=
  match defs with
  | [] => []
  | (k' :: p, v) :: defs' => if str_eqb k k' then under p v :: definitions_of k defs' else definitions_of k defs'
  | ([], _) :: defs' => definitions_of k defs'
  end.

(** The later definition with the earlier ones as its fallback. *)
Fixpoint after (earlier : value) (later : list value) : result value :=
  match later with
  | [] => Ok earlier
  | v :: vs => w <- with_fallback v earlier ;; after w vs
  end.
Definition history (vs : list value) : result (option value) :=
  match vs with [] => Ok None | v :: vs => w <- after v vs ;; Ok (Some w) end.

(** The fields among the nodes of an object. *)
Definition field_nodes (cs : list node) : list (list node) :=
  flat_map (fun n => match n with NField fcs => [fcs] | _ => [] end) cs.
Definition no_include (n : node) : Prop := match n with NInclude _ _ => False | _ => True end.

(** No field with [+=] in it. *)
Fixpoint no_append (n : node) : bool :=
  match n with
  | NField cs => negb (is_plus_equals cs) && forallb no_append cs
  | NInclude cs _ | NConcat cs | NArray cs | NObject cs => forallb no_append cs
  | _ => true
  end.

(** A value without the identities of its references. *)
Fixpoint anonymous (v : value) : value :=
  match v with
  | VScalar s => VScalar s
  | VList vs => VList (map anonymous vs)
  | VObj r i m => VObj r i (map (fun kv => (fst kv, anonymous (snd kv))) m)
  | VRef _ p o l => VRef 0 p o l
  | VConcat vs => VConcat (map anonymous vs)
  | VMerge vs => VMerge (map anonymous vs)
  | VMergeObj vs => VMergeObj (map anonymous vs)
  end.
Definition alike (a b : value) : Prop := anonymous a = anonymous b.

(** The includer gives the same object whatever identities are used. *)
Definition steady (includer : include_kind -> str -> nat -> result (value * nat)) : Prop :=
  forall kind name n1 n2,
    match includer kind name n1, includer kind name n2 with
    | Ok (a, _), Ok (b, _) => alike a b
    | Throw e, Throw e' => e = e'
    | Stuck u, Stuck u' => u = u'
    | _, _ => False
    end.

(** Two outcomes of parsing that differ in the identities of references only. *)
Definition same_outcome (r1 r2 : result (value * nat)) : Prop :=
  match r1, r2 with
  | Ok (a, _), Ok (b, _) => alike a b
  | Throw e, Throw e' => e = e'
  | Stuck u, Stuck u' => u = u'
  | _, _ => False
  end.

(** The field [p = ${?p} [n]], where [expression] is the text of [p]. *)
Definition self_append (p : path) (ts expression : list token) (n : node) : node :=
  NField [NPath (p, ts); NTok TEquals; NConcat [NSimple (TSubst true expression); NArray [NTok TOpenSquare; n; NTok TCloseSquare]]].

(** The field [k : { rest : n }]. *)
Definition nested_field (k : str) (rest : path) (ts1 ts2 : list token) (n : node) : node :=
  NField [NPath ([k], ts1); NTok TColon; NObject [NField [NPath (rest, ts2); NTok TColon; n]]].

(** The definitions (path and value) the fields of an object give, in order. *)
Definition defines (includer : include_kind -> str -> nat -> result (value * nat)) (path_stack : list path) (ac : Z) (fcs : list node) (pv : path * value) : Prop :=
  exists n1 n2, parse_field (parse_value CONF includer) fcs path_stack ac n1 = Ok (fst pv, snd pv, n2).
