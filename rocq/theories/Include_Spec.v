(** Specification vocabulary for includes. *)
From Verif Require Import Base Util_Model Path_Model Token_Model PathParser_Model Doc_Model Edit_Model Value_Model Value_Spec
  ConfigParser_Model ConfigParser_Spec Include_Model.

(** What one node of an object says about its keys: a field defines the path it names, an include statement
    every key of the included object, everything else nothing. *)
Inductive contributes (includer : include_kind -> str -> nat -> result (value * nat)) (path_stack : list path) (ac : Z)
  : node -> list (path * value) -> Prop :=
| con_field : forall fcs pv, defines includer path_stack ac fcs pv -> contributes includer path_stack ac (NField fcs) [pv]
| con_include : forall ics kind name n1 n2 r i m, include_name ics = Ok name -> (kind = KFile \/ kind = KHeuristic) ->
    includer kind name n1 = Ok (VObj r i m, n2) ->
    contributes includer path_stack ac (NInclude ics kind) (map (fun kv => ([fst kv], snd kv)) m)
| con_other : forall n, (forall cs, n <> NField cs) -> (forall cs kind, n <> NInclude cs kind) -> contributes includer path_stack ac n [].

(** The include statements in a node: the nodes they are made of and their kinds. *)
Fixpoint include_statements (n : node) : list (list node * include_kind) :=
  match n with
  | NInclude cs kind => [(cs, kind)]
  | NField cs | NConcat cs | NArray cs | NObject cs => flat_map include_statements cs
  | _ => []
  end.

(** The text has a statement that includes [name]. *)
Definition text_includes (text : str) (kind : include_kind) (name : str) : Prop :=
  exists ns cs, parse_document CONF text = Ok ns /\ In (cs, kind) (flat_map include_statements ns) /\ include_name cs = Ok name.

Definition absolute (name : str) : Prop := exists s, name = "/"%char :: s.
(** The name as seen from a directory ([dir] is empty or ends with a slash). *)
Definition seen_from (dir name : str) : str := match name with c :: _ => if Ascii.eqb c "/" then name else dir ++ name | [] => dir end.
Definition has_extension (name : str) : Prop := (exists s, name = s ++ lit ".conf") \/ (exists s, name = s ++ lit ".json").

(** The files a statement that includes [name] reads, in a file in the directory [dir]. *)
Definition reads_file (dir name file : str) : Prop :=
  (has_extension name /\ file = seen_from dir name) \/
  (~ has_extension name /\ (file = name ++ lit ".conf" \/ file = name ++ lit ".json")).

(** The directory part of a name: everything up to the last slash. *)
Definition directory_of (name dir : str) : Prop :=
  exists base, name = dir ++ base /\ ~ In "/"%char base /\ (dir = [] \/ exists d, dir = d ++ ["/"%char]).

(** The files can be put in an order such that each includes only earlier ones: no file includes itself,
    directly or through others. *)
Definition no_include_cycle (files : str -> option str) (rank : str -> nat) : Prop :=
  forall file text dir kind name target, files file = Some text -> directory_of file dir ->
    text_includes text kind name -> reads_file dir name target -> (rank target < rank file)%nat.
Definition only_plain_includes (files : str -> option str) : Prop :=
  forall file text kind name, files file = Some text -> text_includes text kind name -> kind = KHeuristic.

(** The first thing the text does is to include [name]: comments, commas and blanks may come before. *)
Definition begins_with_include (text name : str) : Prop :=
  exists pre skipped cs rest post, parse_document CONF text = Ok (pre ++ NObject (skipped ++ NInclude cs KHeuristic :: rest) :: post) /\
    Forall (fun n => is_complex n = false) pre /\
    Forall (fun n => (forall fcs, n <> NField fcs) /\ (forall ics kind, n <> NInclude ics kind)) skipped /\
    include_name cs = Ok name.
(** The root object of the text has a statement that includes [name] among its fields. *)
Definition has_include (text name : str) : Prop :=
  exists pre cs ics post, parse_document CONF text = Ok (pre ++ NObject cs :: post) /\
    Forall (fun n => is_complex n = false) pre /\ In (NInclude ics KHeuristic) cs /\ include_name ics = Ok name.

(** Every file of a set begins by including one of the set. *)
Definition begins_with_cycle (files : str -> option str) (S : str -> Prop) : Prop :=
  forall file, S file -> (exists s, file = s ++ lit ".conf") /\
    exists text dir name target, files file = Some text /\ directory_of file dir /\ begins_with_include text name /\ reads_file dir name target /\ S target.
(** Every file of a set includes one of the set, by its full name. *)
Definition has_cycle (files : str -> option str) (S : str -> Prop) : Prop :=
  forall file, S file -> (exists s, file = s ++ lit ".conf") /\
    exists text dir name, files file = Some text /\ directory_of file dir /\ has_include text name /\ has_extension name /\ S (seen_from dir name).

(** For examples: a text with apostrophes for quotes, and a file system with these files. *)
Definition quoted (s : string) : str := map (fun c => if Ascii.eqb c "'" then ch 34 else c) (lit s).
Fixpoint disk (entries : list (string * string)) (name : str) : option str :=
  match entries with
  | [] => None
  | (n, text) :: rest => if str_eqb name (lit n) then Some (quoted text) else disk rest name
  end.
(** A file for every number of letters: each includes the one with a letter less, the last has a field. *)
Definition tower (name : str) : option str :=
  match name with
  | c :: rest => Some (match rest with
                       | d :: _ => if Ascii.eqb d "." then lit "x = 1" else quoted "include '" ++ rest ++ quoted "'"
                       | [] => []
                       end)
  | [] => None
  end.
