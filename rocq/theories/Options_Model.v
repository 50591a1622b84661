(** Transcription of lib/src/config_document_factory.cc, the document half of lib/src/parseable.cc, the includers
    of lib/src/config_parse_options.cc and the fallbacks of lib/src/simple_includer.cc.

    Simplifications: those of Include_Model; and an includer of the application is taken to treat its fallback as
    simple_includer does, see [includer]. *)
From Verif Require Import Base Util_Model Num_Model Path_Model Token_Model PathParser_Model Doc_Model Edit_Model Value_Model Include_Model.

(** *** Documents *)

(** simple_config_document.hpp: the children of the root node, and the options *)
Record document : Type := Document { d_root : list node; d_options : parse_options }.
(** _parse_options.get_syntax(), which fixup_options has set *)
Definition d_syntax (d : document) : syntax := match o_syntax (d_options d) with Some s => s | None => CONF end.

(** parseable.cc:234-286.  Opening a file throws no filesystem_error (see [new_file]), so the handler in 254-264 is
    not reached; content_type() is always UNSPECIFIED. *)
Definition parse_document_of (p : parseable) (base : parse_options) : result document :=
  let final := fixup_options (p_guess p) base in
  root <- parse_document (match o_syntax final with Some s => s | None => CONF end) (p_text p) ;;
  Ok (Document root final).
(** parseable.cc:141-143 *)
Definition parse_config_document (p : parseable) : result document := parse_document_of p (p_options p).

(** config_document_factory.cc:16-22; without options they are [no_options] *)
Definition document_of_string (text : str) (o : parse_options) : result document := parse_config_document (new_string text o).
(** config_document_factory.cc:8-14 *)
Definition document_of_file (files : str -> option str) (name : str) (o : parse_options) : result document :=
  parse_config_document (new_file files name o).

(** simple_config_document.cc:20-33, 48-62 *)
Definition document_set (d : document) (path text : str) : result document :=
  root <- with_value_text (d_syntax d) (d_root d) path text ;; Ok (Document root (d_options d)).
Definition document_remove (d : document) (path : str) : result document :=
  root <- Edit_Model.without_path (d_syntax d) (d_root d) path ;; Ok (Document root (d_options d)).
Definition document_text (d : document) : str := render_document (d_root d).
(** simple_config_document.cc:64-67 *)
Definition document_eqb (d e : document) : bool := str_eqb (document_text d) (document_text e).

(** *** Includers *)

(** What an includer does by itself with a name in a context, given by its directory; see [app_include]. *)
Definition asked : Type := str -> str -> nat -> result (value * nat).
(** What an includer does by itself with include "name", and with include file("name") if it is also a
    config_includer_file (config_includer_file.hpp:14-28) *)
Record behaviour : Type := Behaviour { by_name : asked; by_file : option asked }.

(** A config_includer: [number] is its address.  [Own] is a simple_includer, or an includer of the application that
    treats its fallback in the same way; [Proxy] is simple_includer.hpp: proxy. *)
Inductive includer : Type :=
| Own (number : nat) (own : behaviour) (fallback : option includer)
| Proxy (number : nat) (delegate : includer).
Definition number (i : includer) : nat := match i with Own n _ _ => n | Proxy n _ => n end.

(** simple_includer.cc:19-30 and 185-188.  [fresh] is the address of the next includer made. *)
Fixpoint includer_with_fallback (i fallback : includer) (fresh : nat) : result (includer * nat) :=
  match i with
  | Proxy _ _ => Ok (i, fresh)
  | Own n own mine =>
      if Nat.eqb n (number fallback) then Throw EConfig
      else match mine with
           | None => Ok (Own fresh own (Some fallback), S fresh)
           | Some f =>
               if Nat.eqb (number f) (number fallback) then Ok (i, fresh)
               else '(f', fresh') <- includer_with_fallback f fallback fresh ;; Ok (Own fresh' own (Some f'), S fresh')
           end
  end.

(** config_parse_options.cc:65-77 and 79-91, for an includer that is not null.  [current] is the one of the
    options. *)
Definition prepend_includer (current : option includer) (i : includer) (fresh : nat) : result (includer * nat) :=
  match current with
  | None => Ok (i, fresh)
  | Some c => if Nat.eqb (number c) (number i) then Ok (c, fresh) else includer_with_fallback i c fresh
  end.
Definition append_includer (current : option includer) (i : includer) (fresh : nat) : result (includer * nat) :=
  match current with
  | None => Ok (i, fresh)
  | Some c => if Nat.eqb (number c) (number i) then Ok (c, fresh) else includer_with_fallback c i fresh
  end.

(** simple_includer.cc:148-154; a simple_includer is no full_includer *)
Definition make_full (i : includer) (fresh : nat) : includer * nat :=
  match i with
  | Proxy _ _ => (i, fresh)
  | Own _ _ _ => (Proxy fresh i, S fresh)
  end.

(** parseable.cc:86-89; [default] is config::default_includer(), the same each time (config.cc:538-541) *)
Definition fixup_includer (default : includer) (current : option includer) (fresh : nat) : result (includer * nat) :=
  '(i, fresh1) <- append_includer current default fresh ;; Ok (make_full i fresh1).

(** simple_includer.cc:32-41 and 190-192: include(context, what) *)
Fixpoint include_with (i : includer) (dir name : str) (next : nat) : result (value * nat) :=
  match i with
  | Proxy _ d => include_with d dir name next
  | Own _ own None => by_name own dir name next
  | Own _ own (Some f) =>
      '(obj, next1) <- by_name own dir name next ;;
      '(below, next2) <- include_with f dir name next1 ;;
      w <- with_fallback obj below ;;
      Ok (w, next2)
  end.

(** simple_includer.cc:49-60 and 194-200: include_file(context, what); [None] for an includer that is no
    config_includer_file, where the casts in 53 and 195 give null.  [default] is include_file_without_fallback
    (simple_includer.cc:62-68). *)
Fixpoint include_file_of (default : asked) (i : includer) : option asked :=
  match i with
  | Proxy _ d => Some (match include_file_of default d with Some g => g | None => default end)
  | Own _ own fallback =>
      match by_file own with
      | None => None
      | Some mine => Some (fun dir name next =>
          '(obj, next1) <- mine dir name next ;;
          match match fallback with Some f => include_file_of default f | None => None end with
          | None => Ok (obj, next1)
          | Some g =>
              '(below, next2) <- g dir name next1 ;;
              w <- with_fallback obj below ;;
              Ok (w, next2)
          end)
      end
  end.
