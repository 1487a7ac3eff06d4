(** Model of reading yaml documents into the raw configurations.  The
    configurations derive serde's `Deserialize`; this file states what the derived
    code does with a document (serde 1.0.114, serde_yaml 0.8.13), which is not part
    of /repo.  The text of a document is not modelled, it starts with its nodes. *)
From Coq Require Import String List Bool Arith NArith.
From Verif Require Import Base F64 ModelConfig.
Import ListNotations.
Open Scope string_scope.
Open Scope list_scope.
Open Scope nat_scope.

(** A node of a document.  Scalars are plain or quoted; keys of mappings are
    scalars, whose style makes no difference for naming a field.  Anchors and tags
    are not modelled, nor are integers as keys of buffered mappings, which serde takes
    for the positions of fields. *)
Inductive yaml : Type :=
| YScalar (plain : bool) (t : string)
| YSeq (l : list yaml)
| YMap (l : list (string * yaml)).

(** What the plain scalars mean in serde_yaml: is it null, is it a bool, an
    unsigned integer, a number, and is it text if nobody asks for text? *)
Record scalars : Type := mkScalars {
  sc_null : string -> bool;
  sc_bool : string -> option bool;
  sc_u64 : string -> option N;
  sc_f64 : string -> option f64;
  sc_text : string -> bool;
}.

(** the values of a key, in the mapping's order *)
Definition entries (k : string) (l : list (string * yaml)) : list yaml :=
  map snd (filter (fun e => String.eqb (fst e) k) l).

(** is the key one of the names? *)
Definition named (names : list string) (k : string) : bool := existsb (String.eqb k) names.

(** models: the derived code for a struct with the fields [names]: values of
    the fields as far as given.  A field may not be given twice; other keys are
    errors with `deny_unknown_fields` ([deny]) and ignored otherwise.  Structs
    without flattened fields may be given as sequences ([seqs]), too. *)
Definition fields (seqs deny : bool) (names : list string) (y : yaml) : res (string -> option yaml) :=
  match y with
  | YMap l =>
      if deny && existsb (fun e => negb (named names (fst e))) l then Err "unknown field"
      else if existsb (fun k => 1 <? length (entries k l)) names then Err "duplicate field"
      else Ok (fun k => hd_error (entries k l))
  | YSeq l =>
      if seqs && (length l =? length names)
      then Ok (fun k => match position k names with Some i => nth_error l i | None => None end)
      else Err "invalid type"
  | YScalar _ _ => Err "invalid type"
  end.

(** models: a field which isn't optional. *)
Definition required {A} (read : yaml -> res A) (o : option yaml) : res A :=
  match o with
  | Some y => read y
  | None => Err "missing field"
  end.

(** models: the derived code for an enum: the variant's name, and what is said
    about it.  A mapping has to have exactly one key. *)
Definition variant (y : yaml) : res (string * option yaml) :=
  match y with
  | YScalar _ t => Ok (t, None)
  | YMap [(k, v)] => Ok (k, Some v)
  | _ => Err "invalid variant"
  end.

(** models: a variant with fields. *)
Definition with_content {A} (read : yaml -> res A) (o : option yaml) : res A :=
  match o with
  | Some y => read y
  | None => Err "invalid type: unit variant"
  end.

(** models: reading into a Vec. *)
Definition read_list {A} (read : yaml -> res A) (y : yaml) : res (list A) :=
  match y with
  | YSeq l => mapM read l
  | _ => Err "invalid type: expected a sequence"
  end.

Section Scalars.
  Variable sc : scalars.

  (** is this node null? *)
  Definition is_null (y : yaml) : bool :=
    match y with
    | YScalar true t => sc_null sc t
    | _ => false
    end.

  (** models: a field of type Option. *)
  Definition optional {A} (read : yaml -> res A) (o : option yaml) : res (option A) :=
    match o with
    | Some y => if is_null y then Ok None else do x <- read y; Ok (Some x)
    | None => Ok None
    end.

  (** models: a variant without content. *)
  Definition without_content {A} (a : A) (o : option yaml) : res A :=
    match o with
    | Some y => if is_null y then Ok a else Err "invalid type: expected unit"
    | None => Ok a
    end.

  (** models: reading into a String (SimpleId, src/configs/mod.rs:12-20) or a
      PathBuf.  Every scalar is accepted, unless the node is buffered because of
      `serde(flatten)`, where the scalar has been interpreted already. *)
  Definition read_string (buffered : bool) (y : yaml) : res string :=
    match y with
    | YScalar plain t => if buffered && plain && negb (sc_text sc t) then Err "invalid type: expected a string" else Ok t
    | _ => Err "invalid type: expected a string"
    end.

  (** models: reading into the types of numbers and into bool. *)
  Definition read_plain {A} (value : string -> option A) (y : yaml) : res A :=
    match y with
    | YScalar true t => match value t with Some a => Ok a | None => Err "invalid type" end
    | _ => Err "invalid type"
    end.
  Definition read_bool : yaml -> res bool := read_plain (sc_bool sc).
  Definition read_u64 : yaml -> res N := read_plain (sc_u64 sc).
  Definition read_f64 : yaml -> res f64 := read_plain (sc_f64 sc).

  (** models: an enum whose variants have no content. *)
  Definition keyword {A} (table : list (string * A)) (y : yaml) : res A :=
    do v <- variant y;
    match find (fun e => String.eqb (fst e) (fst v)) table with
    | Some (_, a) => without_content a (snd v)
    | None => Err "unknown variant"
    end.
End Scalars.
