(** Model of src/configs/routing.rs: from the yaml entries to alphas and
    tolerated scales.  Reading the yaml document is modelled in ModelDocs.v. *)
From Coq Require Import String Ascii List Bool Arith ZArith QArith.
From Verif Require Import Base F64 ModelUnits ModelConfig ModelDijkstra.
Import ListNotations.
Open Scope string_scope.
Open Scope list_scope.
Open Scope nat_scope.

(** models: src/configs/routing.rs:326-334 (RawEntry). *)
Record raw_entry : Type := mkRawEntry {
  re_id : string;
  re_alpha : option f64;
  re_scale : option string;
}.

(** models: src/configs/routing.rs:261-267 (ProtoEntry). *)
Record proto_entry : Type := mkProtoEntry {
  pe_rid : string;
  pe_alpha : f64;
  pe_scale : f64;
}.

(** models: `to_ascii_lowercase`, used in src/configs/routing.rs:274. *)
Definition lower_ascii (a : ascii) : ascii :=
  let n := nat_of_ascii a in
  if (65 <=? n) && (n <=? 90) then ascii_of_nat (n + 32) else a.
Fixpoint lower (s : string) : string :=
  match s with
  | EmptyString => EmptyString
  | String a t => String (lower_ascii a) (lower t)
  end.

Section Parse.
  (** Rust's `str::parse::<f64>`, an arbitrary partial function. *)
  Variable parse_f64 : string -> option f64.

  (** models: src/configs/routing.rs:273-281 and src/defaults.rs:79-81. *)
  Definition entry_scale (s : option string) : res f64 :=
    match s with
    | Some snippet =>
        let l := lower snippet in
        if String.eqb l "inf" || String.eqb l "infinity" then Ok PInf
        else match parse_f64 l with
             | Some x => Ok x
             | None => Err "Couln't parse f64-value"
             end
    | None => Ok PInf
    end.

  (** models: src/configs/routing.rs:269-290 (ProtoEntry::try_from) and
      src/defaults.rs:78 (ALPHA = 1.0). *)
  Definition proto_entry_of (r : raw_entry) : res proto_entry :=
    do s <- entry_scale (re_scale r);
    Ok {| pe_rid := re_id r;
          pe_alpha := match re_alpha r with Some a => a | None => Fin 1 end;
          pe_scale := s |}.

  (** models: src/configs/routing.rs:72-76 (loop body). *)
  Definition set_entry (ids : list string) (s : list f64 * list f64) (e : proto_entry)
    : res (list f64 * list f64) :=
    do i <- try_idx_of ids (pe_rid e);
    do a <- set (fst s) i (pe_alpha e);
    do t <- set (snd s) i (pe_scale e);
    Ok (a, t).

  (** models: src/configs/routing.rs:61-84 (Config::try_from_proto). *)
  Definition routing_from_proto (ec : edge_cfg) (algo : routing_algo) (es : list proto_entry)
    : res routing_cfg :=
    let dim := length (ec_units ec) in
    do s <- foldM (set_entry (ec_ids ec)) es (repeat f0 dim, repeat PInf dim);
    Ok {| rc_algo := algo; rc_alphas := fst s; rc_scales := snd s |}.

  (** models: src/configs/routing.rs:201-221 (ProtoConfig::try_from) followed by
      try_from_proto, as in try_from_str, :36-51. *)
  Definition routing_try_from (ec : edge_cfg) (algo : routing_algo) (rs : list raw_entry)
    : res routing_cfg :=
    do es <- mapM proto_entry_of rs;
    routing_from_proto ec algo es.
End Parse.
