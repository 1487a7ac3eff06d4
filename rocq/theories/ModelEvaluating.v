(** Model of src/io/writing/evaluating_balance.rs: exporting the edges and how
    often they have been used *)
From Coq Require Import String Ascii List Bool Arith NArith ZArith.
From Verif Require Import Base F64 ModelText ModelUnits ModelConfig ModelGraph ModelWriting.
Import ListNotations.
Open Scope string_scope.
Open Scope list_scope.
Open Scope nat_scope.

(** models: src/defaults.rs:116 (balancing::stats::csv_names::NUM_ROUTES). *)
Definition NUM_ROUTES : string := "num_routes".

(** models: src/io/writing/evaluating_balance.rs:49-64 (find_map over the
    categories). *)
Fixpoint edge_id_name (cs : list category) : option string :=
  match cs with
  | CMeta EdgeId id :: _ => Some id
  | _ :: cs => edge_id_name cs
  | [] => None
  end.

(** models: src/io/writing/evaluating_balance.rs:74-87 (tmp_cfg). *)
Definition workloads_cfg (wc : edges_cfg) (id : string) : edges_cfg :=
  {| wc_shortcuts := wc_shortcuts wc; wc_header := wc_header wc; wc_denormalizing := wc_denormalizing wc;
     wc_ids := [Some id; Some NUM_ROUTES] |}.

(** models: src/io/writing/evaluating_balance.rs:35-92 (write) for values of type
    usize, which is how it is called (src/bin/osmgraphing/mod.rs:310,
    src/bin/osmgraphing/balancing/mod.rs:354): the texts of both files.  The
    checks of the paths are left out. *)
Definition write_evaluation (show_f64 : f64 -> text) (g : graph) (wc : edges_cfg) (values : list nat) : res (text * text) :=
  do infos <- write_edges show_f64 g wc;
  match edge_id_name (ec_categories (cfg_edges (g_cfg g))) with
  | None => Err "For writing absolute workloads to csv, an edge-id should be given."
  | Some id =>
      do workloads <- write_external_values g (workloads_cfg wc id) (map show_nat values);
      Ok (infos, workloads)
  end.
