(** Model of src/network/graph/mod.rs: the graph and its accessors *)
From Coq Require Import String List Bool Arith ZArith.
From Verif Require Import Base F64 ModelUnits ModelConfig.
Import ListNotations.
Open Scope string_scope.
Open Scope list_scope.
Open Scope nat_scope.

(** models: kissunits::geo::Coordinate { lat, lon }. *)
Record coord : Type := mkCoord { lat : f64; lon : f64 }.

(** models: src/network/graph/mod.rs:78-103 (Graph).  Indices (NodeIdx,
    EdgeIdx, src/network/indexing.rs) are [nat], node ids [Z], edge ids [nat]. *)
Record graph : Type := mkGraph {
  g_cfg : cfg;
  node_ids : list Z;
  node_coords : list coord;
  node_levels : list nat;
  fwd_dsts : list nat;
  fwd_offsets : list nat;
  fwd_to_fwd : list nat;
  bwd_dsts : list nat;
  bwd_offsets : list nat;
  bwd_to_fwd : list nat;
  metrics : list (list f64);
  means : option (list f64);
  edge_ids : list (option nat);
  edge_ids_map : list (nat * nat);
  sc_offsets : list nat;
  sc_edges_arr : list (nat * nat);
}.

(** models: src/routing/dijkstra.rs:345-349 (Direction); also used to select
    between fwd_edges() and bwd_edges(). *)
Inductive dir : Set := FWD | BWD.

(** the opposite direction, src/routing/dijkstra.rs:63-68 (opp_dir_idx). *)
Definition opp (d : dir) : dir := match d with FWD => BWD | BWD => FWD end.

(** *** NodeAccessor *)

(** models: src/network/graph/mod.rs:458-460 (count). *)
Definition node_count (g : graph) : nat := length (node_ids g).
(** models: src/network/graph/mod.rs:462-464 (id). *)
Definition node_id (g : graph) (i : nat) : res Z := idx (node_ids g) i.
(** models: src/network/graph/mod.rs:466-468 (coord). *)
Definition node_coord (g : graph) (i : nat) : res coord := idx (node_coords g) i.
(** models: src/network/graph/mod.rs:470-472 (level). *)
Definition node_level (g : graph) (i : nat) : res nat := idx (node_levels g) i.

(** comparison of the i-th array element with the searched id, as passed to
    `binary_search` (core::slice); out of bounds never happens there. *)
Definition cmp_at (ids : list Z) (id : Z) (i : nat) : comparison :=
  match nth_error ids i with
  | Some x => Z.compare x id
  | None => Gt
  end.

(** models: src/network/graph/mod.rs:474-479 (idx_from). *)
Definition node_idx_from (ids : list Z) (id : Z) : nat + nat :=
  binary_search (cmp_at ids id) (length ids).

(** models: src/network/graph/mod.rs:333-339 (Node). *)
Record node : Type := mkNode { n_idx : nat; n_id : Z; n_coord : coord; n_level : nat }.

(** models: src/network/graph/mod.rs:489-499 (create). *)
Definition node_create (g : graph) (i : nat) : res node :=
  do id <- node_id g i;
  do c <- node_coord g i;
  do l <- node_level g i;
  Ok {| n_idx := i; n_id := id; n_coord := c; n_level := l |}.

(** models: src/network/graph/mod.rs:481-487 (create_from). *)
Definition node_create_from (g : graph) (id : Z) : res (option node) :=
  match node_idx_from (node_ids g) id with
  | inl i => do n <- node_create g i; Ok (Some n)
  | inr _ => Ok None
  end.

(** *** EdgeAccessor; [d] selects fwd_edges() (:119-130) or bwd_edges() (:132-143). *)

(** models: the field choices in src/network/graph/mod.rs:119-143. *)
Definition xwd_dsts (g : graph) (d : dir) : list nat :=
  match d with FWD => fwd_dsts g | BWD => bwd_dsts g end.
Definition xwd_offsets (g : graph) (d : dir) : list nat :=
  match d with FWD => fwd_offsets g | BWD => bwd_offsets g end.
Definition xwd_to_fwd (g : graph) (d : dir) : list nat :=
  match d with FWD => fwd_to_fwd g | BWD => bwd_to_fwd g end.

(** models: src/network/graph/mod.rs:541-543 (count). *)
Definition edge_count (g : graph) (d : dir) : nat := length (xwd_dsts g d).
(** models: src/network/graph/mod.rs:585-587 (dst_idx). *)
Definition dst_idx (g : graph) (d : dir) (e : nat) : res nat := idx (xwd_dsts g d) e.
(** models: src/network/graph/mod.rs:552-554 (try_id). *)
Definition edge_try_id (g : graph) (e : nat) : res (option nat) := idx (edge_ids g) e.
(** models: src/network/graph/mod.rs:556-558 (id; panics when absent). *)
Definition edge_id (g : graph) (e : nat) : res nat :=
  do o <- edge_try_id g e; expect o.

(** comparison used by binary_search_by_key in try_idx_from. *)
Definition cmp_key_at (m : list (nat * nat)) (id : nat) (i : nat) : comparison :=
  match nth_error m i with
  | Some (k, _) => Nat.compare k id
  | None => Gt
  end.

(** models: src/network/graph/mod.rs:560-576 (try_idx_from). *)
Definition edge_try_idx_from (g : graph) (id : nat) : res nat :=
  match binary_search (cmp_key_at (edge_ids_map g) id) (length (edge_ids_map g)) with
  | inl i => do p <- idx (edge_ids_map g) i; Ok (snd p)
  | inr _ => Err "The provided edge-id is expected to be in the graph, but is not."
  end.

(** models: src/network/graph/mod.rs:593-596 (is_shortcut); the subtraction
    underflows (panics) if the offsets decrease. *)
Definition is_shortcut (g : graph) (e : nat) : res bool :=
  do hi <- idx (sc_offsets g) (e + 1);
  do lo <- idx (sc_offsets g) e;
  if hi <? lo then Panic else Ok (negb (hi - lo =? 0)).

(** models: src/network/graph/mod.rs:598-604 (sc_edges). *)
Definition sc_edges (g : graph) (e : nat) : res (option (nat * nat)) :=
  do b <- is_shortcut g e;
  if b then
    do o <- idx (sc_offsets g) e;
    do p <- idx (sc_edges_arr g) o;
    Ok (Some p)
  else Ok None.

(** models: src/network/graph/mod.rs:625-632 (offset_indices) and :606-609
    (starting_from).  A range with start > end is empty. *)
Definition starting_from (g : graph) (d : dir) (v : nat) : res (list nat) :=
  do lo <- idx (xwd_offsets g d) v;
  do hi <- idx (xwd_offsets g d) (v + 1);
  mapM (idx (xwd_to_fwd g d)) (seq lo (hi - lo)).

(** models: src/network/graph/mod.rs:614-623 (between), linear search. *)
Fixpoint find_dst (g : graph) (d : dir) (dst : nat) (es : list nat) : res (option nat) :=
  match es with
  | [] => Ok None
  | e :: t =>
      do x <- dst_idx g d e;
      if x =? dst then Ok (Some e) else find_dst g d dst t
  end.
Definition between (g : graph) (d : dir) (src dst : nat) : res (option nat) :=
  do es <- starting_from g d src;
  find_dst g d dst es.

(** *** MetricAccessor *)

(** models: src/network/graph/mod.rs:645-647 (dim). *)
Definition metric_dim (g : graph) : nat := length (ec_units (cfg_edges (g_cfg g))).
(** models: src/network/graph/mod.rs:649-651 (mean). *)
Definition metric_mean (g : graph) (i : nat) : res (option f64) :=
  match means g with
  | None => Ok None
  | Some ms => do m <- idx ms i; Ok (Some m)
  end.
(** models: src/network/graph/mod.rs:654-684 (Index for MetricAccessor) and
    HalfEdge::metrics (:402-404). *)
Definition edge_metrics (g : graph) (e : nat) : res (list f64) := idx (metrics g) e.
