(** Model of the parts of src/configs used when building graphs and routing *)
From Coq Require Import String List Bool Arith.
From Verif Require Import Base F64 ModelUnits.
Import ListNotations.
Open Scope string_scope.
Open Scope list_scope.
Open Scope nat_scope.

(** models: src/configs/parsing/edges/mod.rs:138-151 (MetaInfo). *)
Inductive edge_meta : Set :=
| EdgeId | SrcId | SrcIdx | SrcLat | SrcLon
| DstId | DstIdx | DstLat | DstLon | ShortcutIdx0 | ShortcutIdx1.

(** models: src/configs/parsing/edges/mod.rs:93-104 (Category). *)
Inductive category : Set :=
| CMeta (info : edge_meta) (id : string)
| CMetric (unit : unit_info) (id : string)
| CIgnored.

(** models: the id-extraction in src/configs/parsing/edges/mod.rs:34-40. *)
Definition category_id (c : category) : option string :=
  match c with
  | CMeta _ id | CMetric _ id => Some id
  | CIgnored => None
  end.

(** models: src/configs/parsing/edges/metrics.rs:13-18 and
    src/configs/parsing/edges/mod.rs:10-17 (Config, metrics::Config). *)
Record edge_cfg : Type := mkEdgeCfg {
  ec_categories : list category;
  ec_normalized : bool;
  ec_units : list unit_info;
  ec_ids : list string;
}.

(** models: the inner loop of src/configs/parsing/edges/mod.rs:42-58: is the
    given id repeated among the later categories? *)
Fixpoint id_occurs (id : string) (cs : list category) : bool :=
  match cs with
  | [] => false
  | c :: t =>
      match category_id c with
      | Some id' => if String.eqb id id' then true else id_occurs id t
      | None => id_occurs id t
      end
  end.

(** models: src/configs/parsing/edges/mod.rs:31-59 (duplicate check). *)
Fixpoint has_dup_id (cs : list category) : bool :=
  match cs with
  | [] => false
  | c :: t =>
      match category_id c with
      | Some id => if id_occurs id t then true else has_dup_id t
      | None => has_dup_id t
      end
  end.

(** models: src/configs/parsing/edges/mod.rs:63-78 (metric units/ids in order
    of their categories). *)
Fixpoint metric_units (cs : list category) : list unit_info :=
  match cs with
  | [] => []
  | CMetric u _ :: t => u :: metric_units t
  | _ :: t => metric_units t
  end.
Fixpoint metric_ids (cs : list category) : list string :=
  match cs with
  | [] => []
  | CMetric _ i :: t => i :: metric_ids t
  | _ :: t => metric_ids t
  end.

(** models: src/configs/parsing/edges/mod.rs:22-90 (try_from). The default of
    `are_metrics_normalized` is false (src/defaults.rs:43). *)
Definition edge_cfg_try_from (cs : list category) (norm : option bool) : res edge_cfg :=
  if has_dup_id cs then Err "Config has duplicate id"
  else Ok {| ec_categories := cs;
             ec_normalized := match norm with Some b => b | None => false end;
             ec_units := metric_units cs;
             ec_ids := metric_ids cs |}.

(** models: `iter().position(..)` on ids. *)
Fixpoint position (id : string) (ids : list string) : option nat :=
  match ids with
  | [] => None
  | x :: t => if String.eqb x id then Some 0
              else match position id t with Some i => Some (S i) | None => None end
  end.

(** models: src/configs/parsing/edges/metrics.rs:21-37 (try_idx_of). *)
Definition try_idx_of (ids : list string) (id : string) : res nat :=
  match position id ids with
  | Some i => Ok i
  | None => Err "Metric-id should be existent in graph, but isn't."
  end.

(** models: src/configs/parsing/edges/metrics.rs:40-48 (idx_of, panics). *)
Definition idx_of (ids : list string) (id : string) : res nat :=
  expect (position id ids).

(** models: src/configs/parsing/generating/edges/mod.rs:99-110 (MetaInfo). *)
Inductive gen_meta : Set :=
| GEdgeId | GSrcIdx | GSrcLat | GSrcLon | GDstIdx | GDstLat | GDstLon
| GShortcutIdx0 | GShortcutIdx1.

(** models: src/configs/parsing/generating/edges/merge.rs (Category). *)
Inductive merge_cat : Set := MId (id : string) | MIgnored.

(** One whitespace-separated parameter of a csv row, seen through Rust's two
    parsers: `param.parse::<usize>()` and `param.parse::<f64>()`. *)
Record token : Type := mkToken { tok_usize : option nat; tok_f64 : option f64 }.

(** models: src/configs/parsing/generating/edges/mod.rs:12-52 (Category).
    Merge carries the functional rows of the file (after dropping the header,
    src/io/parsing/network/edges.rs:14-36), split into parameters. *)
Inductive gen_cat : Type :=
| GMeta (info : gen_meta) (id : string)
| GCustom (unit : unit_info) (id : string) (default : f64)
| GHaversine (unit : unit_info) (id : string)
| GCopy (from_unit : unit_info) (from_id : string) (to_unit : unit_info) (to_id : string)
| GConvert (from_unit : unit_info) (from_id : string) (to_unit : unit_info) (to_id : string)
| GCalc (res_unit : unit_info) (res_id : string)
        (a_unit : unit_info) (a_id : string) (b_unit : unit_info) (b_id : string)
| GMerge (rows : list (list token)) (edge_id : string) (edges_info : list merge_cat).

(** models: src/configs/parsing/generating/nodes (MetaInfo, Category). *)
Inductive node_meta : Set := NNodeId | NNodeIdx | NCHLevel.
(** models: src/configs/parsing/nodes (Category): meta or metric ids, or ignored. *)
Inductive node_category : Set :=
| NMeta (info : node_meta) (id : string)
| NMetric (id : string)
| NIgnored.

(** models: src/configs/parsing/mod.rs (Config), restricted to what
    GraphBuilder::finalize uses. *)
Record cfg : Type := mkCfg {
  cfg_edges : edge_cfg;
  cfg_nodes : list node_category;
  cfg_gen_nodes : list (node_meta * string);
  cfg_gen_edges : list gen_cat;
}.
