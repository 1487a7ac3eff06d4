(** Model of src/io/parsing/network/graph: checks of the configuration, and the
    parser of pbf-files *)
From Coq Require Import String Ascii List Bool Arith NArith ZArith QArith.
From Verif Require Import Base F64 ModelText ModelStreets ModelUnits ModelConfig ModelGraph ModelBuild.
Import ListNotations.
Open Scope string_scope.
Open Scope list_scope.
Open Scope nat_scope.

(** models: src/configs/parsing/nodes/metrics.rs:5-9 (UnitInfo). *)
Inductive node_unit : Set := Latitude | Longitude | Height.

(** models: src/configs/parsing/nodes/mod.rs:23-33 (Category). *)
Inductive node_cat : Set :=
| NCMeta (info : node_meta) (id : string)
| NCMetric (unit : node_unit) (id : string)
| NCIgnored.

(** models: src/configs/parsing/mod.rs:28-36 (Config).  [pc_cfg] is the part
    used by the builder, see [pc_consistent]. *)
Record parse_cfg : Type := mkParseCfg {
  pc_vehicles : vehicle_cfg;
  pc_nodes : list node_cat;
  pc_cfg : cfg;
}.

(** the categories of the nodes as seen by the builder *)
Definition forget_unit (c : node_cat) : node_category :=
  match c with
  | NCMeta i id => NMeta i id
  | NCMetric _ id => NMetric id
  | NCIgnored => NIgnored
  end.
Definition pc_consistent (pc : parse_cfg) : Prop := cfg_nodes (pc_cfg pc) = map forget_unit (pc_nodes pc).

(** *** check_config *)

(** models: the closures of src/io/parsing/network/graph/mod.rs:111-147. *)
Definition is_node_id (c : node_cat) : bool := match c with NCMeta NNodeId _ => true | _ => false end.
Definition is_latitude (c : node_cat) : bool := match c with NCMetric Latitude _ => true | _ => false end.
Definition is_longitude (c : node_cat) : bool := match c with NCMetric Longitude _ => true | _ => false end.

(** models: src/io/parsing/network/graph/mod.rs:151-176: metrics a generating
    category adds. *)
Definition added_metrics (c : gen_cat) : nat :=
  match c with
  | GMeta _ _ | GConvert _ _ _ _ | GMerge _ _ _ => 0
  | GCalc _ _ _ _ _ _ | GCopy _ _ _ _ | GHaversine _ _ | GCustom _ _ _ => 1
  end.

(** models: src/io/parsing/network/graph/mod.rs:208-229: is the category an
    index of a shortcut's edge? *)
Definition is_shortcut_idx (c : category) : bool :=
  match c with
  | CMeta ShortcutIdx0 _ | CMeta ShortcutIdx1 _ => true
  | _ => false
  end.

(** models: src/io/parsing/network/graph/mod.rs:106-239 (check_config).  [dim]
    is the compile-time constant SMALL_VEC_INLINE_SIZE (src/defaults.rs:33). *)
Definition check_config (dim : nat) (pc : parse_cfg) : res unit :=
  if negb (existsb is_node_id (pc_nodes pc)) then Err "config doesn't contain a NodeId"
  else if negb (existsb is_latitude (pc_nodes pc)) then Err "config doesn't contain a latitude"
  else if negb (existsb is_longitude (pc_nodes pc)) then Err "config doesn't contain a longitude"
  else if dim <? length (ec_units (cfg_edges (pc_cfg pc))) + list_sum (map added_metrics (cfg_gen_edges (pc_cfg pc)))
  then Err "config has more metrics than compiled to"
  else
    let count := length (filter is_shortcut_idx (ec_categories (cfg_edges (pc_cfg pc)))) in
    if (0 <? count) && negb (count =? 2) then Err "config should have 0 or 2 shortcut-indices"
    else Ok tt.

(** *** pbf-files *)

(** models: osmpbfreader's OsmObj.  Only objects which could be read are listed
    (`filter_map(Result::ok)`), in the file's order. *)
Inductive osm_obj : Type :=
| OsmNode (id : Z) (decimicro_lat decimicro_lon : Z)
| OsmWay (nodes : list Z) (ts : tags)
| OsmRelation.

(** models: src/io/parsing/network/graph/pbf.rs:26-62: is the category of an
    edge supported in pbf-files?  (SrcId and DstId are; nothing checks that they
    are configured.) *)
Definition pbf_supports (c : category) : bool :=
  match c with
  | CMeta SrcId _ | CMeta DstId _ => true
  | CMeta _ _ => false
  | CMetric KilometersPerHour _ | CMetric LaneCount _ => true
  | CMetric _ _ => false
  | CIgnored => true
  end.

(** models: src/io/parsing/network/graph/pbf.rs:22-67 (preprocess). *)
Definition pbf_preprocess (dim : nat) (pc : parse_cfg) : res unit :=
  do _ <- check_config dim pc;
  if forallb pbf_supports (ec_categories (cfg_edges (pc_cfg pc))) then Ok tt
  else Err "category is not supported in pbf-files".

(** models: src/io/parsing/network/graph/pbf.rs:127-158: the metrics of a way. *)
Definition category_metric (c : street) (ts : tags) (k : category) : list f64 :=
  match k with
  | CMetric KilometersPerHour _ => [fz (Z.of_N (parse_maxspeed c ts))]
  | CMetric LaneCount _ => [fz (Z.of_nat (parse_lane_count c ts))]
  | _ => []
  end.
Definition way_metrics (c : street) (ts : tags) (ks : list category) : list f64 :=
  flat_map (category_metric c ts) ks.

(** models: src/io/parsing/network/graph/pbf.rs:160-169: one edge for each pair
    of consecutive nodes. *)
Fixpoint consecutive (ms : list f64) (nodes : list Z) : list proto_edge :=
  match nodes with
  | a :: ((b :: _) as t) =>
      {| pe_id := None; pe_src := a; pe_dst := b; pe_metrics := ms; pe_sc := None |} :: consecutive ms t
  | _ => []
  end.

(** models: src/io/parsing/network/graph/pbf.rs:86-169 (the loop's body): the
    edges of a way. *)
Definition way_edges (pc : parse_cfg) (nodes : list Z) (ts : tags) : list proto_edge :=
  if length nodes <? 2 then []
  else
    match street_from ts with
    | None => []
    | Some c =>
        if negb (is_for c (vc_category (pc_vehicles pc)) (vc_picky (pc_vehicles pc))) then []
        else
          let '(is_oneway, is_reverse) := parse_oneway c ts in
          let nodes := if is_reverse then rev nodes else nodes in
          let back := if is_oneway then [] else firstn (length nodes - 1) nodes in
          consecutive (way_metrics c ts (ec_categories (cfg_edges (pc_cfg pc)))) (nodes ++ rev back)
    end.

(** models: src/io/parsing/network/graph/pbf.rs:69-173 (parse_ways). *)
Definition pbf_edges (pc : parse_cfg) (objs : list osm_obj) : list proto_edge :=
  flat_map (fun o => match o with OsmWay ns ts => way_edges pc ns ts | _ => [] end) objs.

(** models: kissunits::geo::Coordinate::from_decimicro, exactly: units of 1e-7
    degrees. *)
Definition from_decimicro (la lo : Z) : coord :=
  mkCoord (Fin (la # 10000000)) (Fin (lo # 10000000)).

(** models: src/io/parsing/network/graph/pbf.rs:174-199 (parse_nodes). *)
Definition pbf_nodes (objs : list osm_obj) : list proto_node :=
  flat_map (fun o => match o with
                     | OsmNode id la lo => [{| pn_id := id; pn_coord := from_decimicro la lo; pn_level := None |}]
                     | _ => []
                     end) objs.

(** models: src/io/parsing/network/graph/mod.rs:75-103 (parse_and_finalize) for
    pbf-files. *)
Definition pbf_graph (hav : coord -> coord -> f64) (dim : nat) (pc : parse_cfg) (ch1 ch2 : nat)
           (objs : list osm_obj) : res graph :=
  do _ <- pbf_preprocess dim pc;
  build hav (pc_cfg pc) ch1 ch2 (pbf_edges pc objs) (pbf_nodes objs).
