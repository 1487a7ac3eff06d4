(** Model of src/configs and src/multi_ch_constructor/configs.rs: from the nodes
    of a yaml document to the configurations.  Paths are text. *)
From Coq Require Import String Ascii List Bool Arith NArith ZArith QArith.
From Verif Require Import Base F64 ModelUnits ModelConfig ModelText ModelStreets ModelDijkstra ModelParsing
  ModelWriting ModelBalancing ModelRoutingCfg ModelYaml.
Import ListNotations.
Open Scope string_scope.
Open Scope list_scope.
Open Scope nat_scope.

(** *** Names *)

(** models: src/configs/parsing/edges/metrics.rs:203-214 and
    src/configs/parsing/generating/edges/metrics.rs:314-324 (RawUnitInfo). *)
Definition unit_names : list (string * unit_info) :=
  [("Meters", Meters); ("Kilometers", Kilometers); ("Seconds", Seconds); ("Minutes", Minutes); ("Hours", Hours);
   ("KilometersPerHour", KilometersPerHour); ("LaneCount", LaneCount); ("F64", UF64)].

(** models: src/configs/parsing/edges/mod.rs:270-277 (RawMetaInfo). *)
Definition edge_meta_names : list (string * edge_meta) :=
  [("EdgeId", EdgeId); ("SrcId", SrcId); ("DstId", DstId); ("ShortcutIdx0", ShortcutIdx0); ("ShortcutIdx1", ShortcutIdx1)].

(** models: src/configs/parsing/nodes/mod.rs:159-163 (RawMetaInfo). *)
Definition node_meta_names : list (string * node_meta) := [("NodeId", NNodeId); ("CHLevel", NCHLevel)].

(** models: src/configs/parsing/nodes/metrics.rs:47-51 (RawUnitInfo). *)
Definition node_unit_names : list (string * node_unit) := [("Latitude", Latitude); ("Longitude", Longitude)].

(** models: src/configs/parsing/generating/nodes/mod.rs:98-101 (RawMetaInfo). *)
Definition gen_node_names : list (string * node_meta) := [("NodeIdx", NNodeIdx)].

(** models: src/configs/parsing/generating/edges/mod.rs:293-302 (RawMetaInfo). *)
Definition gen_meta_names : list (string * gen_meta) :=
  [("EdgeId", GEdgeId); ("SrcIdx", GSrcIdx); ("SrcLat", GSrcLat); ("SrcLon", GSrcLon);
   ("DstIdx", GDstIdx); ("DstLat", GDstLat); ("DstLon", GDstLon)].

(** models: src/network/mod.rs:88-93 (vehicles::Category). *)
Definition vehicle_names : list (string * vehicle) := [("Car", Car); ("Bicycle", Bicycle); ("Pedestrian", Walker)].

(** models: src/configs/routing.rs:318-324 (RawExploratorAlgo); is it the
    contraction hierarchies' Dijkstra? *)
Definition explorator_names : list (string * bool) := [("Dijkstra", false); ("CHDijkstra", true)].

(** *** Configurations *)

(** models: src/configs/parsing/generating/edges/mod.rs:12-52 (Category).  Unlike
    in [gen_cat], merging still names its file. *)
Inductive gen_doc : Type :=
| DGen (g : gen_cat)
| DMerge (from : string) (header : bool) (edge_id : string) (info : list merge_cat).

(** models: src/configs/parsing/mod.rs:28-36 (Config) and
    src/configs/parsing/generating/mod.rs:5-9 (Config). *)
Record parsing_doc : Type := mkParsingDoc {
  pd_map_file : string;
  pd_vehicles : vehicle_cfg;
  pd_nodes : list node_cat;
  pd_edges : edge_cfg;
  pd_generating : option (list (node_meta * string) * list gen_doc);
}.

(** models: src/configs/writing/network/edges.rs:13-21 (Config). *)
Record edges_doc : Type := mkEdgesDoc { ed_file : string; ed_cfg : edges_cfg }.

(** models: src/configs/writing/network/graph/mod.rs:14-20 (Config).  The file
    of its edges is its own. *)
Record graph_doc : Type := mkGraphDoc { gd_file : string; gd_cfg : graph_cfg }.

(** models: src/configs/writing/routing.rs:12-17 and :76-79 (Config, Category). *)
Record pairs_doc : Type := mkPairsDoc { pr_file : string; pr_seed : N; pr_max : N }.

(** models: src/configs/routing.rs:297-305 (RawContent). *)
Record routing_doc : Type := mkRoutingDoc {
  rd_pairs : option string;
  rd_algo : routing_algo;
  rd_metrics : list raw_entry;
}.

(** models: src/configs/balancing.rs:150-154 (MonitoringConfig). *)
Record monitoring_doc : Type := mkMonitoringDoc { md_edges : edges_doc; md_smarts : bool }.

(** models: src/multi_ch_constructor/configs.rs:8-19 (Config). *)
Record mch_doc : Type := mkMchDoc {
  mc_graph : string;
  mc_contracted : string;
  mc_ratio : string;
  mc_dim : N;
  mc_accuracy : f64;
  mc_threads : N;
  mc_osm_ids : bool;
  mc_external_ids : bool;
}.

(** models: src/configs/balancing.rs:14-27 (Config). *)
Record balancing_doc : Type := mkBalancingDoc {
  bd_results : string;
  bd_mch : mch_doc;
  bd_iter0 : string;
  bd_iteri : string;
  bd_num_iter : N;
  bd_monitoring : monitoring_doc;
  bd_threads : N;
  bd_seed : N;
  bd_cfg : balancing_cfg;
}.

(** models: src/configs/evaluating_balance.rs:8-14 (Config). *)
Record evaluating_doc : Type := mkEvaluatingDoc {
  ev_seed : N;
  ev_results : string;
  ev_monitoring : monitoring_doc;
  ev_threads : N;
}.

(** models: src/defaults.rs:1, :105, src/multi_ch_constructor/defaults.rs:1-3. *)
Definition SEED : N := 42%N.
Definition NUM_THREADS : N := 4%N.
Definition COST_ACCURACY : f64 := Fin (1 # 10000).
Definition CONTRACTION_RATIO : string := "99.8".

(** `unwrap_or` *)
Definition or_else {A} (a : A) (o : option A) : A := match o with Some x => x | None => a end.

(** *** Extensions of files *)

(** the file name of a path *)
Fixpoint file_name_from (cur : text) (s : text) : text :=
  match s with
  | [] => cur
  | c :: s => if Ascii.eqb c "/"%char then file_name_from [] s else file_name_from (cur ++ [c]) s
  end.

(** the text after the last dot and the text before it *)
Fixpoint after_last_dot (before cur : text) (found : option (text * text)) (s : text) : option (text * text) :=
  match s with
  | [] => match found with Some (b, _) => Some (b, cur) | None => None end
  | c :: s =>
      if Ascii.eqb c "."%char
      then after_last_dot (before ++ [c]) [] (Some (before, [])) s
      else after_last_dot (before ++ [c]) (cur ++ [c]) found s
  end.

(** models: std::path::Path::extension as used in src/io/mod.rs:29-46
    (ext_from), for paths which don't end in a slash: what follows the last dot of the
    file name, unless nothing precedes the dot or the name is `..`. *)
Definition extension (path : string) : option text :=
  let name := file_name_from [] (list_ascii_of_string path) in
  if text_eqb name (T "..") then None
  else match after_last_dot [] [] None name with
       | Some ([], _) | None => None
       | Some (_, ext) => Some ext
       end.

(** models: src/io/mod.rs:55-77 (find_supported_ext). *)
Definition find_supported_ext (exts : list string) (path : string) : res string :=
  match extension path with
  | None => Err "The file has no extension."
  | Some ext =>
      match find (fun e => text_eqb (T e) (to_lower ext)) exts with
      | Some e => Ok e
      | None => Err "Unsupported extension was given."
      end
  end.

(** models: the implementations of SupportingFileExts: src/configs/parsing/mod.rs:38-42
    (the same in all configurations), src/io/parsing/network/graph/mod.rs:64-68,
    src/io/writing/network/graph/mod.rs:33-37, src/io/writing/network/edges.rs:127-131,
    src/io/writing/routing/mod.rs:29-33. *)
Definition CFG_EXTS : list string := ["yaml"].
Definition MAP_EXTS : list string := ["pbf"; "fmi"].
Definition GRAPH_EXTS : list string := ["fmi"].
Definition EDGES_EXTS : list string := ["csv"].
Definition PAIRS_EXTS : list string := ["route-pairs"].

Section Documents.
  Variable sc : scalars.

  (** ids and paths are strings *)
  Notation str := (read_string sc false).

  (** *** Section parsing *)

  (** models: src/configs/parsing/vehicles.rs:43-48 (RawConfig). *)
  Definition read_vehicles (y : yaml) : res vehicle_cfg :=
    do f <- fields true true ["category"; "are_drivers_picky"] y;
    do c <- required (keyword sc vehicle_names) (f "category");
    do p <- required (read_bool sc) (f "are_drivers_picky");
    Ok {| vc_category := c; vc_picky := p |}.

  (** models: src/configs/parsing/nodes/mod.rs:145-157 (RawCategory) with the
      conversions of :97-139 and :22-76. *)
  Definition read_node (y : yaml) : res node_cat :=
    do v <- variant y;
    if String.eqb (fst v) "meta" then
      with_content (fun y =>
        do f <- fields true false ["info"; "id"] y;
        do i <- required (keyword sc node_meta_names) (f "info");
        do id <- required str (f "id");
        Ok (NCMeta i id)) (snd v)
    else if String.eqb (fst v) "metric" then
      with_content (fun y =>
        do f <- fields true false ["unit"; "id"] y;
        do u <- required (keyword sc node_unit_names) (f "unit");
        do id <- required str (f "id");
        Ok (NCMetric u id)) (snd v)
    else if String.eqb (fst v) "ignored" then without_content sc NCIgnored (snd v)
    else Err "unknown variant".

  (** models: src/configs/parsing/edges/mod.rs:256-268 (RawCategory) with the
      conversions of :93-163 and :197-246. *)
  Definition read_edge (y : yaml) : res category :=
    do v <- variant y;
    if String.eqb (fst v) "meta" then
      with_content (fun y =>
        do f <- fields true false ["info"; "id"] y;
        do i <- required (keyword sc edge_meta_names) (f "info");
        do id <- required str (f "id");
        Ok (CMeta i id)) (snd v)
    else if String.eqb (fst v) "metric" then
      with_content (fun y =>
        do f <- fields true false ["unit"; "id"] y;
        do u <- required (keyword sc unit_names) (f "unit");
        do id <- required str (f "id");
        Ok (CMetric u id)) (snd v)
    else if String.eqb (fst v) "ignored" then without_content sc CIgnored (snd v)
    else Err "unknown variant".

  (** models: src/configs/parsing/edges/mod.rs:248-254 (RawConfig), :188-195 and
      :19-91. *)
  Definition read_edges (y : yaml) : res (list category * option bool) :=
    do f <- fields true true ["will_normalize_metrics_by_mean"; "data"] y;
    do n <- optional sc (read_bool sc) (f "will_normalize_metrics_by_mean");
    do cs <- required (read_list read_edge) (f "data");
    Ok (cs, n).

  (** models: src/configs/parsing/generating/nodes/mod.rs:88-96 (RawCategory). *)
  Definition read_gen_node (y : yaml) : res (node_meta * string) :=
    do v <- variant y;
    if String.eqb (fst v) "meta" then
      with_content (fun y =>
        do f <- fields true false ["info"; "id"] y;
        do i <- required (keyword sc gen_node_names) (f "info");
        do id <- required str (f "id");
        Ok (i, id)) (snd v)
    else Err "unknown variant".

  (** models: src/configs/parsing/generating/edges/metrics.rs:308-312
      (RawCategory). *)
  Definition read_metric_ref (y : yaml) : res (unit_info * string) :=
    do f <- fields true false ["unit"; "id"] y;
    do u <- required (keyword sc unit_names) (f "unit");
    do id <- required str (f "id");
    Ok (u, id).

  (** models: src/configs/parsing/generating/edges/merge.rs:34-39 (RawCategory),
      also src/configs/writing/network/edges.rs:174-179 and
      src/configs/writing/network/graph/nodes.rs:38-43, where ignored ids are
      None. *)
  Definition read_id (buffered : bool) (y : yaml) : res (option string) :=
    do v <- variant y;
    if String.eqb (fst v) "id" then
      with_content (fun y => do id <- read_string sc buffered y; Ok (Some id)) (snd v)
    else if String.eqb (fst v) "ignored" then without_content sc None (snd v)
    else Err "unknown variant".

  (** models: src/configs/parsing/generating/edges/merge.rs:10-32. *)
  Definition merge_cat_of (o : option string) : merge_cat := match o with Some id => MId id | None => MIgnored end.

  (** models: src/configs/parsing/generating/edges/mod.rs:253-291 (RawCategory)
      with the conversions of :175-220 and :54-95. *)
  Definition read_gen_edge (y : yaml) : res gen_doc :=
    do v <- variant y;
    if String.eqb (fst v) "meta" then
      with_content (fun y =>
        do f <- fields true false ["info"; "id"] y;
        do i <- required (keyword sc gen_meta_names) (f "info");
        do id <- required str (f "id");
        Ok (DGen (GMeta i id))) (snd v)
    else if String.eqb (fst v) "custom" then
      with_content (fun y =>
        do f <- fields true false ["unit"; "id"; "default"] y;
        do u <- optional sc (keyword sc unit_names) (f "unit");
        do id <- required str (f "id");
        do d <- optional sc (read_f64 sc) (f "default");
        Ok (DGen (GCustom (or_else UF64 u) id (or_else f0 d)))) (snd v)
    else if String.eqb (fst v) "haversine" then
      with_content (fun y =>
        do f <- fields true false ["unit"; "id"] y;
        do u <- required (keyword sc unit_names) (f "unit");
        do id <- required str (f "id");
        Ok (DGen (GHaversine u id))) (snd v)
    else if String.eqb (fst v) "copy" then
      with_content (fun y =>
        do f <- fields true false ["from"; "to"] y;
        do a <- required read_metric_ref (f "from");
        do b <- required read_metric_ref (f "to");
        Ok (DGen (GCopy (fst a) (snd a) (fst b) (snd b)))) (snd v)
    else if String.eqb (fst v) "convert" then
      with_content (fun y =>
        do f <- fields true false ["from"; "to"] y;
        do a <- required read_metric_ref (f "from");
        do b <- required read_metric_ref (f "to");
        Ok (DGen (GConvert (fst a) (snd a) (fst b) (snd b)))) (snd v)
    else if String.eqb (fst v) "calc" then
      with_content (fun y =>
        do f <- fields true false ["result"; "a"; "b"] y;
        do r <- required read_metric_ref (f "result");
        do a <- required read_metric_ref (f "a");
        do b <- required read_metric_ref (f "b");
        Ok (DGen (GCalc (fst r) (snd r) (fst a) (snd a) (fst b) (snd b)))) (snd v)
    else if String.eqb (fst v) "merge" then
      with_content (fun y =>
        do f <- fields true false ["from"; "with_header-line"; "edge-id"; "edges-info"] y;
        do from <- required str (f "from");
        do h <- optional sc (read_bool sc) (f "with_header-line");
        do e <- required str (f "edge-id");
        do ids <- required (read_list (read_id false)) (f "edges-info");
        Ok (DMerge from (or_else true h) e (map merge_cat_of ids))) (snd v)
    else Err "unknown variant".

  (** models: src/configs/parsing/generating/mod.rs:49-54 (RawConfig). *)
  Definition read_generating (y : yaml) : res (list (node_meta * string) * list gen_doc) :=
    do f <- fields true true ["nodes"; "edges"] y;
    do ns <- required (read_list read_gen_node) (f "nodes");
    do es <- required (read_list read_gen_edge) (f "edges");
    Ok (ns, es).

  (** models: src/configs/parsing/mod.rs:132-142 (RawContent), :112-124 and
      :84-101 (ProtoConfig, Config). *)
  Definition read_parsing_content (y : yaml) : res parsing_doc :=
    do f <- fields true true ["map-file"; "vehicles"; "nodes"; "edges"; "generating"] y;
    do m <- required str (f "map-file");
    do v <- optional sc read_vehicles (f "vehicles");
    do ns <- required (read_list read_node) (f "nodes");
    do es <- required read_edges (f "edges");
    do g <- optional sc read_generating (f "generating");
    do ec <- edge_cfg_try_from (fst es) (snd es);
    Ok {| pd_map_file := m;
          pd_vehicles := or_else {| vc_category := Car; vc_picky := true |} v;
          pd_nodes := ns;
          pd_edges := ec;
          pd_generating := g |}.

  (** models: src/configs/parsing/mod.rs:126-130 (RawConfig) and :45-76
      (try_from_yaml, from the document on). *)
  Definition read_parsing (y : yaml) : res parsing_doc :=
    do f <- fields true false ["parsing"] y;
    do d <- required read_parsing_content (f "parsing");
    do _ <- find_supported_ext MAP_EXTS (pd_map_file d);
    Ok d.

  (** *** Section writing *)

  (** models: src/configs/writing/network/edges.rs:162-172 (RawContent) with
      :129-147 and :35-49.  [buffered]: it is read through a flattened field. *)
  Definition read_edges_content (buffered : bool) (y : yaml) : res edges_doc :=
    do f <- fields true true ["file"; "with_shortcuts"; "will_denormalize_metrics_by_mean"; "ids"] y;
    do file <- required (read_string sc buffered) (f "file");
    do s <- optional sc (read_bool sc) (f "with_shortcuts");
    do d <- optional sc (read_bool sc) (f "will_denormalize_metrics_by_mean");
    do ids <- required (read_list (read_id buffered)) (f "ids");
    Ok {| ed_file := file;
          ed_cfg := {| wc_shortcuts := or_else false s; wc_header := true;
                       wc_denormalizing := or_else false d; wc_ids := ids |} |}.

  (** models: src/configs/writing/network/edges.rs:149-160 (WrappedRawConfig,
      RawConfig) and :65-96 (try_from_yaml). *)
  Definition read_writing_edges (y : yaml) : res edges_doc :=
    do f <- fields true false ["writing"] y;
    do d <- required (fun y => do f <- fields true false ["edges-info"] y;
                               required (read_edges_content false) (f "edges-info")) (f "writing");
    do _ <- find_supported_ext EDGES_EXTS (ed_file d);
    Ok d.

  (** models: src/configs/writing/network/graph/mod.rs:145-153
      (raw_edges::Config). *)
  Definition read_graph_edges (y : yaml) : res (option bool * option bool * list (option string)) :=
    do f <- fields true true ["with_shortcuts"; "will_denormalize_metrics_by_mean"; "ids"] y;
    do s <- optional sc (read_bool sc) (f "with_shortcuts");
    do d <- optional sc (read_bool sc) (f "will_denormalize_metrics_by_mean");
    do ids <- required (read_list (read_id false)) (f "ids");
    Ok (s, d, ids).

  (** models: src/configs/writing/network/graph/mod.rs:131-138 (RawContent) with
      :70-117, and nodes.rs:20-36. *)
  Definition read_graph_content (y : yaml) : res graph_doc :=
    do f <- fields true true ["map-file"; "nodes"; "edges"] y;
    do file <- required str (f "map-file");
    do ns <- required (read_list (read_id false)) (f "nodes");
    do es <- required read_graph_edges (f "edges");
    Ok {| gd_file := file;
          gd_cfg := {| gc_nodes := ns; gc_shortcuts := or_else false (fst (fst es));
                       gc_denormalizing := or_else false (snd (fst es)); gc_edges := snd es |} |}.

  (** models: src/configs/writing/network/graph/mod.rs:119-129 (WrappedRawConfig,
      RawConfig) and :29-60 (try_from_yaml). *)
  Definition read_writing_graph (y : yaml) : res graph_doc :=
    do f <- fields true false ["writing"] y;
    do d <- required (fun y => do f <- fields true false ["graph"] y;
                               required read_graph_content (f "graph")) (f "writing");
    do _ <- find_supported_ext GRAPH_EXTS (gd_file d);
    Ok d.

  (** models: src/configs/writing/routing.rs:146-150 (RawCategory::RandomOrAll). *)
  Definition read_random_or_all (y : yaml) : res (N * N) :=
    do f <- fields true false ["seed"; "max_count"] y;
    do s <- optional sc (read_u64 sc) (f "seed");
    do m <- required (read_u64 sc) (f "max_count");
    Ok (or_else SEED s, m).

  (** models: src/configs/writing/routing.rs:138-144 (RawContent) with :99-124. *)
  Definition read_pairs_content (y : yaml) : res pairs_doc :=
    do f <- fields false true ["file"; "random_or_all"] y;
    do file <- required str (f "file");
    do c <- required read_random_or_all (f "random_or_all");
    Ok {| pr_file := file; pr_seed := fst c; pr_max := snd c |}.

  (** models: src/configs/writing/routing.rs:126-136 (WrappedRawConfig,
      RawConfig) and :35-66 (try_from_yaml). *)
  Definition read_writing_pairs (y : yaml) : res pairs_doc :=
    do f <- fields true false ["writing"] y;
    do d <- required (fun y => do f <- fields true false ["route-pairs"] y;
                               required read_pairs_content (f "route-pairs")) (f "writing");
    do _ <- find_supported_ext PAIRS_EXTS (pr_file d);
    Ok d.

  (** *** Section routing *)

  (** models: src/configs/routing.rs:326-333 (RawEntry). *)
  Definition read_entry (y : yaml) : res raw_entry :=
    do f <- fields true true ["id"; "alpha"; "tolerated-scale"] y;
    do id <- required str (f "id");
    do a <- optional sc (read_f64 sc) (f "alpha");
    do t <- optional sc str (f "tolerated-scale");
    Ok {| re_id := id; re_alpha := a; re_scale := t |}.

  (** models: src/configs/routing.rs:307-316 (RawRoutingAlgo; with feature gpl). *)
  Definition read_algo (y : yaml) : res routing_algo :=
    do v <- variant y;
    if String.eqb (fst v) "Dijkstra" then without_content sc ADijkstra (snd v)
    else if String.eqb (fst v) "CHDijkstra" then without_content sc ACHDijkstra (snd v)
    else if String.eqb (fst v) "Explorator" then
      with_content (fun y =>
        do f <- fields true true ["algo"] y;
        do ch <- required (keyword sc explorator_names) (f "algo");
        Ok (AExplorator ch)) (snd v)
    else Err "unknown variant".

  (** models: src/configs/routing.rs:291-305 (RawConfig, RawContent). *)
  Definition read_routing (y : yaml) : res routing_doc :=
    do f <- fields true false ["routing"] y;
    required (fun y =>
      do f <- fields true true ["route-pairs-file"; "algorithm"; "metrics"] y;
      do p <- optional sc str (f "route-pairs-file");
      do a <- required read_algo (f "algorithm");
      do ms <- required (read_list read_entry) (f "metrics");
      Ok {| rd_pairs := p; rd_algo := a; rd_metrics := ms |}) (f "routing").

  (** models: src/configs/routing.rs:93-123 (try_from_yaml, from the document
      on). *)
  Definition read_routing_cfg (parse_f64 : string -> option f64) (ec : edge_cfg) (y : yaml)
    : res (option string * routing_cfg) :=
    do d <- read_routing y;
    do c <- routing_try_from parse_f64 ec (rd_algo d) (rd_metrics d);
    Ok (rd_pairs d, c).

  (** *** Sections balancing, evaluating_balance and multi-ch-constructor *)

  (** models: src/multi_ch_constructor/configs.rs:144-165 (RawContent) with
      :119-135 and :87-102; the minimal cost is read and dropped. *)
  Definition read_mch_content (buffered : bool) (y : yaml) : res mch_doc :=
    do f <- fields true true ["fmi-graph"; "contracted-graph"; "dimension"; "minimum-cost"; "cost-accuracy";
                              "contraction-ratio"; "number_of_threads"; "is_printing_osm-ids";
                              "is_using_external_edge-ids"] y;
    do g <- required (read_string sc buffered) (f "fmi-graph");
    do c <- required (read_string sc buffered) (f "contracted-graph");
    do d <- required (read_u64 sc) (f "dimension");
    do _ <- optional sc (read_f64 sc) (f "minimum-cost");
    do a <- optional sc (read_f64 sc) (f "cost-accuracy");
    do r <- optional sc (read_string sc buffered) (f "contraction-ratio");
    do t <- optional sc (read_u64 sc) (f "number_of_threads");
    do o <- required (read_bool sc) (f "is_printing_osm-ids");
    do e <- required (read_bool sc) (f "is_using_external_edge-ids");
    Ok {| mc_graph := g; mc_contracted := c; mc_ratio := or_else CONTRACTION_RATIO r; mc_dim := d;
          mc_accuracy := or_else COST_ACCURACY a; mc_threads := or_else NUM_THREADS t;
          mc_osm_ids := o; mc_external_ids := e |}.

  (** models: src/multi_ch_constructor/configs.rs:137-142 (RawConfig) and :50-77
      (try_from_yaml). *)
  Definition read_mch (y : yaml) : res mch_doc :=
    do f <- fields true false ["multi-ch-constructor"] y;
    required (read_mch_content false) (f "multi-ch-constructor").

  (** models: src/configs/balancing.rs:281-288 (RawMonitoringConfig, whose
      edges-info is flattened) with :210-217 and :156-165. *)
  Definition read_monitoring (y : yaml) : res monitoring_doc :=
    do f <- fields false true ["edges-info"; "export_vehicles_for_SMARTS"] y;
    do e <- required (read_edges_content true) (f "edges-info");
    do s <- optional sc (read_bool sc) (f "export_vehicles_for_SMARTS");
    Ok {| md_edges := e; md_smarts := or_else false s |}.

  (** models: src/configs/balancing.rs:290-310 (RawOptimization,
      RawOptimizationMethod). *)
  Definition read_method (y : yaml) : res opt_method :=
    do v <- variant y;
    if String.eqb (fst v) "explicit_euler" then
      with_content (fun y =>
        do f <- fields true true ["correction"] y;
        do c <- required (read_f64 sc) (f "correction");
        Ok (ExplicitEuler c)) (snd v)
    else if String.eqb (fst v) "averaging" then without_content sc Averaging (snd v)
    else Err "unknown variant".
  Definition read_optimization (y : yaml) : res (string * opt_method) :=
    do f <- fields true true ["metric-id"; "method"] y;
    do m <- required str (f "metric-id");
    do o <- required read_method (f "method");
    Ok (m, o).

  (** models: src/configs/balancing.rs:251-279 (RawConfig, RawContent with a
      flattened multi-ch-constructor), :184-202 and :95-116.  An overflow of the
      number of iterations is not modelled. *)
  Definition read_balancing (y : yaml) : res balancing_doc :=
    do f <- fields true false ["balancing"] y;
    required (fun y =>
      do f <- fields false true ["seed"; "results-dir"; "iter-0-cfg"; "iter-i-cfg"; "multi-ch-constructor";
                                 "number_of_metric-updates"; "monitoring"; "optimizing_with"; "number_of_threads";
                                 "min_new_metric"; "throw_err_when_new_metric_is_zero"] y;
      do s <- optional sc (read_u64 sc) (f "seed");
      do r <- required str (f "results-dir");
      do i0 <- required str (f "iter-0-cfg");
      do ii <- required str (f "iter-i-cfg");
      do mch <- required (read_mch_content true) (f "multi-ch-constructor");
      do n <- required (read_u64 sc) (f "number_of_metric-updates");
      do mo <- required read_monitoring (f "monitoring");
      do o <- required read_optimization (f "optimizing_with");
      do t <- optional sc (read_u64 sc) (f "number_of_threads");
      do m <- optional sc (read_f64 sc) (f "min_new_metric");
      do z <- optional sc (read_bool sc) (f "throw_err_when_new_metric_is_zero");
      Ok {| bd_results := r; bd_mch := mch; bd_iter0 := i0; bd_iteri := ii; bd_num_iter := (n + 1)%N;
            bd_monitoring := mo; bd_threads := or_else NUM_THREADS t; bd_seed := or_else SEED s;
            bd_cfg := {| bc_metric := fst o; bc_method := snd o; bc_min := m; bc_zero_err := or_else true z |} |})
      (f "balancing").

  (** models: src/configs/evaluating_balance.rs:123-138 (RawConfig, RawContent)
      with :110-121 and :82-93. *)
  Definition read_evaluating (y : yaml) : res evaluating_doc :=
    do f <- fields true false ["evaluating_balance"] y;
    required (fun y =>
      do f <- fields true true ["seed"; "results-dir"; "monitoring"; "number_of_threads"] y;
      do s <- optional sc (read_u64 sc) (f "seed");
      do r <- required str (f "results-dir");
      do mo <- required read_monitoring (f "monitoring");
      do t <- optional sc (read_u64 sc) (f "number_of_threads");
      Ok {| ev_seed := or_else SEED s; ev_results := r; ev_monitoring := mo; ev_threads := or_else NUM_THREADS t |})
      (f "evaluating_balance").
End Documents.
