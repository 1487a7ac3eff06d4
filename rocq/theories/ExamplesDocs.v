(** Documents shipped with the project, and what their scalars mean. *)
From Coq Require Import String Ascii List Bool Arith NArith QArith.
From Verif Require Import Base F64 ModelText ModelYaml ModelDocs SpecDocs.
Import ListNotations.
Open Scope string_scope.
Open Scope list_scope.
Open Scope nat_scope.

(** decimal numbers like 99.8, without signs and exponents *)
Fixpoint split_dot (s : text) : text * option text :=
  match s with
  | [] => ([], None)
  | c :: s => if Ascii.eqb c "."%char then ([], Some s) else let (a, b) := split_dot s in (c :: a, b)
  end.
Definition decimal (t : string) : option f64 :=
  match split_dot (T t) with
  | (a, None) => match digits_value U64_MAX 0 a with
                 | Some n => if text_eqb a [] then None else Some (Fin (inject_Z (Z.of_N n)))
                 | None => None
                 end
  | (a, Some b) =>
      match digits_value U64_MAX 0 a, digits_value U64_MAX 0 b with
      | Some n, Some m =>
          if text_eqb a [] then None
          else Some (Fin (Qred ((Z.of_N n * Z.pow 10 (Z.of_nat (length b)) + Z.of_N m)%Z # Z.to_pos (Z.pow 10 (Z.of_nat (length b))))))
      | _, _ => None
      end
  end.
Definition null_text (t : string) : bool := existsb (String.eqb t) [""; "~"; "null"].
Definition bool_text (t : string) : option bool :=
  if String.eqb t "true" then Some true else if String.eqb t "false" then Some false else None.
Definition u64_text (t : string) : option N :=
  if text_eqb (T t) [] then None else digits_value U64_MAX 0 (T t).
Definition sc0 : scalars :=
  {| sc_null := null_text;
     sc_bool := bool_text;
     sc_u64 := u64_text;
     sc_f64 := decimal;
     sc_text := fun t => negb (null_text t) && match bool_text t, decimal t with None, None => true | _, _ => false end |}.

(** resources/isle_of_man_2020-03-14/balancing/config.yaml *)
Definition config_yaml : yaml :=
  YMap [
    ("parsing", YMap [
      ("map-file", quoted "resources/isle_of_man_2020-03-14/graph.fmi");
      ("nodes", YSeq [
        plain "ignored";
        YMap [
          ("meta", YMap [("info", quoted "NodeId"); ("id", quoted "node-id")])];
        YMap [
          ("metric", YMap [("unit", quoted "Latitude"); ("id", quoted "latitude")])];
        YMap [
          ("metric", YMap [("unit", quoted "Longitude"); ("id", quoted "longitude")])]]);
      ("edges", YMap [
        ("will_normalize_metrics_by_mean", plain "true");
        ("data", YSeq [
          YMap [
            ("meta", YMap [("info", quoted "EdgeId"); ("id", quoted "edge-id")])];
          YMap [
            ("meta", YMap [("info", quoted "SrcId"); ("id", quoted "src-id")])];
          YMap [
            ("meta", YMap [("info", quoted "DstId"); ("id", quoted "dst-id")])];
          YMap [
            ("metric", YMap [("unit", quoted "Kilometers"); ("id", quoted "kilometers")])];
          YMap [
            ("metric", YMap [("unit", quoted "Hours"); ("id", quoted "hours")])];
          YMap [
            ("metric", YMap [("unit", quoted "LaneCount"); ("id", quoted "lane-count")])]])]);
      ("generating", YMap [
        ("nodes", YSeq [
          YMap [
            ("meta", YMap [("info", quoted "NodeIdx"); ("id", quoted "node-idx")])]]);
        ("edges", YSeq [
          YMap [
            ("meta", YMap [("info", quoted "SrcIdx"); ("id", quoted "src-idx")])];
          YMap [
            ("meta", YMap [("info", quoted "SrcLat"); ("id", quoted "src-lat")])];
          YMap [
            ("meta", YMap [("info", quoted "SrcLon"); ("id", quoted "src-lon")])];
          YMap [
            ("meta", YMap [("info", quoted "DstIdx"); ("id", quoted "dst-idx")])];
          YMap [
            ("meta", YMap [("info", quoted "DstLat"); ("id", quoted "dst-lat")])];
          YMap [
            ("meta", YMap [("info", quoted "DstLon"); ("id", quoted "dst-lon")])];
          YMap [
            ("copy", YMap [
              ("from", YMap [("unit", quoted "Kilometers"); ("id", quoted "kilometers")]);
              ("to", YMap [("unit", quoted "Kilometers"); ("id", quoted "dummy")])])];
          YMap [
            ("custom", YMap [
              ("id", quoted "workload");
              ("unit", quoted "F64");
              ("default", plain "1.0")])]])])]);
    ("balancing", YMap [
      ("seed", plain "42");
      ("number_of_threads", plain "4");
      ("results-dir", quoted "custom/results/isle_of_man_2020-03-14");
      ("iter-0-cfg", quoted "resources/isle_of_man_2020-03-14/balancing/init.yaml");
      ("iter-i-cfg", quoted "resources/isle_of_man_2020-03-14/balancing/iteration.yaml");
      ("optimizing_with", YMap [
        ("metric-id", quoted "workload");
        ("method", plain "averaging")]);
      ("number_of_metric-updates", plain "2");
      ("min_new_metric", plain "0.1");
      ("multi-ch-constructor", YMap [
        ("fmi-graph", quoted "graph.fmi");
        ("contracted-graph", quoted "graph.ch.fmi");
        ("dimension", plain "3");
        ("contraction-ratio", quoted "99.8");
        ("number_of_threads", plain "4");
        ("is_printing_osm-ids", plain "true");
        ("is_using_external_edge-ids", plain "true")]);
      ("monitoring", YMap [
        ("edges-info", YMap [
          ("file", quoted "edges-info.csv");
          ("will_denormalize_metrics_by_mean", plain "false");
          ("with_shortcuts", plain "false");
          ("ids", YSeq [
            YMap [
              ("id", quoted "edge-id")];
            YMap [
              ("id", quoted "src-lat")];
            YMap [
              ("id", quoted "src-lon")];
            YMap [
              ("id", quoted "dst-lat")];
            YMap [
              ("id", quoted "dst-lon")];
            YMap [
              ("id", quoted "kilometers")];
            YMap [
              ("id", quoted "lane-count")]])])])]);
    ("routing", YMap [
      ("route-pairs-file", quoted "resources/isle_of_man_2020-03-14/10_000.route-pairs");
      ("algorithm", YMap [
        ("Explorator", YMap [
          ("algo", quoted "CHDijkstra")])]);
      ("metrics", YSeq [
        YMap [
          ("id", quoted "kilometers")];
        YMap [
          ("id", quoted "hours");
          ("tolerated-scale", plain "1.4")];
        YMap [
          ("id", quoted "workload")]])]);
    ("writing", YMap [
      ("graph", YMap [
        ("map-file", quoted "balanced_graph.fmi");
        ("nodes", YSeq [
          YMap [
            ("id", quoted "node-idx")];
          YMap [
            ("id", quoted "node-id")];
          YMap [
            ("id", quoted "latitude")];
          YMap [
            ("id", quoted "longitude")]]);
        ("edges", YMap [
          ("with_shortcuts", plain "false");
          ("will_denormalize_metrics_by_mean", plain "false");
          ("ids", YSeq [
            YMap [
              ("id", quoted "edge-id")];
            YMap [
              ("id", quoted "src-id")];
            YMap [
              ("id", quoted "dst-id")];
            YMap [
              ("id", quoted "kilometers")];
            YMap [
              ("id", quoted "hours")];
            YMap [
              ("id", quoted "lane-count")];
            YMap [
              ("id", quoted "workload")];
            YMap [
              ("id", quoted "dummy")]])])])])].

(** resources/isle_of_man_2020-03-14/balancing/iteration.yaml *)
Definition iteration_yaml : yaml :=
  YMap [
    ("writing", YMap [
      ("graph", YMap [
        ("map-file", quoted "graph.fmi");
        ("nodes", YSeq [
          YMap [
            ("id", quoted "node-idx")];
          YMap [
            ("id", quoted "node-id")];
          YMap [
            ("id", quoted "latitude")];
          YMap [
            ("id", quoted "longitude")];
          plain "ignored";
          plain "ignored"]);
        ("edges", YMap [
          ("with_shortcuts", plain "false");
          ("will_denormalize_metrics_by_mean", plain "false");
          ("ids", YSeq [
            YMap [
              ("id", quoted "edge-id")];
            YMap [
              ("id", quoted "src-idx")];
            YMap [
              ("id", quoted "dst-idx")];
            YMap [
              ("id", quoted "kilometers")];
            YMap [
              ("id", quoted "hours")];
            YMap [
              ("id", quoted "workload")];
            plain "ignored";
            plain "ignored"])])]);
      ("edges-info", YMap [
        ("file", quoted "edges-info.csv");
        ("with_shortcuts", plain "false");
        ("will_denormalize_metrics_by_mean", plain "false");
        ("ids", YSeq [
          YMap [
            ("id", quoted "edge-id")];
          YMap [
            ("id", quoted "lane-count")];
          YMap [
            ("id", quoted "dummy")]])])]);
    ("parsing", YMap [
      ("map-file", quoted "graph.ch.fmi");
      ("nodes", YSeq [
        plain "ignored";
        YMap [
          ("meta", YMap [("info", quoted "NodeId"); ("id", quoted "node-id")])];
        YMap [
          ("metric", YMap [("unit", quoted "Latitude"); ("id", quoted "latitude")])];
        YMap [
          ("metric", YMap [("unit", quoted "Longitude"); ("id", quoted "longitude")])];
        plain "ignored";
        YMap [
          ("meta", YMap [("info", quoted "CHLevel"); ("id", quoted "ch-level")])]]);
      ("edges", YMap [
        ("will_normalize_metrics_by_mean", plain "false");
        ("data", YSeq [
          YMap [
            ("meta", YMap [("info", quoted "EdgeId"); ("id", quoted "edge-id")])];
          YMap [
            ("meta", YMap [("info", quoted "SrcId"); ("id", quoted "src-id")])];
          YMap [
            ("meta", YMap [("info", quoted "DstId"); ("id", quoted "dst-id")])];
          YMap [
            ("metric", YMap [("unit", quoted "Kilometers"); ("id", quoted "kilometers")])];
          YMap [
            ("metric", YMap [("unit", quoted "Hours"); ("id", quoted "hours")])];
          YMap [
            ("metric", YMap [("unit", quoted "F64"); ("id", quoted "workload")])];
          YMap [
            ("meta", YMap [("info", quoted "ShortcutIdx0"); ("id", quoted "sc-idx-0")])];
          YMap [
            ("meta", YMap [("info", quoted "ShortcutIdx1"); ("id", quoted "sc-idx-1")])]])]);
      ("generating", YMap [
        ("nodes", YSeq [
          YMap [
            ("meta", YMap [("info", quoted "NodeIdx"); ("id", quoted "node-idx")])]]);
        ("edges", YSeq [
          YMap [
            ("meta", YMap [("info", quoted "SrcIdx"); ("id", quoted "src-idx")])];
          YMap [
            ("meta", YMap [("info", quoted "SrcLat"); ("id", quoted "src-lat")])];
          YMap [
            ("meta", YMap [("info", quoted "SrcLon"); ("id", quoted "src-lon")])];
          YMap [
            ("meta", YMap [("info", quoted "DstIdx"); ("id", quoted "dst-idx")])];
          YMap [
            ("meta", YMap [("info", quoted "DstLat"); ("id", quoted "dst-lat")])];
          YMap [
            ("meta", YMap [("info", quoted "DstLon"); ("id", quoted "dst-lon")])];
          YMap [
            ("custom", YMap [
              ("id", quoted "lane-count");
              ("unit", quoted "LaneCount");
              ("default", plain "1.0")])];
          YMap [
            ("custom", YMap [
              ("id", quoted "dummy");
              ("unit", quoted "F64");
              ("default", plain "0.1")])];
          YMap [
            ("merge", YMap [
              ("from", quoted "edges-info.csv");
              ("edge-id", quoted "edge-id");
              ("edges-info", YSeq [
                YMap [
                  ("id", quoted "edge-id")];
                YMap [
                  ("id", quoted "lane-count")];
                YMap [
                  ("id", quoted "dummy")]])])]])])])].

(** resources/isle_of_man_2020-03-14/fmi_to_ch.yaml *)
Definition fmi_to_ch_yaml : yaml :=
  YMap [
    ("parsing", YMap [
      ("map-file", quoted "resources/isle_of_man_2020-03-14/graph.fmi");
      ("nodes", YSeq [
        plain "ignored";
        YMap [
          ("meta", YMap [("info", quoted "NodeId"); ("id", quoted "node-id")])];
        YMap [
          ("metric", YMap [("unit", quoted "Latitude"); ("id", quoted "latitude")])];
        YMap [
          ("metric", YMap [("unit", quoted "Longitude"); ("id", quoted "longitude")])]]);
      ("edges", YMap [
        ("data", YSeq [
          YMap [
            ("meta", YMap [("info", quoted "EdgeId"); ("id", quoted "edge-id")])];
          YMap [
            ("meta", YMap [("info", quoted "SrcId"); ("id", quoted "src-id")])];
          YMap [
            ("meta", YMap [("info", quoted "DstId"); ("id", quoted "dst-id")])];
          YMap [
            ("metric", YMap [("unit", quoted "Kilometers"); ("id", quoted "kilometers")])];
          YMap [
            ("metric", YMap [("unit", quoted "Hours"); ("id", quoted "hours")])];
          YMap [
            ("metric", YMap [("unit", quoted "LaneCount"); ("id", quoted "lane-count")])]])]);
      ("generating", YMap [
        ("nodes", YSeq [
          YMap [
            ("meta", YMap [("info", quoted "NodeIdx"); ("id", quoted "node-idx")])]]);
        ("edges", YSeq [
          YMap [
            ("meta", YMap [("info", quoted "SrcIdx"); ("id", quoted "src-idx")])];
          YMap [
            ("meta", YMap [("info", quoted "DstIdx"); ("id", quoted "dst-idx")])]])])]);
    ("writing", YMap [
      ("graph", YMap [
        ("map-file", quoted "resources/isle_of_man_2020-03-14/graph_for_ch.fmi");
        ("nodes", YSeq [
          YMap [
            ("id", quoted "node-idx")];
          YMap [
            ("id", quoted "node-id")];
          YMap [
            ("id", quoted "latitude")];
          YMap [
            ("id", quoted "longitude")];
          plain "ignored";
          plain "ignored"]);
        ("edges", YMap [
          ("with_shortcuts", plain "false");
          ("ids", YSeq [
            YMap [
              ("id", quoted "edge-id")];
            YMap [
              ("id", quoted "src-idx")];
            YMap [
              ("id", quoted "dst-idx")];
            YMap [
              ("id", quoted "kilometers")];
            YMap [
              ("id", quoted "hours")];
            plain "ignored";
            plain "ignored"])])])]);
    ("multi-ch-constructor", YMap [
      ("fmi-graph", quoted "resources/isle_of_man_2020-03-14/graph_for_ch.fmi");
      ("contracted-graph", quoted "resources/isle_of_man_2020-03-14/graph.ch.fmi");
      ("dimension", plain "2");
      ("cost-accuracy", plain "0.000001");
      ("contraction-ratio", quoted "99.8");
      ("number_of_threads", plain "4");
      ("is_printing_osm-ids", plain "true");
      ("is_using_external_edge-ids", plain "true")])].

(** resources/isle_of_man_2020-03-14/balancing/evaluation/explorator/1/config.yaml *)
Definition eval_yaml : yaml :=
  YMap [
    ("parsing", YMap [
      ("map-file", quoted "custom/results/isle_of_man_2020-03-14/utc_YYYY-mm-dd_HH-MM-SS/balanced_graph.fmi");
      ("nodes", YSeq [
        plain "ignored";
        YMap [
          ("meta", YMap [("info", quoted "NodeId"); ("id", quoted "node-id")])];
        YMap [
          ("metric", YMap [("unit", quoted "Latitude"); ("id", quoted "latitude")])];
        YMap [
          ("metric", YMap [("unit", quoted "Longitude"); ("id", quoted "longitude")])]]);
      ("edges", YMap [
        ("will_normalize_metrics_by_mean", plain "false");
        ("data", YSeq [
          YMap [
            ("meta", YMap [("info", quoted "EdgeId"); ("id", quoted "edge-id")])];
          YMap [
            ("meta", YMap [("info", quoted "SrcId"); ("id", quoted "src-id")])];
          YMap [
            ("meta", YMap [("info", quoted "DstId"); ("id", quoted "dst-id")])];
          YMap [
            ("metric", YMap [("unit", quoted "Kilometers"); ("id", quoted "kilometers")])];
          YMap [
            ("metric", YMap [("unit", quoted "Hours"); ("id", quoted "hours")])];
          YMap [
            ("metric", YMap [("unit", quoted "LaneCount"); ("id", quoted "lane-count")])];
          YMap [
            ("metric", YMap [("unit", quoted "F64"); ("id", quoted "workload")])];
          plain "ignored"])]);
      ("generating", YMap [
        ("nodes", YSeq []);
        ("edges", YSeq [
          YMap [
            ("meta", YMap [("info", quoted "SrcLat"); ("id", quoted "src-lat")])];
          YMap [
            ("meta", YMap [("info", quoted "SrcLon"); ("id", quoted "src-lon")])];
          YMap [
            ("meta", YMap [("info", quoted "DstLat"); ("id", quoted "dst-lat")])];
          YMap [
            ("meta", YMap [("info", quoted "DstLon"); ("id", quoted "dst-lon")])]])])]);
    ("routing", YMap [
      ("route-pairs-file", quoted "custom/results/isle_of_man_2020-03-14/utc_YYYY-mm-dd_HH-MM-SS/evaluation/10_000_eval.route-pairs");
      ("algorithm", YMap [
        ("Explorator", YMap [
          ("algo", quoted "Dijkstra")])]);
      ("metrics", YSeq [
        YMap [
          ("id", quoted "kilometers")];
        YMap [
          ("id", quoted "hours");
          ("tolerated-scale", plain "1.4")];
        YMap [
          ("id", quoted "workload")]])]);
    ("evaluating_balance", YMap [
      ("seed", plain "24");
      ("number_of_threads", plain "4");
      ("results-dir", quoted "custom/results/isle_of_man_2020-03-14/utc_YYYY-mm-dd_HH-MM-SS/evaluation/explorator/1/stats");
      ("monitoring", YMap [
        ("export_vehicles_for_SMARTS", plain "true");
        ("edges-info", YMap [
          ("file", quoted "edges-info.csv");
          ("will_denormalize_metrics_by_mean", plain "false");
          ("with_shortcuts", plain "false");
          ("ids", YSeq [
            YMap [
              ("id", quoted "edge-id")];
            YMap [
              ("id", quoted "src-lat")];
            YMap [
              ("id", quoted "src-lon")];
            YMap [
              ("id", quoted "dst-lat")];
            YMap [
              ("id", quoted "dst-lon")];
            YMap [
              ("id", quoted "kilometers")];
            YMap [
              ("id", quoted "lane-count")]])])])])].

(** resources/small/fmi.yaml *)
Definition small_yaml : yaml :=
  YMap [
    ("parsing", YMap [
      ("map-file", quoted "resources/small/graph.fmi");
      ("vehicles", YMap [
        ("category", quoted "Car");
        ("are_drivers_picky", plain "false")]);
      ("nodes", YSeq [
        YMap [
          ("meta", YMap [("info", quoted "NodeId"); ("id", quoted "node-id")])];
        YMap [
          ("metric", YMap [("unit", quoted "Latitude"); ("id", quoted "latitude")])];
        YMap [
          ("metric", YMap [("unit", quoted "Longitude"); ("id", quoted "longitude")])]]);
      ("edges", YMap [
        ("data", YSeq [
          YMap [
            ("meta", YMap [("info", quoted "SrcId"); ("id", quoted "src-id")])];
          YMap [
            ("meta", YMap [("info", quoted "DstId"); ("id", quoted "dst-id")])];
          YMap [
            ("metric", YMap [("unit", quoted "Meters"); ("id", quoted "meters")])];
          YMap [
            ("metric", YMap [("unit", quoted "KilometersPerHour"); ("id", quoted "kmph")])]])]);
      ("generating", YMap [
        ("nodes", YSeq []);
        ("edges", YSeq [
          YMap [
            ("convert", YMap [
              ("from", YMap [("unit", quoted "Meters"); ("id", quoted "meters")]);
              ("to", YMap [("unit", quoted "Kilometers"); ("id", quoted "kilometers")])])];
          YMap [
            ("calc", YMap [
              ("result", YMap [("unit", quoted "Hours"); ("id", quoted "hours")]);
              ("a", YMap [("unit", quoted "Kilometers"); ("id", quoted "kilometers")]);
              ("b", YMap [("unit", quoted "KilometersPerHour"); ("id", quoted "kmph")])])]])])]);
    ("writing", YMap [
      ("route-pairs", YMap [
        ("file", quoted "resources/small/all_43.fmi.route-pairs");
        ("random_or_all", YMap [("max_count", plain "100")])])])].

(** resources/stuttgart-regbez_2019-09-07/balancing/config.yaml *)
Definition stuttgart_config_yaml : yaml :=
  YMap [
    ("parsing", YMap [
      ("map-file", quoted "resources/stuttgart-regbez_2019-09-07/graph.osm.pbf");
      ("vehicles", YMap [
        ("category", quoted "Car");
        ("are_drivers_picky", plain "false")]);
      ("nodes", YSeq [
        YMap [
          ("meta", YMap [("info", quoted "NodeId"); ("id", quoted "node-id")])];
        YMap [
          ("metric", YMap [("unit", quoted "Latitude"); ("id", quoted "latitude")])];
        YMap [
          ("metric", YMap [("unit", quoted "Longitude"); ("id", quoted "longitude")])]]);
      ("edges", YMap [
        ("data", YSeq [
          YMap [
            ("meta", YMap [("info", quoted "SrcId"); ("id", quoted "src-id")])];
          YMap [
            ("meta", YMap [("info", quoted "DstId"); ("id", quoted "dst-id")])];
          YMap [
            ("metric", YMap [("unit", quoted "KilometersPerHour"); ("id", quoted "kmph")])];
          YMap [
            ("metric", YMap [("unit", quoted "LaneCount"); ("id", quoted "lane-count")])]])]);
      ("generating", YMap [
        ("nodes", YSeq [
          YMap [
            ("meta", YMap [("info", quoted "NodeIdx"); ("id", quoted "node-idx")])]]);
        ("edges", YSeq [
          YMap [
            ("meta", YMap [("info", quoted "SrcIdx"); ("id", quoted "src-idx")])];
          YMap [
            ("meta", YMap [("info", quoted "DstIdx"); ("id", quoted "dst-idx")])];
          YMap [
            ("meta", YMap [("info", quoted "EdgeId"); ("id", quoted "edge-id")])];
          YMap [
            ("haversine", YMap [("unit", quoted "Kilometers"); ("id", quoted "kilometers")])];
          YMap [
            ("calc", YMap [
              ("result", YMap [("unit", quoted "Hours"); ("id", quoted "hours")]);
              ("a", YMap [("unit", quoted "Kilometers"); ("id", quoted "kilometers")]);
              ("b", YMap [("unit", quoted "KilometersPerHour"); ("id", quoted "kmph")])])];
          YMap [
            ("custom", YMap [
              ("id", quoted "workload");
              ("unit", quoted "F64");
              ("default", plain "1.0")])]])])]);
    ("balancing", YMap [
      ("seed", plain "42");
      ("number_of_threads", plain "15");
      ("results-dir", quoted "custom/results/stuttgart-regbez_2019-09-07");
      ("iter-0-cfg", quoted "resources/stuttgart-regbez_2019-09-07/balancing/init.yaml");
      ("iter-i-cfg", quoted "resources/stuttgart-regbez_2019-09-07/balancing/iteration.yaml");
      ("optimizing_with", plain "averaging");
      ("number_of_metric-updates", plain "2");
      ("multi-ch-constructor", YMap [
        ("fmi-graph", quoted "graph.fmi");
        ("contracted-graph", quoted "graph.ch.fmi");
        ("dimension", plain "3");
        ("contraction-ratio", quoted "99.8");
        ("number_of_threads", plain "15");
        ("is_printing_osm-ids", plain "true");
        ("is_using_external_edge-ids", plain "true")]);
      ("monitoring", YMap [
        ("distance", quoted "kilometers");
        ("lane-count", quoted "lane-count");
        ("workload", quoted "workload");
        ("will_denormalize_metrics_by_mean", plain "false")]);
      ("min_new_metric", plain "0.1")]);
    ("routing", YMap [
      ("route-pairs-file", quoted "resources/stuttgart-regbez_2019-09-07/10_000.route-pairs");
      ("algorithm", quoted "CHDijkstra");
      ("metrics", YSeq [
        YMap [
          ("id", quoted "kilometers")];
        YMap [
          ("id", quoted "hours");
          ("tolerated-scale", plain "1.25")];
        YMap [
          ("id", quoted "workload")]])]);
    ("writing", YMap [
      ("graph", YMap [
        ("map-file", quoted "balanced_graph.fmi");
        ("nodes", YSeq [
          YMap [
            ("id", quoted "node-idx")];
          YMap [
            ("id", quoted "node-id")];
          YMap [
            ("id", quoted "latitude")];
          YMap [
            ("id", quoted "longitude")]]);
        ("edges", YMap [
          ("with_shortcuts", plain "false");
          ("will_denormalize_metrics_by_mean", plain "false");
          ("ids", YSeq [
            YMap [
              ("id", quoted "src-id")];
            YMap [
              ("id", quoted "dst-id")];
            YMap [
              ("id", quoted "kilometers")];
            YMap [
              ("id", quoted "hours")];
            YMap [
              ("id", quoted "lane-count")];
            YMap [
              ("id", quoted "workload")]])])])])].

(** resources/stuttgart-regbez_2019-09-07/pbf_to_fmi.yaml *)
Definition stuttgart_pbf_to_fmi_yaml : yaml :=
  YMap [
    ("parsing", YMap [
      ("map-file", quoted "resources/stuttgart-regbez_2019-09-07/graph.osm.pbf");
      ("vehicles", YMap [
        ("category", quoted "Car");
        ("are_drivers_picky", plain "false")]);
      ("nodes", YSeq [
        YMap [
          ("meta", YMap [("info", quoted "NodeId"); ("id", quoted "node-id")])];
        YMap [
          ("metric", YMap [("unit", quoted "Latitude"); ("id", quoted "latitude")])];
        YMap [
          ("metric", YMap [("unit", quoted "Longitude"); ("id", quoted "longitude")])]]);
      ("edges", YMap [
        ("data", YSeq [
          YMap [
            ("meta", YMap [("info", quoted "SrcId"); ("id", quoted "src-id")])];
          YMap [
            ("meta", YMap [("info", quoted "DstId"); ("id", quoted "dst-id")])];
          YMap [
            ("metric", YMap [("unit", quoted "KilometersPerHour"); ("id", quoted "kmph")])];
          YMap [
            ("metric", YMap [("unit", quoted "LaneCount"); ("id", quoted "lane-count")])]])]);
      ("generating", YMap [
        ("nodes", YSeq [
          YMap [
            ("meta", YMap [("info", quoted "NodeIdx"); ("id", quoted "node-idx")])]]);
        ("edges", YSeq [
          YMap [
            ("meta", YMap [("info", quoted "SrcIdx"); ("id", quoted "src-idx")])];
          YMap [
            ("meta", YMap [("info", quoted "DstIdx"); ("id", quoted "dst-idx")])];
          YMap [
            ("haversine", YMap [("unit", quoted "Kilometers"); ("id", quoted "kilometers")])];
          YMap [
            ("calc", YMap [
              ("result", YMap [("unit", quoted "Hours"); ("id", quoted "hours")]);
              ("a", YMap [("unit", quoted "Kilometers"); ("id", quoted "kilometers")]);
              ("b", YMap [("unit", quoted "KilometersPerHour"); ("id", quoted "kmph")])])]])])]);
    ("writing", YMap [
      ("route-pairs", YMap [
        ("file", quoted "resources/stuttgart-regbez_2019-09-07/10_000.route-pairs");
        ("random_or_all", YMap [("max_count", plain "10000")])]);
      ("graph", YMap [
        ("map-file", quoted "resources/stuttgart-regbez_2019-09-07/graph.fmi");
        ("nodes", YSeq [
          YMap [
            ("id", quoted "node-idx")];
          YMap [
            ("id", quoted "node-id")];
          YMap [
            ("id", quoted "latitude")];
          YMap [
            ("id", quoted "longitude")];
          plain "ignored";
          plain "ignored"]);
        ("edges", YSeq [
          YMap [
            ("id", quoted "src-idx")];
          YMap [
            ("id", quoted "dst-idx")];
          YMap [
            ("id", quoted "kilometers")];
          YMap [
            ("id", quoted "hours")];
          YMap [
            ("id", quoted "lane-count")];
          plain "ignored";
          plain "ignored"])])])].

(** resources/simple_stuttgart/normalized_fmi.yaml *)
Definition normalized_yaml : yaml :=
  YMap [
    ("parsing", YMap [
      ("map-file", quoted "resources/simple_stuttgart/graph.fmi");
      ("vehicles", YMap [
        ("category", quoted "Car");
        ("are_drivers_picky", plain "false")]);
      ("nodes", YSeq [
        YMap [
          ("meta", YMap [("info", quoted "NodeId"); ("id", quoted "node-id")])];
        YMap [
          ("metric", YMap [("unit", quoted "Latitude"); ("id", quoted "latitude")])];
        YMap [
          ("metric", YMap [("unit", quoted "Longitude"); ("id", quoted "longitude")])]]);
      ("edges", YMap [
        ("will_normalize_metrics_by_mean", plain "true");
        ("data", YSeq [
          YMap [
            ("meta", YMap [("info", quoted "SrcId"); ("id", quoted "src-id")])];
          YMap [
            ("meta", YMap [("info", quoted "DstId"); ("id", quoted "dst-id")])];
          YMap [
            ("metric", YMap [("unit", quoted "Meters"); ("id", quoted "meters")])];
          YMap [
            ("metric", YMap [("unit", quoted "KilometersPerHour"); ("id", quoted "kmph")])]])]);
      ("generating", YMap [
        ("nodes", YSeq []);
        ("edges", YSeq [
          YMap [
            ("convert", YMap [
              ("from", YMap [("unit", quoted "Meters"); ("id", quoted "meters")]);
              ("to", YMap [("unit", quoted "Kilometers"); ("id", quoted "kilometers")])])];
          YMap [
            ("calc", YMap [
              ("result", YMap [("unit", quoted "Hours"); ("id", quoted "hours")]);
              ("a", YMap [("unit", quoted "Kilometers"); ("id", quoted "kilometers")]);
              ("b", YMap [("unit", quoted "KilometersPerHour"); ("id", quoted "kmph")])])]])])]);
    ("writing", YMap [
      ("route-pairs", YMap [
        ("file", quoted "resources/simple_stuttgart/all_31.route-pairs");
        ("random_or_all", YMap [("max_count", plain "100")])])]);
    ("routing", YMap [
      ("metrics", YSeq [
        YMap [
          ("id", quoted "kilometers")]])])].

