(** A small world for the program: a graph-file with ids of edges, its
    configuration, and what surrounds the program. *)
From Coq Require Import String Ascii List Bool Arith NArith ZArith QArith.
From Verif Require Import Base F64 ModelText ModelConfig ModelGraph ModelBuild ModelParsing ModelFmi ModelDijkstra ModelRoutingCfg ModelBalancing
  ModelRoutePairs ModelSmarts ModelWriting ModelEvaluating ModelYaml ModelDocs ModelProgram SpecProgram SpecDocs ExamplesDocs ExamplesRouting PropsRoundtrip.
Import ListNotations.
Open Scope string_scope.
Open Scope list_scope.
Open Scope nat_scope.

Definition id_ (s : string) : yaml := YMap [("id", quoted s)].
Definition meta_ (info id : string) : yaml := YMap [("meta", YMap [("info", quoted info); ("id", quoted id)])].
Definition metric_ (unit id : string) : yaml := YMap [("metric", YMap [("unit", quoted unit); ("id", quoted id)])].

(** a configuration with all sections but balancing; the pairs to be written are
    those to be read *)
Definition prog_parsing : string * yaml :=
  ("parsing", YMap [
    ("map-file", quoted "in/map.fmi");
    ("nodes", YSeq [meta_ "NodeId" "node-id"; metric_ "Latitude" "lat"; metric_ "Longitude" "lon"]);
    ("edges", YMap [("data", YSeq [meta_ "EdgeId" "edge-id"; meta_ "SrcId" "src"; meta_ "DstId" "dst"; metric_ "Kilometers" "km"])])]).
Definition prog_graph_section : string * yaml :=
  ("graph", YMap [
    ("map-file", quoted "out/map.fmi");
    ("nodes", YSeq [id_ "node-id"; id_ "lat"; id_ "lon"]);
    ("edges", YMap [("ids", YSeq [id_ "edge-id"; id_ "src"; id_ "dst"; id_ "km"])])]).
Definition prog_edges_section : string * yaml :=
  ("edges-info", YMap [("file", quoted "out/edges.csv"); ("ids", YSeq [id_ "edge-id"; id_ "km"])]).
Definition prog_pairs_section : string * yaml :=
  ("route-pairs", YMap [("file", quoted "out/all.route-pairs"); ("random_or_all", YMap [("max_count", plain "100")])]).
Definition prog_routing : string * yaml :=
  ("routing", YMap [
    ("route-pairs-file", quoted "out/all.route-pairs");
    ("algorithm", plain "Dijkstra");
    ("metrics", YSeq [id_ "km"])]).
Definition prog_evaluating : string * yaml :=
  ("evaluating_balance", YMap [
    ("results-dir", quoted "out/stats");
    ("number_of_threads", plain "4");
    ("seed", plain "24");
    ("monitoring", YMap [
      ("export_vehicles_for_SMARTS", plain "true");
      ("edges-info", YMap [("file", quoted "edges-info.csv"); ("ids", YSeq [id_ "edge-id"; id_ "km"])])])]).
Definition prog_yaml : yaml :=
  YMap [prog_parsing; ("writing", YMap [prog_graph_section; prog_edges_section; prog_pairs_section]); prog_routing; prog_evaluating].
(** without the export of edges *)
Definition prog_yaml_short : yaml :=
  YMap [prog_parsing; ("writing", YMap [prog_graph_section; prog_pairs_section]); prog_routing; prog_evaluating].

(** the graph: 10 -> 20 -> 30, 10 -> 30, 30 -> 40 -> 30 *)
Definition prog_map : text := T "# a small graph
4
5
10 1.5 2
20 1.5 3
30 2.5 3
40 2.5 2
7 10 20 1
8 20 30 1.25
9 10 30 3
6 30 40 0.5
5 40 30 0.75
".

(** one worker does all the work *)
Definition prog_work_off (g : graph) (rc : routing_cfg) (pairs : list route) (threads seed : N) (iter : nat) (smarts : bool)
  : res (list nat * option (list path)) :=
  do o <- work_with_dijkstra exact_pick (6 * 100) g rc dijkstra_new {| wk_routes := pairs; wk_seed := 0 |};
  absorb g 100 (snd o) (repeat 0 (edge_count g FWD)) (if smarts then Some [] else None).

Definition prog_env : env := {|
  e_resolve := fun p => p;
  e_fails := fun _ => false;
  e_torn := fun _ => T "torn";
  e_yaml := fun t => if text_eqb t (T "all sections") then Some prog_yaml
                     else if text_eqb t (T "no edges") then Some prog_yaml_short else None;
  e_scalars := sc0;
  e_pbf := fun _ => [];
  e_parse_f64 := fun t => match parse_frac t with Some x => Some x | None => decimal (string_of_list_ascii t) end;
  e_show_f64 := show_frac;
  e_show_ids := plain_ids;
  e_hav := fun _ _ => f0;
  e_dim := 1;
  e_chunk1 := 2;
  e_chunk2 := 3;
  e_pick := exact_pick;
  e_fuel := 6 * 100;
  e_tri := unit;
  e_tri_new := fun _ => tt;
  e_tri_add := fun _ _ => None;
  e_tri_cells := fun _ => [];
  e_solve := fun _ _ => None;
  e_rounds := 0;
  e_sample := fun _ k => k mod 4;
  e_work_off := prog_work_off;
  e_contract := fun _ _ => None;
  e_date := "2020-09-01";
|}.

(** files of a list *)
Definition files (l : list (string * text)) (k : string) : option text :=
  option_map snd (find (fun f => String.eqb (fst f) k) l).

Definition prog_world : world :=
  {| w_files := files [("cfg.yaml", T "all sections"); ("short.yaml", T "no edges"); ("in/map.fmi", prog_map); ("readme", T "hello")]; w_ops := 0 |}.

(** everything at once *)
Definition prog_args : args :=
  {| a_cfg := "cfg.yaml"; a_graph := true; a_edges := true; a_pairs := true; a_routing := false; a_evaluating := true; a_balancing := false |}.
Definition prog_routing_args : args :=
  {| a_cfg := "cfg.yaml"; a_graph := false; a_edges := false; a_pairs := true; a_routing := true; a_evaluating := false; a_balancing := false |}.

(** *** Balancing with the documents shipped for the Isle of Man *)

(** resources/isle_of_man_2020-03-14/balancing/init.yaml *)
Definition init_yaml : yaml :=
  YMap [
    ("writing", YMap [
      ("graph", YMap [
        ("map-file", quoted "graph.fmi");
        ("nodes", YSeq [
          YMap [
            ("id", quoted "node-idx")];
          YMap [
            ("id", quoted "node-id")];
          YMap [
            ("id", quoted "latitude")];
          YMap [
            ("id", quoted "longitude")];
          plain "ignored";
          plain "ignored"]);
        ("edges", YMap [
          ("with_shortcuts", plain "false");
          ("will_denormalize_metrics_by_mean", plain "false");
          ("ids", YSeq [
            YMap [
              ("id", quoted "edge-id")];
            YMap [
              ("id", quoted "src-idx")];
            YMap [
              ("id", quoted "dst-idx")];
            YMap [
              ("id", quoted "kilometers")];
            YMap [
              ("id", quoted "hours")];
            plain "ignored";
            plain "ignored"])])]);
      ("edges-info", YMap [
        ("file", quoted "edges-info.csv");
        ("with_shortcuts", plain "false");
        ("will_denormalize_metrics_by_mean", plain "false");
        ("ids", YSeq [
          YMap [
            ("id", quoted "edge-id")];
          YMap [
            ("id", quoted "lane-count")];
          YMap [
            ("id", quoted "dummy")]])])]);
    ("parsing", YMap [
      ("map-file", quoted "graph.ch.fmi");
      ("nodes", YSeq [
        plain "ignored";
        YMap [
          ("meta", YMap [("info", quoted "NodeId"); ("id", quoted "node-id")])];
        YMap [
          ("metric", YMap [("unit", quoted "Latitude"); ("id", quoted "latitude")])];
        YMap [
          ("metric", YMap [("unit", quoted "Longitude"); ("id", quoted "longitude")])];
        plain "ignored";
        YMap [
          ("meta", YMap [("info", quoted "CHLevel"); ("id", quoted "ch-level")])]]);
      ("edges", YMap [
        ("will_normalize_metrics_by_mean", plain "false");
        ("data", YSeq [
          YMap [
            ("meta", YMap [("info", quoted "EdgeId"); ("id", quoted "edge-id")])];
          YMap [
            ("meta", YMap [("info", quoted "SrcId"); ("id", quoted "src-id")])];
          YMap [
            ("meta", YMap [("info", quoted "DstId"); ("id", quoted "dst-id")])];
          YMap [
            ("metric", YMap [("unit", quoted "Kilometers"); ("id", quoted "kilometers")])];
          YMap [
            ("metric", YMap [("unit", quoted "Hours"); ("id", quoted "hours")])];
          YMap [
            ("meta", YMap [("info", quoted "ShortcutIdx0"); ("id", quoted "sc-idx-0")])];
          YMap [
            ("meta", YMap [("info", quoted "ShortcutIdx1"); ("id", quoted "sc-idx-1")])]])]);
      ("generating", YMap [
        ("nodes", YSeq [
          YMap [
            ("meta", YMap [("info", quoted "NodeIdx"); ("id", quoted "node-idx")])]]);
        ("edges", YSeq [
          YMap [
            ("meta", YMap [("info", quoted "SrcIdx"); ("id", quoted "src-idx")])];
          YMap [
            ("meta", YMap [("info", quoted "SrcLat"); ("id", quoted "src-lat")])];
          YMap [
            ("meta", YMap [("info", quoted "SrcLon"); ("id", quoted "src-lon")])];
          YMap [
            ("meta", YMap [("info", quoted "DstIdx"); ("id", quoted "dst-idx")])];
          YMap [
            ("meta", YMap [("info", quoted "DstLat"); ("id", quoted "dst-lat")])];
          YMap [
            ("meta", YMap [("info", quoted "DstLon"); ("id", quoted "dst-lon")])];
          YMap [
            ("custom", YMap [
              ("id", quoted "workload");
              ("unit", quoted "F64");
              ("default", plain "1.0")])];
          YMap [
            ("custom", YMap [
              ("id", quoted "lane-count");
              ("unit", quoted "LaneCount");
              ("default", plain "1.0")])];
          YMap [
            ("custom", YMap [
              ("id", quoted "dummy");
              ("unit", quoted "F64");
              ("default", plain "0.1")])];
          YMap [
            ("merge", YMap [
              ("from", quoted "edges-info.csv");
              ("edge-id", quoted "edge-id");
              ("edges-info", YSeq [
                YMap [
                  ("id", quoted "edge-id")];
                YMap [
                  ("id", quoted "lane-count")];
                YMap [
                  ("id", quoted "dummy")]])])]])])])].

(** a graph in the format of graph.fmi; nodes' ids are their indices *)
Definition bal_map : text := T "6
4
5
0 0 1.5 2
1 1 1.5 3
2 2 2.5 3
3 3 2.5 2
7 0 1 1 0.5 1
8 1 2 1.25 0.5 2
9 0 2 3 1 1
6 2 3 0.5 0.25 1
5 3 2 0.75 0.5 1
".
Definition bal_pairs : text := T "# pairs
3
0 2 2
1 3 1
3 2 4
".

(** a multi-ch which doesn't add shortcuts: all nodes have level zero *)
Fixpoint text_lines (cur : text) (t : text) : list text :=
  match t with
  | [] => [rev cur]
  | c :: t => if Ascii.eqb c LF then rev cur :: text_lines [] t else text_lines (c :: cur) t
  end.
Fixpoint replace_ (new : text) (t : text) : text :=
  match t with
  | [] => []
  | c :: t => if Ascii.eqb c "_"%char then new ++ replace_ new t else c :: replace_ new t
  end.
Definition lazy_contract (c : mch_doc) (t : text) : option text :=
  Some (concat (map (fun l => replace_ (if length (words l) =? 6 then T "0" else T "-1") l ++ [LF]) (text_lines [] t))).

(** counting on the graph without the routing section's metrics *)
Definition bal_work_off (g : graph) (rc : routing_cfg) (pairs : list route) (threads seed : N) (iter : nat) (smarts : bool)
  : res (list nat * option (list path)) :=
  prog_work_off g {| rc_algo := ADijkstra; rc_alphas := rc_alphas rc; rc_scales := rc_scales rc |} pairs threads seed iter smarts.

Definition bal_env : env := {|
  e_resolve := fun p => p;
  e_fails := fun _ => false;
  e_torn := fun _ => T "torn";
  e_yaml := fun t => if text_eqb t (T "config") then Some config_yaml
                     else if text_eqb t (T "init") then Some init_yaml
                     else if text_eqb t (T "iteration") then Some iteration_yaml else None;
  e_scalars := sc0;
  e_pbf := fun _ => [];
  e_parse_f64 := fun t => match parse_frac t with Some x => Some x | None => decimal (string_of_list_ascii t) end;
  e_show_f64 := fun x => show_frac (match x with Fin q => Fin (Qred q) | _ => x end);
  e_show_ids := plain_ids;
  e_hav := fun _ _ => f0;
  e_dim := 5;
  e_chunk1 := 2;
  e_chunk2 := 3;
  e_pick := exact_pick;
  e_fuel := 6 * 100;
  e_tri := unit;
  e_tri_new := fun _ => tt;
  e_tri_add := fun _ _ => None;
  e_tri_cells := fun _ => [];
  e_solve := fun _ _ => None;
  e_rounds := 0;
  e_sample := fun _ k => k;
  e_work_off := bal_work_off;
  e_contract := lazy_contract;
  e_date := "2020-09-01";
|}.

Definition bal_dir : string := "custom/results/isle_of_man_2020-03-14/utc_2020-09-01".
Definition bal_world : world :=
  {| w_files := files [("config.yaml", T "config");
                       ("resources/isle_of_man_2020-03-14/balancing/init.yaml", T "init");
                       ("resources/isle_of_man_2020-03-14/balancing/iteration.yaml", T "iteration");
                       ("resources/isle_of_man_2020-03-14/graph.fmi", bal_map);
                       ("resources/isle_of_man_2020-03-14/10_000.route-pairs", bal_pairs);
                       (join bal_dir "config.yaml", T "of a run which has been started at the same time");
                       ("readme", T "hello")]; w_ops := 0 |}.
Definition bal_args : args :=
  {| a_cfg := "config.yaml"; a_graph := false; a_edges := false; a_pairs := false; a_routing := false; a_evaluating := false; a_balancing := true |}.
