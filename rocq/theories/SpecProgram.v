(** Vocabulary of the properties about the whole program: which files it may
    create and change. *)
From Coq Require Import String List Bool Arith NArith.
From Verif Require Import Base F64 ModelText ModelConfig ModelGraph ModelBuild ModelParsing ModelFmi ModelDijkstra ModelRoutingCfg ModelBalancing
  ModelRoutePairs ModelSmarts ModelWriting ModelEvaluating ModelYaml ModelDocs ModelProgram.
Import ListNotations.
Open Scope string_scope.
Open Scope list_scope.
Open Scope nat_scope.

(** the text of the file a path leads to *)
Definition file_at (e : env) (w : world) (p : string) : option text := w_files w (e_resolve e p).

(** the files didn't change *)
Definition same_files (w w' : world) : Prop := forall k, w_files w' k = w_files w k.

(** all files are still there with their texts *)
Definition kept (w w' : world) : Prop := forall k t, w_files w k = Some t -> w_files w' k = Some t.

(** the section of a configuration as it is stored in the world *)
Definition says {A} (e : env) (w : world) (read : yaml -> res A) (p : string) (a : A) : Prop :=
  exists t y, file_at e w p = Some t /\ e_yaml e t = Some y /\ read y = Ok a.

(** the files a run may create, as named by the configuration *)
Inductive named_output (e : env) (w : world) (a : args) : string -> Prop :=
| named_graph d : a_graph a = true -> says e w (read_writing_graph (e_scalars e)) (a_cfg a) d ->
    named_output e w a (gd_file d)
| named_edges d : a_edges a = true -> says e w (read_writing_edges (e_scalars e)) (a_cfg a) d ->
    named_output e w a (ed_file d)
| named_pairs d : a_pairs a = true -> says e w (read_writing_pairs (e_scalars e)) (a_cfg a) d ->
    named_output e w a (pr_file d)
| named_infos d : a_evaluating a = true -> says e w (read_evaluating (e_scalars e)) (a_cfg a) d ->
    named_output e w a (join (ev_results d) (ed_file (md_edges (ev_monitoring d))))
| named_workloads d : a_evaluating a = true -> says e w (read_evaluating (e_scalars e)) (a_cfg a) d ->
    named_output e w a (join (ev_results d) "abs_workloads.csv")
| named_smarts d : a_evaluating a = true -> says e w (read_evaluating (e_scalars e)) (a_cfg a) d ->
    named_output e w a (join (ev_results d) "smarts.xml").

(** the directory of the balancer's results *)
Definition dated_dir (e : env) (b : balancing_doc) : string := join (bd_results b) ("utc_" ++ e_date e).

(** the files the balancer may overwrite: copies directly in the directory of
    the results, copies of the iterations' configurations, and what multi-ch is
    told to write *)
Inductive overwritable (e : env) (w : world) (a : args) : string -> Prop :=
| over_copy b p n : says e w (read_balancing (e_scalars e)) (a_cfg a) b -> file_name p = Some n ->
    overwritable e w a (join (dated_dir e b) n)
| over_iteration b i : says e w (read_balancing (e_scalars e)) (a_cfg a) b ->
    overwritable e w a (join (iter_dir (dated_dir e b) i) "iteration.yaml")
| over_contracted b i : says e w (read_balancing (e_scalars e)) (a_cfg a) b ->
    overwritable e w a (join (iter_dir (dated_dir e b) i) (mc_contracted (bd_mch b))).

(** *** What the files tell *)

(** a generating category with the rows of the file it names *)
Definition with_rows (e : env) (w : world) (c : gen_doc) (g : gen_cat) : Prop :=
  match c with
  | DGen c => g = c
  | DMerge from header edge_id info =>
      exists t, file_at e w from = Some t /\ g = GMerge (merge_rows (e_parse_f64 e) header t) edge_id info
  end.

(** what the parser and the builder are told *)
Definition told (d : parsing_doc) (gens : list gen_cat) : parse_cfg :=
  {| pc_vehicles := pd_vehicles d; pc_nodes := pd_nodes d;
     pc_cfg := {| cfg_edges := pd_edges d;
                  cfg_nodes := map (fun c => match c with
                                             | NCMeta i id => NMeta i id
                                             | NCMetric _ id => NMetric id
                                             | NCIgnored => NIgnored
                                             end) (pd_nodes d);
                  cfg_gen_nodes := match pd_generating d with Some (ns, _) => ns | None => [] end;
                  cfg_gen_edges := gens |} |}.

(** the graph in the map-file of a configuration *)
Definition graph_of (e : env) (w : world) (d : parsing_doc) (g : graph) : Prop :=
  exists t gens, file_at e w (pd_map_file d) = Some t /\ Forall2 (with_rows e w) (gen_edges d) gens /\
    (find_supported_ext MAP_EXTS (pd_map_file d) = Ok "fmi" /\
     fmi_graph (e_parse_f64 e) (e_hav e) (e_dim e) (told d gens) (e_chunk1 e) (e_chunk2 e) t = Ok g
     \/ find_supported_ext MAP_EXTS (pd_map_file d) = Ok "pbf" /\
        pbf_graph (e_hav e) (e_dim e) (told d gens) (e_chunk1 e) (e_chunk2 e) (e_pbf e t) = Ok g).

(** the configuration for routing on a graph *)
Definition routing_says (e : env) (w : world) (cfg : string) (g : graph) (o : option string) (rc : routing_cfg) : Prop :=
  says e w (read_routing_cfg (e_scalars e) (fun s => e_parse_f64 e (list_ascii_of_string s)) (cfg_edges (g_cfg g))) cfg (o, rc).

(** the pairs in a file *)
Definition pairs_in (e : env) (w : world) (p : string) (pairs : list route) : Prop :=
  exists t, file_at e w p = Some t /\ parse_routes t = Ok pairs.

(** the file has been created with this text *)
Definition created (e : env) (w w' : world) (p : string) (t : text) : Prop :=
  file_at e w p = None /\ file_at e w' p = Some t.

(** what a run with the graph [g] has created *)
Record outputs (e : env) (a : args) (w w' : world) (d : parsing_doc) (g : graph) : Prop := mkOutputs {
  out_graph : a_graph a = true -> exists gd t,
    says e w (read_writing_graph (e_scalars e)) (a_cfg a) gd /\
    write_fmi (e_show_f64 e) (e_show_ids e) g (node_cats d) (gd_cfg gd) = Ok t /\ created e w w' (gd_file gd) t;
  out_edges : a_edges a = true -> exists ed t,
    says e w (read_writing_edges (e_scalars e)) (a_cfg a) ed /\
    write_edges (e_show_f64 e) g (ed_cfg ed) = Ok t /\ created e w w' (ed_file ed) t;
  out_pairs : a_pairs a = true -> exists o rc pd t,
    routing_says e w (a_cfg a) g o rc /\ says e w (read_writing_pairs (e_scalars e)) (a_cfg a) pd /\
    write_routes (e_pick e) (e_fuel e) (e_sample e (pr_seed pd)) (e_fuel e) g rc (list_ascii_of_string (pd_map_file d))
                 (pr_seed pd) (N.to_nat (pr_max pd)) = Ok t /\
    created e w w' (pr_file pd) t;
  out_evaluation : a_evaluating a = true -> exists p rc ev pairs values paths infos loads,
    routing_says e w (a_cfg a) g (Some p) rc /\ says e w (read_evaluating (e_scalars e)) (a_cfg a) ev /\
    pairs_in e w' p pairs /\
    e_work_off e g rc pairs (ev_threads ev) (ev_seed ev) 0 (md_smarts (ev_monitoring ev)) = Ok (values, paths) /\
    write_evaluation (e_show_f64 e) g (ed_cfg (md_edges (ev_monitoring ev))) values = Ok (infos, loads) /\
    created e w w' (join (ev_results ev) (ed_file (md_edges (ev_monitoring ev)))) infos /\
    created e w w' (join (ev_results ev) "abs_workloads.csv") loads /\
    (forall ps, paths = Some ps -> exists t, write_smarts g ps = Ok t /\ created e w w' (join (ev_results ev) "smarts.xml") t);
}.
