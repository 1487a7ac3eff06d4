(** Vocabulary of the properties about balancing with files: the places of the
    results and what they document. *)
From Coq Require Import String List Bool Arith NArith.
From Verif Require Import Base F64 ModelText ModelConfig ModelGraph ModelBuild ModelParsing ModelFmi ModelDijkstra ModelRoutingCfg ModelBalancing
  ModelRoutePairs ModelSmarts ModelWriting ModelEvaluating ModelYaml ModelDocs ModelProgram SpecProgram.
Import ListNotations.
Open Scope string_scope.
Open Scope list_scope.
Open Scope nat_scope.

(** *** Places *)

(** the configuration which is used for an iteration, and its copy *)
Definition template (b : balancing_doc) (i : nat) : string :=
  match i with O => bd_iter0 b | S _ => bd_iteri b end.
Definition iteration_dir (e : env) (b : balancing_doc) (i : nat) : string := iter_dir (dated_dir e b) i.
Definition iteration_cfg (e : env) (b : balancing_doc) (i : nat) : string := join (iteration_dir e b i) "iteration.yaml".
Definition stats_dir (e : env) (b : balancing_doc) (i : nat) : string := join (iteration_dir e b i) "stats".

(** what the results consist of: two copies and the balanced graph, and the
    files of every iteration *)
Inductive part : Type :=
| PConfig | PPairs | PBalanced
| PIteration (i : nat) | PGraph (i : nat) | PEdges (i : nat) | PContracted (i : nat)
| PInfos (i : nat) | PWorkloads (i : nat) | PVehicles (i : nat).

(** where they are, as the configurations say *)
Inductive placed (e : env) (w : world) (cfg : string) (b : balancing_doc) : part -> string -> Prop :=
| placed_config n : file_name cfg = Some n -> placed e w cfg b PConfig (join (dated_dir e b) n)
| placed_pairs r p n : says e w (read_routing (e_scalars e)) cfg r -> rd_pairs r = Some p -> file_name p = Some n ->
    placed e w cfg b PPairs (join (dated_dir e b) n)
| placed_balanced d n : says e w (read_writing_graph (e_scalars e)) cfg d -> file_name (gd_file d) = Some n ->
    placed e w cfg b PBalanced (join (dated_dir e b) n)
| placed_iteration i : (N.of_nat i < bd_num_iter b)%N -> placed e w cfg b (PIteration i) (iteration_cfg e b i)
| placed_graph i d : (N.of_nat i < bd_num_iter b)%N -> says e w (read_writing_graph (e_scalars e)) (template b i) d ->
    placed e w cfg b (PGraph i) (join (iteration_dir e b i) (gd_file d))
| placed_edges i d : (N.of_nat i < bd_num_iter b)%N -> says e w (read_writing_edges (e_scalars e)) (template b i) d ->
    placed e w cfg b (PEdges i) (join (iteration_dir e b i) (ed_file d))
| placed_contracted i : (N.of_nat i < bd_num_iter b)%N ->
    placed e w cfg b (PContracted i) (join (iteration_dir e b i) (mc_contracted (bd_mch b)))
| placed_infos i : (N.of_nat i < bd_num_iter b)%N ->
    placed e w cfg b (PInfos i) (join (stats_dir e b i) (ed_file (md_edges (bd_monitoring b))))
| placed_workloads i : (N.of_nat i < bd_num_iter b)%N ->
    placed e w cfg b (PWorkloads i) (join (stats_dir e b i) "abs_workloads.csv")
| placed_vehicles i : (N.of_nat i < bd_num_iter b)%N ->
    placed e w cfg b (PVehicles i) (join (stats_dir e b i) "smarts.xml").

(** there is room for all of them: nothing is in their places, different parts
    have different places, and the iterations' configurations are already there *)
Definition room (e : env) (w : world) (cfg : string) (b : balancing_doc) : Prop :=
  (forall i, (N.of_nat i < bd_num_iter b)%N -> file_at e w (template b i) <> None) /\
  (forall x p, placed e w cfg b x p -> file_at e w p = None) /\
  (forall x y p q, placed e w cfg b x p -> placed e w cfg b y q -> e_resolve e p = e_resolve e q -> x = y).

(** *** What the results document *)

(** files of the configuration are looked up in the iteration's directory *)
Definition moved_gen (dir : string) (c : gen_doc) : gen_doc :=
  match c with
  | DGen c => DGen c
  | DMerge from h i info => DMerge (join dir from) h i info
  end.
Definition moved (dir : string) (d d' : parsing_doc) : Prop :=
  exists ns es, pd_generating d = Some (ns, es) /\ pd_generating d' = Some (ns, map (moved_gen dir) es) /\
    pd_map_file d' = join dir (pd_map_file d) /\ pd_vehicles d' = pd_vehicles d /\
    pd_nodes d' = pd_nodes d /\ pd_edges d' = pd_edges d.

(** the first iteration routes without the metric to be balanced *)
Definition steered (i : nat) (ids : list string) (metric : string) (rc rc' : routing_cfg) : Prop :=
  match i with
  | S _ => rc' = rc
  | O => rc_algo rc' = rc_algo rc /\ rc_scales rc' = rc_scales rc /\
         exists mi, nth_error ids mi = Some metric /\ (forall j, j < mi -> nth_error ids j <> Some metric) /\ mi < length (rc_alphas rc) /\
           forall j, nth_error (rc_alphas rc') j = if j =? mi then Some f0 else nth_error (rc_alphas rc) j
  end.

(** a graph and the configuration it has been read with *)
Definition state : Type := parsing_doc * graph.
Definition graph_text (e : env) (s : state) (c : graph_cfg) : res text :=
  write_fmi (e_show_f64 e) (e_show_ids e) (snd s) (node_cats (fst s)) c.

(** the files tell how iteration [i] has come from [s] to [s'], having read [ch]
    and counted [values] *)
Definition documented (e : env) (w : world) (cfg : string) (b : balancing_doc) (i : nat) (s : state)
           (ch : graph) (values : list nat) (s' : state) : Prop :=
  let dir := iteration_dir e b i in
  exists tpl wg we tg te c t tc pd old rc rc' pairs paths infos loads,
    (* the iteration's configuration is a copy *)
    file_at e w (template b i) = Some tpl /\ file_at e w (iteration_cfg e b i) = Some tpl /\
    (* the graph is written as the iteration's configuration asks for *)
    says e w (read_writing_graph (e_scalars e)) (template b i) wg /\
    graph_text e s (gd_cfg wg) = Ok tg /\ file_at e w (join dir (gd_file wg)) = Some tg /\
    says e w (read_writing_edges (e_scalars e)) (template b i) we /\
    write_edges (e_show_f64 e) (snd s) (ed_cfg we) = Ok te /\ file_at e w (join dir (ed_file we)) = Some te /\
    (* multi-ch contracts, without the metric to be balanced at first *)
    mc_graph c = join dir (mc_graph (bd_mch b)) /\ mc_contracted c = join dir (mc_contracted (bd_mch b)) /\
    mc_dim (bd_mch b) = (mc_dim c + match i with O => 1 | S _ => 0 end)%N /\
    file_at e w (mc_graph c) = Some t /\ e_contract e c t = Some tc /\ file_at e w (mc_contracted c) = Some tc /\
    (* the contracted graph is read *)
    says e w (read_parsing (e_scalars e)) (template b i) pd /\ moved dir pd (fst s') /\ graph_of e w (fst s') ch /\
    (* route-pairs are worked off *)
    routing_says e w cfg ch (Some old) rc /\ steered i (ec_ids (cfg_edges (g_cfg ch))) (bc_metric (bd_cfg b)) rc rc' /\
    pairs_in e w old pairs /\
    e_work_off e ch rc' pairs (bd_threads b) (bd_seed b) i (md_smarts (bd_monitoring b)) = Ok (values, paths) /\
    (* the metric is updated, and the statistics are written *)
    update_new_metric i values (bd_cfg b) ch = (Ok tt, snd s') /\
    write_evaluation (e_show_f64 e) (snd s') (ed_cfg (md_edges (bd_monitoring b))) values = Ok (infos, loads) /\
    file_at e w (join (stats_dir e b i) (ed_file (md_edges (bd_monitoring b)))) = Some infos /\
    file_at e w (join (stats_dir e b i) "abs_workloads.csv") = Some loads /\
    (forall ps, paths = Some ps -> exists t, write_smarts (snd s') ps = Ok t /\ file_at e w (join (stats_dir e b i) "smarts.xml") = Some t).

(** these iterations, the first of them being number [i]; the graphs read and the
    workloads counted are listed *)
Inductive documented_from (e : env) (w : world) (cfg : string) (b : balancing_doc)
  : nat -> state -> list (graph * list nat) -> state -> Prop :=
| documented_nil i s : documented_from e w cfg b i s [] s
| documented_cons i s ch values s1 steps s2 :
    documented e w cfg b i s ch values s1 -> documented_from e w cfg b (S i) s1 steps s2 ->
    documented_from e w cfg b i s ((ch, values) :: steps) s2.

(** the balanced graph has been written *)
Definition balanced (e : env) (w w' : world) (cfg : string) (b : balancing_doc) (s : state) : Prop :=
  exists d n t, says e w (read_writing_graph (e_scalars e)) cfg d /\ file_name (gd_file d) = Some n /\
    graph_text e s (gd_cfg d) = Ok t /\ file_at e w' (join (dated_dir e b) n) = Some t.

(** nothing but balancing is asked for *)
Definition only_balancing (a : args) : Prop :=
  a_graph a = false /\ a_edges a = false /\ a_pairs a = false /\ a_routing a = false /\ a_evaluating a = false /\ a_balancing a = true.
