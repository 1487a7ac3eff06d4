(** Model of the program: src/bin/osmgraphing/mod.rs (run) and
    src/bin/osmgraphing/balancing/mod.rs, which read and write files *)
From Coq Require Import String Ascii List Bool Arith NArith ZArith.
From Verif Require Import Base F64 ModelText ModelConfig ModelGraph ModelBuild ModelParsing ModelFmi ModelWriting
  ModelDijkstra ModelRoutingCfg ModelExplorator ModelBalancing ModelRoutePairs ModelSmarts ModelEvaluating ModelYaml ModelDocs.
Import ListNotations.
Open Scope string_scope.
Open Scope list_scope.
Open Scope nat_scope.

(** *** The outside *)

(** What surrounds the program (src/bin/osmgraphing/mod.rs:1-188): the file
    system, crates, the constants it has been compiled with, and the parts which
    are modelled elsewhere.  All of it is arbitrary. *)
Record env : Type := mkEnv {
  (** the file a path leads to *)
  e_resolve : string -> string;
  (** does the n-th operation on files fail for a reason outside of the model
      (missing directories, permissions, no space)? *)
  e_fails : nat -> bool;
  (** what is left in the file if the n-th operation fails while writing *)
  e_torn : nat -> text;
  (** nodes of a document (crate serde_yaml) and the meaning of its scalars *)
  e_yaml : text -> option yaml;
  e_scalars : scalars;
  (** objects of a pbf-file (crate osmpbfreader) *)
  e_pbf : text -> list osm_obj;
  (** reading and printing numbers and lists of ids (std) *)
  e_parse_f64 : text -> option f64;
  e_show_f64 : f64 -> text;
  e_show_ids : list text -> text;
  (** distance of two nodes, src/helpers (haversine) *)
  e_hav : coord -> coord -> f64;
  (** src/defaults.rs:28-36: number of metrics and lengths of the chunks *)
  e_dim : nat;
  e_chunk1 : nat;
  e_chunk2 : nat;
  (** Dijkstra's queue, bounds for loops, and the exploration's crates *)
  e_pick : nat -> list costnode -> nat;
  e_fuel : nat;
  e_tri : Type;
  e_tri_new : nat -> e_tri;
  e_tri_add : e_tri -> list f64 -> option (e_tri * nat);
  e_tri_cells : e_tri -> list (nat * list nat);
  e_solve : list (list f64) -> list f64 -> option (list f64);
  e_rounds : nat;
  (** the k-th number drawn with this seed, when writing route-pairs *)
  e_sample : N -> nat -> nat;
  (** the master and its workers with number of threads, seed, iteration and
      whether paths are asked for, see ModelBalancing.v: workloads, paths *)
  e_work_off : graph -> routing_cfg -> list route -> N -> N -> nat -> bool -> res (list nat * option (list path));
  (** the program multi-ch: contracting a graph-file *)
  e_contract : mch_doc -> text -> option text;
  (** the current date, as printed *)
  e_date : string;
}.

(** Files and the number of operations so far. *)
Record world : Type := mkWorld { w_files : string -> option text; w_ops : nat }.

(** A part of the program: it changes the world and returns, fails or panics. *)
Definition io (A : Type) : Type := world -> world * res A.
Definition ret {A} (a : A) : io A := fun w => (w, Ok a).
Definition lift {A} (r : res A) : io A := fun w => (w, r).
Definition next {A B} (m : io A) (k : A -> io B) : io B :=
  fun w => match m w with
           | (w, Ok a) => k a w
           | (w, Err msg) => (w, Err msg)
           | (w, Panic) => (w, Panic)
           | (w, Diverge) => (w, Diverge)
           end.
Notation "'let!' x <- m ; k" := (next m (fun x => k))
  (at level 200, x pattern, m at level 100, k at level 200, right associativity).

(** writing into a file *)
Definition put (f : string) (t : text) : io unit :=
  fun w => ({| w_files := fun k => if String.eqb k f then Some t else w_files w k; w_ops := w_ops w |}, Ok tt).

(** models: std::path::Path::join. *)
Definition join (a b : string) : string :=
  match b with
  | String "/" _ => b
  | _ => if String.eqb a "" then b
         else if String.eqb (substring (String.length a - 1) 1 a) "/" then a ++ b
         else a ++ "/" ++ b
  end%string.

(** models: std::path::Path::file_name, for paths which don't end in a slash or
    in `/.`. *)
Definition file_name (p : string) : option string :=
  let name := file_name_from [] (list_ascii_of_string p) in
  if text_eqb name [] || text_eqb name (T "..") || text_eqb name (T ".") then None
  else Some (string_of_list_ascii name).

Section Program.
  Variable e : env.

  (** *** Operations on files *)

  (** does the next operation fail for a reason outside of the model? *)
  Definition outside : io bool :=
    fun w => ({| w_files := w_files w; w_ops := S (w_ops w) |}, Ok (e_fails e (w_ops w))).
  Definition torn : io text := fun w => (w, Ok (e_torn e (w_ops w))).

  (** the file of a path, if it exists *)
  Definition look (p : string) : io (option text) := fun w => (w, Ok (w_files w (e_resolve e p))).

  (** models: std::path::Path::exists. *)
  Definition exists_ (p : string) : io bool :=
    let! f <- look p;
    ret (match f with Some _ => true | None => false end).

  (** models: opening a file for reading and reading it; [fail] is what
      happens if that's not possible: `?` or `expect`. *)
  Definition read_file (fail : res text) (p : string) : io text :=
    let! bad <- outside;
    if bad : bool then lift fail
    else let! f <- look p;
         lift (match f with Some t => Ok t | None => fail end).

  (** models: `OpenOptions::new().write(true).create_new(true).open(p)?` and
      writing [content], e.g. src/io/writing/network/edges.rs:37-56.  A writer
      which stops leaves some text in its file. *)
  Definition create_new (p : string) (content : res text) : io unit :=
    let! bad <- outside;
    if bad : bool then lift (Err "couldn't open file")
    else
      let! f <- look p;
      match f with
      | Some _ => lift (Err "file exists")
      | None =>
          let! t <- torn;
          let! bad <- outside;
          match content with
          | Ok c => if bad : bool then let! _ <- put (e_resolve e p) t; lift (Err "couldn't write")
                    else put (e_resolve e p) c
          | r => let! _ <- put (e_resolve e p) t; lift (do _ <- r; Ok tt)
          end
      end.

  (** models: std::fs::copy; the target is overwritten, and a file copied to
      itself is emptied. *)
  Definition copy_file (a b : string) : io unit :=
    let! bad <- outside;
    if bad : bool then lift (Err "couldn't copy")
    else
      let! f <- look a;
      match f with
      | None => lift (Err "couldn't copy")
      | Some c =>
          let! t <- torn;
          let! bad <- outside;
          if bad : bool then let! _ <- put (e_resolve e b) t; lift (Err "couldn't copy")
          else put (e_resolve e b) (if String.eqb (e_resolve e a) (e_resolve e b) then [] else c)
      end.

  (** models: std::fs::create_dir_all; directories are not modelled. *)
  Definition create_dir (p : string) : io unit :=
    let! bad <- outside;
    lift (if bad : bool then Err "couldn't create directory" else Ok tt).

  (** *** Reading *)

  (** models: the functions try_from_yaml, e.g. src/configs/parsing/mod.rs:45-76,
      src/configs/routing.rs:93-123: [read] is what they make of a document. *)
  Definition load {A} (read : yaml -> res A) (p : string) : io A :=
    let! _ <- lift (find_supported_ext CFG_EXTS p);
    let! t <- read_file (Err "couldn't open config") p;
    lift (match e_yaml e t with Some y => read y | None => Err "serde couldn't read" end).

  (** models: src/configs/routing.rs:93-123 (try_from_yaml). *)
  Definition load_routing (g : graph) (p : string) : io (option string * routing_cfg) :=
    load (read_routing_cfg (e_scalars e) (fun s => e_parse_f64 e (list_ascii_of_string s)) (cfg_edges (g_cfg g))) p.

  (** models: src/network/graph/building.rs:1319-1328 (opening the file to be
      merged) and src/io/parsing/network/edges.rs:14-36 (new_reader). *)
  Definition load_gen (c : gen_doc) : io gen_cat :=
    match c with
    | DGen c => ret c
    | DMerge from header edge_id info =>
        let! _ <- lift (find_supported_ext EDGES_EXTS from);
        let! t <- read_file Panic from;
        ret (GMerge (merge_rows (e_parse_f64 e) header t) edge_id info)
    end.
  Fixpoint load_gens (cs : list gen_doc) : io (list gen_cat) :=
    match cs with
    | [] => ret []
    | c :: cs => let! c <- load_gen c; let! cs <- load_gens cs; ret (c :: cs)
    end.

  (** the generating sections of a document, src/configs/parsing/mod.rs:28-36 *)
  Definition gen_nodes (d : parsing_doc) : list (node_meta * string) :=
    match pd_generating d with Some (ns, _) => ns | None => [] end.
  Definition gen_edges (d : parsing_doc) : list gen_doc :=
    match pd_generating d with Some (_, es) => es | None => [] end.

  (** the configuration of a document, src/configs/parsing/mod.rs:28-36, with
      the rows to be merged *)
  Definition config_of (d : parsing_doc) (gens : list gen_cat) : parse_cfg :=
    {| pc_vehicles := pd_vehicles d;
       pc_nodes := pd_nodes d;
       pc_cfg := {| cfg_edges := pd_edges d; cfg_nodes := map forget_unit (pd_nodes d);
                    cfg_gen_nodes := gen_nodes d; cfg_gen_edges := gens |} |}.

  (** the same without rows, for src/io/parsing/network/graph/mod.rs:106-239
      (check_config), which doesn't look at them *)
  Definition unmerged (c : gen_doc) : gen_cat :=
    match c with
    | DGen c => c
    | DMerge _ _ edge_id info => GMerge [] edge_id info
    end.

  (** A graph with the document it has been read with: the graph's configuration
      doesn't keep the path of its file nor the units of its nodes. *)
  Record loaded : Type := mkLoaded { ld_doc : parsing_doc; ld_graph : graph }.

  (** categories of the nodes after src/network/graph/building.rs:893-933: the
      generated ones are added *)
  Definition node_cats (d : parsing_doc) : list node_cat :=
    pd_nodes d ++ map (fun n => NCMeta (fst n) (snd n)) (gen_nodes d).

  (** models: src/io/parsing/network/graph/mod.rs:55-103 (parse_and_finalize).
      Simplifications: the map-file is read once, and the files to be merged are
      read before the map-file is parsed; which of several failures is reported
      may differ. *)
  Definition parse_graph (d : parsing_doc) : io loaded :=
    let! ext <- lift (find_supported_ext MAP_EXTS (pd_map_file d));
    let! _ <- lift (check_config (e_dim e) (config_of d (map unmerged (gen_edges d))));
    let! t <- read_file Panic (pd_map_file d);
    let! gens <- load_gens (gen_edges d);
    let pc := config_of d gens in
    let! g <- lift (if String.eqb ext "fmi"
                    then fmi_graph (e_parse_f64 e) (e_hav e) (e_dim e) pc (e_chunk1 e) (e_chunk2 e) t
                    else pbf_graph (e_hav e) (e_dim e) pc (e_chunk1 e) (e_chunk2 e) (e_pbf e t));
    ret {| ld_doc := d; ld_graph := g |}.

  (** models: src/io/parsing/routing/mod.rs:8-22 and :48-58 (parse). *)
  Definition load_pairs (o : option string) : io (list route) :=
    match o with
    | None => lift Panic
    | Some p =>
        let! _ <- lift (find_supported_ext PAIRS_EXTS p);
        let! t <- read_file Panic p;
        lift (parse_routes t)
    end.

  (** *** Writing *)

  (** models: `if file.exists() { return Err(..) }`. *)
  Definition must_be_new (p : string) : io unit :=
    let! x <- exists_ p;
    lift (if x : bool then Err "file does already exist" else Ok tt).

  (** models: src/io/writing/network/graph/mod.rs:14-31 (write) with
      src/io/writing/network/graph/fmi.rs:24-35. *)
  Definition graph_writer (l : loaded) (d : graph_doc) : io unit :=
    let! _ <- lift (find_supported_ext GRAPH_EXTS (gd_file d));
    create_new (gd_file d) (write_fmi (e_show_f64 e) (e_show_ids e) (ld_graph l) (node_cats (ld_doc l)) (gd_cfg d)).

  (** models: src/bin/osmgraphing/balancing/mod.rs:436-462 (write_graph), and
      src/bin/osmgraphing/mod.rs:97-105. *)
  Definition write_graph (l : loaded) (d : graph_doc) : io unit :=
    let! _ <- must_be_new (gd_file d);
    graph_writer l d.

  (** models: src/io/writing/network/edges.rs:28-60 (write). *)
  Definition edges_writer (g : graph) (d : edges_doc) : io unit :=
    let! _ <- lift (find_supported_ext EDGES_EXTS (ed_file d));
    create_new (ed_file d) (write_edges (e_show_f64 e) g (ed_cfg d)).

  (** models: src/bin/osmgraphing/balancing/mod.rs:464-490 (write_edges), and
      src/bin/osmgraphing/mod.rs:117-136. *)
  Definition write_edges_file (g : graph) (d : edges_doc) : io unit :=
    let! _ <- must_be_new (ed_file d);
    edges_writer g d.

  (** models: src/bin/osmgraphing/mod.rs:149-167 and
      src/io/writing/routing/mod.rs:9-26 (write). *)
  Definition write_pairs_file (l : loaded) (rc : routing_cfg) (d : pairs_doc) : io unit :=
    let! _ <- must_be_new (pr_file d);
    create_new (pr_file d)
      (write_routes (e_pick e) (e_fuel e) (e_sample e (pr_seed d)) (e_fuel e) (ld_graph l) rc
                    (list_ascii_of_string (pd_map_file (ld_doc l))) (pr_seed d) (N.to_nat (pr_max d))).

  (** models: src/defaults.rs:65, :109, :112, :121. *)
  Definition XML_FILE_NAME : string := "smarts.xml".
  Definition STATS_DIR : string := "stats".
  Definition ABS_WORKLOADS : string := "abs_workloads.csv".
  Definition ITERATION_CFG : string := "iteration.yaml".

  (** models: src/io/writing/evaluating_balance.rs:35-92 (write): two files, see
      ModelEvaluating.v. *)
  Definition evaluation_writer (g : graph) (dir : string) (m : monitoring_doc) (values : list nat) : io unit :=
    let! _ <- edges_writer g {| ed_file := join dir (ed_file (md_edges m)); ed_cfg := ed_cfg (md_edges m) |};
    match edge_id_name (ec_categories (cfg_edges (g_cfg g))) with
    | None => lift (Err "For writing absolute workloads to csv, an edge-id should be given.")
    | Some id =>
        let p := join dir ABS_WORKLOADS in
        let! _ <- lift (find_supported_ext EDGES_EXTS p);
        create_new p (write_external_values g (workloads_cfg (ed_cfg (md_edges m)) id) (map show_nat values))
    end.

  (** models: src/bin/osmgraphing/mod.rs:309-320 and
      src/bin/osmgraphing/balancing/mod.rs:354-364: workloads and paths. *)
  Definition write_results (g : graph) (dir : string) (m : monitoring_doc) (r : list nat * option (list path)) : io unit :=
    let! _ <- evaluation_writer g dir m (fst r);
    match snd r with
    | Some ps => create_new (join dir XML_FILE_NAME) (write_smarts g ps)
    | None => ret tt
    end.

  (** *** Routing *)

  (** What is reported for a pair of nodes: the paths found. *)
  Record report : Type := mkReport { r_src : nat; r_dst : nat; r_paths : list path }.

  (** models: src/bin/osmgraphing/mod.rs:206-232 (one query). *)
  Definition route_once (g : graph) (rc : routing_cfg) (s : dijkstra * list report) (r : route)
    : res (dijkstra * list report) :=
    do n <- into_node g (fst r);
    do a <- compute_best_path (e_pick e) (e_fuel e) (fst s) g rc (fst n) (snd n);
    match snd a with
    | None => Ok (fst a, snd s ++ [{| r_src := fst n; r_dst := snd n; r_paths := [] |}])
    | Some p =>
        do p <- flatten g (e_fuel e) p;
        Ok (fst a, snd s ++ [{| r_src := fst n; r_dst := snd n; r_paths := [p] |}])
    end.

  (** models: src/bin/osmgraphing/mod.rs:241-270 (one query). *)
  Definition explore_once (g : graph) (rc : routing_cfg) (s : dijkstra * list report) (r : route)
    : res (dijkstra * list report) :=
    do n <- into_node g (fst r);
    do a <- fully_explorate (e_pick e) (e_fuel e) (e_tri e) (e_tri_new e) (e_tri_add e) (e_tri_cells e) (e_solve e)
              (e_rounds e) g (inner_cfg rc) (fst n) (snd n) (fst s);
    Ok (fst a, snd s ++ [{| r_src := fst n; r_dst := snd n; r_paths := snd a |}]).

  (** models: src/bin/osmgraphing/mod.rs:190-275 (do_simply_routing); what is
      logged, without the times. *)
  Definition simply_routing (cfg : string) (g : graph) : io (list report) :=
    let! rc <- load_routing g cfg;
    let! pairs <- load_pairs (fst rc);
    let! r <- lift (foldM (match rc_algo (snd rc) with
                           | AExplorator _ => explore_once g (snd rc)
                           | _ => route_once g (snd rc)
                           end) pairs (dijkstra_new, []));
    ret (snd r).

  (** models: src/bin/osmgraphing/mod.rs:277-323 (do_evaluating_routing), and
      src/io/writing/evaluating_balance.rs:13-33 (check). *)
  Definition evaluating_routing (cfg : string) (g : graph) : io unit :=
    let! rc <- load_routing g cfg;
    let! d <- load (read_evaluating (e_scalars e)) cfg;
    let! _ <- must_be_new (join (ev_results d) (ed_file (md_edges (ev_monitoring d))));
    let! _ <- must_be_new (join (ev_results d) ABS_WORKLOADS);
    let! _ <- must_be_new (join (ev_results d) XML_FILE_NAME);
    let! pairs <- load_pairs (fst rc);
    let! r <- lift (e_work_off e g (snd rc) pairs (ev_threads d) (ev_seed d) 0 (md_smarts (ev_monitoring d)));
    let! _ <- create_dir (ev_results d);
    write_results g (ev_results d) (ev_monitoring d) r.

  (** *** Balancing *)

  (** models: src/bin/osmgraphing/balancing/mod.rs:94-96 (iter_dir). *)
  Definition iter_dir (dir : string) (iter : nat) : string :=
    join dir (string_of_list_ascii (show_nat iter)).

  (** models: src/bin/osmgraphing/balancing/mod.rs:103-127 (prepare_results): the
      directory of the results. *)
  Definition prepare_results (cfg : string) (b : balancing_doc) : io string :=
    let dir := join (bd_results b) ("utc_" ++ e_date e) in
    let! _ <- create_dir dir;
    match file_name cfg with
    | None => lift (Err "The provided cfg is not a file.")
    | Some n => let! _ <- copy_file cfg (join dir n); ret dir
    end.

  (** models: src/bin/osmgraphing/balancing/mod.rs:129-150 (prepare_iteration). *)
  Definition prepare_iteration (b : balancing_doc) (dir : string) (iter : nat) : io unit :=
    let! _ <- create_dir (join (iter_dir dir iter) STATS_DIR);
    copy_file (if iter =? 0 then bd_iter0 b else bd_iteri b) (join (iter_dir dir iter) ITERATION_CFG).

  (** models: src/bin/osmgraphing/balancing/mod.rs:152-178
      (write_multi_ch_graph). *)
  Definition write_multi_ch_graph (dir : string) (l : loaded) (iter : nat) : io unit :=
    let idir := iter_dir dir iter in
    let! d <- load (read_writing_graph (e_scalars e)) (join idir ITERATION_CFG);
    let! _ <- write_graph l {| gd_file := join idir (gd_file d); gd_cfg := gd_cfg d |};
    let! d <- load (read_writing_edges (e_scalars e)) (join idir ITERATION_CFG);
    write_edges_file (ld_graph l) {| ed_file := join idir (ed_file d); ed_cfg := ed_cfg d |}.

  (** models: src/bin/osmgraphing/balancing/mod.rs:184-195 (mchc_cfg);
      subtracting underflows. *)
  Definition mch_of (b : balancing_doc) (dir : string) (iter : nat) : res mch_doc :=
    let c := bd_mch b in
    do dim <- (if iter =? 0 then if (mc_dim c =? 0)%N then Panic else Ok (mc_dim c - 1)%N else Ok (mc_dim c));
    Ok {| mc_graph := join (iter_dir dir iter) (mc_graph c);
          mc_contracted := join (iter_dir dir iter) (mc_contracted c);
          mc_ratio := mc_ratio c; mc_dim := dim; mc_accuracy := F64_ABS;
          mc_threads := mc_threads c; mc_osm_ids := mc_osm_ids c; mc_external_ids := mc_external_ids c |}.

  (** models: src/bin/osmgraphing/balancing/mod.rs:180-199 (construct_ch_graph)
      and src/multi_ch_constructor/mod.rs:11-86: multi-ch reads a file and writes
      another one, overwriting it.  For its arguments, see ModelMultiCh.v. *)
  Definition construct_ch_graph (b : balancing_doc) (dir : string) (iter : nat) : io unit :=
    let! c <- lift (mch_of b dir iter);
    let! bad <- outside;
    if bad : bool then lift (Err "Failed: cmake")
    else
      let! f <- look (mc_graph c);
      let! t <- torn;
      let! bad <- outside;
      match match f with Some t => e_contract e c t | None => None end with
      | Some t => put (e_resolve e (mc_contracted c)) t
      | None => if bad : bool then let! _ <- put (e_resolve e (mc_contracted c)) t; lift (Err "Failed: multi-ch")
                else lift (Err "Failed: multi-ch")
      end.

  (** models: src/bin/osmgraphing/balancing/mod.rs:210-246: files are relative to
      the iteration's directory, and the generating section is expected. *)
  Definition relocate (idir : string) (d : parsing_doc) : res parsing_doc :=
    do g <- expect (pd_generating d);
    Ok {| pd_map_file := join idir (pd_map_file d);
          pd_vehicles := pd_vehicles d; pd_nodes := pd_nodes d; pd_edges := pd_edges d;
          pd_generating := Some (fst g, map (fun c => match c with
                                                      | DGen c => DGen c
                                                      | DMerge from h i info => DMerge (join idir from) h i info
                                                      end) (snd g)) |}.

  (** models: src/bin/osmgraphing/balancing/mod.rs:201-249 (read_in_ch_graph). *)
  Definition read_in_ch_graph (dir : string) (iter : nat) : io loaded :=
    let! d <- load (read_parsing (e_scalars e)) (join (iter_dir dir iter) ITERATION_CFG);
    let! d <- lift (relocate (iter_dir dir iter) d);
    parse_graph d.

  (** models: src/bin/osmgraphing/balancing/mod.rs:251-299
      (read_in_routing_cfg). *)
  Definition read_in_routing (cfg : string) (b : balancing_doc) (dir : string) (iter : nat) (ch : graph)
    : io (string * routing_cfg) :=
    let! r <- load_routing ch cfg;
    match fst r with
    | None => lift (Err "Please provide a route-pairs-file in your (routing-)config.")
    | Some old =>
        match file_name old with
        | None => lift (Err "The provided route-pairs-file in the (routing-)config is not a file.")
        | Some n =>
            let new := join dir n in
            if iter =? 0 then
              let! mi <- lift (try_idx_of (ec_ids (cfg_edges (g_cfg ch))) (bc_metric (bd_cfg b)));
              let! alphas <- lift (set (rc_alphas (snd r)) mi f0);
              let! _ <- copy_file old new;
              ret (new, {| rc_algo := rc_algo (snd r); rc_alphas := alphas; rc_scales := rc_scales (snd r) |})
            else ret (new, snd r)
        end
    end.

  (** models: src/bin/osmgraphing/balancing/mod.rs:301-373 (balance). *)
  Definition balance_graph (b : balancing_doc) (dir : string) (iter : nat) (l : loaded) (r : string * routing_cfg) : io loaded :=
    let! pairs <- load_pairs (Some (fst r));
    let! ws <- lift (e_work_off e (ld_graph l) (snd r) pairs (bd_threads b) (bd_seed b) iter (md_smarts (bd_monitoring b)));
    let! g <- lift (match update_new_metric iter (fst ws) (bd_cfg b) (ld_graph l) with
                    | (Ok _, g) => Ok g
                    | (Err m, _) => Err m
                    | (Panic, _) => Panic
                    | (Diverge, _) => Diverge
                    end);
    let! _ <- write_results g (join (iter_dir dir iter) STATS_DIR) (bd_monitoring b) ws;
    ret {| ld_doc := ld_doc l; ld_graph := g |}.

  (** models: src/bin/osmgraphing/balancing/mod.rs:39-51: storing the balanced
      graph. *)
  Definition store_graph (cfg : string) (dir : string) (l : loaded) : io unit :=
    let! d <- load (read_writing_graph (e_scalars e)) cfg;
    match file_name (gd_file d) with
    | None => lift (Err "The provided route-pairs-file in the (routing-)config is not a file.")
    | Some n => write_graph l {| gd_file := join dir n; gd_cfg := gd_cfg d |}
    end.

  (** models: src/bin/osmgraphing/balancing/mod.rs:35-72 (one iteration). *)
  Definition iteration (cfg : string) (b : balancing_doc) (dir : string) (iter : nat) (l : loaded) : io loaded :=
    let! _ <- (if (N.of_nat iter =? bd_num_iter b - 1)%N then store_graph cfg dir l else ret tt);
    let! _ <- prepare_iteration b dir iter;
    let! _ <- write_multi_ch_graph dir l iter;
    let! _ <- construct_ch_graph b dir iter;
    let! ch <- read_in_ch_graph dir iter;
    let! r <- read_in_routing cfg b dir iter (ld_graph ch);
    balance_graph b dir iter ch r.

  (** models: src/bin/osmgraphing/balancing/mod.rs:35 (the loop), [todo]
      iterations being left. *)
  Fixpoint iterations (cfg : string) (b : balancing_doc) (dir : string) (todo iter : nat) (l : loaded) : io loaded :=
    match todo with
    | O => ret l
    | S todo => let! l <- iteration cfg b dir iter l; iterations cfg b dir todo (S iter) l
    end.

  (** models: src/bin/osmgraphing/balancing/mod.rs:13-80 (run). *)
  Definition balancing (cfg : string) : io loaded :=
    let! _ <- load (read_writing_graph (e_scalars e)) cfg;
    let! b <- load (read_balancing (e_scalars e)) cfg;
    let! d <- load (read_parsing (e_scalars e)) cfg;
    let! l <- parse_graph d;
    let! _ <- load_routing (ld_graph l) cfg;
    let! dir <- prepare_results cfg b;
    iterations cfg b dir (N.to_nat (bd_num_iter b)) 0 l.

  (** *** The program *)

  (** models: src/bin/osmgraphing/mod.rs:476-486 (CmdlineArgs). *)
  Record args : Type := mkArgs {
    a_cfg : string;
    a_graph : bool;
    a_edges : bool;
    a_pairs : bool;
    a_routing : bool;
    a_evaluating : bool;
    a_balancing : bool;
  }.

  (** `if flag { .. }` *)
  Definition when (b : bool) (m : io unit) : io unit := if b then m else ret tt.

  (** models: src/bin/osmgraphing/mod.rs:59-188 (run), compiled with the feature
      gpl: what has been reported. *)
  Definition run (a : args) : io (list report) :=
    let cfg := a_cfg a in
    let! d <- load (read_parsing (e_scalars e)) cfg;
    let! l <- parse_graph d;
    let! _ <- when (a_graph a) (
      let! d <- load (read_writing_graph (e_scalars e)) cfg;
      write_graph l d);
    let! _ <- when (a_edges a) (
      let! d <- load (read_writing_edges (e_scalars e)) cfg;
      write_edges_file (ld_graph l) d);
    let! _ <- when (a_pairs a) (
      let! rc <- load_routing (ld_graph l) cfg;
      let! d <- load (read_writing_pairs (e_scalars e)) cfg;
      write_pairs_file l (snd rc) d);
    let! rs <- (if a_evaluating a then let! _ <- evaluating_routing cfg (ld_graph l); ret []
                else if a_routing a then simply_routing cfg (ld_graph l)
                else ret []);
    let! _ <- when (a_balancing a) (let! _ <- balancing cfg; ret tt);
    ret rs.
End Program.
