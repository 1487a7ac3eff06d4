(** Building a graph (src/network/graph/building.rs) with arithmetic that
    rounds: comparing metrics when removing duplicates, raising those close to
    zero, and generating metrics.  The definitions repeat those of ModelBuild.v
    and ModelUnits.v that calculate; everything that doesn't is taken from there. *)
From Coq Require Import String List Bool Arith ZArith QArith.
From Verif Require Import Base F64 ModelUnits ModelConfig ModelGraph ModelBuild ModelParsing ModelRounded ModelRoundedHeap ModelRoundedMetrics.
Import ListNotations.
Open Scope string_scope.
Open Scope list_scope.
Open Scope nat_scope.

Section Rounding.
  (** models: how the hardware rounds the exact result of an operation on f64. *)
  Variable ar : f64 -> f64.
  (** models: the conversions `To::from(From(x))` of the external crate kissunits
      (src/configs/parsing/generating/edges/metrics.rs:62-103), an arbitrary
      function here. *)
  Variable uc : unit_info -> unit_info -> f64 -> f64.

  (** *** Units *)

  (** models: src/configs/parsing/generating/edges/metrics.rs:58-138 (try_convert),
      with kissunits' conversions instead of exact ones. *)
  Definition rconvert_opt (from to : unit_info) (x : f64) : option f64 :=
    match from, to with
    | Meters, Kilometers | Kilometers, Meters
    | Seconds, Minutes | Seconds, Hours | Minutes, Seconds | Minutes, Hours | Hours, Seconds | Hours, Minutes =>
        Some (uc from to x)
    | Meters, Meters | Meters, UF64 | Kilometers, Kilometers | Kilometers, UF64
    | Seconds, Seconds | Seconds, UF64 | Minutes, Minutes | Minutes, UF64 | Hours, Hours | Hours, UF64
    | KilometersPerHour, KilometersPerHour | KilometersPerHour, UF64
    | LaneCount, LaneCount | LaneCount, UF64 | UF64, _ => Some x
    | _, _ => None
    end.
  (** models: src/configs/parsing/generating/edges/metrics.rs:132-137. *)
  Definition rtry_convert (from to : unit_info) (x : f64) : res f64 :=
    match rconvert_opt from to x with
    | Some y => Ok y
    | None => Err "Unit can't be converted."
    end.

  (** models: src/configs/parsing/generating/edges/metrics.rs:140-263
      (try_calc); the quotient of kissunits' values is the one of their numbers. *)
  Definition rtry_calc (result : unit_info) (unit_a : unit_info) (a : f64) (unit_b : unit_info) (b : f64) : res f64 :=
    let r :=
      match result, unit_a, unit_b with
      | Seconds, Kilometers, KilometersPerHour => Some (uc Hours Seconds (rdiv ar a b))
      | Minutes, Kilometers, KilometersPerHour => Some (uc Hours Minutes (rdiv ar a b))
      | Hours, Kilometers, KilometersPerHour => Some (rdiv ar a b)
      | KilometersPerHour, Kilometers, Hours => Some (rdiv ar a b)
      | _, _, _ => None
      end in
    match r with
    | Some y => Ok y
    | None => Err "can't be calculated"
    end.

  (** *** Before metrics are generated *)

  (** models: src/approximating.rs:148-159 (PartialEq for Approx<&[T]>, zip). *)
  Fixpoint rapprox_eq_vec (a b : list f64) : bool :=
    match a, b with
    | x :: a', y :: b' => rapprox_eq ar x y && rapprox_eq_vec a' b'
    | _, _ => true
    end.

  (** models: src/network/graph/building.rs:516-536 (is_duplicate). *)
  Definition ris_duplicate (e0 e1 : protoB) : bool :=
    opt_eqb (b_id e0) (b_id e1)
    && ((b_src e0 =? b_src e1) && (b_dst e0 =? b_dst e1))
    && rapprox_eq_vec (b_metrics e0) (b_metrics e1).

  (** models: one iteration of src/network/graph/building.rs:514-552. *)
  Definition rdedup_step (st : dd_state) (r : nat) : res dd_state :=
    let '(es, w, removed) := st in
    do e0 <- idx es (w - 1);
    do e1 <- idx es r;
    if ris_duplicate e0 e1 then Ok (es, w, removed ++ [r])
    else do es' <- swap es w r; Ok (es', w + 1, removed).

  (** models: src/network/graph/building.rs:511-554 (loop and truncate). *)
  Definition rdedup_edges (es : list protoB) : res (list protoB * list nat) :=
    do st <- foldM rdedup_step (seq 1 (length es - 1)) (es, 1, []);
    let '(es', _, removed) := st in
    Ok (firstn (length es' - length removed) es', removed).

  (** models: src/network/graph/building.rs:618-643 (body of the loop), the
      metrics close to zero being raised as in :69-88. *)
  Definition rstore_metrics (scs : list (nat * nat)) (st : store_state) (e : protoB) : res store_state :=
    do new_scs <- match b_sc e with
                  | Some k => do p <- idx scs k; Ok (st_scs st ++ [(st_idx st, p)])
                  | None => Ok (st_scs st)
                  end;
    Ok {| st_metrics := st_metrics st ++ [map (rclamp ar) (b_metrics e)];
          st_edges := st_edges st ++
            [ {| c_src := b_src e; c_dst := b_dst e; c_idx := 0; c_id := b_id e |} ];
          st_scs := new_scs;
          st_idx := st_idx st + 1 |}.

  (** models: src/network/graph/building.rs:658-666 (smaller than accuracy). *)
  Definition rmetrics_too_small (ms : list (list f64)) : bool :=
    existsb (existsb (fun x => fltb x (rABS ar))) ms.

  (** models: src/network/graph/building.rs:351-884, as [build_core]. *)
  Definition rbuild_core (c : cfg) (ch1 ch2 : nat) (b : node_builder) : res graph :=
    do coords <- all_coords (nb_coords b);
    do bs <- work_off_chunks (to_protoB (nb_node_ids b)) ch1 (nb_edges b) [];
    let sorted := sort_fwd (nb_levels b) bs in
    do ni <- new_indices sorted;
    do scs1 <- remap_shortcuts ni sorted (nb_shortcuts b);
    do dd <- rdedup_edges sorted;
    let '(kept, removed) := dd in
    do scs2 <- correct_shortcuts removed kept scs1;
    do st <- work_off_chunks (rstore_metrics scs2) ch2 kept (mkStore [] [] [] 0);
    if rmetrics_too_small (st_metrics st) then Err "A metric is smaller than accuracy allows it."
    else
      do sc <- build_sc (st_scs st) (length (st_edges st));
      let es := map with_idx (enumerate (st_edges st)) in
      do foffs <- build_offsets (map c_src es);
      do idmap <- build_id_map (id_pairs es);
      let bes := sort_bwd (nb_levels b) es in
      do boffs <- build_offsets (map c_dst bes);
      Ok {| g_cfg := c;
            node_ids := nb_node_ids b;
            node_coords := coords;
            node_levels := nb_levels b;
            fwd_dsts := map c_dst es;
            fwd_offsets := foffs;
            fwd_to_fwd := map c_idx es;
            bwd_dsts := map c_src es;
            bwd_offsets := boffs;
            bwd_to_fwd := map c_idx bes;
            metrics := st_metrics st;
            means := None;
            edge_ids := map c_id es;
            edge_ids_map := idmap;
            sc_offsets := fst sc;
            sc_edges_arr := snd sc |}.

  (** *** Generating *)

  (** the external haversine distance in km (kissunits::geo), an arbitrary
      function of the two coordinates. *)
  Variable haversine_km : coord -> coord -> f64.

  (** models: src/network/graph/building.rs:1173-1194. *)
  Definition rhaversine_edge (g : graph) (unit : unit_info) (p : nat * list f64) : res (list f64) :=
    do s <- dst_idx g BWD (fst p);
    do d <- dst_idx g FWD (fst p);
    do cs <- node_coord g s;
    do cd <- node_coord g d;
    do x <- rtry_convert Kilometers unit (haversine_km cs cd);
    Ok (snd p ++ [x]).

  (** models: src/network/graph/building.rs:1005-1394 (one category), those that
      calculate; the others are [gen_step]'s. *)
  Definition rgen_step (g : graph) (gc : gen_cat) : res graph :=
    let ec := cfg_edges (g_cfg g) in
    match gc with
    | GHaversine unit id =>
        match unit with
        | Kilometers =>
            do ms <- mapM (rhaversine_edge g unit) (enumerate (metrics g));
            Ok (push_metric_cfg (with_metrics g ms) unit id)
        | _ => Err "Haversine creates Kilometers"
        end
    | GCopy fu fid tu tid =>
        do mi <- idx_of (ec_ids ec) fid;
        do ms <- mapM (fun m => do x <- idx m mi; do y <- rtry_convert fu tu x; Ok (m ++ [y]))
                      (metrics g);
        Ok (push_metric_cfg (with_metrics g ms) tu tid)
    | GConvert fu fid tu tid =>
        do mi <- idx_of (ec_ids ec) fid;
        do ms <- mapM (fun m => do x <- idx m mi; do y <- rtry_convert fu tu x; set m mi y)
                      (metrics g);
        do us <- set (ec_units ec) mi tu;
        do is <- set (ec_ids ec) mi tid;
        Ok (with_edge_cfg (with_metrics g ms)
              {| ec_categories := map (convert_category fid tu tid) (ec_categories ec);
                 ec_normalized := ec_normalized ec; ec_units := us; ec_ids := is |})
    | GCalc ru rid au aid bu bid =>
        do ma <- idx_of (ec_ids ec) aid;
        do mb <- idx_of (ec_ids ec) bid;
        do ms <- mapM (fun m => do x <- idx m ma; do y <- idx m mb;
                                do z <- rtry_calc ru au x bu y; Ok (m ++ [z]))
                      (metrics g);
        Ok (push_metric_cfg (with_metrics g ms) ru rid)
    | GMeta _ _ | GCustom _ _ _ | GMerge _ _ _ => gen_step haversine_km g gc
    end.

  (** models: src/network/graph/building.rs:890-1395, as [generate]. *)
  Definition rgenerate (g : graph) : res graph :=
    let c := g_cfg g in
    do c' <- foldM gen_node (cfg_gen_nodes c) c;
    let g1 := with_cfg g c' in
    if gen_dup (ec_categories (cfg_edges c')) (cfg_gen_edges c)
    then Err "Id should be generated, but does already exist."
    else foldM rgen_step (cfg_gen_edges c) g1.

  (** models: src/network/graph/building.rs:351-1459 (GraphBuilder::finalize). *)
  Definition rfinalize (c : cfg) (ch1 ch2 : nat) (b : node_builder) : res graph :=
    do g <- rbuild_core c ch1 ch2 b;
    do g' <- rgenerate g;
    rnormalize ar g'.

  (** models: src/io/parsing/network/graph/mod.rs (parse_and_finalize), as
      [build]. *)
  Definition rbuild (c : cfg) (ch1 ch2 : nat) (es : list proto_edge) (ns : list proto_node) : res graph :=
    do b <- insert_nodes (eb_next (insert_edges es)) ns;
    rfinalize c ch1 ch2 b.

  (** models: src/io/parsing/network/graph/mod.rs with pbf.rs, as [pbf_graph]. *)
  Definition rpbf_graph (dim : nat) (pc : parse_cfg) (ch1 ch2 : nat) (objs : list osm_obj) : res graph :=
    do _ <- pbf_preprocess dim pc;
    rbuild (pc_cfg pc) ch1 ch2 (pbf_edges pc objs) (pbf_nodes objs).
End Rounding.
