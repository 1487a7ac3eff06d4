(** Model of src/network/graph/building.rs *)
From Coq Require Import String List Bool Arith ZArith QArith.
From Verif Require Import Base F64 ModelApprox ModelUnits ModelConfig ModelGraph.
Import ListNotations.
Open Scope string_scope.
Open Scope list_scope.
Open Scope nat_scope.

(** models: src/network/graph/building.rs:98-101,115-121 (ProtoShortcut with
    its ProtoEdge; a plain ProtoEdge has [pe_sc = None], :123-130). *)
Record proto_edge : Type := mkProtoEdge {
  pe_id : option nat;
  pe_src : Z;
  pe_dst : Z;
  pe_metrics : list f64;
  pe_sc : option (nat * nat);
}.

(** models: src/network/graph/building.rs:91-96 (ProtoNode). *)
Record proto_node : Type := mkProtoNode {
  pn_id : Z;
  pn_coord : coord;
  pn_level : option nat;
}.

(** models: src/network/graph/building.rs:148-155 (ProtoEdgeA). *)
Record protoA : Type := mkA {
  a_idx : nat; a_id : option nat; a_src : Z; a_dst : Z;
  a_metrics : list f64; a_sc : option nat;
}.

(** models: src/network/graph/building.rs:157-164 (ProtoEdgeB). *)
Record protoB : Type := mkB {
  b_idx : nat; b_id : option nat; b_src : nat; b_dst : nat;
  b_metrics : list f64; b_sc : option nat;
}.

(** models: src/network/graph/building.rs:184-189 (ProtoEdgeC). *)
Record protoC : Type := mkC {
  c_src : nat; c_dst : nat; c_idx : nat; c_id : option nat;
}.

(** models: src/network/graph/building.rs:191-196 (EdgeBuilder, without cfg). *)
Record edge_builder : Type := mkEB {
  eb_node_ids : list Z;
  eb_edges : list protoA;
  eb_shortcuts : list (nat * nat);
}.

(** models: src/network/graph/building.rs:342-349 (GraphBuilder::new). *)
Definition eb_new : edge_builder := {| eb_node_ids := []; eb_edges := []; eb_shortcuts := [] |}.

(** membership of an id in a short list (`contains`). *)
Definition containsZ (x : Z) (l : list Z) : bool := existsb (Z.eqb x) l.

(** models: src/network/graph/building.rs:229-240: remember the endpoints,
    skipping those among the last two ids present before the insertion. *)
Definition push_node_ids (ids : list Z) (src dst : Z) : list Z :=
  let n := length ids in
  if n <? 2 then ids ++ [src; dst]
  else
    let window := skipn (n - 2) ids in
    let ids1 := if containsZ src window then ids else ids ++ [src] in
    if containsZ dst window then ids1 else ids1 ++ [dst].

(** models: src/network/graph/building.rs:203-267 (EdgeBuilder::insert). *)
Definition eb_insert (b : edge_builder) (e : proto_edge) : edge_builder :=
  {| eb_node_ids := push_node_ids (eb_node_ids b) (pe_src e) (pe_dst e);
     eb_edges := eb_edges b ++
       [ {| a_idx := length (eb_edges b); a_id := pe_id e;
            a_src := pe_src e; a_dst := pe_dst e; a_metrics := pe_metrics e;
            a_sc := match pe_sc e with
                    | Some _ => Some (length (eb_shortcuts b))
                    | None => None
                    end |} ];
     eb_shortcuts := match pe_sc e with
                     | Some s => eb_shortcuts b ++ [s]
                     | None => eb_shortcuts b
                     end |}.

(** models: src/network/graph/building.rs:293-300 (NodeBuilder) and :332-339
    (GraphBuilder, identical fields). *)
Record node_builder : Type := mkNB {
  nb_node_ids : list Z;
  nb_coords : list (option coord);
  nb_levels : list nat;
  nb_edges : list protoA;
  nb_shortcuts : list (nat * nat);
}.

(** models: src/network/graph/building.rs:269-290 (EdgeBuilder::next): sort,
    dedup, no coordinates, default level 0 (src/defaults.rs:274). *)
Definition eb_next (b : edge_builder) : node_builder :=
  let ids := dedup_by Z.eqb (sort_by Z.leb (eb_node_ids b)) in
  {| nb_node_ids := ids;
     nb_coords := repeat None (length ids);
     nb_levels := repeat 0 (length ids);
     nb_edges := eb_edges b;
     nb_shortcuts := eb_shortcuts b |}.

(** models: src/network/graph/building.rs:308-318 (NodeBuilder::insert). *)
Definition nb_insert (b : node_builder) (n : proto_node) : res (node_builder * bool) :=
  match node_idx_from (nb_node_ids b) (pn_id n) with
  | inl i =>
      do cs <- set (nb_coords b) i (Some (pn_coord n));
      do ls <- match pn_level n with
               | Some l => set (nb_levels b) i l
               | None => Ok (nb_levels b)
               end;
      Ok ({| nb_node_ids := nb_node_ids b; nb_coords := cs; nb_levels := ls;
             nb_edges := nb_edges b; nb_shortcuts := nb_shortcuts b |}, true)
  | inr _ => Ok (b, false)
  end.

(** *** GraphBuilder::finalize, step by step *)

(** models: src/network/graph/building.rs:366-382 (every node has a coordinate). *)
Fixpoint all_coords (cs : list (option coord)) : res (list coord) :=
  match cs with
  | [] => Ok []
  | None :: _ => Err "Proto-node has no coordinates, but belongs to an edge."
  | Some c :: t => do ct <- all_coords t; Ok (c :: ct)
  end.

(** models: the chunk loops of src/network/graph/building.rs:401-442 and
    :599-644.  [rl] is the reversed vector; a chunk of the last
    min(len, max_chunk) elements is spliced off, reversed and worked off in
    order.  With [max_chunk = 0] the real loop never ends. *)
Fixpoint chunk_loop {A S} (f : S -> A -> res S) (fuel max_chunk : nat)
         (rl : list A) (s : S) : res S :=
  match rl with
  | [] => Ok s
  | _ =>
      match fuel with
      | O => Diverge
      | Datatypes.S fu =>
          let keep := length rl - Nat.min (length rl) max_chunk in
          do s' <- foldM f (rev (skipn keep rl)) s;
          chunk_loop f fu max_chunk (firstn keep rl) s'
      end
  end.

Definition work_off_chunks {A S} (f : S -> A -> res S) (max_chunk : nat)
           (l : list A) (s : S) : res S :=
  chunk_loop f (length l) max_chunk (rev l) s.

(** models: src/network/graph/building.rs:419-433 (ids to indices). *)
Definition to_protoB (ids : list Z) (acc : list protoB) (e : protoA) : res (list protoB) :=
  match node_idx_from ids (a_src e), node_idx_from ids (a_dst e) with
  | inl s, inl d =>
      Ok (acc ++ [ {| b_idx := a_idx e; b_id := a_id e; b_src := s; b_dst := d;
                      b_metrics := a_metrics e; b_sc := a_sc e |} ])
  | _, _ => Panic
  end.

(** ordering of Option<usize> (derived Ord: None < Some). *)
Definition cmp_opt (a b : option nat) : comparison :=
  match a, b with
  | None, None => Eq
  | None, Some _ => Lt
  | Some _, None => Gt
  | Some x, Some y => Nat.compare x y
  end.

(** lexicographic `then_with`. *)
Definition then_cmp (a b : comparison) : comparison := match a with Eq => b | _ => a end.

(** ordering of the tuples used as sort keys: (major, Reverse(level), minor, id);
    src/network/graph/building.rs:466-473 and :819-826. *)
Definition cmp_key (x y : nat * nat * nat * option nat) : comparison :=
  match x, y with
  | (((s1, l1), d1), i1), (((s2, l2), d2), i2) =>
      then_cmp (Nat.compare s1 s2)
        (then_cmp (Nat.compare l2 l1)
          (then_cmp (Nat.compare d1 d2) (cmp_opt i1 i2)))
  end.

(** key of a forward edge, src/network/graph/building.rs:466-473. Levels of
    existing nodes; the index is in bounds for edges of the builder. *)
Definition fwd_key (levels : list nat) (e : protoB) : nat * nat * nat * option nat :=
  (b_src e, nth (b_dst e) levels 0, b_dst e, b_id e).
Definition fwd_leb (levels : list nat) (x y : protoB) : bool :=
  match cmp_key (fwd_key levels x) (fwd_key levels y) with Gt => false | _ => true end.

(** models: src/network/graph/building.rs:457-475 (sort forward). *)
Definition sort_fwd (levels : list nat) (es : list protoB) : list protoB :=
  sort_by (fwd_leb levels) es.

(** models: src/network/graph/building.rs:484-488 (old index -> new index). *)
Definition new_indices (es : list protoB) : res (list nat) :=
  foldM (fun acc p => set acc (b_idx (snd p)) (fst p)) (enumerate es)
        (repeat 0 (length es)).

(** models: src/network/graph/building.rs:490-496 (remap shortcuts). *)
Definition remap_shortcuts (new_idx : list nat) (es : list protoB)
           (scs : list (nat * nat)) : res (list (nat * nat)) :=
  foldM (fun scs e =>
           match b_sc e with
           | None => Ok scs
           | Some k =>
               do p <- idx scs k;
               do x <- idx new_idx (fst p);
               do y <- idx new_idx (snd p);
               set scs k (x, y)
           end) es scs.

(** derived PartialEq of Option<usize>. *)
Definition opt_eqb (a b : option nat) : bool :=
  match a, b with
  | None, None => true
  | Some x, Some y => x =? y
  | _, _ => false
  end.

(** models: src/network/graph/building.rs:516-536 (is_duplicate). *)
Definition is_duplicate (e0 e1 : protoB) : bool :=
  opt_eqb (b_id e0) (b_id e1)
  && ((b_src e0 =? b_src e1) && (b_dst e0 =? b_dst e1))
  && approx_eq_vec (b_metrics e0) (b_metrics e1).

(** models: `slice.swap(i, j)`. *)
Definition swap {A} (l : list A) (i j : nat) : res (list A) :=
  do x <- idx l i;
  do y <- idx l j;
  do l1 <- set l i y;
  set l1 j x.

(** state of the in-place deduplication loop: array, write position, removed. *)
Definition dd_state : Type := list protoB * nat * list nat.

(** models: one iteration of src/network/graph/building.rs:514-552. *)
Definition dedup_step (st : dd_state) (r : nat) : res dd_state :=
  let '(es, w, removed) := st in
  do e0 <- idx es (w - 1);
  do e1 <- idx es r;
  if is_duplicate e0 e1 then Ok (es, w, removed ++ [r])
  else do es' <- swap es w r; Ok (es', w + 1, removed).

(** models: src/network/graph/building.rs:511-554 (loop and truncate). *)
Definition dedup_edges (es : list protoB) : res (list protoB * list nat) :=
  do st <- foldM dedup_step (seq 1 (length es - 1)) (es, 1, []);
  let '(es', _, removed) := st in
  Ok (firstn (length es' - length removed) es', removed).

(** models: src/network/graph/building.rs:565-569 for one shortcut component. *)
Definition dec_shortcut (removed : list nat) (sc : nat) : nat :=
  fold_left (fun sc r => if r <=? sc then sc - 1 else sc) (rev removed) sc.

(** models: src/network/graph/building.rs:561-571 (correct shortcuts). *)
Definition correct_shortcuts (removed : list nat) (es : list protoB)
           (scs : list (nat * nat)) : res (list (nat * nat)) :=
  foldM (fun scs e =>
           match b_sc e with
           | None => Ok scs
           | Some k =>
               do p <- idx scs k;
               set scs k (dec_shortcut removed (fst p), dec_shortcut removed (snd p))
           end) es scs.

(** models: src/network/graph/building.rs:69-88 (add_metrics) on one value;
    the trace output is not modelled. *)
Definition clamp_metric (x : f64) : f64 := if approx_eq x f0 then F64_ABS else x.

(** accumulated state of the metric-storing loop (:580-656). *)
Record store_state : Type := mkStore {
  st_metrics : list (list f64);
  st_edges : list protoC;
  st_scs : list (nat * (nat * nat));
  st_idx : nat;
}.

(** models: src/network/graph/building.rs:618-643 (body of the loop). *)
Definition store_metrics (scs : list (nat * nat)) (st : store_state) (e : protoB)
  : res store_state :=
  do new_scs <- match b_sc e with
                | Some k => do p <- idx scs k; Ok (st_scs st ++ [(st_idx st, p)])
                | None => Ok (st_scs st)
                end;
  Ok {| st_metrics := st_metrics st ++ [map clamp_metric (b_metrics e)];
        st_edges := st_edges st ++
          [ {| c_src := b_src e; c_dst := b_dst e; c_idx := 0; c_id := b_id e |} ];
        st_scs := new_scs;
        st_idx := st_idx st + 1 |}.

(** models: src/network/graph/building.rs:658-666 (smaller than accuracy). *)
Definition metrics_too_small (ms : list (list f64)) : bool :=
  existsb (existsb (fun x => fltb x F64_ABS)) ms.

(** models: src/network/graph/building.rs:683-706 (sc_offsets, sc_edges). *)
Fixpoint sc_loop (new_scs : list (nat * (nat * nat))) (fuel edge_idx sc_offset : nat)
         (offsets : list nat) (edges : list (nat * nat))
  : res (list nat * list (nat * nat)) :=
  match fuel with
  | O => Ok (offsets, edges)
  | S fu =>
      if sc_offset =? length new_scs then Ok (offsets, edges)
      else
        do p <- idx new_scs sc_offset;
        do offsets' <- set offsets edge_idx sc_offset;
        if edge_idx =? fst p
        then sc_loop new_scs fu (edge_idx + 1) (sc_offset + 1) offsets' (edges ++ [snd p])
        else sc_loop new_scs fu (edge_idx + 1) sc_offset offsets' edges
  end.
Definition build_sc (new_scs : list (nat * (nat * nat))) (m : nat)
  : res (list nat * list (nat * nat)) :=
  sc_loop new_scs m 0 0 (repeat (length new_scs) (m + 1)) [].

(** models: the offset loops src/network/graph/building.rs:716-762 and
    :837-876, for the list of source indices of the sorted edges.  The inner
    `while src_idx != edge_src` never ends if the next source is smaller. *)
Fixpoint offset_loop (srcs : list nat) (src offset : nat) (acc : list nat) : res (list nat) :=
  match srcs with
  | [] => Ok (acc ++ [offset])
  | s :: t =>
      if s <? src then Diverge
      else offset_loop t s (offset + 1) (push_n (s - src) offset acc)
  end.
Definition build_offsets (srcs : list nat) : res (list nat) := offset_loop srcs 0 0 [0].

(** models: src/network/graph/building.rs:726 (remember index). *)
Definition with_idx (p : nat * protoC) : protoC :=
  {| c_src := c_src (snd p); c_dst := c_dst (snd p); c_idx := fst p; c_id := c_id (snd p) |}.

(** models: src/network/graph/building.rs:747-749 (pairs of id and index). *)
Fixpoint id_pairs (es : list protoC) : list (nat * nat) :=
  match es with
  | [] => []
  | e :: t => match c_id e with
              | Some i => (i, c_idx e) :: id_pairs t
              | None => id_pairs t
              end
  end.

(** models: src/network/graph/building.rs:775-808 (sort by id, dedup, check).
    The second check (:791-807) can never fire after sorting and deduplicating
    and is left out. *)
Definition build_id_map (pairs : list (nat * nat)) : res (list (nat * nat)) :=
  let sorted := sort_by (fun p q : nat * nat => fst p <=? fst q) pairs in
  let deduped := dedup_by (fun p q : nat * nat => fst p =? fst q) sorted in
  if length deduped =? length pairs then Ok deduped
  else Err "The graph contains multiple edges of same id.".

(** models: src/network/graph/building.rs:814-828 (sort backward). *)
Definition bwd_key (levels : list nat) (e : protoC) : nat * nat * nat * option nat :=
  (c_dst e, nth (c_src e) levels 0, c_src e, c_id e).
Definition bwd_leb (levels : list nat) (x y : protoC) : bool :=
  match cmp_key (bwd_key levels x) (bwd_key levels y) with Gt => false | _ => true end.
Definition sort_bwd (levels : list nat) (es : list protoC) : list protoC :=
  sort_by (bwd_leb levels) es.

(** models: src/network/graph/building.rs:351-884: everything before metrics
    are generated and normalized.  [ch1], [ch2] are the two maximal chunk
    sizes (:397, :589). *)
Definition build_core (c : cfg) (ch1 ch2 : nat) (b : node_builder) : res graph :=
  do coords <- all_coords (nb_coords b);
  do bs <- work_off_chunks (to_protoB (nb_node_ids b)) ch1 (nb_edges b) [];
  let sorted := sort_fwd (nb_levels b) bs in
  do ni <- new_indices sorted;
  do scs1 <- remap_shortcuts ni sorted (nb_shortcuts b);
  do dd <- dedup_edges sorted;
  let '(kept, removed) := dd in
  do scs2 <- correct_shortcuts removed kept scs1;
  do st <- work_off_chunks (store_metrics scs2) ch2 kept (mkStore [] [] [] 0);
  if metrics_too_small (st_metrics st) then Err "A metric is smaller than accuracy allows it."
  else
    do sc <- build_sc (st_scs st) (length (st_edges st));
    let es := map with_idx (enumerate (st_edges st)) in
    do foffs <- build_offsets (map c_src es);
    do idmap <- build_id_map (id_pairs es);
    let bes := sort_bwd (nb_levels b) es in
    do boffs <- build_offsets (map c_dst bes);
    Ok {| g_cfg := c;
          node_ids := nb_node_ids b;
          node_coords := coords;
          node_levels := nb_levels b;
          fwd_dsts := map c_dst es;
          fwd_offsets := foffs;
          fwd_to_fwd := map c_idx es;
          bwd_dsts := map c_src es;
          bwd_offsets := boffs;
          bwd_to_fwd := map c_idx bes;
          metrics := st_metrics st;
          means := None;
          edge_ids := map c_id es;
          edge_ids_map := idmap;
          sc_offsets := fst sc;
          sc_edges_arr := snd sc |}.

(** *** Generating (src/network/graph/building.rs:890-1395) *)

(** record updates. *)
Definition with_metrics (g : graph) (ms : list (list f64)) : graph :=
  {| g_cfg := g_cfg g; node_ids := node_ids g; node_coords := node_coords g;
     node_levels := node_levels g; fwd_dsts := fwd_dsts g; fwd_offsets := fwd_offsets g;
     fwd_to_fwd := fwd_to_fwd g; bwd_dsts := bwd_dsts g; bwd_offsets := bwd_offsets g;
     bwd_to_fwd := bwd_to_fwd g; metrics := ms; means := means g;
     edge_ids := edge_ids g; edge_ids_map := edge_ids_map g;
     sc_offsets := sc_offsets g; sc_edges_arr := sc_edges_arr g |}.
Definition with_means (g : graph) (ms : option (list f64)) : graph :=
  {| g_cfg := g_cfg g; node_ids := node_ids g; node_coords := node_coords g;
     node_levels := node_levels g; fwd_dsts := fwd_dsts g; fwd_offsets := fwd_offsets g;
     fwd_to_fwd := fwd_to_fwd g; bwd_dsts := bwd_dsts g; bwd_offsets := bwd_offsets g;
     bwd_to_fwd := bwd_to_fwd g; metrics := metrics g; means := ms;
     edge_ids := edge_ids g; edge_ids_map := edge_ids_map g;
     sc_offsets := sc_offsets g; sc_edges_arr := sc_edges_arr g |}.
Definition with_edge_ids (g : graph) (ids : list (option nat)) (m : list (nat * nat)) : graph :=
  {| g_cfg := g_cfg g; node_ids := node_ids g; node_coords := node_coords g;
     node_levels := node_levels g; fwd_dsts := fwd_dsts g; fwd_offsets := fwd_offsets g;
     fwd_to_fwd := fwd_to_fwd g; bwd_dsts := bwd_dsts g; bwd_offsets := bwd_offsets g;
     bwd_to_fwd := bwd_to_fwd g; metrics := metrics g; means := means g;
     edge_ids := ids; edge_ids_map := m;
     sc_offsets := sc_offsets g; sc_edges_arr := sc_edges_arr g |}.
Definition with_cfg (g : graph) (c : cfg) : graph :=
  {| g_cfg := c; node_ids := node_ids g; node_coords := node_coords g;
     node_levels := node_levels g; fwd_dsts := fwd_dsts g; fwd_offsets := fwd_offsets g;
     fwd_to_fwd := fwd_to_fwd g; bwd_dsts := bwd_dsts g; bwd_offsets := bwd_offsets g;
     bwd_to_fwd := bwd_to_fwd g; metrics := metrics g; means := means g;
     edge_ids := edge_ids g; edge_ids_map := edge_ids_map g;
     sc_offsets := sc_offsets g; sc_edges_arr := sc_edges_arr g |}.
Definition with_edge_cfg (g : graph) (ec : edge_cfg) : graph :=
  with_cfg g {| cfg_edges := ec; cfg_nodes := cfg_nodes (g_cfg g);
                cfg_gen_nodes := cfg_gen_nodes (g_cfg g);
                cfg_gen_edges := cfg_gen_edges (g_cfg g) |}.

(** `graph.cfg.edges.categories.push(..)` for a meta category. *)
Definition push_meta (g : graph) (info : edge_meta) (id : string) : graph :=
  let ec := cfg_edges (g_cfg g) in
  with_edge_cfg g {| ec_categories := ec_categories ec ++ [CMeta info id];
                     ec_normalized := ec_normalized ec;
                     ec_units := ec_units ec; ec_ids := ec_ids ec |}.

(** pushing a metric's category, unit and id, e.g.
    src/network/graph/building.rs:1139-1148. *)
Definition push_metric_cfg (g : graph) (u : unit_info) (id : string) : graph :=
  let ec := cfg_edges (g_cfg g) in
  with_edge_cfg g {| ec_categories := ec_categories ec ++ [CMetric u id];
                     ec_normalized := ec_normalized ec;
                     ec_units := ec_units ec ++ [u]; ec_ids := ec_ids ec ++ [id] |}.

(** models: src/network/graph/building.rs:901-909 (node id exists already). *)
Definition node_cat_has (id : string) (cs : list node_category) : bool :=
  existsb (fun c => match c with
                    | NMeta _ i | NMetric i => String.eqb id i
                    | NIgnored => false
                    end) cs.

(** models: src/network/graph/building.rs:893-933 (node categories). *)
Definition gen_node (c : cfg) (n : node_meta * string) : res cfg :=
  match fst n with
  | NNodeIdx =>
      if node_cat_has (snd n) (cfg_nodes c) then Err "id does already exist"
      else Ok {| cfg_edges := cfg_edges c;
                 cfg_nodes := cfg_nodes c ++ [NMeta NNodeIdx (snd n)];
                 cfg_gen_nodes := cfg_gen_nodes c; cfg_gen_edges := cfg_gen_edges c |}
  | NNodeId | NCHLevel => Err "cannot be created and has to be provided"
  end.

(** id created out-of-place by a generating category, if any
    (src/network/graph/building.rs:941-970; Merge and Convert are not checked). *)
Definition gen_new_id (gc : gen_cat) : option string :=
  match gc with
  | GMeta _ id | GCustom _ id _ | GHaversine _ id | GCopy _ _ _ id | GCalc _ id _ _ _ _ => Some id
  | GConvert _ _ _ _ | GMerge _ _ _ => None
  end.

(** models: src/network/graph/building.rs:974-983. *)
Definition edge_cat_has (id : string) (cs : list category) : bool :=
  existsb (fun c => match category_id c with
                    | Some i => String.eqb id i
                    | None => false
                    end) cs.

(** models: src/network/graph/building.rs:939-1001 (duplicate check against
    the categories present before generating). *)
Definition gen_dup (cs : list category) (gens : list gen_cat) : bool :=
  existsb (fun gc => match gen_new_id gc with
                     | Some id => edge_cat_has id cs
                     | None => false
                     end) gens.

(** models: src/network/graph/building.rs:1012-1015. *)
Definition identity_map (m : nat) : list (nat * nat) := map (fun i => (i, i)) (seq 0 m).

(** update of categories by Convert, src/network/graph/building.rs:1262-1279. *)
Definition convert_category (from_id : string) (to_unit : unit_info) (to_id : string)
           (c : category) : category :=
  match c with
  | CMetric u id => if String.eqb id from_id then CMetric to_unit to_id else CMetric u id
  | _ => c
  end.

(** models: src/network/graph/building.rs:1337-1362 (edge index of a row). *)
Fixpoint merge_edge_idx (g : graph) (edge_id : string) (row : list token)
         (cols : list (nat * merge_cat)) : res nat :=
  match cols with
  | [] => Err "The expected edge-id is not in the edges-info-file."
  | (col, MIgnored) :: t => merge_edge_idx g edge_id row t
  | (col, MId id) :: t =>
      do param <- idx row col;
      if String.eqb id edge_id then
        match tok_usize param with
        | None => Err "Parsing edge-id didn't work."
        | Some raw => edge_try_idx_from g raw
        end
      else merge_edge_idx g edge_id row t
  end.

(** models: src/network/graph/building.rs:1366-1387 (write metrics of a row). *)
Definition merge_cols (ids : list string) (edge_id : string) (row : list token) (e : nat)
           (ms : list (list f64)) (cols : list (nat * merge_cat)) : res (list (list f64)) :=
  foldM (fun ms c =>
           match snd c with
           | MIgnored => Ok ms
           | MId id =>
               if String.eqb id edge_id then Ok ms
               else
                 do mi <- idx_of ids id;
                 do param <- idx row (fst c);
                 match tok_f64 param with
                 | None => Err "Parsing didn't work."
                 | Some x =>
                     do old <- idx ms e;
                     do new <- set old mi x;
                     set ms e new
                 end
           end) cols ms.

(** models: src/network/graph/building.rs:1332-1388 (one row of the file). *)
Definition merge_row (edge_id : string) (info : list merge_cat) (g : graph) (row : list token)
  : res graph :=
  do e <- merge_edge_idx g edge_id row (enumerate info);
  do ms <- merge_cols (ec_ids (cfg_edges (g_cfg g))) edge_id row e (metrics g) (enumerate info);
  Ok (with_metrics g ms).

Section Generate.
  (** the external haversine distance in km (kissunits::geo), an arbitrary
      function of the two coordinates. *)
  Variable haversine_km : coord -> coord -> f64.

  (** models: src/network/graph/building.rs:1173-1194. *)
  Definition haversine_edge (g : graph) (unit : unit_info) (p : nat * list f64) : res (list f64) :=
    do s <- dst_idx g BWD (fst p);
    do d <- dst_idx g FWD (fst p);
    do cs <- node_coord g s;
    do cd <- node_coord g d;
    do x <- try_convert Kilometers unit (haversine_km cs cd);
    Ok (snd p ++ [x]).

  (** models: src/network/graph/building.rs:1005-1394 (one category). *)
  Definition gen_step (g : graph) (gc : gen_cat) : res graph :=
    let ec := cfg_edges (g_cfg g) in
    match gc with
    | GMeta info id =>
        match info with
        | GEdgeId =>
            let m := edge_count g FWD in
            Ok (push_meta (with_edge_ids g (map Some (seq 0 m)) (identity_map m)) EdgeId id)
        | GSrcIdx => Ok (push_meta g SrcIdx id)
        | GDstIdx => Ok (push_meta g DstIdx id)
        | GSrcLat => Ok (push_meta g SrcLat id)
        | GSrcLon => Ok (push_meta g SrcLon id)
        | GDstLat => Ok (push_meta g DstLat id)
        | GDstLon => Ok (push_meta g DstLon id)
        | GShortcutIdx0 | GShortcutIdx1 => Err "cannot be created and has to be provided"
        end
    | GCustom unit id default =>
        Ok (push_metric_cfg (with_metrics g (map (fun m => m ++ [default]) (metrics g))) unit id)
    | GHaversine unit id =>
        match unit with
        | Kilometers =>
            do ms <- mapM (haversine_edge g unit) (enumerate (metrics g));
            Ok (push_metric_cfg (with_metrics g ms) unit id)
        | _ => Err "Haversine creates Kilometers"
        end
    | GCopy fu fid tu tid =>
        do mi <- idx_of (ec_ids ec) fid;
        do ms <- mapM (fun m => do x <- idx m mi; do y <- try_convert fu tu x; Ok (m ++ [y]))
                      (metrics g);
        Ok (push_metric_cfg (with_metrics g ms) tu tid)
    | GConvert fu fid tu tid =>
        do mi <- idx_of (ec_ids ec) fid;
        do ms <- mapM (fun m => do x <- idx m mi; do y <- try_convert fu tu x; set m mi y)
                      (metrics g);
        do us <- set (ec_units ec) mi tu;
        do is <- set (ec_ids ec) mi tid;
        Ok (with_edge_cfg (with_metrics g ms)
              {| ec_categories := map (convert_category fid tu tid) (ec_categories ec);
                 ec_normalized := ec_normalized ec; ec_units := us; ec_ids := is |})
    | GCalc ru rid au aid bu bid =>
        do ma <- idx_of (ec_ids ec) aid;
        do mb <- idx_of (ec_ids ec) bid;
        do ms <- mapM (fun m => do x <- idx m ma; do y <- idx m mb;
                                do z <- try_calc ru au x bu y; Ok (m ++ [z]))
                      (metrics g);
        Ok (push_metric_cfg (with_metrics g ms) ru rid)
    | GMerge rows eid info =>
        foldM (merge_row eid info) rows g
    end.

  (** models: src/network/graph/building.rs:890-1395 (node categories, duplicate
      check, edge categories).  No generating config is two empty lists. *)
  Definition generate (g : graph) : res graph :=
    let c := g_cfg g in
    do c' <- foldM gen_node (cfg_gen_nodes c) c;
    let g1 := with_cfg g c' in
    if gen_dup (ec_categories (cfg_edges c')) (cfg_gen_edges c)
    then Err "Id should be generated, but does already exist."
    else foldM gen_step (cfg_gen_edges c) g1.

  (** models: src/network/graph/building.rs:1414-1422 (means). *)
  Definition metric_sums (dim : nat) (ms : list (list f64)) : list f64 :=
    fold_left vadd ms (repeat f0 dim).
  Definition metric_means (dim : nat) (ms : list (list f64)) : list f64 :=
    map (fun s => fdiv s (of_nat (length ms))) (metric_sums dim ms).

  (** models: src/network/graph/building.rs:1441-1449 (one metric vector). *)
  Definition normalize_vec (mean : list f64) (m : list f64) : res (list f64) :=
    mapM (fun p => do d <- idx mean (fst p); Ok (clamp_metric (fdiv (snd p) d))) (enumerate m).

  (** models: src/network/graph/building.rs:1397-1455 (normalize). *)
  Definition normalize (g : graph) : res graph :=
    if ec_normalized (cfg_edges (g_cfg g)) then
      if edge_count g FWD =? 0 then Err "The metrics should be normalized, but the graph has no edges."
      else
        let mu := map (fun s => fdiv s (of_nat (edge_count g FWD)))
                      (metric_sums (metric_dim g) (metrics g)) in
        if existsb (fun m => approx_eq m f0) mu
        then Err "A metric-mean is zero, hence no normalization can be done."
        else
          do ms <- mapM (normalize_vec mu) (metrics g);
          Ok (with_means (with_metrics g ms) (Some mu))
    else Ok g.

  (** models: src/network/graph/building.rs:351-1459 (GraphBuilder::finalize). *)
  Definition finalize (c : cfg) (ch1 ch2 : nat) (b : node_builder) : res graph :=
    do g <- build_core c ch1 ch2 b;
    do g' <- generate g;
    normalize g'.
End Generate.

(** *** Using the builder: a history of edge and node insertions. *)

(** models: calls of EdgeBuilder::insert in sequence, e.g.
    src/io/parsing/network/graph/mod.rs (parse_ways). *)
Definition insert_edges (es : list proto_edge) : edge_builder :=
  fold_left eb_insert es eb_new.

(** models: calls of NodeBuilder::insert in sequence (result flags dropped). *)
Definition insert_nodes (b : node_builder) (ns : list proto_node) : res node_builder :=
  foldM (fun b n => do r <- nb_insert b n; Ok (fst r)) ns b.

(** models: src/io/parsing/network/graph/mod.rs (parse_and_finalize): edges,
    then nodes, then finalize. *)
Definition build (hav : coord -> coord -> f64) (c : cfg) (ch1 ch2 : nat)
           (es : list proto_edge) (ns : list proto_node) : res graph :=
  do b <- insert_nodes (eb_next (insert_edges es)) ns;
  finalize hav c ch1 ch2 b.
