(** Model of src/io/writing/network: exporting edges and graphs as text *)
From Coq Require Import String Ascii List Bool Arith NArith ZArith.
From Verif Require Import Base F64 ModelText ModelUnits ModelConfig ModelGraph ModelBuild ModelParsing ModelFmi.
Import ListNotations.
Open Scope string_scope.
Open Scope list_scope.
Open Scope nat_scope.

(** models: src/defaults.rs:57 (writing::IGNORE_STR). *)
Definition IGNORE_STR : text := T "_".

(** models: src/configs/writing/network/edges.rs:15-21 (Config) without the
    file's path. *)
Record edges_cfg : Type := mkEdgesCfg {
  wc_shortcuts : bool;
  wc_header : bool;
  wc_denormalizing : bool;
  wc_ids : list (option string);
}.

(** models: src/configs/writing/network/graph/mod.rs (Config), its nodes and
    edges; without the file's path. *)
Record graph_cfg : Type := mkGraphCfg {
  gc_nodes : list (option string);
  gc_shortcuts : bool;
  gc_denormalizing : bool;
  gc_edges : list (option string);
}.

(** models: src/configs/writing/network/edges.rs:52-62 (from a graph's
    writing-config). *)
Definition edges_of_graph (w : graph_cfg) : edges_cfg :=
  {| wc_shortcuts := gc_shortcuts w; wc_header := false;
     wc_denormalizing := gc_denormalizing w; wc_ids := gc_edges w |}.

(** models: the match in src/io/writing/network/mod.rs:28-31 (also
    src/io/writing/network/edges.rs:97-103 and graph/fmi.rs:52-55, :64-67). *)
Definition column_name (o : option string) : text :=
  match o with Some id => T id | None => IGNORE_STR end.

(** models: src/io/writing/network/mod.rs:24-45 and
    src/io/writing/network/edges.rs:95-111 (header). *)
Definition header_line (wc : edges_cfg) : text :=
  if wc_header wc then line (spaced (map column_name (wc_ids wc))) else [].

(** models: the filter src/io/writing/network/mod.rs:55,
    src/io/writing/network/edges.rs:116-118 and graph/fmi.rs:100-101.  The last
    one asks for is_shortcut first, which makes no difference as it does not
    panic for edges of a built graph. *)
Definition is_written (g : graph) (shortcuts : bool) (e : nat) : res bool :=
  if shortcuts then Ok true else do b <- is_shortcut g e; Ok (negb b).

(** models: `for edge_idx in fwd_edges.iter()` with the filter above: one row
    per written edge, in order. *)
Fixpoint edge_rows (g : graph) (shortcuts : bool) (row : nat -> res text) (es : list nat) : res (list text) :=
  match es with
  | [] => Ok []
  | e :: es =>
      do b <- is_written g shortcuts e;
      if b then
        do r <- row e;
        do rs <- edge_rows g shortcuts row es;
        Ok (r :: rs)
      else edge_rows g shortcuts row es
  end.

(** models: the filter and count of src/io/writing/network/graph/fmi.rs:98-102. *)
Fixpoint count_written (g : graph) (shortcuts : bool) (es : list nat) : res nat :=
  match es with
  | [] => Ok 0
  | e :: es =>
      do b <- is_written g shortcuts e;
      do n <- count_written g shortcuts es;
      Ok (if b then S n else n)
  end.

Section Values.
  (** models: `{}` of an f64 *)
  Variable show_f64 : f64 -> text.

  (** models: src/io/writing/network/mod.rs:130-149 (one of the two indices). *)
  Definition sc_cell (o : option (nat * nat)) (component : nat * nat -> nat) : text :=
    match o with Some p => show_nat (component p) | None => NO_SHORTCUT_IDX end.

  (** models: src/io/writing/network/mod.rs:87-150 (one meta info).  As in the
      code, DstLat and DstLon (:120-129) ask the backward edges. *)
  Definition meta_cell (g : graph) (e : nat) (info : edge_meta) : res text :=
    match info with
    | EdgeId => do i <- edge_id g e; Ok (show_nat i)
    | SrcId => do s <- dst_idx g BWD e; do i <- node_id g s; Ok (show_Z i)
    | SrcIdx => do s <- dst_idx g BWD e; Ok (show_nat s)
    | SrcLat => do s <- dst_idx g BWD e; do c <- node_coord g s; Ok (show_f64 (lat c))
    | SrcLon => do s <- dst_idx g BWD e; do c <- node_coord g s; Ok (show_f64 (lon c))
    | DstId => do d <- dst_idx g FWD e; do i <- node_id g d; Ok (show_Z i)
    | DstIdx => do d <- dst_idx g FWD e; Ok (show_nat d)
    | DstLat => do d <- dst_idx g BWD e; do c <- node_coord g d; Ok (show_f64 (lat c))
    | DstLon => do d <- dst_idx g BWD e; do c <- node_coord g d; Ok (show_f64 (lon c))
    | ShortcutIdx0 => do o <- sc_edges g e; Ok (sc_cell o fst)
    | ShortcutIdx1 => do o <- sc_edges g e; Ok (sc_cell o snd)
    end.

  (** models: src/io/writing/network/mod.rs:160-185 (one metric). *)
  Definition metric_cell (g : graph) (denorm : bool) (e : nat) (id : string) : res text :=
    do mi <- idx_of (ec_ids (cfg_edges (g_cfg g))) id;
    do ms <- edge_metrics g e;
    do x <- idx ms mi;
    if denorm then
      do o <- metric_mean g mi;
      Ok (show_f64 (match o with Some m => fmul x m | None => x end))
    else Ok (show_f64 x).

  (** models: src/io/writing/network/mod.rs:80-204 (look for the first category
      of the same id). *)
  Fixpoint find_cell (g : graph) (denorm : bool) (e : nat) (id : string) (cs : list category) : res text :=
    match cs with
    | [] => Err "Writing-config has an id which is not part of graph's edge-data."
    | CMeta info id' :: cs =>
        if String.eqb id' id then meta_cell g e info else find_cell g denorm e id cs
    | CMetric _ id' :: cs =>
        if String.eqb id' id then metric_cell g denorm e id' else find_cell g denorm e id cs
    | CIgnored :: cs => find_cell g denorm e id cs
    end.

  (** models: src/io/writing/network/mod.rs:73-209 (one column). *)
  Definition edge_cell (g : graph) (denorm : bool) (e : nat) (o : option string) : res text :=
    match o with
    | Some id => find_cell g denorm e id (ec_categories (cfg_edges (g_cfg g)))
    | None => Ok IGNORE_STR
    end.

  (** models: src/io/writing/network/mod.rs:71-219 (one edge). *)
  Definition edge_row (g : graph) (wc : edges_cfg) (e : nat) : res text :=
    do cells <- mapM (edge_cell g (wc_denormalizing wc) e) (wc_ids wc);
    Ok (line (spaced cells)).

  (** models: src/io/writing/network/mod.rs:13-230 (write_edges_to_file): the
      written text; the progress bar is left out.  After an error or a panic, a
      part of the text may remain in the file, which is not modelled. *)
  Definition write_edges (g : graph) (wc : edges_cfg) : res text :=
    do rows <- edge_rows g (wc_shortcuts wc) (edge_row g wc) (seq 0 (edge_count g FWD));
    Ok (header_line wc ++ concat rows).

  (** models: src/io/writing/network/edges.rs:63-123 (write_external_values)
      after opening the file; [values] are the values' texts. *)
  Definition value_row (g : graph) (values : list text) (e : nat) : res text :=
    do i <- edge_id g e;
    do v <- idx values e;
    Ok (line (spaced [show_nat i; v])).
  Definition write_external_values (g : graph) (wc : edges_cfg) (values : list text) : res text :=
    do rows <- edge_rows g (wc_shortcuts wc) (value_row g values) (seq 0 (edge_count g FWD));
    Ok (header_line wc ++ concat rows).

  (** *** Writing graphs as fmi-files *)

  (** models: `{:?}` of a Vec<String> *)
  Variable show_ids : list text -> text.

  (** models: src/io/writing/network/graph/fmi.rs:132-158 (one category). *)
  Definition node_value (n : node) (c : node_cat) : res text :=
    match c with
    | NCMeta NNodeId _ => Ok (show_Z (n_id n))
    | NCMeta NNodeIdx _ => Ok (show_nat (n_idx n))
    | NCMeta NCHLevel _ => Ok (show_nat (n_level n))
    | NCMetric Latitude _ => Ok (show_f64 (lat (n_coord n)))
    | NCMetric Longitude _ => Ok (show_f64 (lon (n_coord n)))
    | NCMetric Height _ => Panic
    | NCIgnored => Panic
    end.

  (** the id of a node's category, compared in
      src/io/writing/network/graph/fmi.rs:127-144 *)
  Definition node_cat_id (c : node_cat) : option string :=
    match c with NCMeta _ id | NCMetric _ id => Some id | NCIgnored => None end.

  (** models: src/io/writing/network/graph/fmi.rs:125-176 (look for the first
      category of the same id); the last case of [node_value] is not reached.
      [ncs] are the categories of the graph's configuration, with units. *)
  Fixpoint find_node_cell (g : graph) (i : nat) (id : string) (ncs : list node_cat) : res text :=
    match ncs with
    | [] => Err "Writing-config has an id which is not part of graph's node-data."
    | c :: ncs =>
        match node_cat_id c with
        | Some id' =>
            if String.eqb id' id then do n <- node_create g i; node_value n c
            else find_node_cell g i id ncs
        | None => find_node_cell g i id ncs
        end
    end.

  (** models: src/io/writing/network/graph/fmi.rs:118-181 (one column). *)
  Definition node_cell (g : graph) (ncs : list node_cat) (i : nat) (o : option string) : res text :=
    match o with
    | Some id => find_node_cell g i id ncs
    | None => Ok IGNORE_STR
    end.

  (** models: src/io/writing/network/graph/fmi.rs:116-191 (one node). *)
  Definition node_row (g : graph) (ncs : list node_cat) (w : graph_cfg) (i : nat) : res text :=
    do cells <- mapM (node_cell g ncs i) (gc_nodes w);
    Ok (line (spaced cells)).

  (** models: src/io/writing/network/graph/fmi.rs:85-91 (dim). *)
  Definition written_dim (g : graph) (w : graph_cfg) : nat :=
    length (filter (fun o => match o with
                             | Some id => existsb (String.eqb id) (ec_ids (cfg_edges (g_cfg g)))
                             | None => false
                             end) (gc_edges w)).

  (** models: src/io/writing/network/graph/fmi.rs:42-81 (comments). *)
  Definition fmi_comments (g : graph) (w : graph_cfg) : list text :=
    [T "# edge-metric-count"; T "# node-count"; T "# edge-count";
     T "# nodes: " ++ show_ids (map column_name (gc_nodes w));
     T "# edges: " ++ show_ids (map column_name (gc_edges w));
     T "# Edges' metrics are " ++
       (if negb (ec_normalized (cfg_edges (g_cfg g))) || gc_denormalizing w
        then T "not normalized" else T "normalized") ++ T " by their mean.";
     []].

  (** models: src/io/writing/network/graph/fmi.rs:24-210 (write) after opening
      the file. *)
  Definition write_fmi (g : graph) (ncs : list node_cat) (w : graph_cfg) : res text :=
    do m <- count_written g (gc_shortcuts w) (seq 0 (edge_count g FWD));
    do nodes <- mapM (node_row g ncs w) (seq 0 (node_count g));
    do edges <- write_edges g (edges_of_graph w);
    Ok (concat (map line (fmi_comments g w)) ++
        concat (map line [show_nat (written_dim g w); show_nat (node_count g); show_nat m]) ++
        concat nodes ++ edges).
End Values.
