(** Vocabulary for reading graphs that have been written *)
From Coq Require Import String Ascii List Bool Arith NArith ZArith.
From Verif Require Import Base F64 ModelText ModelUnits ModelConfig ModelGraph ModelBuild ModelParsing Spec SpecGenerate SpecWriting.
Import ListNotations.
Open Scope string_scope.
Open Scope list_scope.
Open Scope nat_scope.

(** *** Columns *)

(** the meta infos among categories *)
Definition metas (cs : list category) : list edge_meta :=
  flat_map (fun c => match c with CMeta info _ => [info] | _ => [] end) cs.
Definition node_metas (cs : list node_cat) : list node_meta :=
  flat_map (fun c => match c with NCMeta info _ => [info] | _ => [] end) cs.

(** columns with both ends of an edge, none given twice *)
Definition readable (cs : list category) : Prop :=
  NoDup (metas cs) /\ In SrcId (metas cs) /\ In DstId (metas cs).

(** a column written for [o] is read as [c] *)
Inductive read_as (g : graph) : option string -> category -> Prop :=
| read_meta id id' info : called g id (CMeta info id) ->
    In info [EdgeId; SrcId; DstId; ShortcutIdx0; ShortcutIdx1] -> read_as g (Some id) (CMeta info id')
| read_metric id id' u u' : called g id (CMetric u id) -> read_as g (Some id) (CMetric u' id')
| read_ignored o : read_as g o CIgnored.

(** [c] is the first of the nodes' categories called [id] *)
Definition node_called (ncs : list node_cat) (id : string) (c : node_cat) : Prop :=
  exists before after, ncs = before ++ c :: after /\
    (forall c', In c' before -> forall i, c' <> NCMeta i id) /\ (forall c', In c' before -> forall u, c' <> NCMetric u id) /\
    ((exists i, c = NCMeta i id) \/ (exists u, c = NCMetric u id)).
Inductive read_node_as (ncs : list node_cat) : option string -> node_cat -> Prop :=
| read_node_meta id id' info : node_called ncs id (NCMeta info id) ->
    info = NNodeId \/ info = NCHLevel -> read_node_as ncs (Some id) (NCMeta info id')
| read_node_metric id id' u : node_called ncs id (NCMetric u id) ->
    u = Latitude \/ u = Longitude -> read_node_as ncs (Some id) (NCMetric u id')
| read_node_ignored o : read_node_as ncs o NCIgnored.

(** the written ids of the columns read as metrics *)
Fixpoint metric_columns (ids : list (option string)) (cs : list category) : list string :=
  match ids, cs with
  | Some id :: ids, CMetric _ _ :: cs => id :: metric_columns ids cs
  | _ :: ids, _ :: cs => metric_columns ids cs
  | _, _ => []
  end.

(** *** What is read *)

(** [pe] tells of edge [e] what is asked for by the categories [cs] in the
    columns [ids] *)
Record retold_edge (g : graph) (denorm : bool) (ids : list (option string)) (cs : list category)
       (e : nat) (pe : proto_edge) : Prop := {
  rt_ends : same_ends g e pe;
  rt_id : In EdgeId (metas cs) -> edge_try_id g e = Ok (pe_id pe);
  rt_no_id : ~ In EdgeId (metas cs) -> pe_id pe = None;
  rt_sc : In ShortcutIdx0 (metas cs) -> In ShortcutIdx1 (metas cs) -> sc_edges g e = Ok (pe_sc pe);
  rt_no_sc : ~ In ShortcutIdx0 (metas cs) \/ ~ In ShortcutIdx1 (metas cs) -> pe_sc pe = None;
  rt_metrics : Forall2 (fun id x => exists i, first_at (ids_of g) id i /\ exported_metric g denorm e i x)
                       (metric_columns ids cs) (pe_metrics pe);
}.

(** [pn] tells of node [i] what is asked for *)
Record retold_node (g : graph) (cs : list node_cat) (i : nat) (pn : proto_node) : Prop := {
  rn_id : node_id g i = Ok (pn_id pn);
  rn_coord : node_coord g i = Ok (pn_coord pn);
  rn_level : In NCHLevel (node_metas cs) -> exists l, node_level g i = Ok l /\ pn_level pn = Some l;
  rn_no_level : ~ In NCHLevel (node_metas cs) -> pn_level pn = None;
}.

(** *** Values *)

(** the numbers written for [g] *)
Definition written_value (g : graph) (denorm : bool) (x : f64) : Prop :=
  (exists i c, node_coord g i = Ok c /\ (x = lat c \/ x = lon c)) \/
  (exists e i, exported_metric g denorm e i x).

(** printing a number gives visible ASCII characters, of which the first is no
    number sign, and reading them gives the number *)
Definition survives (show_f64 : f64 -> text) (parse_f64 : text -> option f64) (x : f64) : Prop :=
  parse_f64 (show_f64 x) = Some x /\
  (exists c t, show_f64 x = c :: t /\ c <> HASH) /\
  (forall c, In c (show_f64 x) -> 33 <= nat_of_ascii c <= 126).

(** all integers of the graph fit into their types, and lines can be counted *)
Record machine_sized (g : graph) : Prop := {
  ms_ids : forall i z, node_id g i = Ok z -> (- 2 ^ 63 <= z <= 2 ^ 63 - 1)%Z;
  ms_levels : forall i l, node_level g i = Ok l -> (N.of_nat l <= U64_MAX)%N;
  ms_edge_ids : forall e i, edge_try_id g e = Ok (Some i) -> (N.of_nat i <= U64_MAX)%N;
  ms_sc : forall e x y, sc_edges g e = Ok (Some (x, y)) -> (N.of_nat x <= U64_MAX)%N /\ (N.of_nat y <= U64_MAX)%N;
  ms_lines : (3 + 2 * N.of_nat (node_count g) + 2 * N.of_nat (edge_count g FWD) <= U64_MAX)%N;
}.

(** *** The same graph again *)

(** [cs] asks for everything [g] knows about its edges *)
Definition tells_all (g : graph) (ids : list (option string)) (cs : list category) : Prop :=
  (In EdgeId (metas cs) \/ forall e i, edge_try_id g e <> Ok (Some i)) /\
  ((In ShortcutIdx0 (metas cs) /\ In ShortcutIdx1 (metas cs)) \/ forall e p, sc_edges g e <> Ok (Some p)) /\
  metric_columns ids cs = ids_of g /\ NoDup (ids_of g).
(** ... and about its nodes *)
Definition tells_levels (g : graph) (cs : list node_cat) : Prop :=
  In NCHLevel (node_metas cs) \/ forall i l, node_level g i = Ok l -> l = 0.

(** no two edges next to each other count as the same *)
Definition no_duplicates (g : graph) : Prop :=
  forall e s d i ms ms', edge_from_to g e s d -> edge_from_to g (S e) s d ->
    edge_try_id g e = Ok i -> edge_try_id g (S e) = Ok i ->
    edge_metrics g e = Ok ms -> edge_metrics g (S e) = Ok ms' -> ~ close_vec ms ms'.

(** all metrics are stored as they are *)
Definition storable (g : graph) : Prop :=
  forall e i x, metric_of g e i = Some x -> lifted x x /\ not_too_small x.

(** [g'] equals [g] up to the configuration and the means *)
Record same_content (g g' : graph) : Prop := {
  sg_node_ids : node_ids g' = node_ids g;
  sg_node_coords : node_coords g' = node_coords g;
  sg_node_levels : node_levels g' = node_levels g;
  sg_fwd_dsts : fwd_dsts g' = fwd_dsts g;
  sg_fwd_offsets : fwd_offsets g' = fwd_offsets g;
  sg_fwd_to_fwd : fwd_to_fwd g' = fwd_to_fwd g;
  sg_bwd_dsts : bwd_dsts g' = bwd_dsts g;
  sg_bwd_offsets : bwd_offsets g' = bwd_offsets g;
  sg_bwd_to_fwd : bwd_to_fwd g' = bwd_to_fwd g;
  sg_metrics : metrics g' = metrics g;
  sg_edge_ids : edge_ids g' = edge_ids g;
  sg_edge_ids_map : edge_ids_map g' = edge_ids_map g;
  sg_sc_offsets : sc_offsets g' = sc_offsets g;
  sg_sc_edges : sc_edges_arr g' = sc_edges_arr g;
}.
