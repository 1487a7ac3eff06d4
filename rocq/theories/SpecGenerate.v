(** Vocabulary of the properties of generated metrics *)
From Coq Require Import String List Bool Arith ZArith QArith.
From Verif Require Import Base F64 ModelUnits ModelConfig ModelGraph ModelBuild Spec.
Import ListNotations.
Open Scope nat_scope.

(** ids and units of a graph's metrics, as described by its configuration *)
Definition ids_of (g : graph) : list string := ec_ids (cfg_edges (g_cfg g)).
Definition units_of (g : graph) : list unit_info := ec_units (cfg_edges (g_cfg g)).
Definition cats_of (g : graph) : list category := ec_categories (cfg_edges (g_cfg g)).

(** exactly the graph's edges have metrics, each as many as there are ids and units *)
Definition described (g : graph) : Prop :=
  length (ids_of g) = length (units_of g) /\
  (forall e, e < edge_count g FWD <-> exists ms, edge_metrics g e = Ok ms) /\
  (forall e ms, edge_metrics g e = Ok ms -> length ms = length (units_of g)).

(** the metric categories list the same ids and units *)
Definition cats_agree (g : graph) : Prop :=
  metric_ids (cats_of g) = ids_of g /\ metric_units (cats_of g) = units_of g.

(** [i] is the first position of [id] *)
Definition first_at (ids : list string) (id : string) (i : nat) : Prop :=
  nth_error ids i = Some id /\ forall j, j < i -> nth_error ids j <> Some id.

(** [x] is edge [e]'s value of the metric called [id] *)
Definition named (g : graph) (id : string) (e : nat) (x : f64) : Prop :=
  exists i, first_at (ids_of g) id i /\ metric_of g e i = Some x.

(** [g'] is [g] with one metric more, for which [R] holds at every edge *)
Definition adds_metric (g g' : graph) (u : unit_info) (id : string) (R : nat -> f64 -> Prop) : Prop :=
  ids_of g' = ids_of g ++ [id] /\ units_of g' = units_of g ++ [u] /\
  edge_count g' FWD = edge_count g FWD /\
  (forall e i, i < length (ids_of g) -> metric_of g' e i = metric_of g e i) /\
  (forall e, e < edge_count g FWD -> exists y, metric_of g' e (length (ids_of g)) = Some y /\ R e y).

(** only metric [i] differs, at every edge by [R]; it has a new unit and id *)
Definition changes_metric (g g' : graph) (i : nat) (u : unit_info) (id : string)
           (R : f64 -> f64 -> Prop) : Prop :=
  i < length (ids_of g) /\ edge_count g' FWD = edge_count g FWD /\
  (forall j, nth_error (ids_of g') j = if j =? i then Some id else nth_error (ids_of g) j) /\
  (forall j, nth_error (units_of g') j = if j =? i then Some u else nth_error (units_of g) j) /\
  (forall e j, j <> i -> metric_of g' e j = metric_of g e j) /\
  (forall e x, metric_of g e i = Some x -> exists y, metric_of g' e i = Some y /\ R x y).

(** column [c] of the file is to be merged into metric [i] *)
Definition merged_column (g : graph) (eid : string) (info : list merge_cat) (c i : nat) : Prop :=
  exists id, nth_error info c = Some (MId id) /\ id <> eid /\ first_at (ids_of g) id i.

(** the row names edge [e] in the (first) column called [eid] *)
Definition row_names (g : graph) (eid : string) (info : list merge_cat) (row : list token) (e : nat) : Prop :=
  exists c t raw, nth_error info c = Some (MId eid) /\
    (forall c', c' < c -> nth_error info c' <> Some (MId eid)) /\ nth_error row c = Some t /\
    tok_usize t = Some raw /\ edge_try_idx_from g raw = Ok e.

(** what generating the category [gc] does to a graph *)
Definition meets_formula (hav : coord -> coord -> f64) (g g' : graph) (gc : gen_cat) : Prop :=
  match gc with
  | GMeta _ _ => ids_of g' = ids_of g /\ units_of g' = units_of g /\
                 edge_count g' FWD = edge_count g FWD /\
                 forall e i, metric_of g' e i = metric_of g e i
  | GCustom u id x => adds_metric g g' u id (fun e y => y = x)
  | GHaversine u id => u = Kilometers /\ adds_metric g g' u id (fun e y =>
      exists s d cs cd, edge_from_to g e s d /\ node_coord g s = Ok cs /\ node_coord g d = Ok cd /\
        y = hav cs cd)
  | GCopy fu fid tu tid => adds_metric g g' tu tid (fun e y =>
      exists x, named g fid e x /\ convert_opt fu tu x = Some y)
  | GConvert fu fid tu tid => exists i, first_at (ids_of g) fid i /\
      changes_metric g g' i tu tid (fun x y => convert_opt fu tu x = Some y)
  | GCalc ru rid au aid bu bid => adds_metric g g' ru rid (fun e z =>
      exists x y, named g aid e x /\ named g bid e y /\ try_calc ru au x bu y = Ok z)
  | GMerge rows eid info =>
      ids_of g' = ids_of g /\ units_of g' = units_of g /\ edge_count g' FWD = edge_count g FWD /\
      (* a value differs only if some row names the edge and gives the new value *)
      (forall e i, metric_of g' e i = metric_of g e i \/
         exists row c t x, In row rows /\ row_names g eid info row e /\ merged_column g eid info c i /\
           nth_error row c = Some t /\ tok_f64 t = Some x /\ metric_of g' e i = Some x) /\
      (* the last row naming an edge is what the edge gets *)
      (forall before row after e c i, rows = before ++ row :: after ->
         row_names g eid info row e -> merged_column g eid info c i ->
         (forall row', In row' after -> ~ row_names g eid info row' e) ->
         (forall c', c < c' -> ~ merged_column g eid info c' i) ->
         exists t x, nth_error row c = Some t /\ tok_f64 t = Some x /\ metric_of g' e i = Some x)
  end.

(** a sequence of generating steps *)
Inductive steps (hav : coord -> coord -> f64) : graph -> list gen_cat -> graph -> Prop :=
| steps_nil g : steps hav g [] g
| steps_cons g g' g'' gc gcs :
    meets_formula hav g g' gc -> steps hav g' gcs g'' -> steps hav g (gc :: gcs) g''.

(** categories that change no metric in place *)
Definition out_of_place (gc : gen_cat) : Prop :=
  match gc with GConvert _ _ _ _ | GMerge _ _ _ => False | _ => True end.

(** the id of a category that is to be created *)
Definition creates (gc : gen_cat) (id : string) : Prop :=
  match gc with
  | GMeta _ i | GCustom _ i _ | GHaversine _ i | GCopy _ _ _ i | GCalc _ i _ _ _ _ => i = id
  | GConvert _ _ _ _ | GMerge _ _ _ => False
  end.
(** a parsed category has this id *)
Definition parsed_id (c : cfg) (id : string) : Prop :=
  exists cat, In cat (ec_categories (cfg_edges c)) /\
    ((exists info, cat = CMeta info id) \/ (exists u, cat = CMetric u id)).

(** a configuration as made by edge_cfg_try_from, and edges fitting to it *)
Definition consistent_cfg (c : cfg) : Prop :=
  metric_ids (ec_categories (cfg_edges c)) = ec_ids (cfg_edges c) /\
  metric_units (ec_categories (cfg_edges c)) = ec_units (cfg_edges c).
Definition fitting_edges (c : cfg) (es : list proto_edge) : Prop :=
  forall pe, In pe es -> length (pe_metrics pe) = length (ec_units (cfg_edges c)).
(** the same configuration, but as it is parsed *)
Definition without_generating (c : cfg) : cfg :=
  {| cfg_edges := {| ec_categories := ec_categories (cfg_edges c); ec_normalized := false;
                     ec_units := ec_units (cfg_edges c); ec_ids := ec_ids (cfg_edges c) |};
     cfg_nodes := cfg_nodes c; cfg_gen_nodes := []; cfg_gen_edges := [] |}.
