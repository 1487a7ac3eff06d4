(** Vocabulary for statements about configuration documents. *)
From Coq Require Import String Ascii List Bool Arith NArith QArith Permutation.
From Verif Require Import Base F64 ModelUnits ModelConfig ModelText ModelStreets ModelParsing ModelYaml ModelDocs.
Import ListNotations.
Open Scope string_scope.
Open Scope list_scope.
Open Scope nat_scope.

(** The same document up to the order of the keys of all mappings. *)
Inductive same_doc : yaml -> yaml -> Prop :=
| same_scalar p t : same_doc (YScalar p t) (YScalar p t)
| same_seq l l' : Forall2 same_doc l l' -> same_doc (YSeq l) (YSeq l')
| same_map l m l' :
    Permutation l m -> Forall2 (fun a b => fst a = fst b /\ same_doc (snd a) (snd b)) m l' ->
    same_doc (YMap l) (YMap l').

(** the values of a key *)
Fixpoint values_of (k : string) (l : list (string * yaml)) : list yaml :=
  match l with
  | [] => []
  | (k', v) :: l => if string_dec k' k then v :: values_of k l else values_of k l
  end.

(** Two documents say the same about the section with the given path. *)
Inductive agree_at : list string -> yaml -> yaml -> Prop :=
| agree_here y : agree_at [] y y
| agree_below k p l l' :
    Forall2 (agree_at p) (values_of k l) (values_of k l') -> agree_at (k :: p) (YMap l) (YMap l').

(** Steps from a node of a document to the nodes below it: to the value of a
    key, or to the elements of a sequence. *)
Inductive step : Type := Key (k : string) | Each.
Inductive reach : list step -> yaml -> yaml -> Prop :=
| reach_here y : reach [] y y
| reach_key k p l v y : In (k, v) l -> reach p v y -> reach (Key k :: p) (YMap l) y
| reach_each p l v y : In v l -> reach p v y -> reach (Each :: p) (YSeq l) y.

(** A mapping has only the given keys, and none of them twice. *)
Definition only_keys (allowed : list string) (y : yaml) : Prop :=
  match y with
  | YMap l => NoDup (map fst l) /\ incl (map fst l) allowed
  | _ => True
  end.

(** Every mapping reached by one of the paths has only keys allowed there. *)
Definition strict (table : list (list step * list string)) (y : yaml) : Prop :=
  forall p allowed n, In (p, allowed) table -> reach p y n -> only_keys allowed n.

(** the sections' keys, as documented in resources/blueprint.yaml *)
Definition edges_info_keys : list string := ["file"; "with_shortcuts"; "will_denormalize_metrics_by_mean"; "ids"].
Definition mch_keys : list string :=
  ["fmi-graph"; "contracted-graph"; "dimension"; "minimum-cost"; "cost-accuracy"; "contraction-ratio";
   "number_of_threads"; "is_printing_osm-ids"; "is_using_external_edge-ids"].
Definition parsing_keys : list (list step * list string) :=
  [([Key "parsing"], ["map-file"; "vehicles"; "nodes"; "edges"; "generating"]);
   ([Key "parsing"; Key "vehicles"], ["category"; "are_drivers_picky"]);
   ([Key "parsing"; Key "edges"], ["will_normalize_metrics_by_mean"; "data"]);
   ([Key "parsing"; Key "generating"], ["nodes"; "edges"])].
Definition writing_graph_keys : list (list step * list string) :=
  [([Key "writing"; Key "graph"], ["map-file"; "nodes"; "edges"]);
   ([Key "writing"; Key "graph"; Key "edges"], ["with_shortcuts"; "will_denormalize_metrics_by_mean"; "ids"])].
Definition writing_edges_keys : list (list step * list string) :=
  [([Key "writing"; Key "edges-info"], edges_info_keys)].
Definition writing_pairs_keys : list (list step * list string) :=
  [([Key "writing"; Key "route-pairs"], ["file"; "random_or_all"])].
Definition routing_keys : list (list step * list string) :=
  [([Key "routing"], ["route-pairs-file"; "algorithm"; "metrics"]);
   ([Key "routing"; Key "metrics"; Each], ["id"; "alpha"; "tolerated-scale"]);
   ([Key "routing"; Key "algorithm"; Key "Explorator"], ["algo"])].
Definition balancing_keys : list (list step * list string) :=
  [([Key "balancing"],
    ["seed"; "number_of_threads"; "results-dir"; "iter-0-cfg"; "iter-i-cfg"; "optimizing_with";
     "number_of_metric-updates"; "min_new_metric"; "multi-ch-constructor"; "monitoring";
     "throw_err_when_new_metric_is_zero"]);
   ([Key "balancing"; Key "optimizing_with"], ["metric-id"; "method"]);
   ([Key "balancing"; Key "optimizing_with"; Key "method"; Key "explicit_euler"], ["correction"]);
   ([Key "balancing"; Key "multi-ch-constructor"], mch_keys);
   ([Key "balancing"; Key "monitoring"], ["export_vehicles_for_SMARTS"; "edges-info"]);
   ([Key "balancing"; Key "monitoring"; Key "edges-info"], edges_info_keys)].
Definition evaluating_keys : list (list step * list string) :=
  [([Key "evaluating_balance"], ["seed"; "number_of_threads"; "results-dir"; "monitoring"]);
   ([Key "evaluating_balance"; Key "monitoring"], ["export_vehicles_for_SMARTS"; "edges-info"]);
   ([Key "evaluating_balance"; Key "monitoring"; Key "edges-info"], edges_info_keys)].
Definition mch_section_keys : list (list step * list string) :=
  [([Key "multi-ch-constructor"], mch_keys)].

(** *** Which configurations can be written down? *)

(** What is known about the nodes, the edges and the generated values of a
    configuration, respectively. *)
Definition node_expressible (c : node_cat) : Prop :=
  match c with
  | NCMeta i _ => i = NNodeId \/ i = NCHLevel
  | NCMetric u _ => u = Latitude \/ u = Longitude
  | NCIgnored => True
  end.
Definition edge_expressible (c : category) : Prop :=
  match c with
  | CMeta i _ => In i [EdgeId; SrcId; DstId; ShortcutIdx0; ShortcutIdx1]
  | CMetric _ _ | CIgnored => True
  end.
Definition gen_expressible (sc : scalars) (c : gen_doc) : Prop :=
  match c with
  | DGen (GMeta i _) => i <> GShortcutIdx0 /\ i <> GShortcutIdx1
  | DGen (GCustom _ _ d) => d = f0 \/ exists t, sc_f64 sc t = Some d
  | DGen (GMerge _ _ _) => False
  | _ => True
  end.

(** the ids of the categories, in their order *)
Definition ids_of (cs : list category) : list string :=
  flat_map (fun c => match c with CMeta _ i | CMetric _ i => [i] | CIgnored => [] end) cs.
(** the metrics' units and ids, in their order *)
Definition metrics_of (cs : list category) : list (unit_info * string) :=
  flat_map (fun c => match c with CMetric u i => [(u, i)] | _ => [] end) cs.

(** The file's name ends with a dot and one of the extensions, in any case, after
    at least one character of the name. *)
Definition has_extension (exts : list string) (path : string) : Prop :=
  exists dir name ext e,
    list_ascii_of_string path = dir ++ name ++ ["."%char] ++ ext /\
    (dir = [] \/ exists d, dir = d ++ ["/"%char]) /\ ~ In "/"%char (name ++ ext) /\
    name <> [] /\ In e exts /\ to_lower ext = list_ascii_of_string e.

Record expressible (sc : scalars) (d : parsing_doc) : Prop := mkExpressible {
  ex_file : has_extension ["pbf"; "fmi"] (pd_map_file d);
  ex_nodes : Forall node_expressible (pd_nodes d);
  ex_edges : Forall edge_expressible (ec_categories (pd_edges d));
  ex_unique : NoDup (ids_of (ec_categories (pd_edges d)));
  ex_metrics : combine (ec_units (pd_edges d)) (ec_ids (pd_edges d)) = metrics_of (ec_categories (pd_edges d));
  ex_aligned : length (ec_units (pd_edges d)) = length (ec_ids (pd_edges d));
  ex_gen : forall ns es, pd_generating d = Some (ns, es) ->
             Forall (fun n => fst n = NNodeIdx) ns /\ Forall (gen_expressible sc) es;
}.

(** What the theorems assume about scalars: the texts Rust prints for bools are
    bools, and the name of no default is taken for null. *)
Record scalars_ok (sc : scalars) : Prop := mkScalarsOk {
  so_true : sc_bool sc "true" = Some true;
  so_false : sc_bool sc "false" = Some false;
  so_bool_null : forall t b, sc_bool sc t = Some b -> sc_null sc t = false;
  so_u64_null : forall t b, sc_u64 sc t = Some b -> sc_null sc t = false;
  so_f64_null : forall t b, sc_f64 sc t = Some b -> sc_null sc t = false;
}.

(** A document with one more entry. *)
Definition plain (t : string) : yaml := YScalar true t.
Definition quoted (t : string) : yaml := YScalar false t.

(** The second document has the entry [k: v] in a mapping at the given path, which
    has no such key in the first one. *)
Inductive adds : list step -> string -> yaml -> yaml -> yaml -> Prop :=
| adds_here k v l1 l2 : ~ In k (map fst (l1 ++ l2)) -> adds [] k v (YMap (l1 ++ l2)) (YMap (l1 ++ (k, v) :: l2))
| adds_key k' p k v n n' l1 l2 :
    adds p k v n n' -> adds (Key k' :: p) k v (YMap (l1 ++ (k', n) :: l2)) (YMap (l1 ++ (k', n') :: l2))
| adds_each p k v n n' l1 l2 :
    adds p k v n n' -> adds (Each :: p) k v (YSeq (l1 ++ n :: l2)) (YSeq (l1 ++ n' :: l2)).

(** The documented defaults: path, key and value, see resources/blueprint.yaml and
    src/defaults.rs. *)
Definition edges_info_defaults (path : list step) : list (list step * string * yaml) :=
  [(path, "with_shortcuts", plain "false"); (path, "will_denormalize_metrics_by_mean", plain "false")].
Definition mch_defaults (path : list step) : list (list step * string * yaml) :=
  [(path, "number_of_threads", plain "4"); (path, "contraction-ratio", quoted "99.8");
   (path, "cost-accuracy", plain "0.0001")].
Definition monitoring_defaults (path : list step) : list (list step * string * yaml) :=
  (path, "export_vehicles_for_SMARTS", plain "false") :: edges_info_defaults (path ++ [Key "edges-info"]).
Definition parsing_defaults : list (list step * string * yaml) :=
  [([Key "parsing"], "vehicles", YMap [("category", quoted "Car"); ("are_drivers_picky", plain "true")]);
   ([Key "parsing"; Key "edges"], "will_normalize_metrics_by_mean", plain "false");
   ([Key "parsing"; Key "generating"; Key "edges"; Each; Key "custom"], "unit", quoted "F64");
   ([Key "parsing"; Key "generating"; Key "edges"; Each; Key "custom"], "default", plain "0.0");
   ([Key "parsing"; Key "generating"; Key "edges"; Each; Key "merge"], "with_header-line", plain "true")].
Definition writing_edges_defaults : list (list step * string * yaml) :=
  edges_info_defaults [Key "writing"; Key "edges-info"].
Definition writing_graph_defaults : list (list step * string * yaml) :=
  edges_info_defaults [Key "writing"; Key "graph"; Key "edges"].
Definition writing_pairs_defaults : list (list step * string * yaml) :=
  [([Key "writing"; Key "route-pairs"; Key "random_or_all"], "seed", plain "42")].
Definition routing_defaults : list (list step * string * yaml) :=
  [([Key "routing"; Key "metrics"; Each], "alpha", plain "1.0");
   ([Key "routing"; Key "metrics"; Each], "tolerated-scale", quoted "inf")].
Definition balancing_defaults : list (list step * string * yaml) :=
  [([Key "balancing"], "seed", plain "42"); ([Key "balancing"], "number_of_threads", plain "4");
   ([Key "balancing"], "throw_err_when_new_metric_is_zero", plain "true")] ++
  mch_defaults [Key "balancing"; Key "multi-ch-constructor"] ++
  monitoring_defaults [Key "balancing"; Key "monitoring"].
Definition evaluating_defaults : list (list step * string * yaml) :=
  [([Key "evaluating_balance"], "seed", plain "42"); ([Key "evaluating_balance"], "number_of_threads", plain "4")] ++
  monitoring_defaults [Key "evaluating_balance"; Key "monitoring"].
Definition mch_section_defaults : list (list step * string * yaml) := mch_defaults [Key "multi-ch-constructor"].

(** Spelling out one of the defaults makes no difference. *)
Definition may_be_omitted {A} (table : list (list step * string * yaml)) (read : yaml -> A) : Prop :=
  forall p k v y y', In (p, k, v) table -> adds p k v y y' -> read y = read y'.

(** The texts of the numbers among the defaults have the values they name. *)
Record numbers_ok (sc : scalars) : Prop := mkNumbersOk {
  no_42 : sc_u64 sc "42" = Some 42%N;
  no_4 : sc_u64 sc "4" = Some 4%N;
  no_0 : sc_f64 sc "0.0" = Some f0;
  no_1 : sc_f64 sc "1.0" = Some (Fin 1);
  no_accuracy : sc_f64 sc "0.0001" = Some (Fin (1 # 10000));
}.
