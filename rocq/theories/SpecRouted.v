(** Vocabulary of the properties of what the program answered when routing *)
From Coq Require Import String Ascii List Bool Arith NArith ZArith QArith.
From Verif Require Import Base F64 ModelText ModelConfig ModelGraph ModelBuild ModelDijkstra ModelRoutingCfg ModelBalancing
  ModelFmi ModelDocs ModelProgram Spec SpecRouting SpecPaths SpecExplorator SpecProgram.
Import ListNotations.
Open Scope nat_scope.

(** what a generating category brings into the graph is not negative *)
Definition nothing_negative (hav : coord -> coord -> f64) (gc : gen_cat) : Prop :=
  match gc with
  | GCustom _ _ x => not_negative x
  | GHaversine _ _ => forall a b, not_negative (hav a b)
  | GMerge rows _ _ => forall row t x, In row rows -> In t row -> tok_f64 t = Some x -> not_negative x
  | _ => True
  end.

(** the same for a document: constants, distances, and the numbers in the files
    to be merged *)
Definition nothing_negative_in (e : env) (w : world) (c : gen_doc) : Prop :=
  match c with
  | DGen gc => nothing_negative (e_hav e) gc
  | DMerge from _ _ _ => forall t l s x, file_at e w from = Some t ->
      In l (functional_lines t) -> In s (words l) -> e_parse_f64 e s = Some x -> not_negative x
  end.

(** [v] is the index of the node with this id *)
Definition node_named (g : graph) (id : Z) (v : nat) : Prop := v < node_count g /\ node_id g v = Ok id.

(** some way from [s] to [t] with finite costs *)
Definition has_way (g : graph) (rc : routing_cfg) (s t : nat) : Prop :=
  exists l q, connects g s l t /\ costs_as g (rc_alphas rc) l q.

(** [p] is what the path [es] of possibly contracted edges stands for: its
    edges are no shortcuts, its costs are those of its edges; it leads from [s] to
    [t] and costs as much if shortcuts lead where their edges lead and add up *)
Definition unrolled (g : graph) (s t : nat) (es : list nat) (p : path) : Prop :=
  p_src_idx p = s /\ p_dst_idx p = t /\
  node_id g s = Ok (p_src_id p) /\ node_id g t = Ok (p_dst_id p) /\
  (exists ls, Forall2 (stands_for g) es ls /\ p_edges p = concat ls) /\
  (forall e, In e (p_edges p) -> is_shortcut g e = Ok false) /\
  (exists cs, p_costs p = Some cs /\ length cs = metric_dim g /\
     forall i q, i < metric_dim g -> sums g i (p_edges p) q -> exists q', nth_error cs i = Some (Fin q') /\ (q' == q)%Q) /\
  (shortcuts_fit g -> connects g s (p_edges p) t) /\
  (shortcuts_add_up g -> forall i q, sums g i es q -> exists q', sums g i (p_edges p) q' /\ (q' == q)%Q).

(** the answer to a query without contraction: a path which is cheapest, up to
    [tol], or none if there is none *)
Definition answered (g : graph) (rc : routing_cfg) (tol : Q) (pair : route) (r : report) : Prop :=
  node_named g (fst (fst pair)) (r_src r) /\ node_named g (snd (fst pair)) (r_dst r) /\
  ((r_paths r = [] /\ ~ has_way g rc (r_src r) (r_dst r)) \/
   exists p es qp, r_paths r = [p] /\ unrolled g (r_src r) (r_dst r) es p /\
     connects g (r_src r) es (r_dst r) /\ costs_as g (rc_alphas rc) es qp /\
     forall l q, connects g (r_src r) l (r_dst r) -> costs_as g (rc_alphas rc) l q -> (qp <= q + tol)%Q).

(** the answer to a query on a contracted graph: best among the ways which climb
    and then descend *)
Definition answered_ch (g : graph) (rc : routing_cfg) (tol : Q) (pair : route) (r : report) : Prop :=
  node_named g (fst (fst pair)) (r_src r) /\ node_named g (snd (fst pair)) (r_dst r) /\
  ((r_paths r = [] /\
    ~ exists l q, connects g (r_src r) l (r_dst r) /\ costs_as g (rc_alphas rc) l q /\ up_down g l) \/
   exists p es qp, r_paths r = [p] /\ unrolled g (r_src r) (r_dst r) es p /\
     connects g (r_src r) es (r_dst r) /\ up_down g es /\ costs_as g (rc_alphas rc) es qp /\
     forall l q, connects g (r_src r) l (r_dst r) -> costs_as g (rc_alphas rc) l q -> up_down g l -> (qp <= q + tol)%Q).

(** the answer of the exploration: paths of the graph with their costs *)
Definition explored_paths (g : graph) (pair : route) (r : report) : Prop :=
  node_named g (fst (fst pair)) (r_src r) /\ node_named g (snd (fst pair)) (r_dst r) /\
  forall p, In p (r_paths r) -> real_path g (r_src r) (r_dst r) p.

(** every edge costs more than [tol] *)
Definition costs_more (g : graph) (alphas : list f64) (tol : Q) : Prop :=
  forall e q, costs_as g alphas [e] q -> (tol < q)%Q.

(** every edge stands for edges which are no shortcuts: there is no cycle of
    shortcuts *)
Definition shortcuts_resolve (g : graph) : Prop :=
  forall e, e < edge_count g FWD -> exists l, stands_for g e l.

(** for every way, there is one which climbs, then descends, and isn't more
    expensive *)
Definition contracted (g : graph) (alphas : list f64) : Prop :=
  forall s t l q, connects g s l t -> costs_as g alphas l q ->
    exists l' q', connects g s l' t /\ costs_as g alphas l' q' /\ up_down g l' /\ (q' <= q)%Q.

(** files which are opened because of their extension, when the program reads a
    graph and its routing *)
Definition readable (cfg : string) (d : parsing_doc) (p : string) : Prop :=
  (exists x, find_supported_ext CFG_EXTS cfg = Ok x) /\ (exists x, find_supported_ext PAIRS_EXTS p = Ok x) /\
  forall from h i info, In (DMerge from h i info) (gen_edges d) -> exists x, find_supported_ext EDGES_EXTS from = Ok x.
