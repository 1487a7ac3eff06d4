(** Vocabulary of the properties of the explorator *)
From Coq Require Import List Bool Arith ZArith QArith.
From Verif Require Import Base F64 ModelApprox ModelUnits ModelConfig ModelGraph ModelBuild ModelDijkstra
  ModelExplorator Spec SpecRouting SpecPaths.
Import ListNotations.
Open Scope nat_scope.

(** alpha 1 for the metrics in [sub], 0 for all others *)
Definition indicator (sub : list bool) : list f64 := map (fun b : bool => if b then Fin 1 else Fin 0) sub.

(** [sub] is a set of metrics (one flag per metric), contains only metrics of
    [imc] and at least one *)
Definition chosen_from (imc sub : list bool) : Prop :=
  length sub = length imc /\ (forall i, nth_error sub i = Some true -> nth_error imc i = Some true) /\ In true sub.

(** [sub] contains metric [i] only *)
Definition only (i : nat) (sub : list bool) : Prop :=
  forall j, nth_error sub j = Some true <-> j = i /\ i < length sub.

(** all metrics of the graph are numbers *)
Definition finite_metrics (g : graph) : Prop :=
  forall e ms x, edge_metrics g e = Ok ms -> In x ms -> exists q, x = Fin q.

(** [m] is the least i-th cost of all paths from [s] to [t] *)
Definition least_cost (g : graph) (i s t : nat) (m : Q) : Prop :=
  (exists es q, connects g s es t /\ sums g i es q /\ (q == m)%Q) /\
  (forall es q, connects g s es t -> sums g i es q -> (m <= q)%Q).

(** whatever the weights, for every way there is one which climbs, then
    descends, and isn't more expensive *)
Definition contracted_for_all (g : graph) : Prop :=
  forall alphas, Forall not_negative alphas -> forall s t l q, connects g s l t -> costs_as g alphas l q ->
    exists l' q', connects g s l' t /\ costs_as g alphas l' q' /\ up_down g l' /\ (q' <= q)%Q.

(** the algorithm finds cheapest paths on the graph: plain Dijkstra on all
    graphs, CH-Dijkstra on those which are contracted for all weights *)
Definition finds_cheapest (g : graph) (rc : routing_cfg) : Prop :=
  rc_algo rc = ADijkstra \/ rc_algo rc = ACHDijkstra /\ contracted_for_all g.

(** [p] is a path from [s] to [t] carrying its costs *)
Definition real_path (g : graph) (s t : nat) (p : path) : Prop :=
  p_src_idx p = s /\ p_dst_idx p = t /\ connects g s (p_edges p) t /\
  exists cs, p_costs p = Some cs /\ length cs = metric_dim g /\
    forall i q, i < metric_dim g -> sums g i (p_edges p) q -> exists q', nth_error cs i = Some (Fin q') /\ (q' == q)%Q.

(** a triangulation never reports a vertex id twice *)
Definition fresh_ids (T : Type) (tri_new : nat -> T) (tri_add : T -> list f64 -> option (T * nat)) : Prop :=
  exists ids : T -> list nat, (forall d, ids (tri_new d) = []) /\
    forall t c t' id, tri_add t c = Some (t', id) -> ~ In id (ids t) /\ forall k, In k (ids t') <-> k = id \/ In k (ids t).

(** the metrics a query considers *)
Definition considers (rc : routing_cfg) (i : nat) : Prop :=
  exists a, nth_error (rc_alphas rc) i = Some a /\ fgtb a f0 = true.

(** cost [c] is tolerated by [x] (by less than 1.5e-6 above it); NaN tolerates
    everything *)
Definition tolerates (x : f64) (c : Q) : Prop :=
  match x with
  | Fin y => (c < y + (3 # 2000000))%Q
  | PInf | NaN => True
  | NInf => False
  end.

(** the costs of two paths differ noticeably in some metric *)
Definition costs_differ (p p' : path) : Prop :=
  forall c c', p_costs p = Some c -> p_costs p' = Some c' -> ~ close_vec c c'.
