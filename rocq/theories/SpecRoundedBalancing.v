(** Vocabulary of the balancer's workers as they calculate *)
From Coq Require Import String List Bool Arith ZArith QArith NArith.
From Verif Require Import Base F64 ModelApprox ModelUnits ModelConfig ModelGraph ModelBuild ModelDijkstra ModelExplorator ModelBalancing
  ModelRounded ModelRoundedHeap ModelRoundedExplorator Spec SpecRouting SpecPaths SpecBalancing SpecRounded SpecRoundedHeap.
Import ListNotations.
Open Scope nat_scope.

(** every road of up to twice as many edges as there are nodes can be unpacked *)
Definition unpackable (g : graph) (ff : nat) : Prop :=
  forall s l t p, connects g s l t -> length l + 2 <= 2 * node_count g -> p_edges p = l -> exists p', flattens g ff p p'.

(** [s] and [t] are the nodes of a route *)
Definition ends_of (g : graph) (r : route) (s t : nat) : Prop :=
  node_id g s = Ok (fst (fst r)) /\ node_id g t = Ok (snd (fst r)).

(** all routes lead between nodes and are to be counted *)
Definition demanded (g : graph) (routes : list route) : Prop :=
  forall r, In r routes -> 1 <= snd r /\ exists s t, ends_of g r s t.

(** what a Dijkstra object, used before or not, finds for a route, as often as
    the route is to be counted; found roads lead from the one node to the other *)
Definition served (fuel : nat) (g : graph) (rc : routing_cfg) (r : route) (ps : list path) : Prop :=
  exists s t st st' o, ends_of g r s t /\ rhistory_h st /\ rcompute_best_path_h ieee fuel st g rc s t = Ok (st', o) /\
    ps = match o with Some p => repeat p (snd r) | None => [] end /\
    forall p, In p ps -> p_src_idx p = s /\ p_dst_idx p = t /\ connects g s (p_edges p) t.

(** a 1 for every route with a path *)
Definition ones (pss : list (list path)) : list nat := flat_map (fun ps => match ps with [] => [] | _ :: _ => [1] end) pss.

(** what is found exploring a route *)
Definition rexplored (fuel : nat) (g : graph) (rc : routing_cfg) (T : Type) tri_new tri_add tri_cells solve rounds
           (r : route) (found : list path) : Prop :=
  exists s t st st', ends_of g r s t /\ rhistory_h st /\
    rfully_explorate ieee fuel T tri_new tri_add tri_cells solve rounds g (inner_cfg rc) s t st = Ok (st', found) /\
    forall p, In p found -> p_src_idx p = s /\ p_dst_idx p = t /\ connects g s (p_edges p) t.
