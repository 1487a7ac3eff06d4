(** Vocabulary for the balancer *)
From Coq Require Import String List Bool Arith ZArith QArith NArith.
From Verif Require Import Base F64 ModelApprox ModelUnits ModelConfig ModelGraph ModelBuild ModelDijkstra ModelBalancing ProofApprox Spec SpecRouting.
Import ListNotations.
Open Scope string_scope.
Open Scope list_scope.
Open Scope nat_scope.

(** *** The balanced metric *)

(** the i-th metric of edge [e] *)
Definition has_metric (g : graph) (e i : nat) (x : f64) : Prop :=
  exists ms, edge_metrics g e = Ok ms /\ nth_error ms i = Some x.

(** [mi] is the index of the metric called [id] *)
Definition metric_at (g : graph) (id : string) (mi : nat) : Prop :=
  nth_error (ec_ids (cfg_edges (g_cfg g))) mi = Some id /\
  forall j, j < mi -> nth_error (ec_ids (cfg_edges (g_cfg g))) j <> Some id.

(** a number as rational *)
Definition qn (n : nat) : Q := inject_Z (Z.of_nat n).

(** [load] relative to the mean of all workloads *)
Definition relative (ws : list nat) (load : nat) (r : Q) : Prop :=
  (r * qn (list_sum ws) == qn load * qn (length ws))%Q.

(** the documented step from the value [old] towards [new] *)
Definition moved (m : opt_method) (iteration : nat) (old new v : Q) : Prop :=
  match m with
  | ExplicitEuler c => exists k, c = Fin k /\ (v == old + (new - old) * k)%Q
  | Averaging => (v * (qn iteration + 1) == qn iteration * old + new)%Q
  end.

(** [x] is [v], raised to the minimum if there is one and [v] is not greater,
    comparing approximately *)
Definition raised (mn : option f64) (v x : Q) : Prop :=
  match mn with
  | Some (Fin m) => (v < m + TOL /\ x == m \/ m + TOL <= v /\ x == v)%Q
  | _ => (x == v)%Q
  end.

(** the configured numbers are finite *)
Definition finite_cfg (bc : balancing_cfg) : Prop :=
  match bc_method bc with ExplicitEuler c => exists k, c = Fin k | Averaging => True end /\
  match bc_min bc with Some m => exists q, m = Fin q | None => True end.

(** the graphs agree in everything but metrics and means *)
Definition same_network (g g' : graph) : Prop :=
  with_means (with_metrics g' (metrics g)) (means g) = g.

(** the graphs agree in all metrics but the [mi]-th *)
Definition same_other_metrics (g g' : graph) (mi : nat) : Prop :=
  length (metrics g') = length (metrics g) /\
  forall e j x, j <> mi -> (has_metric g' e j x <-> has_metric g e j x).

(** *** Working off routes *)

(** work done in the next step of [a], with its outcome *)
Definition worked (job : dijkstra -> work -> res (dijkstra * outcome)) (a : action) (s : sys) : list (work * outcome) :=
  match a with
  | AMaster => []
  | AWorker i =>
      match nth_error (s_workers s) i with
      | Some w =>
          match w_inbox w with
          | wk :: _ => match job (w_dijkstra w) wk with Ok (_, o) => [(wk, o)] | _ => [] end
          | [] => []
          end
      | None => []
      end
  end.

(** a schedule leads from one state to another, doing the logged work *)
Inductive runs (g : graph) (ff : nat) (job : dijkstra -> work -> res (dijkstra * outcome))
  : list action -> sys -> list (work * outcome) -> sys -> Prop :=
| runs_nil s : runs g ff job [] s [] s
| runs_cons a l s s1 s2 log :
    fire g ff job a s = Some s1 -> runs g ff job l s1 log s2 ->
    runs g ff job (a :: l) s (worked job a s ++ log) s2.

(** nobody can move *)
Definition blocked (g : graph) (ff : nat) (job : dijkstra -> work -> res (dijkstra * outcome)) (s : sys) : Prop :=
  forall a, fire g ff job a s = None.

(** the path can be flattened to edges of the graph *)
Definition flattens (g : graph) (ff : nat) (p p' : path) : Prop :=
  flatten g ff p = Ok p' /\ forall e, In e (p_edges p') -> e < edge_count g FWD.

(** work on the given routes never fails: an object that is new or has
    worked before works again, and the chosen paths can be flattened *)
Definition steady (g : graph) (ff : nat) (job : dijkstra -> work -> res (dijkstra * outcome))
           (routes : list route) (fit : dijkstra -> Prop) : Prop :=
  fit dijkstra_new /\
  forall st w, fit st -> incl (wk_routes w) routes ->
    exists st' o, job st w = Ok (st', o) /\ fit st' /\
      forall p, In p (oc_chosen o) -> exists p', flattens g ff p p'.

(** occurrences of [e] in the paths *)
Definition occurrences (e : nat) (ps : list path) : nat :=
  count_occ Nat.eq_dec (flat_map p_edges ps) e.

(** the paths chosen by the logged work *)
Definition logged_paths (log : list (work * outcome)) : list path :=
  flat_map (fun wo => oc_chosen (snd wo)) log.
Definition logged_routes (log : list (work * outcome)) : list route :=
  flat_map (fun wo => wk_routes (fst wo)) log.

(** *** Routes answered by Dijkstra *)

(** the paths chosen for a route: the one a new Dijkstra object finds, as often
    as the route is to be counted *)
Definition chosen_for (pick : nat -> list costnode -> nat) (fuel : nat) (g : graph) (rc : routing_cfg)
           (r : route) (ps : list path) : Prop :=
  exists s t o, node_id g s = Ok (fst (fst r)) /\ node_id g t = Ok (snd (fst r)) /\
    answer (compute_best_path pick fuel dijkstra_new g rc s t) = Ok o /\
    ps = match o with Some p => repeat p (snd r) | None => [] end.

(** every route is to be counted at least once, and a new Dijkstra object
    answers it with paths which can be flattened *)
Definition answerable (pick : nat -> list costnode -> nat) (fuel : nat) (g : graph) (rc : routing_cfg) (ff : nat)
           (routes : list route) : Prop :=
  forall r, In r routes -> 1 <= snd r /\
    exists ps, chosen_for pick fuel g rc r ps /\ forall p, In p ps -> exists p', flattens g ff p p'.
