(** The balancer's workers of src/bin/osmgraphing/balancing/multithreading.rs
    with arithmetic that rounds and std's BinaryHeap.  The definitions repeat
    those of ModelBalancing.v that calculate; master, channels, threads, draws
    and configuration are taken from there. *)
From Coq Require Import String List Bool Arith ZArith QArith NArith.
From Verif Require Import Base F64 ModelApprox ModelUnits ModelConfig ModelGraph ModelDijkstra ModelExplorator ModelBalancing
  ModelRounded ModelRoundedHeap ModelRoundedExplorator.
Import ListNotations.
Open Scope list_scope.
Open Scope nat_scope.

Section Rounding.
  (** models: how the hardware rounds the exact result of an operation on f64. *)
  Variable ar : f64 -> f64.
  (** fuel of the search, graph and configuration, as in ModelBalancing.v;
      models: src/bin/osmgraphing/balancing/multithreading.rs:373-382 *)
  Variable fuel : nat.
  Variable g : graph.
  Variable rc : routing_cfg.

  (** models: src/bin/osmgraphing/balancing/multithreading.rs:447-474 (loop
      body), as [dijkstra_route]. *)
  Definition rdijkstra_route (s : dijkstra * outcome) (r : route) : res (dijkstra * outcome) :=
    let (st, o) := s in
    do st_idx <- into_node g (fst r);
    do a <- rcompute_best_path_h ar fuel st g rc (fst st_idx) (snd st_idx);
    match snd a with
    | None => Ok (fst a, o)
    | Some p =>
        if snd r =? 0 then Panic
        else Ok (fst a, {| oc_chosen := oc_chosen o ++ repeat p (snd r - 1) ++ [p];
                           oc_found := oc_found o ++ [1] |})
    end.

  (** models: src/bin/osmgraphing/balancing/multithreading.rs:442-484
      (work_off_with_dijkstra). *)
  Definition rwork_with_dijkstra (st : dijkstra) (w : work) : res (dijkstra * outcome) :=
    foldM rdijkstra_route (wk_routes w) (st, {| oc_chosen := []; oc_found := [] |}).

  (** the explorator, its oracles and the random numbers, as in
      ModelBalancing.v; models:
      src/bin/osmgraphing/balancing/multithreading.rs:486-493 *)
  Variable T : Type.
  Variable tri_new : nat -> T.
  Variable tri_add : T -> list f64 -> option (T * nat).
  Variable tri_cells : T -> list (nat * list nat).
  Variable solve : list (list f64) -> list f64 -> option (list f64).
  Variable rounds : nat.
  Variable sample : nat -> nat -> nat -> nat.

  (** models: src/bin/osmgraphing/balancing/multithreading.rs:495-526 (loop
      body), as [explorator_route]. *)
  Definition rexplorator_route (seed : nat) (s : dijkstra * nat * outcome) (r : route)
    : res (dijkstra * nat * outcome) :=
    let '(st, k, o) := s in
    do st_idx <- into_node g (fst r);
    do a <- rfully_explorate ar fuel T tri_new tri_add tri_cells solve rounds g (inner_cfg rc) (fst st_idx) (snd st_idx) st;
    if 0 <? length (snd a) then
      do ps <- draw sample seed k (snd r) (snd a);
      Ok (fst a, k + snd r, {| oc_chosen := oc_chosen o ++ ps; oc_found := oc_found o ++ [length (snd a)] |})
    else Ok (fst a, k, {| oc_chosen := oc_chosen o; oc_found := oc_found o ++ [0] |}).

  (** models: src/bin/osmgraphing/balancing/multithreading.rs:486-536
      (work_off_with_explorator). *)
  Definition rwork_with_explorator (st : dijkstra) (w : work) : res (dijkstra * outcome) :=
    do r <- foldM (rexplorator_route (wk_seed w)) (wk_routes w) (st, 0, {| oc_chosen := []; oc_found := [] |});
    Ok (fst (fst r), snd r).

  (** models: src/bin/osmgraphing/balancing/multithreading.rs:422-429. *)
  Definition rdo_work (st : dijkstra) (w : work) : res (dijkstra * outcome) :=
    match rc_algo rc with
    | AExplorator _ => rwork_with_explorator st w
    | _ => rwork_with_dijkstra st w
    end.
End Rounding.
