(** Model of the balancer's loop, src/bin/osmgraphing/balancing/mod.rs *)
From Coq Require Import String List Bool Arith.
From Verif Require Import Base F64 ModelText ModelConfig ModelGraph ModelDijkstra ModelRoutingCfg ModelBalancing.
Import ListNotations.
Open Scope list_scope.
Open Scope nat_scope.

Section Loop.
  (** the routing-config for a graph, src/configs/routing.rs (try_from_yaml) *)
  Variable routing_of : graph -> res routing_cfg.
  (** writing the graph and its edges, constructing the ch-graph and reading it,
      src/bin/osmgraphing/balancing/mod.rs:129-249; arbitrary *)
  Variable rebuild : nat -> graph -> res graph.
  (** parsing and working off the route pairs,
      src/bin/osmgraphing/balancing/mod.rs:315-327: the workloads; arbitrary, so
      for any schedule of the workers *)
  Variable simulate : nat -> graph -> routing_cfg -> res (list nat).
  (** writing the results of an iteration,
      src/bin/osmgraphing/balancing/mod.rs:341-363 *)
  Variable export : nat -> graph -> list nat -> res unit.
  (** storing the balanced graph, src/bin/osmgraphing/balancing/mod.rs:39-51 *)
  Variable store : graph -> res text.
  Variable bc : balancing_cfg.

  (** models: src/bin/osmgraphing/balancing/mod.rs:251-299 (read_in_routing_cfg)
      without the files. *)
  Definition iteration_routing (iter : nat) (ch : graph) : res routing_cfg :=
    do rc <- routing_of ch;
    if iter =? 0 then
      do mi <- try_idx_of (ec_ids (cfg_edges (g_cfg ch))) (bc_metric bc);
      do alphas <- set (rc_alphas rc) mi f0;
      Ok {| rc_algo := rc_algo rc; rc_alphas := alphas; rc_scales := rc_scales rc |}
    else Ok rc.

  (** models: src/bin/osmgraphing/balancing/mod.rs:301-373 (balance). *)
  Definition balance (iter : nat) (ch : graph) (rc : routing_cfg) : res graph :=
    do ws <- simulate iter ch rc;
    match update_new_metric iter ws bc ch with
    | (Ok _, g) => do _ <- export iter g ws; Ok g
    | (Err m, _) => Err m
    | (Panic, _) => Panic
    | (Diverge, _) => Diverge
    end.

  (** models: src/bin/osmgraphing/balancing/mod.rs:35-72 (the loop), [todo]
      iterations being left; the result is the last graph and what has been
      stored. *)
  Fixpoint balancing_loop (num_iter todo iter : nat) (g : graph) (stored : list text) : res (graph * list text) :=
    match todo with
    | O => Ok (g, stored)
    | S todo =>
        do stored <- (if iter =? num_iter - 1 then do t <- store g; Ok (stored ++ [t]) else Ok stored);
        do ch <- rebuild iter g;
        do rc <- iteration_routing iter ch;
        do g <- balance iter ch rc;
        balancing_loop num_iter todo (S iter) g stored
    end.

  (** models: src/bin/osmgraphing/balancing/mod.rs:26-72 (run, after reading the
      graph) and src/configs/balancing.rs:103-104 (num_iter). *)
  Definition run_balancing (num_updates : nat) (g : graph) : res (graph * list text) :=
    do _ <- routing_of g;
    balancing_loop (num_updates + 1) (num_updates + 1) 0 g [].
End Loop.
