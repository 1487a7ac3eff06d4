(** Model of the balancer: src/defaults.rs (module balancing) and
    src/bin/osmgraphing/balancing/multithreading.rs *)
From Coq Require Import String List Bool Arith ZArith QArith NArith.
From Verif Require Import Base F64 ModelApprox ModelUnits ModelConfig ModelGraph ModelBuild ModelDijkstra ModelExplorator.
Import ListNotations.
Open Scope string_scope.
Open Scope list_scope.
Open Scope nat_scope.

(** *** Updating the balanced metric *)

(** models: src/configs/balancing.rs:133-137 (OptimizationMethod). *)
Inductive opt_method : Set :=
| ExplicitEuler (correction : f64)
| Averaging.

(** models: src/configs/balancing.rs:14-27 (Config: the fields used by
    update_new_metric). *)
Record balancing_cfg : Type := mkBalancingCfg {
  bc_metric : string;
  bc_method : opt_method;
  bc_min : option f64;
  bc_zero_err : bool;
}.

(** models: `iter().sum::<f64>()`. *)
Definition fsum (l : list f64) : f64 := fold_left fadd l f0.

(** models: src/defaults.rs:157 and :232. *)
Definition fmean (l : list f64) : f64 := fdiv (fsum l) (of_nat (length l)).

(** models: src/defaults.rs:178-185 (the new value of one edge). *)
Definition next_metric (m : opt_method) (iteration : nat) (old new : f64) : f64 :=
  match m with
  | ExplicitEuler correction => fadd old (fmul (fsub new old) correction)
  | Averaging => fdiv (fadd (fmul (of_nat iteration) old) new) (of_nat (iteration + 1))
  end.

(** models: src/defaults.rs:174-187. *)
Definition next_metrics (m : opt_method) (iteration mi : nat) (ms : list (list f64)) (news : list f64)
  : res (list f64) :=
  mapM (fun en => do v <- idx ms (fst en);
                  do old <- idx v mi;
                  Ok (next_metric m iteration old (snd en))) (enumerate news).

(** models: src/defaults.rs:191-226 (minimum or check for zeros; the warning is
    left out). *)
Definition floor_metrics (bc : balancing_cfg) (news : list f64) : res (list f64) :=
  match bc_min bc with
  | Some mn => Ok (map (fun x => if approx_le x mn then mn else x) news)
  | None =>
      if existsb (fun x => approx_le x f0) news && bc_zero_err bc
      then Err "The new metric contains zero-values."
      else Ok news
  end.

(** models: src/defaults.rs:144-243 (everything before the first write); the
    result is the metric's index, the mean and the values to write. *)
Definition new_metric_values (iteration : nat) (workloads : list nat) (bc : balancing_cfg) (g : graph)
  : res (nat * f64 * list f64) :=
  do mi <- idx_of (ec_ids (cfg_edges (g_cfg g))) (bc_metric bc);
  let loads := map of_nat workloads in
  let mean := fmean loads in
  if approx_eq mean f0 then Err "The new workload-metric's mean is zero."
  else
    do news <- next_metrics (bc_method bc) iteration mi (metrics g) (map (fun x => fdiv x mean) loads);
    do floored <- floor_metrics bc news;
    let mean2 := fmean floored in
    if approx_le mean2 f0 then Err "The new workload-metric's mean is zero."
    else Ok (mi, mean2, map (fun x => fdiv x mean2) floored).

(** models: src/defaults.rs:254-256 (write one value per edge); a panic leaves
    the metrics as far as they were written. *)
Fixpoint write_metrics (mi e : nat) (news : list f64) (ms : list (list f64))
  : res unit * list (list f64) :=
  match news with
  | [] => (Ok tt, ms)
  | x :: t =>
      match (do v <- idx ms e; do v' <- set v mi x; set ms e v') with
      | Ok ms' => write_metrics mi (S e) t ms'
      | _ => (Panic, ms)
      end
  end.

(** models: src/defaults.rs:132-259 (update_new_metric): the feedback and the
    graph after the call. *)
Definition update_new_metric (iteration : nat) (workloads : list nat) (bc : balancing_cfg) (g : graph)
  : res unit * graph :=
  match new_metric_values iteration workloads bc g with
  | Err e => (Err e, g)
  | Panic => (Panic, g)
  | Diverge => (Diverge, g)
  | Ok (mi, mean, news) =>
      match match means g with
            | None => Ok None
            | Some mu => do mu' <- set mu mi mean; Ok (Some mu')
            end with
      | Ok mu => let (r, ms) := write_metrics mi 0 news (metrics g) in
                 (r, with_metrics (with_means g mu) ms)
      | _ => (Panic, g)
      end
  end.

(** *** Work size *)

(** models: `std::usize::MAX` on a 64-bit platform. *)
Definition USIZE_MAX : N := 18446744073709551615.

(** models: src/defaults.rs:102-104. *)
Definition INIT_WORK_SIZE : N := 50.
Definition WORK_SIZE_PLUS : N := 30.
Definition WORK_SIZE_MINUS : N := 10.

(** models: `a + b` and `a - b` on usize (panics on overflow). *)
Definition uadd (a b : N) : res N := if (a + b <=? USIZE_MAX)%N then Ok (a + b)%N else Panic.
Definition usub (a b : N) : res N := if (b <=? a)%N then Ok (a - b)%N else Panic.

(** models: src/bin/osmgraphing/balancing/multithreading.rs:228-259 (clamping
    the initial size; the warnings are left out). *)
Definition init_size (init plus minus : N) : res N :=
  let a := if (init <? minus)%N then minus else init in
  do m <- usub USIZE_MAX plus;
  Ok (if (m <? a)%N then m else a).

(** models: src/bin/osmgraphing/balancing/multithreading.rs:283-314 (recv, the
    new work size): [fast] tells whether try_recv succeeded. *)
Definition recv_size (plus minus size : N) (fast : bool) (worker : nat) : res N :=
  if worker =? 0 then
    if fast then
      do m <- usub USIZE_MAX plus;
      do a <- uadd size plus;
      Ok (N.min m a)
    else
      do b <- usub size minus;
      Ok (N.max minus b)
  else Ok size.

(** models: src/bin/osmgraphing/balancing/multithreading.rs:170-184 (work_size). *)
Definition work_size (size : N) (last : option nat) : N :=
  match last with
  | Some 1 => 1%N
  | _ => size
  end.

(** *** Work and outcomes *)

(** models: `(RoutePair<i64>, usize)`, src/network/routes.rs:3-7. *)
Definition route : Type := (Z * Z) * nat.

(** models: src/bin/osmgraphing/balancing/multithreading.rs:353-356 (Work). *)
Record work : Type := mkWork { wk_routes : list route; wk_seed : nat }.

(** models: src/bin/osmgraphing/balancing/multithreading.rs:359-363 (Outcome;
    the number of route pairs serves the progress bar only). *)
Record outcome : Type := mkOutcome { oc_chosen : list path; oc_found : list nat }.

(** models: src/network/routes.rs:30-42 (into_node), the two node indices. *)
Definition into_node (g : graph) (p : Z * Z) : res (nat * nat) :=
  do s <- node_create_from g (fst p);
  do s' <- expect s;
  do t <- node_create_from g (snd p);
  do t' <- expect t;
  Ok (n_idx s', n_idx t').

Section Workers.
  (** order and fuel of Dijkstra's queue, see ModelDijkstra.v *)
  Variable pick : nat -> list costnode -> nat.
  Variable fuel : nat.
  Variable g : graph.
  Variable rc : routing_cfg.

  (** models: src/bin/osmgraphing/balancing/multithreading.rs:447-474 (loop
      body); `route_count - 1` underflows (panics) for a count of zero. *)
  Definition dijkstra_route (s : dijkstra * outcome) (r : route) : res (dijkstra * outcome) :=
    let (st, o) := s in
    do st_idx <- into_node g (fst r);
    do a <- compute_best_path pick fuel st g rc (fst st_idx) (snd st_idx);
    match snd a with
    | None => Ok (fst a, o)
    | Some p =>
        if snd r =? 0 then Panic
        else Ok (fst a, {| oc_chosen := oc_chosen o ++ repeat p (snd r - 1) ++ [p];
                           oc_found := oc_found o ++ [1] |})
    end.

  (** models: src/bin/osmgraphing/balancing/multithreading.rs:442-484
      (work_off_with_dijkstra). *)
  Definition work_with_dijkstra (st : dijkstra) (w : work) : res (dijkstra * outcome) :=
    foldM dijkstra_route (wk_routes w) (st, {| oc_chosen := []; oc_found := [] |}).

  (** the explorator and its oracles, see ModelExplorator.v *)
  Variable T : Type.
  Variable tri_new : nat -> T.
  Variable tri_add : T -> list f64 -> option (T * nat).
  Variable tri_cells : T -> list (nat * list nat).
  Variable solve : list (list f64) -> list f64 -> option (list f64).
  Variable rounds : nat.
  (** the random numbers (crates rand and rand_pcg): [sample seed k n] is the
      [k]-th number drawn from a generator seeded with [seed], below [n] *)
  Variable sample : nat -> nat -> nat -> nat.

  (** models: src/configs/routing.rs (RoutingAlgo::from(ExploratorAlgo)), used
      in src/bin/osmgraphing/balancing/multithreading.rs:492-493. *)
  Definition inner_cfg : routing_cfg :=
    {| rc_algo := match rc_algo rc with AExplorator true => ACHDijkstra | AExplorator false => ADijkstra | a => a end;
       rc_alphas := rc_alphas rc; rc_scales := rc_scales rc |}.

  (** models: src/bin/osmgraphing/balancing/multithreading.rs:518-522: draw
      [n] paths, the first draw being number [k]. *)
  Fixpoint draw (seed k n : nat) (found : list path) : res (list path) :=
    match n with
    | O => Ok []
    | S n' =>
        do p <- idx found (sample seed k (length found));
        do l <- draw seed (S k) n' found;
        Ok (p :: l)
    end.

  (** models: src/bin/osmgraphing/balancing/multithreading.rs:495-526 (loop
      body); the state counts the numbers drawn so far. *)
  Definition explorator_route (seed : nat) (s : dijkstra * nat * outcome) (r : route)
    : res (dijkstra * nat * outcome) :=
    let '(st, k, o) := s in
    do st_idx <- into_node g (fst r);
    do a <- fully_explorate pick fuel T tri_new tri_add tri_cells solve rounds g inner_cfg (fst st_idx) (snd st_idx) st;
    if 0 <? length (snd a) then
      do ps <- draw seed k (snd r) (snd a);
      Ok (fst a, k + snd r, {| oc_chosen := oc_chosen o ++ ps; oc_found := oc_found o ++ [length (snd a)] |})
    else Ok (fst a, k, {| oc_chosen := oc_chosen o; oc_found := oc_found o ++ [0] |}).

  (** models: src/bin/osmgraphing/balancing/multithreading.rs:486-536
      (work_off_with_explorator). *)
  Definition work_with_explorator (st : dijkstra) (w : work) : res (dijkstra * outcome) :=
    do r <- foldM (explorator_route (wk_seed w)) (wk_routes w) (st, 0, {| oc_chosen := []; oc_found := [] |});
    Ok (fst (fst r), snd r).

  (** models: src/bin/osmgraphing/balancing/multithreading.rs:422-429. *)
  Definition do_work (st : dijkstra) (w : work) : res (dijkstra * outcome) :=
    match rc_algo rc with
    | AExplorator _ => work_with_explorator st w
    | _ => work_with_dijkstra st w
    end.
End Workers.

(** *** Master and workers *)

(** a worker's thread: running, returned from its loop, or panicked *)
Inductive thread : Set := Running | Exited | Crashed.

(** models: src/bin/osmgraphing/balancing/multithreading.rs:339-342
    (WorkerSocket) and :373-382 (Worker): [w_open] tells whether the master
    still owns the socket, [w_inbox] are the messages in the work channel.
    The explorator keeps no state between queries. *)
Record worker : Type := mkWorker {
  w_open : bool;
  w_thread : thread;
  w_inbox : list work;
  w_dijkstra : dijkstra;
}.

(** where the master's loop (:64-155) is: about to call try_recv, blocked in
    recv, joining a worker; or how it was left *)
Inductive phase : Set :=
| PTry | PWait | PJoin (i : nat) | PDone | PErr | PPanic.

(** models: src/bin/osmgraphing/balancing/multithreading.rs:27-35 (Master) with
    the locals of work_off (:38-59), the channel of outcomes and the workers.
    [s_seeds] counts the seeds drawn so far.  Statistics are left out. *)
Record sys : Type := mkSys {
  s_phase : phase;
  s_routes : list route;
  s_size : N;
  s_last : option nat;
  s_loads : list nat;
  s_paths : option (list path);
  s_chan : list (nat * outcome);
  s_workers : list worker;
  s_seeds : nat;
}.

(** record updates *)
Definition with_phase (s : sys) (p : phase) : sys :=
  {| s_phase := p; s_routes := s_routes s; s_size := s_size s; s_last := s_last s; s_loads := s_loads s;
     s_paths := s_paths s; s_chan := s_chan s; s_workers := s_workers s; s_seeds := s_seeds s |}.
Definition with_workers (s : sys) (ws : list worker) : sys :=
  {| s_phase := s_phase s; s_routes := s_routes s; s_size := s_size s; s_last := s_last s; s_loads := s_loads s;
     s_paths := s_paths s; s_chan := s_chan s; s_workers := ws; s_seeds := s_seeds s |}.

Definition with_thread (w : worker) (t : thread) : worker :=
  {| w_open := w_open w; w_thread := t; w_inbox := w_inbox w; w_dijkstra := w_dijkstra w |}.

(** models: src/bin/osmgraphing/balancing/multithreading.rs:404-408 (the first,
    empty outcome of every worker). *)
Definition no_outcome : outcome := {| oc_chosen := []; oc_found := [] |}.

(** models: src/bin/osmgraphing/balancing/multithreading.rs:384-395 (new) *)
Definition new_worker : worker :=
  {| w_open := true; w_thread := Running; w_inbox := []; w_dijkstra := dijkstra_new |}.

(** models: src/bin/osmgraphing/balancing/multithreading.rs:197-268 (spawn_some)
    followed by :47-59 (start of work_off): the route pairs are reversed, all
    first outcomes have been sent. *)
Definition spawned (g : graph) (count : nat) (routes : list route) (collecting : bool) : res sys :=
  do size <- init_size INIT_WORK_SIZE WORK_SIZE_PLUS WORK_SIZE_MINUS;
  Ok {| s_phase := PTry; s_routes := rev routes; s_size := size; s_last := None;
        s_loads := repeat 0 (edge_count g FWD);
        s_paths := if collecting then Some [] else None;
        s_chan := map (fun i => (i, no_outcome)) (seq 0 count);
        s_workers := repeat new_worker count; s_seeds := 0 |}.

Section System.
  Variable g : graph.
  (** fuel of flattening, see ModelDijkstra.v *)
  Variable ffuel : nat.
  (** what a worker does with its work, see [do_work] *)
  Variable job : dijkstra -> work -> res (dijkstra * outcome).

  (** models: src/bin/osmgraphing/balancing/multithreading.rs:73-75 (counters
      are unbounded). *)
  Definition count_edges (es loads : list nat) : res (list nat) :=
    foldM (fun ls e => do n <- idx ls e; set ls e (n + 1)) es loads.

  (** models: src/bin/osmgraphing/balancing/multithreading.rs:68-80. *)
  Definition absorb (o : outcome) (loads : list nat) (paths : option (list path))
    : res (list nat * option (list path)) :=
    foldM (fun s p => do p' <- flatten g ffuel p;
                      do ls <- count_edges (p_edges p') (fst s);
                      Ok (ls, match snd s with Some l => Some (l ++ [p']) | None => None end))
          (oc_chosen o) (loads, paths).

  (** models: src/bin/osmgraphing/balancing/multithreading.rs:138-150 (send new
      work or drop and join the worker, :270-281, :316-325); [i] is the last
      worker's index.  Sending fails if the receiver is gone. *)
  Definition dispatch (i : nat) (s : sys) : sys :=
    match nth_error (s_workers s) i with
    | None => with_phase s PPanic
    | Some w =>
        if negb (w_open w) then with_phase s PPanic
        else if 0 <? length (s_routes s) then
          let k := N.to_nat (N.min (N.of_nat (length (s_routes s))) (work_size (s_size s) (s_last s))) in
          let n := length (s_routes s) - k in
          let wk := {| wk_routes := rev (skipn n (s_routes s)); wk_seed := s_seeds s |} in
          match w_thread w with
          | Running =>
              {| s_phase := PTry; s_routes := firstn n (s_routes s); s_size := s_size s; s_last := s_last s;
                 s_loads := s_loads s; s_paths := s_paths s; s_chan := s_chan s;
                 s_workers := upd (s_workers s) i
                                {| w_open := true; w_thread := Running; w_inbox := w_inbox w ++ [wk];
                                   w_dijkstra := w_dijkstra w |};
                 s_seeds := S (s_seeds s) |}
          | _ => with_phase s PErr
          end
        else
          with_phase (with_workers s (upd (s_workers s) i
                        {| w_open := false; w_thread := w_thread w; w_inbox := w_inbox w;
                           w_dijkstra := w_dijkstra w |})) (PJoin i)
    end.

  (** models: src/bin/osmgraphing/balancing/multithreading.rs:65-150, after a
      message has been taken from the channel. *)
  Definition receive (fast : bool) (i : nat) (o : outcome) (rest : list (nat * outcome)) (s : sys) : sys :=
    match recv_size WORK_SIZE_PLUS WORK_SIZE_MINUS (s_size s) fast i with
    | Ok size =>
        match absorb o (s_loads s) (s_paths s) with
        | Ok (loads, paths) =>
            dispatch i {| s_phase := PTry; s_routes := s_routes s; s_size := size; s_last := Some i;
                          s_loads := loads; s_paths := paths; s_chan := rest;
                          s_workers := s_workers s; s_seeds := s_seeds s |}
        | _ => with_phase s PPanic
        end
    | _ => with_phase s PPanic
    end.

  Definition running (w : worker) : bool := match w_thread w with Running => true | _ => false end.

  (** one step of the master's thread; [None] if it is blocked or has returned.
      models: src/bin/osmgraphing/balancing/multithreading.rs:64-155, :283-314,
      :344-351.  recv fails once the channel is empty and every worker, each
      owning a sender, is gone. *)
  Definition master_step (s : sys) : option sys :=
    match s_phase s with
    | PTry =>
        match s_chan s with
        | (i, o) :: rest => Some (receive true i o rest s)
        | [] => Some (with_phase s PWait)
        end
    | PWait =>
        match s_chan s with
        | (i, o) :: rest => Some (receive false i o rest s)
        | [] => if existsb running (s_workers s) then None else Some (with_phase s PDone)
        end
    | PJoin i =>
        match nth_error (s_workers s) i with
        | Some w => match w_thread w with
                    | Running => None
                    | Exited => Some (with_phase s PTry)
                    | Crashed => Some (with_phase s PErr)
                    end
        | None => None
        end
    | PDone | PErr | PPanic => None
    end.

  (** one round of a worker's thread; [None] if it is blocked, gone, or its
      work does not terminate.  Only receiving and sending are visible to the
      others, hence doing the work and sending the outcome is one step.
      models: src/bin/osmgraphing/balancing/multithreading.rs:412-437. *)
  Definition worker_step (i : nat) (s : sys) : option sys :=
    match nth_error (s_workers s) i with
    | None => None
    | Some w =>
        if running w then
          match w_inbox w with
          | [] => if w_open w then None
                  else Some (with_workers s (upd (s_workers s) i (with_thread w Exited)))
          | wk :: t =>
              match job (w_dijkstra w) wk with
              | Ok (st, o) =>
                  Some {| s_phase := s_phase s; s_routes := s_routes s; s_size := s_size s; s_last := s_last s;
                          s_loads := s_loads s; s_paths := s_paths s; s_chan := s_chan s ++ [(i, o)];
                          s_workers := upd (s_workers s) i
                                         {| w_open := w_open w; w_thread := Running; w_inbox := t; w_dijkstra := st |};
                          s_seeds := s_seeds s |}
              | Diverge => None
              | _ => Some (with_workers s (upd (s_workers s) i (with_thread w Crashed)))
              end
          end
        else None
    end.

  (** who moves next *)
  Inductive action : Set := AMaster | AWorker (i : nat).

  Definition fire (a : action) (s : sys) : option sys :=
    match a with
    | AMaster => master_step s
    | AWorker i => worker_step i s
    end.
End System.
