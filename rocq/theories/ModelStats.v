(** Model of the balancer's statistics about found paths,
    src/bin/osmgraphing/balancing/multithreading.rs *)
From Coq Require Import String List Bool Arith ZArith QArith.
From Verif Require Import Base F64 ModelConfig ModelGraph ModelBuild ModelDijkstra ModelBalancing.
Import ListNotations.
Open Scope list_scope.
Open Scope nat_scope.

(** models: the locals avg_num_of_found_paths and var_num_of_found_paths,
    src/bin/osmgraphing/balancing/multithreading.rs:58-59, and the state of the
    progress bar (:61), which is the number of route pairs so far. *)
Record stats : Type := mkStats { st_progress : nat; st_mean : f64; st_var : f64 }.

(** models: src/bin/osmgraphing/balancing/multithreading.rs:58-61. *)
Definition stats_new : stats := {| st_progress := 0; st_mean := f0; st_var := f0 |}.

(** models: the fields num_of_route_pairs and num_of_found_paths of an Outcome,
    src/bin/osmgraphing/balancing/multithreading.rs:359-363. *)
Record counts : Type := mkCounts { ct_pairs : nat; ct_found : list nat }.

(** models: src/bin/osmgraphing/balancing/multithreading.rs:95-102. *)
Definition next_mean (n k old_mean : f64) (found : list nat) : f64 :=
  fadd old_mean (fdiv (fsub (fsum (map of_nat found)) (fmul k old_mean)) n).

(** models: src/bin/osmgraphing/balancing/multithreading.rs:106-113. *)
Definition next_var (n k old_mean new_mean old_var : f64) (found : list nat) : f64 :=
  fadd (fmul old_var (fdiv (fsub n k) n))
       (fdiv (fsum (map (fun x => fmul (fsub x old_mean) (fsub x new_mean)) (map of_nat found))) n).

(** models: src/bin/osmgraphing/balancing/multithreading.rs:81-118.  The
    progress bar's add (crate progressing) is assumed to add below its end,
    which is the number of all route pairs. *)
Definition stats_add (s : stats) (c : counts) : stats :=
  let progress := st_progress s + ct_pairs c in
  if 0 <? length (ct_found c) then
    let n := of_nat progress in
    let k := of_nat (length (ct_found c)) in
    let mean := next_mean n k (st_mean s) (ct_found c) in
    {| st_progress := progress; st_mean := mean;
       st_var := next_var n k (st_mean s) mean (st_var s) (ct_found c) |}
  else {| st_progress := progress; st_mean := st_mean s; st_var := st_var s |}.

(** models: the loop src/bin/osmgraphing/balancing/multithreading.rs:64-155,
    regarding the statistics only. *)
Definition stats_of (cs : list counts) : stats := fold_left stats_add cs stats_new.

(** models: what a worker reports for its work,
    src/bin/osmgraphing/balancing/multithreading.rs:445, :479-483, :489, :531-535. *)
Definition counts_of (wo : work * outcome) : counts :=
  {| ct_pairs := length (wk_routes (fst wo)); ct_found := oc_found (snd wo) |}.
