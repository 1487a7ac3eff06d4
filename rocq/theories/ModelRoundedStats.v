(** The balancer's statistics about found paths,
    src/bin/osmgraphing/balancing/multithreading.rs, with arithmetic that rounds.
    The definitions repeat those of ModelStats.v that calculate. *)
From Coq Require Import String List Bool Arith ZArith QArith.
From Verif Require Import Base F64 ModelConfig ModelGraph ModelBuild ModelDijkstra ModelBalancing ModelStats
  ModelRounded ModelRoundedHeap ModelRoundedMetrics.
Import ListNotations.
Open Scope list_scope.
Open Scope nat_scope.

Section Rounding.
  (** models: how the hardware rounds the exact result of an operation on f64. *)
  Variable ar : f64 -> f64.

  (** models: the sums of f64,
      src/bin/osmgraphing/balancing/multithreading.rs:100, :112. *)
  Definition rsum_up (l : list f64) : f64 := fold_left (radd ar) l f0.

  (** models: src/bin/osmgraphing/balancing/multithreading.rs:94-102. *)
  Definition rnext_mean (n k old_mean : f64) (found : list nat) : f64 :=
    radd ar old_mean (rdiv ar (rsub ar (rsum_up (map (rof_nat ar) found)) (rmul ar k old_mean)) n).

  (** models: src/bin/osmgraphing/balancing/multithreading.rs:105-113. *)
  Definition rnext_var (n k old_mean new_mean old_var : f64) (found : list nat) : f64 :=
    radd ar (rmul ar old_var (rdiv ar (rsub ar n k) n))
         (rdiv ar (rsum_up (map (fun x => rmul ar (rsub ar x old_mean) (rsub ar x new_mean)) (map (rof_nat ar) found))) n).

  (** models: src/bin/osmgraphing/balancing/multithreading.rs:81-118, as
      [stats_add]. *)
  Definition rstats_add (s : stats) (c : counts) : stats :=
    let progress := st_progress s + ct_pairs c in
    if 0 <? length (ct_found c) then
      let n := rof_nat ar progress in
      let k := rof_nat ar (length (ct_found c)) in
      let mean := rnext_mean n k (st_mean s) (ct_found c) in
      {| st_progress := progress; st_mean := mean;
         st_var := rnext_var n k (st_mean s) mean (st_var s) (ct_found c) |}
    else {| st_progress := progress; st_mean := st_mean s; st_var := st_var s |}.

  (** models: the loop src/bin/osmgraphing/balancing/multithreading.rs:64-155,
      regarding the statistics only. *)
  Definition rstats_of (cs : list counts) : stats := fold_left rstats_add cs stats_new.
End Rounding.
