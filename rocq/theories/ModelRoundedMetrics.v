(** Normalizing metrics (src/network/graph/building.rs) and updating the
    balanced one (src/defaults.rs) with arithmetic that rounds.  The definitions
    repeat those of ModelBuild.v and ModelBalancing.v that calculate; everything
    that doesn't is taken from there. *)
From Coq Require Import String List Bool Arith ZArith QArith.
From Verif Require Import Base F64 ModelUnits ModelConfig ModelGraph ModelBuild ModelBalancing ModelRounded ModelRoundedHeap.
Import ListNotations.
Open Scope string_scope.
Open Scope list_scope.
Open Scope nat_scope.

Section Rounding.
  (** models: how the hardware rounds the exact result of an operation on f64. *)
  Variable ar : f64 -> f64.

  (** models: `n as f64` for an unsigned integer. *)
  Definition rof_nat (n : nat) : f64 := ar (of_nat n).

  (** models: the provided method `<=` of PartialOrd on Approx<f64>
      (src/approximating.rs:174-184). *)
  Definition rapprox_le (a b : f64) : bool :=
    match rapprox_cmp ar a b with Some Lt | Some Eq => true | _ => false end.

  (** *** Normalizing *)

  (** models: src/network/graph/building.rs:1444-1446 (no zeros). *)
  Definition rclamp (x : f64) : f64 := if rapprox_eq ar x f0 then rABS ar else x.

  (** models: src/network/graph/building.rs:1413-1422 (means). *)
  Definition rmetric_means (g : graph) : list f64 :=
    map (fun s => rdiv ar s (rof_nat (edge_count g FWD)))
        (fold_left (rvadd ar) (metrics g) (repeat f0 (metric_dim g))).

  (** models: src/network/graph/building.rs:1438-1448 (one metric vector). *)
  Definition rnormalize_vec (mean : list f64) (m : list f64) : res (list f64) :=
    mapM (fun p => do d <- idx mean (fst p); Ok (rclamp (rdiv ar (snd p) d))) (enumerate m).

  (** models: src/network/graph/building.rs:1397-1455 (normalize). *)
  Definition rnormalize (g : graph) : res graph :=
    if ec_normalized (cfg_edges (g_cfg g)) then
      if edge_count g FWD =? 0 then Err "The metrics should be normalized, but the graph has no edges."
      else
        let mu := rmetric_means g in
        if existsb (fun m => rapprox_eq ar m f0) mu
        then Err "A metric-mean is zero, hence no normalization can be done."
        else
          do ms <- mapM (rnormalize_vec mu) (metrics g);
          Ok (with_means (with_metrics g ms) (Some mu))
    else Ok g.

  (** *** Updating the balanced metric *)

  (** models: src/defaults.rs:157 and :232. *)
  Definition rmean (l : list f64) : f64 := rdiv ar (fold_left (radd ar) l f0) (rof_nat (length l)).

  (** models: src/defaults.rs:178-185 (the new value of one edge). *)
  Definition rnext_metric (m : opt_method) (iteration : nat) (old new : f64) : f64 :=
    match m with
    | ExplicitEuler correction => radd ar old (rmul ar (rsub ar new old) correction)
    | Averaging => rdiv ar (radd ar (rmul ar (rof_nat iteration) old) new) (rof_nat (iteration + 1))
    end.

  (** models: src/defaults.rs:174-187. *)
  Definition rnext_metrics (m : opt_method) (iteration mi : nat) (ms : list (list f64)) (news : list f64)
    : res (list f64) :=
    mapM (fun en => do v <- idx ms (fst en);
                    do old <- idx v mi;
                    Ok (rnext_metric m iteration old (snd en))) (enumerate news).

  (** models: src/defaults.rs:191-226 (minimum or check for zeros). *)
  Definition rfloor_metrics (bc : balancing_cfg) (news : list f64) : res (list f64) :=
    match bc_min bc with
    | Some mn => Ok (map (fun x => if rapprox_le x mn then mn else x) news)
    | None =>
        if existsb (fun x => rapprox_le x f0) news && bc_zero_err bc
        then Err "The new metric contains zero-values."
        else Ok news
    end.

  (** models: src/defaults.rs:144-243 (everything before the first write). *)
  Definition rnew_metric_values (iteration : nat) (workloads : list nat) (bc : balancing_cfg) (g : graph)
    : res (nat * f64 * list f64) :=
    do mi <- idx_of (ec_ids (cfg_edges (g_cfg g))) (bc_metric bc);
    let loads := map rof_nat workloads in
    let mean := rmean loads in
    if rapprox_eq ar mean f0 then Err "The new workload-metric's mean is zero."
    else
      do news <- rnext_metrics (bc_method bc) iteration mi (metrics g) (map (fun x => rdiv ar x mean) loads);
      do floored <- rfloor_metrics bc news;
      let mean2 := rmean floored in
      if rapprox_le mean2 f0 then Err "The new workload-metric's mean is zero."
      else Ok (mi, mean2, map (fun x => rdiv ar x mean2) floored).

  (** models: src/defaults.rs:132-259 (update_new_metric): the feedback and the
      graph after the call. *)
  Definition rupdate_new_metric (iteration : nat) (workloads : list nat) (bc : balancing_cfg) (g : graph)
    : res unit * graph :=
    match rnew_metric_values iteration workloads bc g with
    | Err e => (Err e, g)
    | Panic => (Panic, g)
    | Diverge => (Diverge, g)
    | Ok (mi, mean, news) =>
        match match means g with
              | None => Ok None
              | Some mu => do mu' <- set mu mi mean; Ok (Some mu')
              end with
        | Ok mu => let (r, ms) := write_metrics mi 0 news (metrics g) in
                   (r, with_metrics (with_means g mu) ms)
        | _ => (Panic, g)
        end
    end.
End Rounding.
