(** Vocabulary of updating the balanced metric again and again *)
From Coq Require Import List Bool Arith ZArith QArith.
From Verif Require Import Base F64 ModelUnits ModelConfig ModelGraph ModelBalancing ModelRounded ModelRoundedHeap ModelRoundedMetrics Spec SpecRounded SpecBalancing SpecRoundedMetrics.
Import ListNotations.
Open Scope list_scope.
Open Scope nat_scope.

(** the metric is updated once with each list of workloads, counting the
    iterations; nothing is rejected *)
Inductive repeated (bc : balancing_cfg) : nat -> list (list nat) -> graph -> graph -> Prop :=
| rep_none i g : repeated bc i [] g g
| rep_more i ws wss g g1 g' : rupdate_new_metric ieee i ws bc g = (Ok tt, g1) -> repeated bc (S i) wss g1 g' -> repeated bc i (ws :: wss) g g'.

(** workloads of [n] edges that are counted exactly *)
Definition loads (n : nat) (ws : list nat) : Prop := length ws = n /\ (Z.of_nat (list_sum ws) <= 2 ^ 53)%Z.

(** the [mi]-th metric of [n] edges is a f64 from 0 to [2 n] everywhere *)
Definition evened (g : graph) (n mi : nat) : Prop :=
  forall e, e < n -> exists y, metric_of g e mi = Some (Fin y) /\ (0 <= y <= 2 * inject_Z (Z.of_nat n))%Q.
