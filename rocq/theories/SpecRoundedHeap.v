(** Vocabulary for routing with arithmetic that rounds and the binary heap *)
From Coq Require Import List Bool Arith ZArith QArith.
From Verif Require Import Base F64 ModelUnits ModelConfig ModelGraph ModelDijkstra ModelRounded ModelRoundedHeap Spec SpecRouting.
Import ListNotations.
Open Scope nat_scope.

(** a Dijkstra object after any number of answered queries, with any arithmetic *)
Inductive rhistory_h : dijkstra -> Prop :=
| rhistory_h_new : rhistory_h dijkstra_new
| rhistory_h_query ar fuel st g rc s t st' r :
    rhistory_h st -> rcompute_best_path_h ar fuel st g rc s t = Ok (st', r) -> rhistory_h st'.

(** costs, as f64, that are farther apart than this are told apart; close by is
    the limit for real numbers, 1.5e-6 *)
Definition accuracy64 : Q := ((3 # 2000000) + Qpower (2 # 1) (- (70)))%Q.

(** how far from the cheapest entry the delivered one may be after [pops] pops
    with up to [m] pushes each *)
Definition heap_error64 (m pops : nat) : Q := (inject_Z (Z.of_nat (2 + (m + 2) * pops)) * accuracy64)%Q.

(** a graph of up to half a million nodes whose edges cost at most 2^1000 *)
Definition fits64 (g : graph) (alphas : list f64) : Prop :=
  (Z.of_nat (2 * node_count g + length alphas + 2) <= 2 ^ 20)%Z /\
  forall e q, costs_as g alphas [e] q -> (q <= inject_Z (2 ^ 1000))%Q.

(** multiples of 2^k; a million edges at most *)
Definition on_grid (k : Z) (q : Q) : Prop := exists z, (q == inject_Z z * Qpower (2 # 1) k)%Q.
Definition finite_on_grid (k : Z) (x : f64) : Prop := forall q, x = Fin q -> on_grid k q.
Definition manageable (m : nat) (l : list nat) : Prop := (Z.of_nat (length l + m + 2) <= 2 ^ 20)%Z.
