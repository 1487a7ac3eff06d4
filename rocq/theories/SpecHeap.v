(** Vocabulary for routing with the binary heap *)
From Coq Require Import List Bool Arith ZArith QArith.
From Verif Require Import Base F64 ModelUnits ModelConfig ModelGraph ModelDijkstra ModelHeap Spec SpecRouting.
Import ListNotations.
Open Scope nat_scope.

(** a Dijkstra object after any number of answered queries *)
Inductive history_h : dijkstra -> Prop :=
| history_h_new : history_h dijkstra_new
| history_h_query fuel st g rc s t st' r :
    history_h st -> compute_best_path_h fuel st g rc s t = Ok (st', r) -> history_h st'.

(** costs closer than this are regarded as equal *)
Definition accuracy : Q := 3 # 2000000.

(** every edge costs a multiple of [u] *)
Definition multiples_of (u : Q) (g : graph) (alphas : list f64) : Prop :=
  forall e ms w, edge_metrics g e = Ok ms -> weighted_sum alphas ms = Some w -> exists z, (w == inject_Z z * u)%Q.

(** how far from the cheapest entry the delivered one may be after [pops] pops
    with up to [m] pushes each *)
Definition heap_error (m pops : nat) : Q := (inject_Z (Z.of_nat (2 + (m + 2) * pops)) * accuracy)%Q.
