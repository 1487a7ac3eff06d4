(** Vocabulary of the properties of the search with arithmetic that rounds *)
From Coq Require Import List Bool Arith ZArith QArith.
From Verif Require Import Base F64 ModelUnits ModelConfig ModelGraph ModelDijkstra ModelRounded Spec SpecRouting.
Import ListNotations.
Open Scope nat_scope.

(** [rnd] rounds to numbers of some set: it respects the order, leaves the
    numbers of the set alone, and is off by a factor of at most [u] and by
    [eta] *)
Record rounding (u eta : Q) (rnd : Q -> Q) : Prop := mkRounding {
  r_u : (0 <= u)%Q /\ (u < 1)%Q;
  r_eta : (0 <= eta)%Q;
  r_zero : (rnd 0 == 0)%Q;
  r_mono : forall x y, (x <= y)%Q -> (rnd x <= rnd y)%Q;
  r_idem : forall x, (rnd (rnd x) == rnd x)%Q;
  r_low : forall x, (0 <= x)%Q -> ((1 - u) * x <= rnd x + eta)%Q;
  r_high : forall x, (0 <= x)%Q -> (rnd x <= (1 + u) * x + eta)%Q;
}.

(** [q] to the [n] *)
Fixpoint pow (q : Q) (n : nat) : Q := match n with O => 1%Q | S k => (q * pow q k)%Q end.
(** a number as a rational *)
Definition nq (n : nat) : Q := inject_Z (Z.of_nat n).

(** roundings a summand of a path of [n] edges goes through, with [m] alphas *)
Definition depth (m n : nat) : nat := n + m + 2.
(** operations for a path of [n] edges *)
Definition operations (m n : nat) : nat := n * (2 * m + 1) + 1.

(** least and largest value the costs of a path of [n] edges and exact costs
    [q] are calculated as *)
Definition at_least (u eta : Q) (m n : nat) (q : Q) : Q :=
  (pow (1 - u) (depth m n) * q - nq (operations m n) * eta)%Q.
Definition at_most (u eta : Q) (m n : nat) (q : Q) : Q :=
  (pow (1 + u) (depth m n) * (q + nq (operations m n) * eta))%Q.

(** a Dijkstra object after any number of queries, with any arithmetic *)
Inductive rhistory : dijkstra -> Prop :=
| rhistory_new : rhistory dijkstra_new
| rhistory_query ar pick fuel st g rc s t st' r :
    rhistory st -> rcompute_best_path ar pick fuel st g rc s t = Ok (st', r) -> rhistory st'.

(** [g] is [g0] with other metrics (and, which doesn't matter for routing, maybe
    another description of them and other edge ids) *)
Definition remeasured (g0 g : graph) : Prop :=
  exists ms mn, length ms = length (metrics g0) /\
    exists c ids im, g = mkGraph c (node_ids g0) (node_coords g0) (node_levels g0)
          (fwd_dsts g0) (fwd_offsets g0) (fwd_to_fwd g0) (bwd_dsts g0) (bwd_offsets g0) (bwd_to_fwd g0)
          ms mn ids im (sc_offsets g0) (sc_edges_arr g0).

(** binary64: half a unit in the last place of a normal number, half of the
    smallest positive number *)
Definition u64 : Q := Qpower (2 # 1) (- (53)).
Definition eta64 : Q := Qpower (2 # 1) (- (1075)).

(** a number of binary64 whose exponent isn't bounded from above *)
Definition representable (q : Q) : Prop :=
  exists m k, (- 2 ^ 53 <= m <= 2 ^ 53)%Z /\ (- (1074) <= k)%Z /\ (q == inject_Z m * Qpower (2 # 1) k)%Q.

(** by how much the answer may be worse than another path: a factor and a
    summand; [delta] is the error of the queue *)
Definition stretch (u : Q) : Q := ((1 + u) / (1 - u) * ((1 + u) / (1 - u)))%Q.
Definition slip (u eta delta : Q) : Q := (2 * (1 + u) * delta + (3 + 2 * stretch u) * eta)%Q.
