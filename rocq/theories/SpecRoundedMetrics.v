(** Vocabulary for metrics calculated with arithmetic that rounds *)
From Coq Require Import List Bool Arith ZArith QArith.
From Verif Require Import Base F64 ModelConfig ModelGraph ModelBalancing Spec SpecRounded SpecBalancing.
Import ListNotations.
Open Scope nat_scope.

(** the largest factor between a number and what it is rounded to in binary64,
    1 / (1 - 2^-53) *)
Definition H64 : Q := inject_Z (2 ^ 53) / inject_Z (2 ^ 53 - 1).

(** [x] stands for [q]: they differ by that factor to the [k] at most *)
Definition off (k : nat) (q x : Q) : Prop := (q <= x * pow H64 k /\ x <= q * pow H64 k)%Q.

(** 0, or a positive number that is neither tiny nor huge *)
Definition usual (q : Q) : Prop :=
  (q == 0)%Q \/ (Qpower (2 # 1) (- (400)) <= q /\ q <= Qpower (2 # 1) 400)%Q.

(** a number that isn't negative and not huge *)
Definition moderate (q : Q) : Prop := (0 <= q /\ q <= Qpower (2 # 1) 400)%Q.

(** a number of edges, iterations, ... *)
Definition countable (n : nat) : Prop := (Z.of_nat n <= 2 ^ 50)%Z.

(** the correction of the explicit Euler method isn't larger than the step *)
Definition corrects (m : opt_method) : Prop :=
  match m with ExplicitEuler c => exists k, c = Fin k /\ (0 <= k /\ k <= 1)%Q | Averaging => True end.

(** the minimum of a metric, if there is one *)
Definition floors (mn : option f64) : Prop :=
  match mn with Some m => exists k, m = Fin k /\ moderate k | None => True end.

(** the metric called as configured is the [mi]-th, [old e] its f64 at edge [e],
    and there is one workload for each edge *)
Record updates (g : graph) (ws : list nat) (bc : balancing_cfg) (iteration mi : nat) (old : nat -> Q) : Prop := {
  u_at : metric_at g (bc_metric bc) mi;
  u_len : length ws = length (metrics g);
  u_some : 0 < length ws;
  u_count : countable (length ws);
  u_total : (Z.of_nat (list_sum ws) <= 2 ^ 53)%Z;
  u_iteration : countable iteration;
  u_old : forall e, e < length ws -> metric_of g e mi = Some (Fin (old e)) /\ moderate (old e) /\ representable (old e);
  u_means : forall mu, means g = Some mu -> mi < length mu;
  u_method : corrects (bc_method bc);
  u_min : floors (bc_min bc)
}.
