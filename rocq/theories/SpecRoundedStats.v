(** Vocabulary of the balancer's statistics with the arithmetic of `f64` *)
From Coq Require Import List Bool Arith ZArith QArith.
From Verif Require Import ModelStats SpecRounded PropsStats.
Import ListNotations.
Open Scope nat_scope.

(** no more than about 10^13 outcomes, at most [M] paths being found for a
    route, about 10^14 at most if they were for all *)
Record countings (cs : list counts) (M : nat) : Prop := {
  cn_few : forall x, In x (all_found cs) -> x <= M;
  cn_some : 1 <= M;
  cn_total : (Z.of_nat (length (all_found cs) * M) <= 2 ^ 47)%Z;
  cn_outcomes : (Z.of_nat (length cs) <= 2 ^ 44)%Z
}.

(** the distance of [x] and [y] is at most [d] *)
Definition around (d x y : Q) : Prop := (x - d <= y /\ y <= x + d)%Q.
