(** Vocabulary: comparing costs of paths as `f64` *)
From Coq Require Import List Bool Arith ZArith QArith Qabs.
From Verif Require Import Base F64 ModelGraph ModelDijkstra SpecRounded SpecRoundedHeap.
Import ListNotations.
Open Scope nat_scope.

(** two numbers further apart are sure to be told apart from one another if
    their difference is [accuracy64], and never if it is [sameness64] or less *)
Definition sameness64 : Q := ((3 # 2000000) - Qpower (2 # 1) (- (70)))%Q.

(** no cost of the one path is noticeably different from the other's *)
Definition resembles (p p' : path) : Prop :=
  forall cs cs' i a b, p_costs p = Some cs -> p_costs p' = Some cs' ->
    nth_error cs i = Some (Fin a) -> nth_error cs' i = Some (Fin b) -> (Qabs (a - b) < accuracy64)%Q.

(** at least one cost is different *)
Definition differs (p p' : path) : Prop :=
  forall cs cs', p_costs p = Some cs -> p_costs p' = Some cs' -> length cs = length cs' ->
    exists i x y, nth_error cs i = Some x /\ nth_error cs' i = Some y /\
      forall a b, x = Fin a -> y = Fin b -> (sameness64 < Qabs (a - b))%Q.

(** no cost exceeds its tolerance *)
Definition affordable (tol : list f64) (p : path) : Prop :=
  exists cs, p_costs p = Some cs /\
    forall i x y, nth_error cs i = Some x -> nth_error tol i = Some y ->
      exists a, x = Fin a /\ (y = PInf \/ exists b, y = Fin b /\ (a <= b)%Q).

(** [x] is noticeably less than [y] *)
Definition saves64 (x y : f64) : Prop :=
  match x, y with
  | Fin a, Fin b => (sameness64 < b - a)%Q
  | Fin _, PInf | NInf, Fin _ | NInf, PInf => True
  | _, _ => False
  end.
