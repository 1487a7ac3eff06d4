(** Vocabulary of the end of an exploration *)
From Coq Require Import List Bool Arith QArith.
From Verif Require Import Base F64 ModelGraph ModelDijkstra SpecRouting SpecCells.
Import ListNotations.
Open Scope nat_scope.

(** a point that is there already brings no new cells; [pts]: the points added
    so far *)
Definition no_new_cells (T : Type) (tri_new : nat -> T) (tri_add : T -> list f64 -> option (T * nat))
    (tri_cells : T -> list (nat * list nat)) : Prop :=
  exists pts : T -> list (list f64), (forall d, pts (tri_new d) = []) /\
    forall t c t' id, tri_add t c = Some (t', id) ->
      (forall x, In x (pts t') <-> x = c \/ In x (pts t)) /\
      (In c (pts t) -> forall k vs, In (k, vs) (tri_cells t') -> exists vs', In (k, vs') (tri_cells t)).

(** a triangulation of points with [d] coordinates takes all of them *)
Definition takes_points (T : Type) (tri_add : T -> list f64 -> option (T * nat)) (d : nat) : Prop :=
  forall t c, length c = d -> exists t' id, tri_add t c = Some (t', id).

(** its cells have between one and [d + 1] corners, which have been added *)
Definition sound_cells (T : Type) (tri_new : nat -> T) (tri_add : T -> list f64 -> option (T * nat))
    (tri_cells : T -> list (nat * list nat)) (imc : list bool) : Prop :=
  forall t l k vs, holds T tri_new tri_add imc t l -> In (k, vs) (tri_cells t) ->
    0 < length vs <= S (considered_metrics imc) /\ forall id, In id vs -> exists p, In (id, p) l.
