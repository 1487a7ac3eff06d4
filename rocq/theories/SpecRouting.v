(** Vocabulary of the routing properties, independent of how the model
    searches. *)
From Coq Require Import List Bool Arith ZArith QArith.
From Verif Require Import Base F64 ModelUnits ModelConfig ModelGraph ModelBuild ModelDijkstra Spec.
Import ListNotations.
Open Scope nat_scope.

(** the edges [es] lead from node [s] to node [t], one after the other *)
Inductive connects (g : graph) : nat -> list nat -> nat -> Prop :=
| connects_nil s : connects g s [] s
| connects_cons s e x es t : edge_from_to g e s x -> connects g x es t -> connects g s (e :: es) t.

(** sum of alpha_i * metric_i over the common positions; only defined if all
    of them are finite *)
Definition weighted_sum (alphas ms : list f64) : option Q :=
  fold_right (fun p acc =>
      match p, acc with
      | (Fin a, Fin m), Some s => Some (a * m + s)%Q
      | _, _ => None
      end) (Some 0%Q) (combine alphas ms).

(** the edges [es] cost [q] in total; no edge has an infinite weight *)
Inductive costs_as (g : graph) (alphas : list f64) : list nat -> Q -> Prop :=
| costs_nil : costs_as g alphas [] 0%Q
| costs_cons e es ms a b :
    edge_metrics g e = Ok ms -> weighted_sum alphas ms = Some a -> costs_as g alphas es b ->
    costs_as g alphas (e :: es) (a + b)%Q.

Definition not_negative (x : f64) : Prop :=
  match x with
  | Fin q => (0 <= q)%Q
  | PInf | NaN => True
  | NInf => False
  end.

(** no metric of the graph is negative *)
Definition nonneg_metrics (g : graph) : Prop :=
  forall e ms x, edge_metrics g e = Ok ms -> In x ms -> not_negative x.

(** every node has an edge leaving and an edge entering it, or a node with a
    larger index has *)
Definition last_node_connected (g : graph) : Prop :=
  forall v, v < node_count g ->
    (exists e s d, edge_from_to g e s d /\ v <= s) /\ (exists e s d, edge_from_to g e s d /\ v <= d).

(** the queue delivers some entry as long as it has one *)
Definition valid_pick (pick : nat -> list costnode -> nat) : Prop :=
  forall k q, q <> [] -> pick k q < length q.

(** the delivered entry is at most [delta] more expensive than any other one *)
Definition picks_min (delta : Q) (pick : nat -> list costnode -> nat) : Prop :=
  valid_pick pick /\
  forall k q c a x b, nth_error q (pick k q) = Some c -> cn_cost c = Fin a -> In x q -> cn_cost x = Fin b ->
    (a <= b + delta)%Q.

(** no edge leads to a lower / higher level *)
Definition climbs (g : graph) (es : list nat) : Prop :=
  forall e s d ls ld, In e es -> edge_from_to g e s d -> node_level g s = Ok ls -> node_level g d = Ok ld -> ls <= ld.
Definition descends (g : graph) (es : list nat) : Prop :=
  forall e s d ls ld, In e es -> edge_from_to g e s d -> node_level g s = Ok ls -> node_level g d = Ok ld -> ld <= ls.

(** first upwards, then downwards *)
Definition up_down (g : graph) (es : list nat) : Prop :=
  exists up down, es = up ++ down /\ climbs g up /\ descends g down.

(** number of pops needed for [n] nodes and [m] edges *)
Fixpoint powers (m n : nat) : nat :=
  match n with
  | O => 0
  | S k => 1 + m * powers m k
  end.

(** a Dijkstra object after any number of answered queries, on any graphs, with
    any algorithms and any queue orders *)
Inductive history : dijkstra -> Prop :=
| history_new : history dijkstra_new
| history_query pick fuel st g rc s t st' r :
    history st -> compute_best_path pick fuel st g rc s t = Ok (st', r) -> history st'.

(** nodes the object has room for *)
Definition capacity (st : dijkstra) : nat := length (fw (dj_costs st)).

(** the object's arrays are (re)sized correctly except when the graph has
    exactly two nodes, cf. src/routing/dijkstra.rs:75 *)
Definition roomy (st : dijkstra) (g : graph) : Prop := node_count g = 2 -> 2 <= capacity st.

(** the answer without the object *)
Definition answer (r : res (dijkstra * option path)) : res (option path) :=
  match r with
  | Ok x => Ok (snd x)
  | Err e => Err e
  | Panic => Panic
  | Diverge => Diverge
  end.
