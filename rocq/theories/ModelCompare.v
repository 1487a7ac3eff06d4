(** Comparing options, coordinates, entries of the queue, directions and nodes *)
From Coq Require Import QArith ZArith List Bool Arith.
From Verif Require Import Base F64 ModelApprox ModelGraph ModelDijkstra ModelHeap.
Import ListNotations.

(** models: src/approximating.rs:81-96 (PartialEq for Approx<Option<T>>, T = f64). *)
Definition approx_eq_opt (a b : option f64) : bool :=
  match a, b with
  | None, None => true
  | None, Some _ | Some _, None => false
  | Some x, Some y => approx_eq x y
  end.

(** models: src/approximating.rs:49-62 (PartialOrd for Approx<Option<T>>, T = f64). *)
Definition approx_cmp_opt (a b : option f64) : option comparison :=
  match a, b with
  | None, None => Some Eq
  | None, Some _ => Some Lt
  | Some _, None => Some Gt
  | Some x, Some y => approx_cmp x y
  end.

(** models: src/approximating.rs:203-210 (Approx<Coordinate>::approx). *)
Definition approx_coord (c : coord) : coord := mkCoord (approx (lat c)) (approx (lon c)).

(** models: src/approximating.rs:212-216 (PartialEq for Approx<Coordinate>). *)
Definition approx_eq_coord (a b : coord) : bool := approx_eq (lat a) (lat b) && approx_eq (lon a) (lon b).

(** models: src/routing/dijkstra.rs:439-443 (PartialEq for Direction). *)
Definition dir_eq (a b : dir) : bool := match dir_cmp a b with Eq => true | _ => false end.

(** models: src/routing/dijkstra.rs:376-383 (Ord for CostNode), which panics where
    costs can't be compared. *)
Definition cn_ord (a b : costnode) : res comparison :=
  do c <- approx_ord (cn_cost a) (cn_cost b);
  Ok (then_with (then_with c (Nat.compare (cn_idx a) (cn_idx b))) (dir_cmp (cn_dir a) (cn_dir b))).

(** models: src/routing/dijkstra.rs:396-404 (PartialEq for CostNode). *)
Definition cn_eq (a b : costnode) : bool :=
  Nat.eqb (cn_idx a) (cn_idx b) && dir_eq (cn_dir a) (cn_dir b) && approx_eq (cn_cost a) (cn_cost b).

(** models: src/network/graph/mod.rs:359-365 (PartialEq for Node). *)
Definition node_eq (a b : node) : bool := Nat.eqb (n_idx a) (n_idx b).
