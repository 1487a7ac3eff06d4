(** Vocabulary of the properties of matrices and of the cells explored *)
From Coq Require Import List Bool Arith QArith.
From Verif Require Import Base F64 ModelGraph ModelDijkstra SpecRouting.
Import ListNotations.
Open Scope nat_scope.

(** all of them are numbers *)
Definition numbers (l : list f64) : Prop := exists qs, l = map Fin qs.

(** a table of [nr] rows with [nc] entries each *)
Definition table (nr nc : nat) (rows : list (list f64)) : Prop :=
  length rows = nr /\ forall r, In r rows -> length r = nc.

(** the entry in row [i] and column [j] *)
Definition entry (rows : list (list f64)) (i j : nat) (x : f64) : Prop :=
  exists r, nth_error rows i = Some r /\ nth_error r j = Some x.

(** [x] solves the equations row * x = b *)
Definition solves (rows : list (list f64)) (x b : list f64) : Prop :=
  Forall2 (fun row y => exists w r, weighted_sum row x = Some w /\ y = Fin r /\ (w == r)%Q) rows b.

(** equal numbers at every position *)
Definition alike (x y : list f64) : Prop :=
  forall i p q, nth_error x i = Some (Fin p) -> nth_error y i = Some (Fin q) -> (p == q)%Q.

(** the equations have no other solution *)
Definition only_solution (n : nat) (rows : list (list f64)) (x b : list f64) : Prop :=
  forall y, numbers y -> length y = n -> solves rows y b -> alike x y.

(** a solver of systems of [n] equations with [n] unknowns is exact: it answers
    the solution if there is exactly one, and nothing otherwise *)
Definition exact_solver (n : nat) (solve : list (list f64) -> list f64 -> option (list f64)) : Prop :=
  forall rows b, table n n rows -> Forall numbers rows -> length b = n -> numbers b ->
    (forall x, solve rows b = Some x -> numbers x /\ length x = n /\ solves rows x b /\ only_solution n rows x b) /\
    (forall x, numbers x -> length x = n -> solves rows x b -> only_solution n rows x b -> solve rows b <> None).

(** the costs of [p], weighted by [alphas], are [w] *)
Definition cost_under (alphas : list f64) (p : path) (w : Q) : Prop :=
  exists cs, p_costs p = Some cs /\ weighted_sum alphas cs = Some w.

(** all of these paths cost the same *)
Definition equally_expensive (alphas : list f64) (cell : list path) : Prop :=
  forall p p' w w', In p cell -> In p' cell -> cost_under alphas p w -> cost_under alphas p' w' -> (w == w')%Q.

(** metrics that are not considered do not count *)
Definition ignores (alphas : list f64) (imc : list bool) : Prop :=
  forall i, nth_error imc i = Some false -> exists a, nth_error alphas i = Some (Fin a) /\ (a == 0)%Q.

(** the weights add up to one *)
Definition adds_up (alphas : list f64) : Prop :=
  exists qs, alphas = map Fin qs /\ (fold_right Qplus 0 qs == 1)%Q.

(** the costs of the paths are numbers, [dim] each *)
Definition costed (dim : nat) (cell : list path) : Prop :=
  forall p, In p cell -> exists cs, p_costs p = Some cs /\ numbers cs /\ length cs = dim.

(** how many metrics are considered *)
Definition considered_metrics (imc : list bool) : nat := count_occ bool_dec imc true.

(** weights of the considered metrics making the paths of a cell equally
    expensive *)
Definition facet_weights (dim : nat) (imc : list bool) (cell : list path) (alphas : list f64) : Prop :=
  numbers alphas /\ length alphas = dim /\ equally_expensive alphas cell /\ ignores alphas imc /\ adds_up alphas.

(** there are no others *)
Definition determined (dim : nat) (imc : list bool) (cell : list path) (alphas : list f64) : Prop :=
  forall other, facet_weights dim imc cell other -> alike alphas other.

(** every tolerance is met by some path of the cell *)
Definition within_tolerances (tol : list f64) (cell : list path) : Prop :=
  forall i x, nth_error tol i = Some x ->
    exists p cs c, In p cell /\ p_costs p = Some cs /\ nth_error cs i = Some c /\ fleb c x = true.

(** one of the paths is, up to [eps], a cheapest way from [s] to [t] *)
Definition has_cheapest (g : graph) (alphas : list f64) (s t : nat) (eps : Q) (paths : list path) : Prop :=
  exists p w, In p paths /\ cost_under alphas p w /\
    forall l w', connects g s l t -> costs_as g alphas l w' -> (w <= w' + eps)%Q.

(** a triangulation holding these paths, the one added last first: their costs
    in the considered metrics were added under the ids beside them *)
Inductive holds (T : Type) (tri_new : nat -> T) (tri_add : T -> list f64 -> option (T * nat)) (imc : list bool)
  : T -> list (nat * path) -> Prop :=
| holds_none : holds T tri_new tri_add imc (tri_new (considered_metrics imc)) []
| holds_more t l p cs t' id :
    holds T tri_new tri_add imc t l -> p_costs p = Some cs ->
    tri_add t (map snd (filter fst (combine imc cs))) = Some (t', id) ->
    holds T tri_new tri_add imc t' ((id, p) :: l).

(** the id of a cell tells its corners *)
Definition stable_cells (T : Type) (tri_cells : T -> list (nat * list nat)) : Prop :=
  forall t t' id vs vs', In (id, vs) (tri_cells t) -> In (id, vs') (tri_cells t') -> vs = vs'.
