(** Model of src/routing/explorating.rs *)
From Coq Require Import String List Bool Arith ZArith QArith NArith.
From Verif Require Import Base F64 ModelApprox ModelUnits ModelConfig ModelGraph ModelDijkstra.
Import ListNotations.
Open Scope string_scope.
Open Scope list_scope.
Open Scope nat_scope.

(** models: src/routing/explorating.rs:28-37 (Query, without the graph). *)
Record xquery : Type := mkXQuery {
  xq_src : nat; xq_dst : nat;
  xq_rc : routing_cfg;
  xq_dim : nat; xq_tdim : nat;
  xq_tol : list f64; xq_imc : list bool;
}.

(** models: src/routing/explorating.rs:39-74 (Query::with). *)
Definition xquery_with (g : graph) (rc : routing_cfg) (s t : nat) : xquery :=
  let imc := map (fun a => fgtb a f0) (rc_alphas rc) in
  {| xq_src := s; xq_dst := t; xq_rc := rc; xq_dim := metric_dim g;
     xq_tdim := length (filter (fun b => b) imc);
     xq_tol := repeat PInf (metric_dim g); xq_imc := imc |}.

(** models: `query.routing_cfg.alphas = alphas`,
    src/routing/explorating.rs:420 and :272-277. *)
Definition with_alphas (rc : routing_cfg) (a : list f64) : routing_cfg :=
  {| rc_algo := rc_algo rc; rc_alphas := a; rc_scales := rc_scales rc |}.

(** *** Initial queries *)

(** models: src/routing/explorating.rs:382-386.  Simplification: the mask is an
    unbounded number; as there are as many alphas as metrics, it fits into u32
    whenever the loop bound does. *)
Definition imc_mask (imc : list bool) : N :=
  fold_left (fun acc (digit : bool) => 2 * acc + (if digit then 1 else 0))%N (rev imc) 0%N.

(** models: src/routing/explorating.rs:390. *)
Definition is_pow_of_2 (mask : N) : bool := (N.land mask (mask - 1) =? 0)%N.

(** models: src/routing/explorating.rs:399-401. *)
Definition mask_alphas (dim : nat) (mask : N) : list f64 :=
  map (fun i => Fin (inject_Z (Z.of_N (N.land (N.shiftr mask (N.of_nat i)) 1)))) (seq 0 dim).

(** models: src/routing/explorating.rs:395-412 (loop body). *)
Definition mask_step (dim : nat) (imc : N) (s : nat * list (option nat * list f64)) (mask : N)
  : nat * list (option nat * list f64) :=
  let (mi, l) := s in
  if (N.lxor (N.lor imc mask) imc =? 0)%N then
    if is_pow_of_2 mask then (S mi, l ++ [(Some mi, mask_alphas dim mask)])
    else (mi, l ++ [(None, mask_alphas dim mask)])
  else if is_pow_of_2 mask then (S mi, l)
  else (mi, l).

(** models: src/routing/explorating.rs:373-412.  `2u32.pow(dim)` overflows for
    32 and more metrics (a panic with overflow checks). *)
Definition init_alphas (dim : nat) (imc : list bool) : res (list (option nat * list f64)) :=
  if 32 <=? dim then Panic
  else Ok (snd (fold_left (mask_step dim (imc_mask imc))
                          (map N.of_nat (seq 1 (2 ^ dim - 1))) (0, []))).

Section Explore.
  (** the order of Dijkstra's queue and fuel, as in ModelDijkstra.v *)
  Variable pick : nat -> list costnode -> nat.
  Variable fuel : nat.
  (** the external triangulation (crate nd-triangulation) with its operations
      new, add_vertex and convex_hull_cells (cell ids with their vertex ids) *)
  Variable T : Type.
  Variable tri_new : nat -> T.
  Variable tri_add : T -> list f64 -> option (T * nat).
  Variable tri_cells : T -> list (nat * list nat).
  (** the external LU-solver (crate nalgebra) behind src/helpers/algebra.rs *)
  Variable solve : list (list f64) -> list f64 -> option (list f64).

  (** models: src/routing/explorating.rs:421-427, :290-296 (one query) *)
  Definition xbest (g : graph) (q : xquery) (st : dijkstra) (alphas : list f64)
    : res (dijkstra * option path) :=
    do r <- compute_best_path pick fuel st g (with_alphas (xq_rc q) alphas) (xq_src q) (xq_dst q);
    match snd r with
    | None => Ok (fst r, None)
    | Some p => do p' <- calc_costs g p; Ok (fst r, Some p')
    end.

  (** models: src/routing/explorating.rs:433-441 (tolerance of a metric). *)
  Definition set_tolerance (rc : routing_cfg) (costs tol : list f64) (mi : option nat) : res (list f64) :=
    match mi with
    | None => Ok tol
    | Some i =>
        do sc <- idx (rc_scales rc) i;
        if feqb sc PInf then set tol i PInf
        else do c <- idx costs i; set tol i (fmul c sc)
    end.

  (** models: src/routing/explorating.rs:417-452 (loop body). *)
  Definition init_step (g : graph) (q : xquery) (s : dijkstra * list f64 * list path)
             (ia : option nat * list f64) : res (dijkstra * list f64 * list path) :=
    let '(st, tol, found) := s in
    do r <- xbest g q st (snd ia);
    match snd r with
    | None => Ok (fst r, tol, found)
    | Some p =>
        do costs <- path_costs p;
        do tol' <- set_tolerance (xq_rc q) costs tol (fst ia);
        do cs <- mapM path_costs found;
        if existsb (fun c => approx_eq_vec c costs) cs then Ok (fst r, tol', found)
        else Ok (fst r, tol', found ++ [p])
    end.

  (** models: src/routing/explorating.rs:368-457 (explore_initial_paths). *)
  Definition explore_initial_paths (g : graph) (q : xquery) (st : dijkstra)
    : res (dijkstra * list f64 * list path) :=
    do ias <- init_alphas (xq_dim q) (xq_imc q);
    foldM (init_step g q) ias (st, xq_tol q, []).

  (** *** Exploring *)

  (** models: src/routing/explorating.rs:120-124 (ConvexHullExplorator; the hash
      map as association list, newest binding first) with the triangulation
      and the dirty flag of :158-159. *)
  Record xstate : Type := mkXState {
    xs_tri : T;
    xs_found : list (nat * path);
    xs_tolerated : list nat;
    xs_visited : list nat;
    xs_dirty : bool;
  }.

  (** models: `HashMap::get`. *)
  Fixpoint lookup (id : nat) (m : list (nat * path)) : option path :=
    match m with
    | [] => None
    | (k, p) :: t => if k =? id then Some p else lookup id t
    end.
  (** models: `HashMap::remove` (all bindings of the id). *)
  Definition remove_id (id : nat) (m : list (nat * path)) : list (nat * path) :=
    filter (fun kp => negb (fst kp =? id)) m.

  (** models: src/routing/explorating.rs:553-564; indexing the flags panics if
      there are more costs. *)
  Definition considered_costs (imc : list bool) (costs : list f64) : res (list f64) :=
    do l <- mapM (fun p => do b <- idx imc (fst p); Ok (b : bool, snd p)) (enumerate costs);
    Ok (map snd (filter (fun p => fst p) l)).

  (** models: src/routing/explorating.rs:550-575 (loop body of update). *)
  Definition update_path (q : xquery) (s : xstate) (p : path) : res xstate :=
    do costs <- path_costs p;
    do cc <- considered_costs (xq_imc q) costs;
    do r <- expect (tri_add (xs_tri s) cc);
    let (tri, id) := r : T * nat in
    Ok {| xs_tri := tri; xs_found := (id, p) :: remove_id id (xs_found s);
          xs_tolerated := if approx_le_vec costs (xq_tol q) then xs_tolerated s ++ [id] else xs_tolerated s;
          xs_visited := xs_visited s; xs_dirty := xs_dirty s |}.

  (** models: src/routing/explorating.rs:534-584 (update). *)
  Definition update (q : xquery) (new : list path) (s : xstate) : res xstate :=
    foldM (update_path q) new
      {| xs_tri := xs_tri s; xs_found := xs_found s; xs_tolerated := xs_tolerated s;
         xs_visited := xs_visited s; xs_dirty := negb (length new =? 0) |}.

  (** models: src/routing/explorating.rs:459-477 (cell_from). *)
  Definition cell_from (found : list (nat * path)) (vertices : list nat) : res (list path) :=
    mapM (fun id => expect (lookup id found)) vertices.

  (** models: src/routing/explorating.rs:213-232: a tolerance no vertex meets.
      Simplification: `any` stops at the first hit; here all costs are looked
      up, which only differs if costs are shorter than the tolerances. *)
  Definition misses_tolerance (tol : list f64) (cell : list path) : res bool :=
    do cs <- mapM path_costs cell;
    do l <- mapM (fun it => do ds <- mapM (fun c => idx c (fst it)) cs;
                            Ok (negb (existsb (fun d => fleb d (snd it)) ds))) (enumerate tol);
    Ok (existsb (fun b => b) l).

  (** models: src/routing/explorating.rs:479-532 (create_linear_system); the
      subtraction of usizes underflows (panics) with too many rows. *)
  Definition create_linear_system (q : xquery) (cell : list path)
    : res (option (list (list f64) * list f64)) :=
    match cell with
    | [] => Panic
    | v0 :: vs =>
        do c0 <- path_costs v0;
        do cs <- mapM path_costs vs;
        let rows0 := map (fun c => vsub c0 c) cs in
        do rows1 <- mapM (fun ib => set (repeat f0 (xq_dim q)) (fst ib) (Fin 1))
                         (filter (fun ib => negb (snd ib)) (enumerate (xq_imc q)));
        let rows := rows0 ++ rows1 in
        if xq_dim q <? length rows then Panic
        else match xq_dim q - length rows with
             | 0 => Ok (Some (rows, repeat f0 (length rows)))
             | 1 => Ok (Some (rows ++ [repeat (Fin 1) (xq_dim q)], repeat f0 (length rows) ++ [Fin 1]))
             | _ => Ok None
             end
    end.

  (** models: src/routing/explorating.rs:191-322 (loop over the cells); the
      accumulated state are the Dijkstra object, the visited cells and the new
      paths. *)
  Definition explore_cell (g : graph) (q : xquery) (found : list (nat * path))
             (s : dijkstra * list nat * list path) (c : nat * list nat)
    : res (dijkstra * list nat * list path) :=
    let '(st, visited, new) := s in
    if existsb (fun k => k =? fst c) visited then Ok s
    else
      do cell <- cell_from found (snd c);
      let visited' := fst c :: visited in
      do miss <- misses_tolerance (xq_tol q) cell;
      if miss : bool then Ok (st, visited', new)
      else
        do ls <- create_linear_system q cell;
        match ls with
        | None => Ok (st, visited', new)
        | Some (rows, b) =>
            match solve rows b with
            | None => Ok (st, visited', new)
            | Some alphas =>
                do r <- xbest g q st alphas;
                match snd r with
                | None => Ok (fst r, visited', new)
                | Some p =>
                    do costs <- path_costs p;
                    do v0 <- idx cell 0;
                    do c0 <- path_costs v0;
                    if approx_lt (dot_product alphas costs) (dot_product alphas c0)
                       && negb (existsb (fun p' => path_eqb p' p) new)
                    then Ok (fst r, visited', new ++ [p])
                    else Ok (fst r, visited', new)
                end
            end
        end.

  (** models: src/routing/explorating.rs:189-330 (the while loop); [rounds]
      bounds the number of rounds. *)
  Fixpoint explore (g : graph) (q : xquery) (rounds : nat) (st : dijkstra) (s : xstate)
    : res (dijkstra * xstate) :=
    if xs_dirty s then
      match rounds with
      | O => Diverge
      | S k =>
          do r <- foldM (explore_cell g q (xs_found s)) (tri_cells (xs_tri s)) (st, xs_visited s, []);
          let '(st', visited, new) := r : dijkstra * list nat * list path in
          do s' <- update q new {| xs_tri := xs_tri s; xs_found := xs_found s;
                                   xs_tolerated := xs_tolerated s; xs_visited := visited;
                                   xs_dirty := xs_dirty s |};
          explore g q k st' s'
      end
    else Ok (st, s).

  (** models: src/routing/explorating.rs:345-353. *)
  Fixpoint collect (ids : list nat) (found : list (nat * path)) : res (list path) :=
    match ids with
    | [] => Ok []
    | id :: t =>
        do p <- expect (lookup id found);
        do l <- collect t (remove_id id found);
        Ok (p :: l)
    end.

  (** models: src/routing/explorating.rs:140-366 (fully_explorate). *)
  Definition fully_explorate (rounds : nat) (g : graph) (rc : routing_cfg) (s t : nat) (st : dijkstra)
    : res (dijkstra * list path) :=
    let q0 := xquery_with g rc s t in
    do r <- explore_initial_paths g q0 st;
    let '(st1, tol, new) := r : dijkstra * list f64 * list path in
    let q := {| xq_src := xq_src q0; xq_dst := xq_dst q0; xq_rc := xq_rc q0; xq_dim := xq_dim q0;
                xq_tdim := xq_tdim q0; xq_tol := tol; xq_imc := xq_imc q0 |} in
    do s1 <- update q new {| xs_tri := tri_new (xq_tdim q); xs_found := []; xs_tolerated := [];
                             xs_visited := []; xs_dirty := false |};
    do r2 <- (if (1 <? xq_tdim q) && (xq_tdim q <? length (xs_found s1))
              then explore g q rounds st1 s1 else Ok (st1, s1));
    do ps <- collect (xs_tolerated (snd r2)) (xs_found (snd r2));
    Ok (fst r2, ps).
End Explore.
