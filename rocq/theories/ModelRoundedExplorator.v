(** The explorator of src/routing/explorating.rs with arithmetic that rounds
    and std's BinaryHeap.  The definitions repeat those of ModelApprox.v and
    ModelExplorator.v that calculate; everything that doesn't is taken from
    there. *)
From Coq Require Import String List Bool Arith ZArith QArith NArith.
From Verif Require Import Base F64 ModelApprox ModelUnits ModelConfig ModelGraph ModelDijkstra ModelExplorator ModelRounded ModelRoundedHeap.
Import ListNotations.
Open Scope list_scope.
Open Scope nat_scope.

Section Rounding.
  (** models: how the hardware rounds the exact result of an operation on f64. *)
  Variable ar : f64 -> f64.

  (** models: the provided method `<` of PartialOrd on Approx<f64>
      (src/approximating.rs:174-184). *)
  Definition rapprox_lt (a b : f64) : bool :=
    match rapprox_cmp ar a b with Some Lt => true | _ => false end.

  (** models: src/approximating.rs:148-159 (PartialEq for Approx<&[T]>, zip). *)
  Fixpoint rapprox_eq_vec (a b : list f64) : bool :=
    match a, b with
    | x :: a', y :: b' => rapprox_eq ar x y && rapprox_eq_vec a' b'
    | _, _ => true
    end.

  (** models: src/approximating.rs:119-131 (le for Approx<&[T]>). *)
  Fixpoint rapprox_le_vec (a b : list f64) : bool :=
    match a, b with
    | x :: a', y :: b' =>
        match rapprox_cmp ar x y with
        | Some Gt => false
        | _ => rapprox_le_vec a' b'
        end
    | _, _ => true
    end.

  (** models: src/helpers/mod.rs:19-21 (sub). *)
  Fixpoint rvsub (a b : list f64) : list f64 :=
    match a, b with
    | x :: a', y :: b' => rsub ar x y :: rvsub a' b'
    | _, _ => []
    end.

  (** fuel of the search, the external triangulation and the external solver, as
      in ModelExplorator.v; models: src/routing/explorating.rs:158, :264 *)
  Variable fuel : nat.
  Variable T : Type.
  Variable tri_new : nat -> T.
  Variable tri_add : T -> list f64 -> option (T * nat).
  Variable tri_cells : T -> list (nat * list nat).
  Variable solve : list (list f64) -> list f64 -> option (list f64).

  (** models: src/routing/explorating.rs:421-427, :290-296 (one query) *)
  Definition rxbest (g : graph) (q : xquery) (st : dijkstra) (alphas : list f64)
    : res (dijkstra * option path) :=
    do r <- rcompute_best_path_h ar fuel st g (with_alphas (xq_rc q) alphas) (xq_src q) (xq_dst q);
    match snd r with
    | None => Ok (fst r, None)
    | Some p => do p' <- rcalc_costs ar g p; Ok (fst r, Some p')
    end.

  (** models: src/routing/explorating.rs:433-441 (tolerance of a metric). *)
  Definition rset_tolerance (rc : routing_cfg) (costs tol : list f64) (mi : option nat) : res (list f64) :=
    match mi with
    | None => Ok tol
    | Some i =>
        do sc <- idx (rc_scales rc) i;
        if feqb sc PInf then set tol i PInf
        else do c <- idx costs i; set tol i (rmul ar c sc)
    end.

  (** models: src/routing/explorating.rs:417-452 (loop body). *)
  Definition rinit_step (g : graph) (q : xquery) (s : dijkstra * list f64 * list path)
             (ia : option nat * list f64) : res (dijkstra * list f64 * list path) :=
    let '(st, tol, found) := s in
    do r <- rxbest g q st (snd ia);
    match snd r with
    | None => Ok (fst r, tol, found)
    | Some p =>
        do costs <- path_costs p;
        do tol' <- rset_tolerance (xq_rc q) costs tol (fst ia);
        do cs <- mapM path_costs found;
        if existsb (fun c => rapprox_eq_vec c costs) cs then Ok (fst r, tol', found)
        else Ok (fst r, tol', found ++ [p])
    end.

  (** models: src/routing/explorating.rs:368-457 (explore_initial_paths). *)
  Definition rexplore_initial_paths (g : graph) (q : xquery) (st : dijkstra)
    : res (dijkstra * list f64 * list path) :=
    do ias <- init_alphas (xq_dim q) (xq_imc q);
    foldM (rinit_step g q) ias (st, xq_tol q, []).

  (** models: src/routing/explorating.rs:550-575 (loop body of update). *)
  Definition rupdate_path (q : xquery) (s : xstate T) (p : path) : res (xstate T) :=
    do costs <- path_costs p;
    do cc <- considered_costs (xq_imc q) costs;
    do r <- expect (tri_add (xs_tri T s) cc);
    let (tri, id) := r : T * nat in
    Ok {| xs_tri := tri; xs_found := (id, p) :: remove_id id (xs_found T s);
          xs_tolerated := if rapprox_le_vec costs (xq_tol q) then xs_tolerated T s ++ [id] else xs_tolerated T s;
          xs_visited := xs_visited T s; xs_dirty := xs_dirty T s |}.

  (** models: src/routing/explorating.rs:534-584 (update). *)
  Definition rupdate (q : xquery) (new : list path) (s : xstate T) : res (xstate T) :=
    foldM (rupdate_path q) new
      {| xs_tri := xs_tri T s; xs_found := xs_found T s; xs_tolerated := xs_tolerated T s;
         xs_visited := xs_visited T s; xs_dirty := negb (length new =? 0) |}.

  (** models: src/routing/explorating.rs:479-532 (create_linear_system), as
      [create_linear_system]. *)
  Definition rcreate_linear_system (q : xquery) (cell : list path)
    : res (option (list (list f64) * list f64)) :=
    match cell with
    | [] => Panic
    | v0 :: vs =>
        do c0 <- path_costs v0;
        do cs <- mapM path_costs vs;
        let rows0 := map (fun c => rvsub c0 c) cs in
        do rows1 <- mapM (fun ib => set (repeat f0 (xq_dim q)) (fst ib) (Fin 1))
                         (filter (fun ib => negb (snd ib)) (enumerate (xq_imc q)));
        let rows := rows0 ++ rows1 in
        if xq_dim q <? length rows then Panic
        else match xq_dim q - length rows with
             | 0 => Ok (Some (rows, repeat f0 (length rows)))
             | 1 => Ok (Some (rows ++ [repeat (Fin 1) (xq_dim q)], repeat f0 (length rows) ++ [Fin 1]))
             | _ => Ok None
             end
    end.

  (** models: src/routing/explorating.rs:191-322 (loop over the cells), as
      [explore_cell]. *)
  Definition rexplore_cell (g : graph) (q : xquery) (found : list (nat * path))
             (s : dijkstra * list nat * list path) (c : nat * list nat)
    : res (dijkstra * list nat * list path) :=
    let '(st, visited, new) := s in
    if existsb (fun k => k =? fst c) visited then Ok s
    else
      do cell <- cell_from found (snd c);
      let visited' := fst c :: visited in
      do miss <- misses_tolerance (xq_tol q) cell;
      if miss : bool then Ok (st, visited', new)
      else
        do ls <- rcreate_linear_system q cell;
        match ls with
        | None => Ok (st, visited', new)
        | Some (rows, b) =>
            match solve rows b with
            | None => Ok (st, visited', new)
            | Some alphas =>
                do r <- rxbest g q st alphas;
                match snd r with
                | None => Ok (fst r, visited', new)
                | Some p =>
                    do costs <- path_costs p;
                    do v0 <- idx cell 0;
                    do c0 <- path_costs v0;
                    if rapprox_lt (rdot ar alphas costs) (rdot ar alphas c0)
                       && negb (existsb (fun p' => path_eqb p' p) new)
                    then Ok (fst r, visited', new ++ [p])
                    else Ok (fst r, visited', new)
                end
            end
        end.

  (** models: src/routing/explorating.rs:189-330 (the while loop), as
      [explore]. *)
  Fixpoint rexplore (g : graph) (q : xquery) (rounds : nat) (st : dijkstra) (s : xstate T)
    : res (dijkstra * xstate T) :=
    if xs_dirty T s then
      match rounds with
      | O => Diverge
      | S k =>
          do r <- foldM (rexplore_cell g q (xs_found T s)) (tri_cells (xs_tri T s)) (st, xs_visited T s, []);
          let '(st', visited, new) := r : dijkstra * list nat * list path in
          do s' <- rupdate q new {| xs_tri := xs_tri T s; xs_found := xs_found T s;
                                   xs_tolerated := xs_tolerated T s; xs_visited := visited;
                                   xs_dirty := xs_dirty T s |};
          rexplore g q k st' s'
      end
    else Ok (st, s).

  (** models: src/routing/explorating.rs:140-366 (fully_explorate). *)
  Definition rfully_explorate (rounds : nat) (g : graph) (rc : routing_cfg) (s t : nat) (st : dijkstra)
    : res (dijkstra * list path) :=
    let q0 := xquery_with g rc s t in
    do r <- rexplore_initial_paths g q0 st;
    let '(st1, tol, new) := r : dijkstra * list f64 * list path in
    let q := {| xq_src := xq_src q0; xq_dst := xq_dst q0; xq_rc := xq_rc q0; xq_dim := xq_dim q0;
                xq_tdim := xq_tdim q0; xq_tol := tol; xq_imc := xq_imc q0 |} in
    do s1 <- rupdate q new {| xs_tri := tri_new (xq_tdim q); xs_found := []; xs_tolerated := [];
                             xs_visited := []; xs_dirty := false |};
    do r2 <- (if (1 <? xq_tdim q) && (xq_tdim q <? length (xs_found T s1))
              then rexplore g q rounds st1 s1 else Ok (st1, s1));
    do ps <- collect (xs_tolerated T (snd r2)) (xs_found T (snd r2));
    Ok (fst r2, ps).
End Rounding.
