(** The search of src/routing/dijkstra.rs with arithmetic that rounds and std's
    BinaryHeap, whose comparisons calculate, and hence round, as well. *)
From Coq Require Import String List Bool Arith ZArith QArith.
From Verif Require Import Base F64 ModelUnits ModelConfig ModelGraph ModelDijkstra ModelHeap ModelRounded.
Import ListNotations.
Open Scope list_scope.
Open Scope nat_scope.

Section Rounding.
  (** models: how the hardware rounds the exact result of an operation on f64. *)
  Variable ar : f64 -> f64.

  (** models: `x - y` and `x / y` on f64. *)
  Definition rsub (x y : f64) : f64 := ar (fsub x y).
  Definition rdiv (x y : f64) : f64 := ar (fdiv x y).

  (** models: src/defaults.rs:15 (accuracy::F64_ABS = 0.000_001): the number the
      literal is read as. *)
  Definition rABS : f64 := ar F64_ABS.

  (** models: src/approximating.rs:168-172 (Approx<f64>::approx); `round` is
      exact. *)
  Definition rapprox (x : f64) : f64 := rmul ar (fround (rdiv x rABS)) rABS.

  (** models: src/approximating.rs:195-199 (PartialEq for Approx<f64>). *)
  Definition rapprox_eq (a b : f64) : bool := fleb (fabs (rapprox (rsub a b))) rABS.

  (** models: src/approximating.rs:174-184 (PartialOrd for Approx<f64>). *)
  Definition rapprox_cmp (a b : f64) : option comparison :=
    if rapprox_eq a b then Some Eq else fcmp a b.

  (** models: src/routing/dijkstra.rs:385-394 (PartialOrd for CostNode). *)
  Definition rcn_cmp (a b : costnode) : option comparison :=
    match rapprox_cmp (cn_cost a) (cn_cost b) with
    | None => None
    | Some c => Some (then_with (then_with c (Nat.compare (cn_idx a) (cn_idx b))) (dir_cmp (cn_dir a) (cn_dir b)))
    end.

  (** models: `<=` of Reverse<CostNode> (src/routing/dijkstra.rs:27). *)
  Definition rrev_le (a b : costnode) : bool :=
    match rcn_cmp b a with Some Lt | Some Eq => true | _ => false end.

  (** models: src/routing/dijkstra.rs:276-297, as [relax_edge]. *)
  Definition rrelax_edge_h (enqueue : bool) (d : dir) (e v : nat) (new_cost : f64) (st : dijkstra)
    : res dijkstra :=
    do old <- idx (get (dj_costs st) d) v;
    if fltb new_cost old then
      do ps <- set (get (dj_preds st) d) v (Some e);
      do cs <- set (get (dj_costs st) d) v new_cost;
      Ok {| dj_ch := dj_ch st;
            dj_queue := if enqueue
                        then heap_push rrev_le {| cn_idx := v; cn_cost := new_cost; cn_dir := d |} (dj_queue st)
                        else dj_queue st;
            dj_costs := put (dj_costs st) d cs;
            dj_preds := put (dj_preds st) d ps;
            dj_visited := dj_visited st;
            dj_found := dj_found st;
            dj_touched := put (dj_touched st) d (get (dj_touched st) d ++ [v]) |}
    else Ok st.

  (** models: src/routing/dijkstra.rs:263-298, as [rrelax]. *)
  Fixpoint rrelax_h (g : graph) (alphas : list f64) (enqueue : bool) (c : costnode)
           (es : list nat) (st : dijkstra) : res dijkstra :=
    match es with
    | [] => Ok st
    | e :: t =>
        do v <- dst_idx g (cn_dir c) e;
        do down <- (if dj_ch st then
                      do lu <- node_level g (cn_idx c);
                      do lv <- node_level g v;
                      Ok (lv <? lu)
                    else Ok false);
        if down then Ok st
        else
          do ms <- edge_metrics g e;
          do st' <- rrelax_edge_h enqueue (cn_dir c) e v (radd ar (cn_cost c) (rdot ar alphas ms)) st;
          rrelax_h g alphas enqueue c t st'
    end.

  (** models: src/routing/dijkstra.rs:231-298, as [riteration]. *)
  Definition riteration_h (g : graph) (alphas : list f64) (st : dijkstra)
             (best : option (nat * f64)) (c : costnode)
    : res (dijkstra * option (nat * f64)) :=
    do imp <- has_improved st c;
    if negb imp then Ok (st, best)
    else
      do st1 <- visit st c;
      do mt <- rmeet ar st1 best c;
      let '(best1, over) := mt in
      if over then Ok (with_found st1 (put (dj_found st1) (cn_dir c) true), best1)
      else
        do es <- starting_from g (cn_dir c) (cn_idx c);
        do st2 <- rrelax_h g alphas (dj_ch st1 || match best1 with None => true | _ => false end) c es st1;
        Ok (st2, best1).

  (** models: src/routing/dijkstra.rs:214-299, as [rsearch]. *)
  Fixpoint rsearch_h (g : graph) (alphas : list f64) (fuel : nat) (st : dijkstra)
           (best : option (nat * f64)) : res (dijkstra * option (nat * f64)) :=
    match heap_pop rrev_le (dj_queue st) with
    | None => Ok (st, best)
    | Some (c, q) =>
        match fuel with
        | O => Diverge
        | S fu =>
            let st0 := with_queue st q in
            if has_found st0 then Ok (st0, best)
            else
              do r <- riteration_h g alphas st0 best c;
              rsearch_h g alphas fu (fst r) (snd r)
        end
    end.

  (** models: src/routing/dijkstra.rs:192-209, as [start]. *)
  Definition rstart_h (s t : nat) (st : dijkstra) : res dijkstra :=
    let q := heap_push rrev_le {| cn_idx := t; cn_cost := f0; cn_dir := BWD |}
               (heap_push rrev_le {| cn_idx := s; cn_cost := f0; cn_dir := FWD |} (dj_queue st)) in
    do cf <- set (fw (dj_costs st)) s f0;
    do cb <- set (bw (dj_costs st)) t f0;
    Ok {| dj_ch := dj_ch st; dj_queue := q; dj_costs := mkTwo cf cb; dj_preds := dj_preds st;
          dj_visited := dj_visited st; dj_found := dj_found st;
          dj_touched := mkTwo (fw (dj_touched st) ++ [s]) (bw (dj_touched st) ++ [t]) |}.

  (** models: src/routing/dijkstra.rs:144-342, as [rcompute_best_path]. *)
  Definition rcompute_best_path_h (fuel : nat) (st : dijkstra) (g : graph) (rc : routing_cfg)
             (s t : nat) : res (dijkstra * option path) :=
    if existsb (fun a => fltb a f0) (rc_alphas rc) then Ok (st, None)
    else
      do ch <- match rc_algo rc with
               | ADijkstra => Ok false
               | ACHDijkstra => Ok true
               | AExplorator _ => Panic
               end;
      do st0 <- init_query (node_count g) (with_ch st ch);
      do st1 <- rstart_h s t st0;
      do r <- rsearch_h g (rc_alphas rc) fuel st1 None;
      match snd r with
      | None => Ok (fst r, None)
      | Some (m, _) =>
          do f <- trace g (fw (dj_preds (fst r))) FWD fuel m;
          do b <- trace g (bw (dj_preds (fst r))) BWD fuel m;
          do sid <- node_id g s;
          do tid <- node_id g t;
          Ok (fst r, Some (path_new s sid t tid (rev f ++ b)))
      end.
End Rounding.
