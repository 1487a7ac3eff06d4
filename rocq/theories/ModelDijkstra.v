(** Model of src/routing/dijkstra.rs and src/routing/paths.rs *)
From Coq Require Import String List Bool Arith ZArith QArith.
From Verif Require Import Base F64 ModelUnits ModelConfig ModelGraph.
Import ListNotations.
Open Scope string_scope.
Open Scope list_scope.
Open Scope nat_scope.

(** models: src/configs/routing.rs:136-144 (RoutingAlgo); an explorator config
    makes the Dijkstra panic (src/routing/dijkstra.rs:161-165). *)
Inductive routing_algo : Set := ADijkstra | ACHDijkstra | AExplorator (inner_ch : bool).

(** models: src/configs/routing.rs:21-27 (Config, without the file name). *)
Record routing_cfg : Type := mkRoutingCfg {
  rc_algo : routing_algo;
  rc_alphas : list f64;
  rc_scales : list f64;
}.

(** models: src/routing/paths.rs:13-21 (Path). *)
Record path : Type := mkPath {
  p_src_idx : nat; p_src_id : Z; p_dst_idx : nat; p_dst_id : Z;
  p_edges : list nat; p_costs : option (list f64);
}.

(** models: src/routing/paths.rs:40-55 (Path::new). *)
Definition path_new (s : nat) (sid : Z) (t : nat) (tid : Z) (es : list nat) : path :=
  {| p_src_idx := s; p_src_id := sid; p_dst_idx := t; p_dst_id := tid;
     p_edges := es; p_costs := None |}.

(** models: `[T; 2]` indexed by Dijkstra::dir_idx (src/routing/dijkstra.rs:48-68). *)
Record two (A : Type) : Type := mkTwo { fw : A; bw : A }.
Arguments mkTwo {A} _ _.
Arguments fw {A} _.
Arguments bw {A} _.
Definition get {A} (p : two A) (d : dir) : A := match d with FWD => fw p | BWD => bw p end.
Definition put {A} (p : two A) (d : dir) (x : A) : two A :=
  match d with FWD => mkTwo x (bw p) | BWD => mkTwo (fw p) x end.

(** models: src/routing/dijkstra.rs:351-356 (CostNode). *)
Record costnode : Type := mkCN { cn_idx : nat; cn_cost : f64; cn_dir : dir }.

(** models: src/routing/dijkstra.rs:23-33 (Dijkstra).  The queue is the
    multiset of its entries as a list. *)
Record dijkstra : Type := mkDij {
  dj_ch : bool;
  dj_queue : list costnode;
  dj_costs : two (list f64);
  dj_preds : two (list (option nat));
  dj_visited : two (list bool);
  dj_found : two bool;
  dj_touched : two (list nat);
}.

(** models: src/routing/dijkstra.rs:36-46 (Dijkstra::new). *)
Definition dijkstra_new : dijkstra :=
  {| dj_ch := false; dj_queue := []; dj_costs := mkTwo [] []; dj_preds := mkTwo [] [];
     dj_visited := mkTwo [] []; dj_found := mkTwo false false; dj_touched := mkTwo [] [] |}.

(** models: `Vec::resize(n, x)`. *)
Definition resize {A} (n : nat) (x : A) (l : list A) : list A :=
  firstn n l ++ repeat x (n - length l).

(** models: src/routing/dijkstra.rs:80-83 (reset touched entries). *)
Definition reset_touched (touched : list nat) (cs : list f64) (ps : list (option nat))
  : res (list f64 * list (option nat)) :=
  foldM (fun acc i => do cs' <- set (fst acc) i PInf;
                      do ps' <- set (snd acc) i None;
                      Ok (cs', ps')) touched (cs, ps).

(** models: src/routing/dijkstra.rs:71-94, the body of the loop for one
    direction.  `self.costs.len()` is the length of the array of the two
    directions, hence 2 (:75). *)
Definition init_dir (new_len : nat) (d : dir) (st : dijkstra) : res dijkstra :=
  let cs := if 2 =? new_len then get (dj_costs st) d else resize new_len PInf (get (dj_costs st) d) in
  let ps := if 2 =? new_len then get (dj_preds st) d else resize new_len None (get (dj_preds st) d) in
  do r <- reset_touched (get (dj_touched st) d) cs ps;
  Ok {| dj_ch := dj_ch st;
        dj_queue := dj_queue st;
        dj_costs := put (dj_costs st) d (fst r);
        dj_preds := put (dj_preds st) d (snd r);
        dj_visited := if dj_ch st then dj_visited st
                      else put (dj_visited st) d
                             (map (fun _ => false) (resize new_len false (get (dj_visited st) d)));
        dj_found := put (dj_found st) d false;
        dj_touched := put (dj_touched st) d [] |}.

(** field updates. *)
Definition with_ch (st : dijkstra) (b : bool) : dijkstra :=
  {| dj_ch := b; dj_queue := dj_queue st; dj_costs := dj_costs st; dj_preds := dj_preds st;
     dj_visited := dj_visited st; dj_found := dj_found st; dj_touched := dj_touched st |}.
Definition with_queue (st : dijkstra) (q : list costnode) : dijkstra :=
  {| dj_ch := dj_ch st; dj_queue := q; dj_costs := dj_costs st; dj_preds := dj_preds st;
     dj_visited := dj_visited st; dj_found := dj_found st; dj_touched := dj_touched st |}.
Definition with_visited (st : dijkstra) (v : two (list bool)) : dijkstra :=
  {| dj_ch := dj_ch st; dj_queue := dj_queue st; dj_costs := dj_costs st; dj_preds := dj_preds st;
     dj_visited := v; dj_found := dj_found st; dj_touched := dj_touched st |}.
Definition with_found (st : dijkstra) (f : two bool) : dijkstra :=
  {| dj_ch := dj_ch st; dj_queue := dj_queue st; dj_costs := dj_costs st; dj_preds := dj_preds st;
     dj_visited := dj_visited st; dj_found := f; dj_touched := dj_touched st |}.

(** models: src/routing/dijkstra.rs:71-97 (init_query). *)
Definition init_query (new_len : nat) (st : dijkstra) : res dijkstra :=
  do st1 <- init_dir new_len FWD st;
  do st2 <- init_dir new_len BWD st1;
  Ok (with_queue st2 []).

(** models: src/routing/dijkstra.rs:99-104 (visit). *)
Definition visit (st : dijkstra) (c : costnode) : res dijkstra :=
  if dj_ch st then Ok st
  else
    do v <- set (get (dj_visited st) (cn_dir c)) (cn_idx c) true;
    Ok (with_visited st (put (dj_visited st) (cn_dir c) v)).

(** models: src/routing/dijkstra.rs:106-120 (is_meeting_costnode; the debug
    assertion is left out). *)
Definition is_meeting (st : dijkstra) (c : costnode) : res bool :=
  if dj_ch st then
    do x <- idx (get (dj_costs st) (opp (cn_dir c))) (cn_idx c);
    Ok (negb (feqb x PInf))
  else idx (get (dj_visited st) (opp (cn_dir c))) (cn_idx c).

(** models: src/routing/dijkstra.rs:122-126. *)
Definition has_found (st : dijkstra) : bool := fw (dj_found st) && bw (dj_found st).

(** models: src/routing/dijkstra.rs:128-133 (has_costnode_improved). *)
Definition has_improved (st : dijkstra) (c : costnode) : res bool :=
  do x <- idx (get (dj_costs st) (cn_dir c)) (cn_idx c);
  Ok (fleb (cn_cost c) x).

(** models: src/routing/dijkstra.rs:135-138 (total_cost). *)
Definition total_cost (st : dijkstra) (c : costnode) : res f64 :=
  do x <- idx (fw (dj_costs st)) (cn_idx c);
  do y <- idx (bw (dj_costs st)) (cn_idx c);
  Ok (fadd x y).

(** models: src/routing/dijkstra.rs:276-297 (relax one edge whose far end is
    [v]); [enqueue] is `is_ch_dijkstra || best_meeting.is_none()`. *)
Definition relax_edge (enqueue : bool) (d : dir) (e v : nat) (new_cost : f64) (st : dijkstra)
  : res dijkstra :=
  do old <- idx (get (dj_costs st) d) v;
  if fltb new_cost old then
    do ps <- set (get (dj_preds st) d) v (Some e);
    do cs <- set (get (dj_costs st) d) v new_cost;
    Ok {| dj_ch := dj_ch st;
          dj_queue := if enqueue
                      then {| cn_idx := v; cn_cost := new_cost; cn_dir := d |} :: dj_queue st
                      else dj_queue st;
          dj_costs := put (dj_costs st) d cs;
          dj_preds := put (dj_preds st) d ps;
          dj_visited := dj_visited st;
          dj_found := dj_found st;
          dj_touched := put (dj_touched st) d (get (dj_touched st) d ++ [v]) |}
  else Ok st.

(** models: src/routing/dijkstra.rs:263-298 (loop over leaving edges; in
    CH-mode it stops at the first edge leading downwards, src/defaults.rs:85). *)
Fixpoint relax (g : graph) (alphas : list f64) (enqueue : bool) (c : costnode)
         (es : list nat) (st : dijkstra) : res dijkstra :=
  match es with
  | [] => Ok st
  | e :: t =>
      do v <- dst_idx g (cn_dir c) e;
      do down <- (if dj_ch st then
                    do lu <- node_level g (cn_idx c);
                    do lv <- node_level g v;
                    Ok (lv <? lu)
                  else Ok false);
      if down then Ok st
      else
        do ms <- edge_metrics g e;
        do st' <- relax_edge enqueue (cn_dir c) e v (fadd (cn_cost c) (dot_product alphas ms)) st;
        relax g alphas enqueue c t st'
  end.

(** remove the i-th element *)
Fixpoint remove_nth {A} (i : nat) (l : list A) : list A :=
  match l, i with
  | [], _ => []
  | _ :: t, O => t
  | x :: t, S j => x :: remove_nth j t
  end.

(** models: src/routing/dijkstra.rs:242-261 (update the best meeting node);
    the flag tells whether the search in this direction is over (:247-250). *)
Definition meet (st : dijkstra) (best : option (nat * f64)) (c : costnode)
  : res (option (nat * f64) * bool) :=
  match best with
  | Some (m, b) =>
      if fgtb (cn_cost c) b then Ok (best, true)
      else
        do t <- total_cost st c;
        Ok (if fltb t b then Some (cn_idx c, t) else best, false)
  | None =>
      do mt <- is_meeting st c;
      if mt then do t <- total_cost st c; Ok (Some (cn_idx c, t), false)
      else Ok (None, false)
  end.

(** models: src/routing/dijkstra.rs:231-298, one iteration for the popped
    entry [c] (after the test of :227). *)
Definition iteration (g : graph) (alphas : list f64) (st : dijkstra)
           (best : option (nat * f64)) (c : costnode)
  : res (dijkstra * option (nat * f64)) :=
  do imp <- has_improved st c;
  if negb imp then Ok (st, best)
  else
    do st1 <- visit st c;
    do mt <- meet st1 best c;
    let '(best1, over) := mt in
    if over then Ok (with_found st1 (put (dj_found st1) (cn_dir c) true), best1)
    else
      do es <- starting_from g (cn_dir c) (cn_idx c);
      do st2 <- relax g alphas (dj_ch st1 || match best1 with None => true | _ => false end) c es st1;
      Ok (st2, best1).

Section Search.
  (** The order in which std's BinaryHeap delivers its entries: the [k]-th pop
      of a query removes the entry at position [pick k q] of the queue [q].
      Theorems quantify over [pick]. *)
  Variable pick : nat -> list costnode -> nat.

  (** models: src/routing/dijkstra.rs:214-299 (search loop). *)
  Fixpoint search (g : graph) (alphas : list f64) (fuel k : nat) (st : dijkstra)
           (best : option (nat * f64)) : res (dijkstra * option (nat * f64)) :=
    match dj_queue st with
    | [] => Ok (st, best)
    | _ =>
        match fuel with
        | O => Diverge
        | S fu =>
            do c <- idx (dj_queue st) (pick k (dj_queue st));
            let st0 := with_queue st (remove_nth (pick k (dj_queue st)) (dj_queue st)) in
            if has_found st0 then Ok (st0, best)
            else
              do r <- iteration g alphas st0 best c;
              search g alphas fu (S k) (fst r) (snd r)
        end
    end.

  (** models: src/routing/dijkstra.rs:307-316 and :321-330 (follow the
      predecessors of one direction; the far end is looked up in the accessor
      of the other direction). *)
  Fixpoint trace (g : graph) (preds : list (option nat)) (d : dir) (fuel cur : nat) : res (list nat) :=
    do p <- idx preds cur;
    match p with
    | None => Ok []
    | Some e =>
        match fuel with
        | O => Diverge
        | S fu =>
            do prev <- dst_idx g (opp d) e;
            do rest <- trace g preds d fu prev;
            Ok (e :: rest)
        end
    end.

  (** models: src/routing/dijkstra.rs:192-209 (first two entries). *)
  Definition start (s t : nat) (st : dijkstra) : res dijkstra :=
    do cf <- set (fw (dj_costs st)) s f0;
    do cb <- set (bw (dj_costs st)) t f0;
    Ok {| dj_ch := dj_ch st;
          dj_queue := {| cn_idx := t; cn_cost := f0; cn_dir := BWD |}
                      :: {| cn_idx := s; cn_cost := f0; cn_dir := FWD |} :: dj_queue st;
          dj_costs := mkTwo cf cb;
          dj_preds := dj_preds st;
          dj_visited := dj_visited st;
          dj_found := dj_found st;
          dj_touched := mkTwo (fw (dj_touched st) ++ [s]) (bw (dj_touched st) ++ [t]) |}.

  (** models: src/routing/dijkstra.rs:144-342 (compute_best_path).  [fuel]
      bounds the number of pops and the lengths of the two traces; running
      out of it is [Diverge]. *)
  Definition compute_best_path (fuel : nat) (st : dijkstra) (g : graph) (rc : routing_cfg)
             (s t : nat) : res (dijkstra * option path) :=
    if existsb (fun a => fltb a f0) (rc_alphas rc) then Ok (st, None)
    else
      do ch <- match rc_algo rc with
               | ADijkstra => Ok false
               | ACHDijkstra => Ok true
               | AExplorator _ => Panic
               end;
      do st0 <- init_query (node_count g) (with_ch st ch);
      do st1 <- start s t st0;
      do r <- search g (rc_alphas rc) fuel 0 st1 None;
      match snd r with
      | None => Ok (fst r, None)
      | Some (m, _) =>
          do f <- trace g (fw (dj_preds (fst r))) FWD fuel m;
          do b <- trace g (bw (dj_preds (fst r))) BWD fuel m;
          do sid <- node_id g s;
          do tid <- node_id g t;
          Ok (fst r, Some (path_new s sid t tid (rev f ++ b)))
      end.
End Search.

(** *** Paths *)

(** models: src/routing/paths.rs:65-70 (costs; panics if not calculated). *)
Definition path_costs (p : path) : res (list f64) := expect (p_costs p).

(** models: src/routing/paths.rs:72-88 (calc_costs). *)
Definition calc_costs (g : graph) (p : path) : res path :=
  match p_costs p with
  | Some _ => Ok p
  | None =>
      do cs <- foldM (fun acc e => do m <- edge_metrics g e; Ok (vadd acc m))
                     (p_edges p) (repeat f0 (metric_dim g));
      Ok {| p_src_idx := p_src_idx p; p_src_id := p_src_id p; p_dst_idx := p_dst_idx p;
            p_dst_id := p_dst_id p; p_edges := p_edges p; p_costs := Some cs |}
  end.

(** models: src/routing/paths.rs:102-130 (both loops of try_flatten): [top] is
    the edge just popped, [stack] the remaining old edges (next one first),
    [acc] and [costs] the flattened edges and their costs.  Every step either
    expands a shortcut or moves an edge; [fuel] bounds their number. *)
Fixpoint flatten_loop (g : graph) (fuel top : nat) (stack acc : list nat) (costs : list f64)
  : res (list nat * list f64) :=
  match fuel with
  | O => Diverge
  | S fu =>
      do sc <- sc_edges g top;
      match sc with
      | Some (e0, e1) =>
          if edge_count g FWD <? length (e1 :: stack)
          then Err "There is a cycle of shortcut-references in the graph."
          else flatten_loop g fu e0 (e1 :: stack) acc costs
      | None =>
          do m <- edge_metrics g top;
          let acc' := acc ++ [top] in
          let costs' := vadd_assign costs m in
          match stack with
          | [] => Ok (acc', costs')
          | e :: stack' => flatten_loop g fu e stack' acc' costs'
          end
      end
  end.

(** models: src/routing/paths.rs:90-134 (try_flatten). *)
Definition try_flatten (g : graph) (fuel : nat) (p : path) : res path :=
  do r <- match p_edges p with
          | [] => Ok ([], repeat f0 (metric_dim g))
          | e :: t => flatten_loop g fuel e t [] (repeat f0 (metric_dim g))
          end;
  Ok {| p_src_idx := p_src_idx p; p_src_id := p_src_id p; p_dst_idx := p_dst_idx p;
        p_dst_id := p_dst_id p; p_edges := fst r; p_costs := Some (snd r) |}.

(** models: src/routing/paths.rs:136-141 (flatten). *)
Definition flatten (g : graph) (fuel : nat) (p : path) : res path :=
  match try_flatten g fuel p with
  | Err _ => Panic
  | r => r
  end.

(** equality of edge lists. *)
Fixpoint nats_eqb (a b : list nat) : bool :=
  match a, b with
  | [], [] => true
  | x :: a', y :: b' => (x =? y) && nats_eqb a' b'
  | _, _ => false
  end.

(** models: src/routing/paths.rs:146-156 (PartialEq for Path). *)
Definition path_eqb (p q : path) : bool :=
  Z.eqb (p_src_id p) (p_src_id q) && Z.eqb (p_dst_id p) (p_dst_id q)
  && nats_eqb (p_edges p) (p_edges q).
