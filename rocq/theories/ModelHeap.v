(** Model of the queue of src/routing/dijkstra.rs: std's BinaryHeap and the
    order of its entries; and the search of ModelDijkstra.v with this queue. *)
From Coq Require Import String List Bool Arith ZArith QArith.
From Verif Require Import Base F64 ModelApprox ModelUnits ModelConfig ModelGraph ModelDijkstra.
Import ListNotations.
Open Scope string_scope.
Open Scope list_scope.
Open Scope nat_scope.

(** *** std::collections::BinaryHeap

    Used in src/routing/dijkstra.rs:27, :96, :192, :198, :214 and :291.  The
    heap is its array.  [le x y] is `x <= y`.  Reading beyond the end can't
    happen in the code; there the functions return the array as it is. *)
Section Heap.
  Variable A : Type.
  Variable le : A -> A -> bool.

  (** writing into the array *)
  Fixpoint write (l : list A) (i : nat) (x : A) : list A :=
    match l, i with
    | [], _ => []
    | _ :: t, O => x :: t
    | y :: t, S j => y :: write t j x
    end.

  (** models: BinaryHeap::sift_up(0, pos) of the standard library, called by push
      (src/routing/dijkstra.rs:192, :198, :291) and pop (:214): the element [x],
      taken out of [pos], moves towards the root.  [fuel] is at least [pos]. *)
  Fixpoint sift_up (fuel : nat) (h : list A) (pos : nat) (x : A) : list A :=
    match fuel, pos with
    | S fu, S _ =>
        let parent := (pos - 1) / 2 in
        match nth_error h parent with
        | None => h
        | Some p => if le x p then write h pos x
                    else sift_up fu (write h pos p) parent x
        end
    | _, _ => write h pos x
    end.

  (** models: BinaryHeap::push of the standard library
      (src/routing/dijkstra.rs:192, :198, :291). *)
  Definition heap_push (x : A) (h : list A) : list A := sift_up (length h) (h ++ [x]) (length h) x.

  (** models: the loop of BinaryHeap::sift_down_to_bottom of the standard
      library, called by pop (src/routing/dijkstra.rs:214): the larger child moves
      into the hole [pos] until the hole has no children. Returns the array and
      the hole. *)
  Fixpoint sift_down (fuel : nat) (h : list A) (pos : nat) : list A * nat :=
    match fuel with
    | O => (h, pos)
    | S fu =>
        let child := 2 * pos + 1 in
        match nth_error h child, nth_error h (S child) with
        | Some x, Some y =>
            if le x y then sift_down fu (write h pos y) (S child)
            else sift_down fu (write h pos x) child
        | Some x, None => (write h pos x, child)
        | None, _ => (h, pos)
        end
    end.

  (** models: BinaryHeap::pop of the standard library
      (src/routing/dijkstra.rs:214). *)
  Definition heap_pop (h : list A) : option (A * list A) :=
    match h with
    | [] => None
    | x :: t =>
        match rev t with
        | [] => Some (x, [])
        | y :: _ =>
            let h' := removelast h in
            let (h1, pos) := sift_down (length h') h' 0 in
            Some (x, sift_up pos h1 pos y)
        end
    end.
End Heap.
Arguments write {A} _ _ _.
Arguments sift_up {A} _ _ _ _ _.
Arguments heap_push {A} _ _ _.
Arguments sift_down {A} _ _ _ _.
Arguments heap_pop {A} _ _.

(** *** The order of the entries *)

(** models: src/routing/dijkstra.rs:419-431 (Ord for Direction). *)
Definition dir_cmp (a b : dir) : comparison :=
  match a, b with
  | FWD, FWD | BWD, BWD => Eq
  | FWD, BWD => Gt
  | BWD, FWD => Lt
  end.

(** models: Ordering::then_with of the standard library, cf.
    src/routing/dijkstra.rs:386-392. *)
Definition then_with (a b : comparison) : comparison := match a with Eq => b | _ => a end.

(** models: src/routing/dijkstra.rs:385-394 (PartialOrd for CostNode). *)
Definition cn_cmp (a b : costnode) : option comparison :=
  match approx_cmp (cn_cost a) (cn_cost b) with
  | None => None
  | Some c => Some (then_with (then_with c (Nat.compare (cn_idx a) (cn_idx b))) (dir_cmp (cn_dir a) (cn_dir b)))
  end.

(** models: `<=` of Reverse<CostNode> (src/routing/dijkstra.rs:27), which is
    `other.0 <= self.0`, the provided method of PartialOrd. *)
Definition rev_le (a b : costnode) : bool :=
  match cn_cmp b a with Some Lt | Some Eq => true | _ => false end.

(** *** The search with this queue *)

(** models: src/routing/dijkstra.rs:276-297, as [relax_edge]. *)
Definition relax_edge_h (enqueue : bool) (d : dir) (e v : nat) (new_cost : f64) (st : dijkstra)
  : res dijkstra :=
  do old <- idx (get (dj_costs st) d) v;
  if fltb new_cost old then
    do ps <- set (get (dj_preds st) d) v (Some e);
    do cs <- set (get (dj_costs st) d) v new_cost;
    Ok {| dj_ch := dj_ch st;
          dj_queue := if enqueue
                      then heap_push rev_le {| cn_idx := v; cn_cost := new_cost; cn_dir := d |} (dj_queue st)
                      else dj_queue st;
          dj_costs := put (dj_costs st) d cs;
          dj_preds := put (dj_preds st) d ps;
          dj_visited := dj_visited st;
          dj_found := dj_found st;
          dj_touched := put (dj_touched st) d (get (dj_touched st) d ++ [v]) |}
  else Ok st.

(** models: src/routing/dijkstra.rs:263-298, as [relax]. *)
Fixpoint relax_h (g : graph) (alphas : list f64) (enqueue : bool) (c : costnode)
         (es : list nat) (st : dijkstra) : res dijkstra :=
  match es with
  | [] => Ok st
  | e :: t =>
      do v <- dst_idx g (cn_dir c) e;
      do down <- (if dj_ch st then
                    do lu <- node_level g (cn_idx c);
                    do lv <- node_level g v;
                    Ok (lv <? lu)
                  else Ok false);
      if down then Ok st
      else
        do ms <- edge_metrics g e;
        do st' <- relax_edge_h enqueue (cn_dir c) e v (fadd (cn_cost c) (dot_product alphas ms)) st;
        relax_h g alphas enqueue c t st'
  end.

(** models: src/routing/dijkstra.rs:231-298, as [iteration]. *)
Definition iteration_h (g : graph) (alphas : list f64) (st : dijkstra)
           (best : option (nat * f64)) (c : costnode)
  : res (dijkstra * option (nat * f64)) :=
  do imp <- has_improved st c;
  if negb imp then Ok (st, best)
  else
    do st1 <- visit st c;
    do mt <- meet st1 best c;
    let '(best1, over) := mt in
    if over then Ok (with_found st1 (put (dj_found st1) (cn_dir c) true), best1)
    else
      do es <- starting_from g (cn_dir c) (cn_idx c);
      do st2 <- relax_h g alphas (dj_ch st1 || match best1 with None => true | _ => false end) c es st1;
      Ok (st2, best1).

(** models: src/routing/dijkstra.rs:214-299, as [search]. *)
Fixpoint search_h (g : graph) (alphas : list f64) (fuel : nat) (st : dijkstra)
         (best : option (nat * f64)) : res (dijkstra * option (nat * f64)) :=
  match heap_pop rev_le (dj_queue st) with
  | None => Ok (st, best)
  | Some (c, q) =>
      match fuel with
      | O => Diverge
      | S fu =>
          let st0 := with_queue st q in
          if has_found st0 then Ok (st0, best)
          else
            do r <- iteration_h g alphas st0 best c;
            search_h g alphas fu (fst r) (snd r)
      end
  end.

(** models: src/routing/dijkstra.rs:192-209, as [start]. *)
Definition start_h (s t : nat) (st : dijkstra) : res dijkstra :=
  let q := heap_push rev_le {| cn_idx := t; cn_cost := f0; cn_dir := BWD |}
             (heap_push rev_le {| cn_idx := s; cn_cost := f0; cn_dir := FWD |} (dj_queue st)) in
  do cf <- set (fw (dj_costs st)) s f0;
  do cb <- set (bw (dj_costs st)) t f0;
  Ok {| dj_ch := dj_ch st; dj_queue := q; dj_costs := mkTwo cf cb; dj_preds := dj_preds st;
        dj_visited := dj_visited st; dj_found := dj_found st;
        dj_touched := mkTwo (fw (dj_touched st) ++ [s]) (bw (dj_touched st) ++ [t]) |}.

(** models: src/routing/dijkstra.rs:144-342, as [compute_best_path]. *)
Definition compute_best_path_h (fuel : nat) (st : dijkstra) (g : graph) (rc : routing_cfg)
           (s t : nat) : res (dijkstra * option path) :=
  if existsb (fun a => fltb a f0) (rc_alphas rc) then Ok (st, None)
  else
    do ch <- match rc_algo rc with
             | ADijkstra => Ok false
             | ACHDijkstra => Ok true
             | AExplorator _ => Panic
             end;
    do st0 <- init_query (node_count g) (with_ch st ch);
    do st1 <- start_h s t st0;
    do r <- search_h g (rc_alphas rc) fuel st1 None;
    match snd r with
    | None => Ok (fst r, None)
    | Some (m, _) =>
        do f <- trace g (fw (dj_preds (fst r))) FWD fuel m;
        do b <- trace g (bw (dj_preds (fst r))) BWD fuel m;
        do sid <- node_id g s;
        do tid <- node_id g t;
        Ok (fst r, Some (path_new s sid t tid (rev f ++ b)))
    end.
