(** Model of the writer of route-pairs-files:
    src/io/writing/routing/random_or_all.rs *)
From Coq Require Import String Ascii List Bool Arith NArith ZArith.
From Verif Require Import Base F64 ModelText ModelConfig ModelGraph ModelBuild ModelDijkstra ModelFmi.
Import ListNotations.
Open Scope string_scope.
Open Scope list_scope.
Open Scope nat_scope.

(** models: `a * b` on usize (panics on overflow). *)
Definition mul_usize (a b : nat) : res nat :=
  if (N.of_nat a * N.of_nat b <=? U64_MAX)%N then Ok (a * b) else Panic.

(** models: `<=` on pairs of i64 *)
Definition pair_leb (a b : Z * Z) : bool := ((fst a <? fst b) || ((fst a =? fst b) && (snd a <=? snd b)))%Z.

(** models: `slice::sort` on pairs of i64.  The result of sorting does not
    depend on the algorithm, since equal pairs are identical. *)
Fixpoint insert_pair (x : Z * Z) (l : list (Z * Z)) : list (Z * Z) :=
  match l with
  | [] => [x]
  | y :: t => if pair_leb x y then x :: l else y :: insert_pair x t
  end.
Definition sort_pairs (l : list (Z * Z)) : list (Z * Z) := fold_right insert_pair [] l.

Section Writer.
  Variable pick : nat -> list costnode -> nat.
  Variable dfuel : nat.
  (** the k-th number drawn by `die.sample(&mut rng)`,
      src/io/writing/routing/random_or_all.rs:58-59 *)
  Variable sample : nat -> nat.

  (** models: src/io/writing/routing/random_or_all.rs:86-99 (the next pair); two
      numbers are drawn per attempt. *)
  Definition next_pair (all : bool) (n attempts : nat) : nat * nat :=
    if all then (attempts / n, attempts mod n)
    else (sample (2 * attempts), sample (2 * attempts + 1)).

  (** the contents of the HashSet, src/io/writing/routing/random_or_all.rs:56 *)
  Definition processed_mem (p : nat * nat) (l : list (nat * nat)) : bool :=
    existsb (fun q => (fst p =? fst q) && (snd p =? snd q)) l.

  (** models: src/io/writing/routing/random_or_all.rs:78-121 (the loop).  The
      progress bar counts attempts and successes; printing is not modelled. *)
  Fixpoint pairs_loop (fuel : nat) (g : graph) (rc : routing_cfg) (all : bool) (n max_count : nat)
           (attempts successes : nat) (processed : list (nat * nat)) (st : dijkstra) (found : list (Z * Z)) : res (list (Z * Z)) :=
    match fuel with
    | O => Diverge
    | S fuel =>
        if (successes <? max_count) && (attempts <? n * n) then
          let '(s, t) := next_pair all n attempts in
          let already := processed_mem (s, t) processed in
          let processed := (s, t) :: processed in
          if negb (s =? t) && negb already then
            do a <- compute_best_path pick dfuel st g rc s t;
            match snd a with
            | Some _ =>
                do sid <- node_id g s;
                do tid <- node_id g t;
                pairs_loop fuel g rc all n max_count (S attempts) (S successes) processed (fst a) (found ++ [(sid, tid)])
            | None => pairs_loop fuel g rc all n max_count (S attempts) successes processed (fst a) found
            end
          else pairs_loop fuel g rc all n max_count (S attempts) successes processed st found
        else Ok found
    end.

  (** models: src/io/writing/routing/random_or_all.rs:51-131: the found pairs.
      [Uniform::from] panics on an empty range. *)
  Definition route_pairs (fuel : nat) (g : graph) (rc : routing_cfg) (wanted : nat) : res (list (Z * Z)) :=
    let n := node_count g in
    do possible <- mul_usize n n;
    let max_count := Nat.min possible wanted in
    do _ <- with_capacity (N.of_nat max_count) 16;
    if n =? 0 then Panic
    else
      do found <- pairs_loop fuel g rc (possible <=? wanted) n max_count 0 0 [] dijkstra_new [];
      Ok (sort_pairs found).
End Writer.

(** models: src/io/writing/routing/random_or_all.rs:133-155 (the file's
    lines); [path] is the map-file's path as printed. *)
Definition route_line (r : Z * Z * nat) : text :=
  let '(s, d, n) := r in spaced [show_Z s; show_Z d; show_nat n].
Definition routes_text (path : text) (nodes edges : nat) (seed : N) (pairs : list (Z * Z)) : text :=
  concat (map line
    ([T "# graph-file: " ++ path;
      T "# node-count: " ++ show_nat nodes;
      T "# edge-count: " ++ show_nat edges;
      [];
      T "# route-count";
      show_nat (length pairs);
      [];
      T "# random routes: (src-id dst-id count) as (i64, i64, usize)";
      T "# seed: " ++ show_N seed]
     ++ map (fun p => route_line (p, 1)) pairs)).

(** models: src/io/writing/routing/random_or_all.rs:32-158 (write): the written
    text.  Opening the file is not modelled. *)
Definition write_routes (pick : nat -> list costnode -> nat) (dfuel : nat) (sample : nat -> nat) (fuel : nat)
           (g : graph) (rc : routing_cfg) (path : text) (seed : N) (wanted : nat) : res text :=
  do pairs <- route_pairs pick dfuel sample fuel g rc wanted;
  Ok (routes_text path (node_count g) (edge_count g FWD) seed pairs).
