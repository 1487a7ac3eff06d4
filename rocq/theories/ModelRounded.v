(** The search of src/routing/dijkstra.rs with arithmetic that rounds.  The
    definitions repeat those of F64.v and ModelDijkstra.v that calculate;
    everything that doesn't is taken from there. *)
From Coq Require Import String List Bool Arith ZArith QArith Qround.
From Verif Require Import Base F64 ModelUnits ModelConfig ModelGraph ModelDijkstra.
Import ListNotations.
Open Scope list_scope.
Open Scope nat_scope.

(** models: rounding the result of an operation by [rnd], for results that
    don't overflow; infinities and NaN stay. *)
Definition rfin (rnd : Q -> Q) (x : f64) : f64 :=
  match x with
  | Fin q => Fin (rnd q)
  | _ => x
  end.

(** models: the same with overflow: what is rounded to a number beyond the
    largest finite one, [top], becomes infinite. *)
Definition ofin (rnd : Q -> Q) (top : Q) (x : f64) : f64 :=
  match x with
  | Fin q =>
      if Qle_bool (rnd q) top then
        if Qle_bool (- top) (rnd q) then Fin (rnd q) else NInf
      else PInf
  | _ => x
  end.

Section Rounding.
  (** models: how the hardware rounds the exact result of an operation on f64. *)
  Variable ar : f64 -> f64.

  (** models: `x + y` and `x * y` on f64. *)
  Definition radd (x y : f64) : f64 := ar (fadd x y).
  Definition rmul (x y : f64) : f64 := ar (fmul x y).

  (** models: src/helpers/mod.rs:23-27 (dot_product). *)
  Fixpoint rdot_from (acc : f64) (a b : list f64) : f64 :=
    match a, b with
    | x :: a', y :: b' => rdot_from (radd acc (rmul x y)) a' b'
    | _, _ => acc
    end.
  Definition rdot (a b : list f64) : f64 := rdot_from f0 a b.

  (** models: src/routing/dijkstra.rs:135-138 (total_cost). *)
  Definition rtotal_cost (st : dijkstra) (c : costnode) : res f64 :=
    do x <- idx (fw (dj_costs st)) (cn_idx c);
    do y <- idx (bw (dj_costs st)) (cn_idx c);
    Ok (radd x y).

  (** models: src/routing/dijkstra.rs:263-298 (loop over leaving edges). *)
  Fixpoint rrelax (g : graph) (alphas : list f64) (enqueue : bool) (c : costnode)
           (es : list nat) (st : dijkstra) : res dijkstra :=
    match es with
    | [] => Ok st
    | e :: t =>
        do v <- dst_idx g (cn_dir c) e;
        do down <- (if dj_ch st then
                      do lu <- node_level g (cn_idx c);
                      do lv <- node_level g v;
                      Ok (lv <? lu)
                    else Ok false);
        if down then Ok st
        else
          do ms <- edge_metrics g e;
          do st' <- relax_edge enqueue (cn_dir c) e v (radd (cn_cost c) (rdot alphas ms)) st;
          rrelax g alphas enqueue c t st'
    end.

  (** models: src/routing/dijkstra.rs:242-261 (update the best meeting node). *)
  Definition rmeet (st : dijkstra) (best : option (nat * f64)) (c : costnode)
    : res (option (nat * f64) * bool) :=
    match best with
    | Some (m, b) =>
        if fgtb (cn_cost c) b then Ok (best, true)
        else
          do t <- rtotal_cost st c;
          Ok (if fltb t b then Some (cn_idx c, t) else best, false)
    | None =>
        do mt <- is_meeting st c;
        if mt then do t <- rtotal_cost st c; Ok (Some (cn_idx c, t), false)
        else Ok (None, false)
    end.

  (** models: src/routing/dijkstra.rs:231-298, one iteration for the popped
      entry [c]. *)
  Definition riteration (g : graph) (alphas : list f64) (st : dijkstra)
             (best : option (nat * f64)) (c : costnode)
    : res (dijkstra * option (nat * f64)) :=
    do imp <- has_improved st c;
    if negb imp then Ok (st, best)
    else
      do st1 <- visit st c;
      do mt <- rmeet st1 best c;
      let '(best1, over) := mt in
      if over then Ok (with_found st1 (put (dj_found st1) (cn_dir c) true), best1)
      else
        do es <- starting_from g (cn_dir c) (cn_idx c);
        do st2 <- rrelax g alphas (dj_ch st1 || match best1 with None => true | _ => false end) c es st1;
        Ok (st2, best1).

  Section Search.
    (** the order in which the queue delivers its entries, as in ModelDijkstra.v *)
    Variable pick : nat -> list costnode -> nat.

    (** models: src/routing/dijkstra.rs:214-299 (search loop). *)
    Fixpoint rsearch (g : graph) (alphas : list f64) (fuel k : nat) (st : dijkstra)
             (best : option (nat * f64)) : res (dijkstra * option (nat * f64)) :=
      match dj_queue st with
      | [] => Ok (st, best)
      | _ =>
          match fuel with
          | O => Diverge
          | S fu =>
              do c <- idx (dj_queue st) (pick k (dj_queue st));
              let st0 := with_queue st (remove_nth (pick k (dj_queue st)) (dj_queue st)) in
              if has_found st0 then Ok (st0, best)
              else
                do r <- riteration g alphas st0 best c;
                rsearch g alphas fu (S k) (fst r) (snd r)
          end
      end.

    (** models: src/routing/dijkstra.rs:144-342 (compute_best_path). *)
    Definition rcompute_best_path (fuel : nat) (st : dijkstra) (g : graph) (rc : routing_cfg)
               (s t : nat) : res (dijkstra * option path) :=
      if existsb (fun a => fltb a f0) (rc_alphas rc) then Ok (st, None)
      else
        do ch <- match rc_algo rc with
                 | ADijkstra => Ok false
                 | ACHDijkstra => Ok true
                 | AExplorator _ => Panic
                 end;
        do st0 <- init_query (node_count g) (with_ch st ch);
        do st1 <- start s t st0;
        do r <- rsearch g (rc_alphas rc) fuel 0 st1 None;
        match snd r with
        | None => Ok (fst r, None)
        | Some (m, _) =>
            do f <- trace g (fw (dj_preds (fst r))) FWD fuel m;
            do b <- trace g (bw (dj_preds (fst r))) BWD fuel m;
            do sid <- node_id g s;
            do tid <- node_id g t;
            Ok (fst r, Some (path_new s sid t tid (rev f ++ b)))
        end.
  End Search.

  (** models: src/helpers/mod.rs:11-13 (add). *)
  Fixpoint rvadd (a b : list f64) : list f64 :=
    match a, b with
    | x :: a', y :: b' => radd x y :: rvadd a' b'
    | _, _ => []
    end.

  (** models: src/routing/paths.rs:72-88 (calc_costs). *)
  Definition rcalc_costs (g : graph) (p : path) : res path :=
    match p_costs p with
    | Some _ => Ok p
    | None =>
        do cs <- foldM (fun acc e => do m <- edge_metrics g e; Ok (rvadd acc m))
                       (p_edges p) (repeat f0 (metric_dim g));
        Ok {| p_src_idx := p_src_idx p; p_src_id := p_src_id p; p_dst_idx := p_dst_idx p;
              p_dst_id := p_dst_id p; p_edges := p_edges p; p_costs := Some cs |}
    end.
End Rounding.

(** *** IEEE 754 *)

(** nearest integer, the even one of two; models: part of rounding an `f64`
    (src/routing/dijkstra.rs:135-138, 275-276) *)
Definition rne (q : Q) : Z :=
  let f := Qfloor q in
  match ((q - inject_Z f) ?= 1 # 2)%Q with
  | Lt => f
  | Gt => (f + 1)%Z
  | Eq => if Z.even f then f else (f + 1)%Z
  end.

(** the [e] with 2^e <= q < 2^(e+1), for positive [q]; models: the exponent of
    an `f64` (src/routing/dijkstra.rs:135-138, 275-276) *)
Definition qlog2 (q : Q) : Z :=
  let e := (Z.log2 (Qnum q) - Z.log2 (Zpos (Qden q)))%Z in
  if Qle_bool (Qpower (2 # 1) e) q then e else (e - 1)%Z.

(** models: an `f64` (src/routing/dijkstra.rs:135-138, 275-276):
    exponent of the last bit of the significand of 53 bits; the smallest one is
    that of the subnormal numbers *)
Definition last_bit (q : Q) : Z := Z.max (qlog2 q - 52) (- (1074)).

(** models: rounding to nearest of binary64, i.e. Rust's `f64` (Rust reference,
    "Numeric types"); the exponent isn't bounded from above, see [top64]. *)
Definition pos64 (q : Q) : Q :=
  let k := last_bit q in Qred (inject_Z (rne (q * Qpower (2 # 1) (- k))) * Qpower (2 # 1) k).
Definition rnd64 (q : Q) : Q :=
  match (q ?= 0)%Q with
  | Eq => 0%Q
  | Gt => pos64 q
  | Lt => (- pos64 (- q))%Q
  end.

(** models: `f64::MAX`, the largest finite number. *)
Definition top64 : Q := inject_Z ((2 ^ 53 - 1) * 2 ^ 971).
(** models: the arithmetic of `f64`. *)
Definition ieee : f64 -> f64 := ofin rnd64 top64.
