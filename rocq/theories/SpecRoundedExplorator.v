(** Vocabulary of the properties of the explorator as it calculates *)
From Coq Require Import List Bool Arith ZArith QArith.
From Verif Require Import Base F64 ModelUnits ModelConfig ModelGraph ModelBuild ModelDijkstra
  Spec SpecRouting SpecPaths SpecRounded SpecRoundedHeap.
Import ListNotations.
Open Scope nat_scope.

(** the i-th metrics of the edges [es], added up one after the other and
    rounded by [ar] each time *)
Inductive rsums (ar : f64 -> f64) (g : graph) (i : nat) : list nat -> f64 -> Prop :=
| rsums_nil : rsums ar g i [] (Fin 0)
| rsums_snoc e es m a : rsums ar g i es a -> metric_of g e i = Some m -> rsums ar g i (es ++ [e]) (ar (fadd a m)).

(** [p] is a road from [s] to [t] that carries its ids and its costs as
    calculated *)
Definition costed_road (ar : f64 -> f64) (g : graph) (s t : nat) (p : path) : Prop :=
  p_src_idx p = s /\ p_dst_idx p = t /\ node_id g s = Ok (p_src_id p) /\ node_id g t = Ok (p_dst_id p) /\
  connects g s (p_edges p) t /\
  exists cs, p_costs p = Some cs /\ length cs = metric_dim g /\
    forall i x, nth_error cs i = Some x -> rsums ar g i (p_edges p) x.

(** cost [z] is tolerated by [x], with the accuracy of comparisons in `f64`; NaN
    tolerates everything and is tolerated by everything *)
Definition within64 (z x : f64) : Prop :=
  match z, x with
  | Fin a, Fin y => (a < y + accuracy64)%Q
  | Fin _, NInf | PInf, Fin _ | PInf, NInf => False
  | _, _ => True
  end.

(** graphs of up to half a million nodes whose metrics are numbers up to 2^1000 *)
Definition ordinary64 (g : graph) : Prop :=
  (Z.of_nat (2 * node_count g + metric_dim g + 2) <= 2 ^ 20)%Z /\
  forall e ms x, edge_metrics g e = Ok ms -> In x ms -> exists q, x = Fin q /\ (0 <= q)%Q /\ (q <= inject_Z (2 ^ 1000))%Q.

(** the roads an algorithm looks at: plain Dijkstra at all of them, CH-Dijkstra
    at those which climb, then descend *)
Definition looked_at (g : graph) (rc : routing_cfg) (l : list nat) : Prop :=
  rc_algo rc = ADijkstra \/ rc_algo rc = ACHDijkstra /\ up_down g l.

(** nothing more than a billionth of [q] and next to nothing is lost in [y] *)
Definition billionth_off (q y : Q) : Prop :=
  ((1 - Qpower (2 # 1) (- (30))) * q <= y + Qpower (2 # 1) (- (1000)))%Q /\
  (y <= (1 + Qpower (2 # 1) (- (30))) * q + Qpower (2 # 1) (- (1000)))%Q.

(** the most a road found for one metric costs when another costs [q]; [m] edges
    and [pops] pops *)
Definition found_for (m pops : nat) (q : Q) : Q :=
  ((1 + Qpower (2 # 1) (- (28))) * q + 4 * heap_error64 m pops + Qpower (2 # 1) (- (998)))%Q.
