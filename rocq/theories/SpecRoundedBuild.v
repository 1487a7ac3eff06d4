(** Vocabulary of building graphs in binary64 *)
From Coq Require Import List Bool Arith ZArith QArith Qabs.
From Verif Require Import Base F64 ModelGraph ModelBuild Spec SpecRounded SpecRoundedHeap.
Import ListNotations.
Open Scope nat_scope.

(** the same edge, but maybe with other metrics *)
Definition same_road (e e' : proto_edge) : Prop :=
  pe_id e' = pe_id e /\ pe_src e' = pe_src e /\ pe_dst e' = pe_dst e /\ pe_sc e' = pe_sc e.

(** no difference of 1.5e-6 is blurred by rounding *)
Definition told_apart (a b : Q) : Prop :=
  (Qabs (a - b) <= (3 # 2000000) - Qpower (2 # 1) (- (70)))%Q \/ (accuracy64 <= Qabs (a - b))%Q.

(** the metrics to be stored are finite, not around zero, and told apart *)
Definition clear_cut (es : list proto_edge) : Prop :=
  (forall e x, In e es -> In x (pe_metrics e) -> exists a, x = Fin a /\ (accuracy64 <= Qabs a)%Q) /\
  (forall e e' i a b, In e es -> In e' es -> nth_error (pe_metrics e) i = Some (Fin a) -> nth_error (pe_metrics e') i = Some (Fin b) -> told_apart a b).

(** the same graph with other metrics, edge by edge *)
Definition metrics_by (h : list f64 -> list f64) (g g' : graph) : Prop := g' = with_metrics g (map h (metrics g)).

(** edges with their last metric as [ar] rounds it *)
Definition round_last (ar : f64 -> f64) (ms : list f64) : list f64 := removelast ms ++ [ar (last ms f0)].

(** distances between places on earth, in kilometers *)
Definition earthly_distance (hav : coord -> coord -> f64) : Prop :=
  forall x y, exists q, hav x y = Fin q /\ (0 <= q)%Q /\ (q <= inject_Z (2 ^ 20))%Q.

(** a metric as it is stored: those around zero become [least], which is 1e-6 *)
Definition raised64 (least : Q) (x y : f64) : Prop :=
  (y = x /\ forall a, x = Fin a -> ((3 # 2000000) - Qpower (2 # 1) (- (70)) < Qabs a)%Q) \/
  (exists a, x = Fin a /\ (Qabs a < accuracy64)%Q /\ y = Fin least).

(** inserted edges that are taken to be the same *)
Definition same_edge64 (p q : proto_edge) : Prop :=
  pe_src p = pe_src q /\ pe_dst p = pe_dst q /\ pe_id p = pe_id q /\
  forall i a b, nth_error (pe_metrics p) i = Some (Fin a) -> nth_error (pe_metrics q) i = Some (Fin b) -> (Qabs (a - b) < accuracy64)%Q.
