(** Vocabulary of the properties of paths *)
From Coq Require Import List Bool Arith ZArith QArith.
From Verif Require Import Base F64 ModelUnits ModelConfig ModelGraph ModelBuild ModelDijkstra Spec SpecRouting.
Import ListNotations.
Open Scope nat_scope.

(** edge [e] stands for the edges [es]: itself, or what its two replaced edges
    stand for.  Edges on a cycle of shortcuts stand for nothing. *)
Inductive stands_for (g : graph) : nat -> list nat -> Prop :=
| stands_edge e : sc_edges g e = Ok None -> stands_for g e [e]
| stands_shortcut e a b la lb :
    sc_edges g e = Ok (Some (a, b)) -> stands_for g a la -> stands_for g b lb ->
    stands_for g e (la ++ lb).

(** following first replaced edges from [e] never leads to a real edge *)
CoInductive endless_first (g : graph) : nat -> Prop :=
| endless e a b : sc_edges g e = Ok (Some (a, b)) -> endless_first g a -> endless_first g e.

(** all edges belong to the graph *)
Definition edges_exist (g : graph) (es : list nat) : Prop := forall e, In e es -> e < edge_count g FWD.

(** every edge has as many metrics as the graph has dimensions *)
Definition aligned_metrics (g : graph) : Prop :=
  forall e ms, edge_metrics g e = Ok ms -> length ms = metric_dim g.

(** the i-th metrics of the edges [es] are finite and their sum is [q] *)
Inductive sums (g : graph) (i : nat) : list nat -> Q -> Prop :=
| sums_nil : sums g i [] 0%Q
| sums_cons e es a b : metric_of g e i = Some (Fin a) -> sums g i es b -> sums g i (e :: es) (a + b)%Q.

(** a shortcut leads where its replaced edges lead *)
Definition shortcuts_fit (g : graph) : Prop :=
  forall e a b s d, sc_edges g e = Ok (Some (a, b)) -> edge_from_to g e s d ->
    exists m, edge_from_to g a s m /\ edge_from_to g b m d.
(** the same for inserted edges *)
Definition inserted_shortcuts_fit (es : list proto_edge) : Prop :=
  forall e p q, In e es -> pe_sc e = Some (p, q) ->
    exists ep eq, nth_error es p = Some ep /\ nth_error es q = Some eq /\
      pe_src ep = pe_src e /\ pe_dst ep = pe_src eq /\ pe_dst eq = pe_dst e.

(** the metrics of a shortcut are the sums of those of its replaced edges *)
Definition shortcuts_add_up (g : graph) : Prop :=
  forall e a b i x, sc_edges g e = Ok (Some (a, b)) -> metric_of g e i = Some (Fin x) ->
    exists y z, metric_of g a i = Some (Fin y) /\ metric_of g b i = Some (Fin z) /\ (x == y + z)%Q.

(** same source, destination *)
Definition same_route (p q : path) : Prop :=
  p_src_idx q = p_src_idx p /\ p_src_id q = p_src_id p /\ p_dst_idx q = p_dst_idx p /\ p_dst_id q = p_dst_id p.
