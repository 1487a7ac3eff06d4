(** A graph where rounding decides which path is taken *)
From Coq Require Import String List Bool Arith ZArith QArith.
From Verif Require Import Base F64 ModelUnits ModelConfig ModelGraph ModelBuild ModelDijkstra Examples ExamplesRouting ModelRounded.
Import ListNotations.
Open Scope nat_scope.

(** `0.1`, `0.2` and `(0.1 + 0.2) / 2.0` *)
Definition tenth : Q := Eval vm_compute in rnd64 (1 # 10).
Definition fifth : Q := Eval vm_compute in rnd64 (1 # 5).
Definition half_sum : Q := Eval vm_compute in Qred (rnd64 (tenth + fifth) * (1 # 2)).

(** from 0 to 3: via 1 with 0.1 and 0.2, via 2 with twice the half *)
Definition tenth_es : list proto_edge :=
  [ ex_edge 0 0 1 tenth None; ex_edge 1 1 3 fifth None; ex_edge 2 0 2 half_sum None; ex_edge 3 2 3 half_sum None;
    ex_edge 4 3 0 1 None ].
Definition tenth_ns : list proto_node := [ ex_node 0 0 None; ex_node 1 1 None; ex_node 2 2 None; ex_node 3 3 None ].
Definition tenth_graph : graph :=
  Eval vm_compute in unok empty_graph (build ex_hav (ex_cfg false) 1 1 tenth_es tenth_ns).
Lemma tenth_build : build ex_hav (ex_cfg false) 1 1 tenth_es tenth_ns = Ok tenth_graph.
Proof. vm_compute. reflexivity. Qed.
