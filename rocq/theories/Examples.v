(** A small map used to show that the hypotheses of the theorems are met *)
From Coq Require Import String List Bool Arith ZArith QArith.
From Verif Require Import Base F64 ModelUnits ModelConfig ModelGraph ModelBuild Spec.
Import ListNotations.
Open Scope string_scope.
Open Scope list_scope.
Open Scope nat_scope.

(** no generated metrics, one metric in kilometers *)
Definition ex_cfg (norm : bool) : cfg :=
  {| cfg_edges := {| ec_categories := [CMeta SrcId "src"; CMeta DstId "dst"; CMetric Kilometers "km"];
                     ec_normalized := norm; ec_units := [Kilometers]; ec_ids := ["km"] |};
     cfg_nodes := []; cfg_gen_nodes := []; cfg_gen_edges := [] |}.

(** generate edge ids, a copy in meters and a custom metric *)
Definition ex_cfg_gen : cfg :=
  {| cfg_edges := cfg_edges (ex_cfg false); cfg_nodes := []; cfg_gen_nodes := [(NNodeIdx, "idx")];
     cfg_gen_edges := [GMeta GEdgeId "eid"; GCopy Kilometers "km" Meters "m";
                       GCustom UF64 "one" (Fin 1)] |}.

Definition ex_edge (id : nat) (s d : Z) (m : Q) (sc : option (nat * nat)) : proto_edge :=
  {| pe_id := Some id; pe_src := s; pe_dst := d; pe_metrics := [Fin m]; pe_sc := sc |}.

(** five insertions: the last one repeats the first, the third is a shortcut *)
Definition ex_es : list proto_edge :=
  [ ex_edge 1 10 20 2 None; ex_edge 2 20 30 3 None; ex_edge 3 10 30 5 (Some (0, 1));
    ex_edge 4 30 10 0 None; ex_edge 1 10 20 2 None ].

Definition ex_node (id : Z) (x : Q) (l : option nat) : proto_node :=
  {| pn_id := id; pn_coord := {| lat := Fin x; lon := Fin x |}; pn_level := l |}.

(** node 10 is given twice, node 99 is unknown *)
Definition ex_ns : list proto_node :=
  [ ex_node 10 7 None; ex_node 20 2 (Some 0); ex_node 99 9 None; ex_node 30 3 (Some 2);
    ex_node 10 1 (Some 1) ].

(** stands for the haversine distance *)
Definition ex_hav (a b : coord) : f64 := Fin 1.

Definition unok {A} (d : A) (r : res A) : A := match r with Ok x => x | _ => d end.
Definition empty_graph : graph :=
  {| g_cfg := ex_cfg false; node_ids := []; node_coords := []; node_levels := []; fwd_dsts := [];
     fwd_offsets := []; fwd_to_fwd := []; bwd_dsts := []; bwd_offsets := []; bwd_to_fwd := [];
     metrics := []; means := None; edge_ids := []; edge_ids_map := []; sc_offsets := [];
     sc_edges_arr := [] |}.

Definition ex_graph : graph :=
  Eval vm_compute in unok empty_graph (build ex_hav (ex_cfg false) 2 3 ex_es ex_ns).
Lemma ex_build : build ex_hav (ex_cfg false) 2 3 ex_es ex_ns = Ok ex_graph.
Proof. vm_compute. reflexivity. Qed.

Definition ex_graph_norm : graph :=
  Eval vm_compute in unok empty_graph (build ex_hav (ex_cfg true) 2 3 ex_es ex_ns).
Lemma ex_build_norm : build ex_hav (ex_cfg true) 2 3 ex_es ex_ns = Ok ex_graph_norm.
Proof. vm_compute. reflexivity. Qed.

Definition ex_graph_gen : graph :=
  Eval vm_compute in unok empty_graph (build ex_hav ex_cfg_gen 2 3 ex_es ex_ns).
Lemma ex_build_gen : build ex_hav ex_cfg_gen 2 3 ex_es ex_ns = Ok ex_graph_gen.
Proof. vm_compute. reflexivity. Qed.

(** one edge 0 -> 1: the last node has no leaving edge *)
Definition dead_end_es : list proto_edge := [ ex_edge 0 0 1 1 None ].
Definition dead_end_ns : list proto_node := [ ex_node 0 0 None; ex_node 1 1 None ].
Definition dead_end : graph :=
  Eval vm_compute in unok empty_graph (build ex_hav (ex_cfg false) 1 1 dead_end_es dead_end_ns).
Lemma dead_end_build : build ex_hav (ex_cfg false) 1 1 dead_end_es dead_end_ns = Ok dead_end.
Proof. vm_compute. reflexivity. Qed.
