(** Graphs, queues and queries showing that the hypotheses of the routing
    theorems are met *)
From Coq Require Import String List Bool Arith ZArith QArith Lia Lqa.
From Verif Require Import Base F64 ModelUnits ModelConfig ModelGraph ModelBuild ModelDijkstra Spec SpecRouting Examples.
Import ListNotations.
Open Scope string_scope.
Open Scope list_scope.
Open Scope nat_scope.

(** an exact queue: position of the first entry of least cost *)
Definition cheaper (c x : costnode) : bool :=
  match cn_cost c, cn_cost x with
  | Fin a, Fin b => Qle_bool a b
  | Fin _, _ => true
  | _, Fin _ => false
  | _, _ => true
  end.
Fixpoint min_pos (q : list costnode) : nat :=
  match q with
  | [] => 0
  | c :: t => match nth_error t (min_pos t) with
              | None => 0
              | Some x => if cheaper c x then 0 else S (min_pos t)
              end
  end.
Definition exact_pick (k : nat) (q : list costnode) : nat := min_pos q.
(** queues that ignore the costs *)
Definition lifo_pick (k : nat) (q : list costnode) : nat := 0.
Definition fifo_pick (k : nat) (q : list costnode) : nat := length q - 1.

Lemma min_pos_lt q : q <> [] -> min_pos q < length q.
Proof.
  induction q as [|c t IH]; [congruence|intros _]. simpl. destruct (nth_error t (min_pos t)) as [x|] eqn:E; [|lia].
  destruct (cheaper _ _); [lia|]. assert (min_pos t < length t) by (apply nth_error_Some; congruence). lia.
Qed.
Lemma exact_valid : valid_pick exact_pick.
Proof. intros k q. apply min_pos_lt. Qed.
Lemma lifo_valid : valid_pick lifo_pick.
Proof. intros k [|c t] H; [congruence|]. unfold lifo_pick. simpl. lia. Qed.
Lemma fifo_valid : valid_pick fifo_pick.
Proof. intros k [|c t] H; [congruence|]. unfold fifo_pick. simpl. lia. Qed.

Lemma cheaper_refl c : cheaper c c = true.
Proof. unfold cheaper. destruct (cn_cost c); auto. apply Qle_bool_iff. apply Qle_refl. Qed.
Lemma cheaper_trans c x y : cheaper c x = true -> cheaper x y = true -> cheaper c y = true.
Proof.
  unfold cheaper. destruct (cn_cost c), (cn_cost x), (cn_cost y); try discriminate; auto.
  rewrite !Qle_bool_iff. apply Qle_trans.
Qed.
Lemma cheaper_total c x : cheaper c x = false -> cheaper x c = true.
Proof.
  unfold cheaper. destruct (cn_cost c), (cn_cost x); try discriminate; auto. intros H. apply Qle_bool_iff.
  destruct (Qlt_le_dec q0 q) as [E|E]; [now apply Qlt_le_weak|]. apply Qle_bool_iff in E. congruence.
Qed.
Lemma min_pos_min q : forall c, nth_error q (min_pos q) = Some c -> forall x, In x q -> cheaper c x = true.
Proof.
  induction q as [|y t IH]; intros c E x Hx; [destruct Hx|]. simpl in E.
  destruct (nth_error t (min_pos t)) as [z|] eqn:Ez.
  - destruct (cheaper y z) eqn:Eyz; simpl in E.
    + injection E as <-. destruct Hx as [<-|Hx]; [apply cheaper_refl|]. eapply cheaper_trans; eauto.
    + rewrite Ez in E. injection E as <-. destruct Hx as [<-|Hx]; [now apply cheaper_total|]. now apply IH.
  - destruct t as [|u t]; [|apply nth_error_None in Ez; pose proof (min_pos_lt (u :: t)); assert (u :: t <> []) by discriminate; intuition lia].
    simpl in E. injection E as <-. destruct Hx as [<-|[]]. apply cheaper_refl.
Qed.
Lemma exact_picks : picks_min 0 exact_pick.
Proof.
  split; [apply exact_valid|]. intros k q c a x b E Ea Hx Eb.
  pose proof (min_pos_min q c E x Hx) as H. unfold cheaper in H. rewrite Ea, Eb in H. apply Qle_bool_iff in H. lra.
Qed.

(** five nodes; 0 -> 4 costs 4 via 1 and 3, the direct edge costs 6 *)
Definition rt_es : list proto_edge :=
  [ ex_edge 0 0 1 1 None; ex_edge 1 1 3 2 None; ex_edge 2 3 4 1 None; ex_edge 3 0 4 6 None;
    ex_edge 4 0 2 1 None; ex_edge 5 2 3 4 None; ex_edge 6 4 2 1 None ].
Definition rt_ns : list proto_node :=
  [ ex_node 0 0 (Some 0); ex_node 1 1 (Some 1); ex_node 2 2 (Some 0); ex_node 3 3 (Some 2); ex_node 4 4 (Some 0) ].
Definition rt_graph : graph :=
  Eval vm_compute in unok empty_graph (build ex_hav (ex_cfg false) 2 3 rt_es rt_ns).
Lemma rt_build : build ex_hav (ex_cfg false) 2 3 rt_es rt_ns = Ok rt_graph.
Proof. vm_compute. reflexivity. Qed.

(** 0 cannot be left *)
Definition sink_es : list proto_edge := [ ex_edge 0 1 2 1 None; ex_edge 1 2 1 1 None; ex_edge 2 2 0 1 None ].
Definition sink_ns : list proto_node := [ ex_node 0 0 None; ex_node 1 1 None; ex_node 2 2 None ].
Definition sink_graph : graph :=
  Eval vm_compute in unok empty_graph (build ex_hav (ex_cfg false) 1 1 sink_es sink_ns).
Lemma sink_build : build ex_hav (ex_cfg false) 1 1 sink_es sink_ns = Ok sink_graph.
Proof. vm_compute. reflexivity. Qed.

(** two nodes, edges in both directions *)
Definition pair_es : list proto_edge := [ ex_edge 0 0 1 1 None; ex_edge 1 1 0 1 None ].
Definition pair_ns : list proto_node := [ ex_node 0 0 None; ex_node 1 1 None ].
Definition pair_graph : graph :=
  Eval vm_compute in unok empty_graph (build ex_hav (ex_cfg false) 1 1 pair_es pair_ns).
Lemma pair_build : build ex_hav (ex_cfg false) 1 1 pair_es pair_ns = Ok pair_graph.
Proof. vm_compute. reflexivity. Qed.

(** three nodes, the last one has no leaving edge *)
Definition lone_es : list proto_edge := [ ex_edge 0 0 1 1 None; ex_edge 1 1 0 1 None; ex_edge 2 0 2 1 None ].
Definition lone_graph : graph :=
  Eval vm_compute in unok empty_graph (build ex_hav (ex_cfg false) 1 1 lone_es sink_ns).
Lemma lone_build : build ex_hav (ex_cfg false) 1 1 lone_es sink_ns = Ok lone_graph.
Proof. vm_compute. reflexivity. Qed.

(** one node with a loop *)
Definition loop_es : list proto_edge := [ ex_edge 0 0 0 1 None ].
Definition loop_ns : list proto_node := [ ex_node 0 0 None ].
Definition loop_graph : graph :=
  Eval vm_compute in unok empty_graph (build ex_hav (ex_cfg false) 1 1 loop_es loop_ns).
Lemma loop_build : build ex_hav (ex_cfg false) 1 1 loop_es loop_ns = Ok loop_graph.
Proof. vm_compute. reflexivity. Qed.

Definition ex_rc (a : routing_algo) (al : list f64) : routing_cfg :=
  {| rc_algo := a; rc_alphas := al; rc_scales := [PInf] |}.
