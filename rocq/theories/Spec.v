(** Vocabulary of the property statements, independent of how the model
    computes anything. *)
From Coq Require Import String List Bool Arith ZArith QArith Qabs.
From Verif Require Import Base F64 ModelUnits ModelConfig ModelGraph ModelBuild.
Import ListNotations.
Open Scope nat_scope.

(** an id occurs as source or destination of an inserted edge *)
Definition is_endpoint (es : list proto_edge) (id : Z) : Prop :=
  exists e, In e es /\ (id = pe_src e \/ id = pe_dst e).

(** [n] is the last node insertion for its id in the history [ns] *)
Definition last_insertion (ns : list proto_node) (n : proto_node) : Prop :=
  exists before after, ns = before ++ n :: after /\
    forall n', In n' after -> pn_id n' <> pn_id n.

(** [l] is the level given last for [id] in the history [ns]; 0 if never *)
Definition last_given_level (ns : list proto_node) (id : Z) (l : nat) : Prop :=
  (exists before n after, ns = before ++ n :: after /\ pn_id n = id /\ pn_level n = Some l /\
     forall n', In n' after -> pn_id n' = id -> pn_level n' = None) \/
  (l = 0 /\ forall n, In n ns -> pn_id n = id -> pn_level n = None).

(** graph edge [e] leads from node index [s] to node index [d] *)
Definition edge_from_to (g : graph) (e s d : nat) : Prop :=
  dst_idx g BWD e = Ok s /\ dst_idx g FWD e = Ok d.

(** graph edge [e] has the endpoints of the inserted edge [pe] *)
Definition same_ends (g : graph) (e : nat) (pe : proto_edge) : Prop :=
  exists s d, edge_from_to g e s d /\ node_id g s = Ok (pe_src pe) /\ node_id g d = Ok (pe_dst pe).

(** two metrics differ by less than 1.5e-6 (neither is infinite nor NaN) *)
Definition close (x y : f64) : Prop :=
  exists a b, x = Fin a /\ y = Fin b /\ (Qabs (a - b) < 3 # 2000000)%Q.

(** [y] is how the metric [x] is stored: values around zero are lifted *)
Definition lifted (x y : f64) : Prop :=
  ((exists q, x = Fin q /\ (Qabs q < 3 # 2000000)%Q) /\ y = Fin (1 # 1000000)) \/
  ((forall q, x = Fin q -> (3 # 2000000 <= Qabs q)%Q) /\ y = x).

(** not smaller than 1e-6 (NaN and +inf are not smaller than anything) *)
Definition not_too_small (x : f64) : Prop :=
  match x with
  | Fin q => (1 # 1000000 <= q)%Q
  | PInf | NaN => True
  | NInf => False
  end.

(** all components at common positions are close *)
Definition close_vec (x y : list f64) : Prop :=
  forall i a b, nth_error x i = Some a -> nth_error y i = Some b -> close a b.

(** two inserted edges that finalizing regards as the same edge *)
Definition same_edge (p q : proto_edge) : Prop :=
  pe_src p = pe_src q /\ pe_dst p = pe_dst q /\ pe_id p = pe_id q /\
  close_vec (pe_metrics p) (pe_metrics q).

(** no category asks for generated edge ids *)
Definition keeps_edge_ids (c : cfg) : Prop :=
  forall id, ~ In (GMeta GEdgeId id) (cfg_gen_edges c).

(** nothing is generated and nothing is normalized *)
Definition plain_metrics (c : cfg) : Prop :=
  cfg_gen_nodes c = [] /\ cfg_gen_edges c = [] /\ ec_normalized (cfg_edges c) = false.

(** i-th metric of edge e *)
Definition metric_of (g : graph) (e i : nat) : option f64 :=
  match edge_metrics g e with
  | Ok ms => nth_error ms i
  | _ => None
  end.

(** sum of f(0), ..., f(n-1) *)
Fixpoint sum_to (n : nat) (f : nat -> Q) : Q :=
  match n with
  | O => 0%Q
  | S k => (sum_to k f + f k)%Q
  end.

(** the same configuration without normalization *)
Definition without_normalization (c : cfg) : cfg :=
  {| cfg_edges := {| ec_categories := ec_categories (cfg_edges c); ec_normalized := false;
                     ec_units := ec_units (cfg_edges c); ec_ids := ec_ids (cfg_edges c) |};
     cfg_nodes := cfg_nodes c; cfg_gen_nodes := cfg_gen_nodes c;
     cfg_gen_edges := cfg_gen_edges c |}.

(** replaced edges refer to inserted edges *)
Definition shortcuts_in_range (es : list proto_edge) : Prop :=
  forall e p q, In e es -> pe_sc e = Some (p, q) -> p < length es /\ q < length es.
