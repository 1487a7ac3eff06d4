(** Properties C01-C15: building a graph and accessing it *)
From Coq Require Import String List Bool Arith ZArith QArith Qabs Lia Permutation Sorted.
From Verif Require Import Base F64 Lib ModelApprox ModelUnits ModelConfig ModelGraph ModelBuild
  ProofApprox ProofNodes ProofStages ProofBuild ProofGraph ProofOrder ProofMetrics Spec ProofProps
  Examples.
Import ListNotations.
Open Scope nat_scope.

(** *** C01: the nodes of a graph are exactly the endpoints of its edges *)
Theorem C01_node_set hav c ch1 ch2 es ns g :
  1 <= ch1 -> 1 <= ch2 -> build hav c ch1 ch2 es ns = Ok g ->
  (forall id, (exists i, node_id g i = Ok id) <-> is_endpoint es id) /\
  (forall i j x y, node_id g i = Ok x -> node_id g j = Ok y -> i < j -> (x < y)%Z) /\
  (forall i, (exists x, node_id g i = Ok x) <-> i < node_count g).
Proof.
  intros H1 H2 E. destruct (build_nodes _ _ _ _ _ _ _ H1 H2 E) as (Hs & Hin & _).
  split; [|split].
  - intros id. rewrite <- Hin. split.
    + intros (i & Hi). apply idx_ok in Hi. eapply nth_error_In; eauto.
    + intros H. apply In_nth_error in H. destruct H as [i Hi]. exists i. now apply idx_ok.
  - intros i j x y Hx Hy. apply idx_ok in Hx, Hy. eapply sorted_lt_nth; eauto.
  - intros i. split.
    + intros (x & Hx). apply idx_ok in Hx. eapply nth_error_lt; eauto.
    + apply idx_lt.
Qed.
Print Assumptions C01_node_set.
Example C01_case :
  build ex_hav (ex_cfg false) 2 3 ex_es ex_ns = Ok ex_graph /\
  map (node_id ex_graph) [0; 1; 2; 3] = [Ok 10%Z; Ok 20%Z; Ok 30%Z; Panic] /\
  is_endpoint ex_es 20.
Proof.
  split; [exact ex_build|]. split; [reflexivity|].
  exists (ex_edge 1 10 20 2 None). split; [now left|now right].
Qed.

(** *** C02: inserting nodes *)
(** a node builder that can be reached by inserting edges and nodes *)
Definition reachable (es : list proto_edge) (ns : list proto_node) (b : node_builder) : Prop :=
  insert_nodes (eb_next (insert_edges es)) ns = Ok b.

Theorem C02_insert_accepts es ns b n :
  reachable es ns b ->
  exists b' r, nb_insert b n = Ok (b', r) /\ reachable es (ns ++ [n]) b' /\
    (r = true <-> is_endpoint es (pn_id n)).
Proof.
  intros E. destruct (insert_nodes_spec es _ ns b (nb_inv_init es) E) as (Hb & _ & _).
  assert (Hr : forall b' r, nb_insert b n = Ok (b', r) -> reachable es (ns ++ [n]) b').
  { intros b' r E'. unfold reachable, insert_nodes in *. rewrite foldM_app, E. cbn [bind foldM].
    rewrite E'. reflexivity. }
  destruct (nb_insert_eq es b n Hb) as [(i & Hi & E')|[Hn E']]; rewrite E' in *.
  - eexists _, true. split; [reflexivity|]. split; [now apply (Hr _ true)|]. split; auto. intros _.
    apply (nbi_ids _ _ Hb). eapply nth_error_In; eauto.
  - eexists _, false. split; [reflexivity|]. split; [now apply (Hr _ false)|].
    split; [discriminate|]. intros Hep. apply (nbi_ids _ _ Hb) in Hep. contradiction.
Qed.
Print Assumptions C02_insert_accepts.

Theorem C02_last_wins hav c ch1 ch2 es ns g :
  1 <= ch1 -> 1 <= ch2 -> build hav c ch1 ch2 es ns = Ok g ->
  forall i id, node_id g i = Ok id ->
    (exists n, last_insertion ns n /\ pn_id n = id /\ node_coord g i = Ok (pn_coord n)) /\
    (exists l, node_level g i = Ok l /\ last_given_level ns id l).
Proof.
  intros H1 H2 E i id Hi. apply idx_ok in Hi.
  destruct (build_nodes _ _ _ _ _ _ _ H1 H2 E) as (_ & _ & _ & _ & H). now apply H.
Qed.
Print Assumptions C02_last_wins.
Example C02_case :
  (exists b, reachable ex_es ex_ns b /\
     (exists b', nb_insert b (ex_node 30 5 (Some 1)) = Ok (b', true)) /\
     nb_insert b (ex_node 99 5 None) = Ok (b, false)) /\
  node_coord ex_graph 0 = Ok {| lat := Fin 1; lon := Fin 1 |} /\ node_level ex_graph 0 = Ok 1.
Proof.
  split; [|split; reflexivity].
  eexists. split; [vm_compute; reflexivity|]. split; [eexists; vm_compute; reflexivity|reflexivity].
Qed.

(** *** C03: no graph without coordinates *)
Theorem C03_missing_coordinate hav c ch1 ch2 es ns id :
  is_endpoint es id -> (forall n, In n ns -> pn_id n <> id) ->
  exists m, build hav c ch1 ch2 es ns = Err m.
Proof. apply build_missing_coord. Qed.
Print Assumptions C03_missing_coordinate.

Theorem C03_all_coordinates hav c ch1 ch2 es ns g :
  1 <= ch1 -> 1 <= ch2 -> build hav c ch1 ch2 es ns = Ok g ->
  forall i, i < node_count g ->
    exists n, last_insertion ns n /\ node_id g i = Ok (pn_id n) /\ node_coord g i = Ok (pn_coord n).
Proof.
  intros H1 H2 E i Hi. destruct (idx_lt (node_ids g) i Hi) as [id Hid].
  destruct (C02_last_wins _ _ _ _ _ _ _ H1 H2 E i id Hid) as [(n & A & <- & B) _]. eauto.
Qed.
Print Assumptions C03_all_coordinates.
Example C03_case :
  is_endpoint ex_es 30 /\ (forall n, In n (firstn 2 ex_ns) -> pn_id n <> 30%Z) /\
  exists m, build ex_hav (ex_cfg false) 2 3 ex_es (firstn 2 ex_ns) = Err m.
Proof.
  split; [exists (ex_edge 2 20 30 3 None); split; [right; now left|now right]|].
  split; [|eexists; vm_compute; reflexivity].
  intros n [<-|[<-|[]]]; discriminate.
Qed.

(** *** C04: looking up nodes by id *)
Theorem C04_node_lookup hav c ch1 ch2 es ns g :
  1 <= ch1 -> 1 <= ch2 -> build hav c ch1 ch2 es ns = Ok g ->
  (forall id i, node_idx_from (node_ids g) id = inl i <-> node_id g i = Ok id) /\
  (forall id i, node_idx_from (node_ids g) id = inr i ->
     (forall j, node_id g j <> Ok id) /\ i <= node_count g /\
     (forall j x, node_id g j = Ok x -> (j < i <-> (x < id)%Z))) /\
  (forall id, node_create_from g id = Ok None <-> forall i, node_id g i <> Ok id) /\
  (forall id i, node_id g i = Ok id ->
     exists co l, node_coord g i = Ok co /\ node_level g i = Ok l /\
       node_create_from g id = Ok (Some {| n_idx := i; n_id := id; n_coord := co; n_level := l |})).
Proof.
  intros H1 H2 E. destruct (build_nodes _ _ _ _ _ _ _ H1 H2 E) as (Hs & Hin & Hc & Hl & _).
  assert (Hinl : forall id i, node_idx_from (node_ids g) id = inl i <-> node_id g i = Ok id).
  { intros id i. rewrite (node_idx_from_found _ _ _ Hs). symmetry. apply idx_ok. }
  assert (Hcr : forall id i, node_id g i = Ok id ->
     exists co l, node_coord g i = Ok co /\ node_level g i = Ok l /\
       node_create_from g id = Ok (Some {| n_idx := i; n_id := id; n_coord := co; n_level := l |})).
  { intros id i Hi. pose proof Hi as Hi'. apply idx_ok, nth_error_lt in Hi'.
    destruct (idx_lt (node_coords g) i) as [co Hco]; [now rewrite Hc|].
    destruct (idx_lt (node_levels g) i) as [l Hle]; [now rewrite Hl|].
    exists co, l. split; auto. split; auto. unfold node_create_from, node_create.
    apply Hinl in Hi as Hf. rewrite Hf, Hi. unfold node_coord, node_level. rewrite Hco, Hle. reflexivity. }
  split; [exact Hinl|]. split; [|split; [|exact Hcr]].
  - intros id i Ei. pose proof (node_idx_from_spec (node_ids g) id Hs) as H. rewrite Ei in H.
    destruct H as (A & B & C). split; [|split; auto].
    + intros j Hj. apply C. apply idx_ok in Hj. eapply nth_error_In; eauto.
    + intros j x Hj. apply idx_ok in Hj. now apply B.
  - intros id. split.
    + intros Hn i Hi. destruct (Hcr id i Hi) as (co & l & _ & _ & Hx). congruence.
    + intros Hn. unfold node_create_from. destruct (node_idx_from (node_ids g) id) as [i|i] eqn:Ei; auto.
      exfalso. apply (Hn i). now apply Hinl.
Qed.
Print Assumptions C04_node_lookup.
Example C04_case :
  node_idx_from (node_ids ex_graph) 20 = inl 1 /\ node_idx_from (node_ids ex_graph) 25 = inr 2 /\
  node_create_from ex_graph 25 = Ok None.
Proof. repeat split. Qed.

(** *** C05: finalizing neither invents nor loses edges *)
(** [orig e] is the position of the insertion graph edge [e] stems from,
    [rep p] the graph edge representing the p-th inserted edge. *)
Theorem C05_edges_kept hav c ch1 ch2 es ns g :
  1 <= ch1 -> 1 <= ch2 -> build hav c ch1 ch2 es ns = Ok g ->
  exists rep orig : nat -> nat,
    (forall e, e < edge_count g FWD ->
       exists pe, nth_error es (orig e) = Some pe /\ rep (orig e) = e /\ same_ends g e pe /\
         (keeps_edge_ids c -> edge_try_id g e = Ok (pe_id pe)) /\
         (plain_metrics c -> exists ms, edge_metrics g e = Ok ms /\ Forall2 lifted (pe_metrics pe) ms)) /\
    (forall p pe, nth_error es p = Some pe ->
       rep p < edge_count g FWD /\
       exists pe', nth_error es (orig (rep p)) = Some pe' /\ (orig (rep p) = p \/ same_edge pe' pe)) /\
    (forall e pe pe', S e < edge_count g FWD ->
       nth_error es (orig e) = Some pe -> nth_error es (orig (S e)) = Some pe' -> ~ same_edge pe pe').
Proof.
  intros H1 H2 E. destruct (build_edges _ _ _ _ _ _ _ H1 H2 E) as (rep & orig & A & B & C).
  exists rep, orig. split; [|auto]. intros e He. destruct (A e He) as (pe & P1 & P2 & P3 & P4 & P5 & _).
  exists pe. auto.
Qed.
Print Assumptions C05_edges_kept.
Example C05_case :
  edge_count ex_graph FWD = 4 /\ keeps_edge_ids (ex_cfg false) /\ plain_metrics (ex_cfg false) /\
  edge_metrics ex_graph 3 = Ok [Fin (1 # 1000000)].
Proof. split; [reflexivity|]. split; [intros id []|]. repeat split. Qed.

(** *** C06: leaving edges; false for nodes after the last source *)
Theorem C06_fwd_adjacency_partial hav c ch1 ch2 es ns g v :
  1 <= ch1 -> 1 <= ch2 -> build hav c ch1 ch2 es ns = Ok g -> v < node_count g ->
  (exists e s d, edge_from_to g e s d /\ v <= s) ->
  exists l, starting_from g FWD v = Ok l /\ NoDup l /\
    forall e, In e l <-> exists d, edge_from_to g e v d.
Proof.
  intros H1 H2 E Hv (e & s & d & [A B] & C).
  destruct (build_starting _ _ _ _ _ _ _ FWD v H1 H2 E Hv) as [[_ (l & El & Hnd & Hl)]|[Hn _]].
  - exists l. split; auto. split; auto. intros e'. rewrite Hl. simpl. split.
    + intros Hd. destruct (build_dst_total _ _ _ _ _ _ _ FWD e' v H1 H2 E Hd) as [y Hy].
      exists y. split; auto.
    + intros (y & Hy & _). exact Hy.
  - exfalso. apply Hn. exists e, s. auto.
Qed.
Print Assumptions C06_fwd_adjacency_partial.
(** what is missing in C06_fwd_adjacency_partial is exactly a panic *)
Theorem C06_fwd_panic hav c ch1 ch2 es ns g v :
  1 <= ch1 -> 1 <= ch2 -> build hav c ch1 ch2 es ns = Ok g -> v < node_count g ->
  (starting_from g FWD v = Panic <-> forall e s d, edge_from_to g e s d -> s < v).
Proof.
  intros H1 H2 E Hv.
  destruct (build_starting _ _ _ _ _ _ _ FWD v H1 H2 E Hv) as [[(e & s & He & Hs) (l & El & _)]|[Hn Hp]].
  - split; [congruence|]. intros H. simpl in He.
    destruct (build_dst_total _ _ _ _ _ _ _ FWD e s H1 H2 E He) as [d Hd].
    specialize (H e s d (conj He Hd)). lia.
  - split; auto. intros _ e s d [A _]. destruct (le_lt_dec v s); auto. exfalso. apply Hn. eauto.
Qed.
Print Assumptions C06_fwd_panic.
Theorem C06_fwd_adjacency_refuted :
  exists hav c es ns g v, build hav c 1 1 es ns = Ok g /\ v < node_count g /\
    starting_from g FWD v = Panic.
Proof. exists ex_hav, (ex_cfg false), dead_end_es, dead_end_ns, dead_end, 1. split; [exact dead_end_build|]. split; [vm_compute; lia|reflexivity]. Qed.
Print Assumptions C06_fwd_adjacency_refuted.
Example C06_case :
  (exists e s d, edge_from_to ex_graph e s d /\ 0 <= s) /\ starting_from ex_graph FWD 0 = Ok [0; 1].
Proof. split; [exists 0, 0, 2; repeat split; auto with arith|reflexivity]. Qed.

(** *** C07: entering edges; false for nodes after the last destination *)
Theorem C07_bwd_adjacency_partial hav c ch1 ch2 es ns g v :
  1 <= ch1 -> 1 <= ch2 -> build hav c ch1 ch2 es ns = Ok g -> v < node_count g ->
  (exists e s d, edge_from_to g e s d /\ v <= d) ->
  exists l, starting_from g BWD v = Ok l /\ NoDup l /\
    forall e, In e l <-> exists s, edge_from_to g e s v.
Proof.
  intros H1 H2 E Hv (e & s & d & [A B] & C).
  destruct (build_starting _ _ _ _ _ _ _ BWD v H1 H2 E Hv) as [[_ (l & El & Hnd & Hl)]|[Hn _]].
  - exists l. split; auto. split; auto. intros e'. rewrite Hl. simpl. split.
    + intros Hd. destruct (build_dst_total _ _ _ _ _ _ _ BWD e' v H1 H2 E Hd) as [y Hy].
      exists y. split; auto.
    + intros (y & _ & Hy). exact Hy.
  - exfalso. apply Hn. exists e, d. auto.
Qed.
Print Assumptions C07_bwd_adjacency_partial.
Theorem C07_bwd_panic hav c ch1 ch2 es ns g v :
  1 <= ch1 -> 1 <= ch2 -> build hav c ch1 ch2 es ns = Ok g -> v < node_count g ->
  (starting_from g BWD v = Panic <-> forall e s d, edge_from_to g e s d -> d < v).
Proof.
  intros H1 H2 E Hv.
  destruct (build_starting _ _ _ _ _ _ _ BWD v H1 H2 E Hv) as [[(e & s & He & Hs) (l & El & _)]|[Hn Hp]].
  - split; [congruence|]. intros H. simpl in He.
    destruct (build_dst_total _ _ _ _ _ _ _ BWD e s H1 H2 E He) as [d Hd].
    specialize (H e d s (conj Hd He)). lia.
  - split; auto. intros _ e s d [_ A]. destruct (le_lt_dec v d); auto. exfalso. apply Hn. eauto.
Qed.
Print Assumptions C07_bwd_panic.
(** the ends reported in both directions belong to the same edge *)
Theorem C07_edge_ends hav c ch1 ch2 es ns g e :
  1 <= ch1 -> 1 <= ch2 -> build hav c ch1 ch2 es ns = Ok g -> e < edge_count g FWD ->
  edge_count g BWD = edge_count g FWD /\
  exists s d, edge_from_to g e s d /\ s < node_count g /\ d < node_count g /\
    exists pe, In pe es /\ node_id g s = Ok (pe_src pe) /\ node_id g d = Ok (pe_dst pe).
Proof.
  intros H1 H2 E He. split.
  - destruct (build_spec _ _ _ _ _ _ _ H1 H2 E) as (b & g0 & K & _ & _ & Hcore & Hnet & _).
    rewrite !(net_edge_count g0 g) by auto. now rewrite !(core_edge_count es b c K g0 Hcore).
  - destruct (build_edges _ _ _ _ _ _ _ H1 H2 E) as (rep & orig & A & _ & _).
    destruct (A e He) as (pe & P1 & _ & (s & d & P2 & P3 & P4) & _).
    exists s, d. split; auto. split; [|split].
    + apply idx_ok in P3. eapply nth_error_lt; eauto.
    + apply idx_ok in P4. eapply nth_error_lt; eauto.
    + exists pe. split; auto. eapply nth_error_In; eauto.
Qed.
Print Assumptions C07_edge_ends.
Definition dead_start_es : list proto_edge := [ ex_edge 0 1 0 1 None ].
Definition dead_start : graph :=
  Eval vm_compute in unok empty_graph (build ex_hav (ex_cfg false) 1 1 dead_start_es dead_end_ns).
Theorem C07_bwd_adjacency_refuted :
  exists hav c es ns g v, build hav c 1 1 es ns = Ok g /\ v < node_count g /\
    starting_from g BWD v = Panic.
Proof. exists ex_hav, (ex_cfg false), dead_start_es, dead_end_ns, dead_start, 1. split; [vm_compute; reflexivity|]. split; [vm_compute; lia|reflexivity]. Qed.
Print Assumptions C07_bwd_adjacency_refuted.
Example C07_case :
  (exists e s d, edge_from_to ex_graph e s d /\ 2 <= d) /\ starting_from ex_graph BWD 2 = Ok [0; 2].
Proof. split; [exists 0, 0, 2; repeat split; auto|reflexivity]. Qed.

(** *** C08: between *)
Theorem C08_between hav c ch1 ch2 es ns g s d r :
  1 <= ch1 -> 1 <= ch2 -> build hav c ch1 ch2 es ns = Ok g -> s < node_count g ->
  between g FWD s d = Ok r ->
  match r with
  | Some e => edge_from_to g e s d
  | None => forall e, ~ edge_from_to g e s d
  end.
Proof.
  intros H1 H2 E Hs Er. unfold between in Er. apply bind_ok in Er. destruct Er as (l & El & Er).
  apply find_dst_spec in Er.
  destruct (build_starting _ _ _ _ _ _ _ FWD s H1 H2 E Hs) as [[_ (l' & El' & _ & Hl)]|[_ Hp]]; [|congruence].
  assert (l' = l) by congruence. subst l'. simpl in Hl. destruct r as [e|].
  - destruct Er as [A B]. apply Hl in A. split; auto.
  - intros e [A B]. apply (Er e); auto. now apply Hl.
Qed.
Print Assumptions C08_between.
Theorem C08_between_defined hav c ch1 ch2 es ns g s d :
  1 <= ch1 -> 1 <= ch2 -> build hav c ch1 ch2 es ns = Ok g -> s < node_count g ->
  (exists e s' d', edge_from_to g e s' d' /\ s <= s') ->
  exists r, between g FWD s d = Ok r.
Proof.
  intros H1 H2 E Hs Hg.
  destruct (C06_fwd_adjacency_partial _ _ _ _ _ _ _ s H1 H2 E Hs Hg) as (l & El & _ & Hl).
  unfold between. rewrite El. cbn [bind]. apply find_dst_total. intros e He. apply Hl in He.
  destruct He as (y & _ & Hy). eauto.
Qed.
Print Assumptions C08_between_defined.
Example C08_case :
  between ex_graph FWD 0 1 = Ok (Some 1) /\ between ex_graph FWD 1 0 = Ok None.
Proof. split; reflexivity. Qed.

(** *** C09: edge ids *)
Theorem C09_edge_ids hav c ch1 ch2 es ns g :
  1 <= ch1 -> 1 <= ch2 -> build hav c ch1 ch2 es ns = Ok g ->
  (forall id e, edge_try_idx_from g id = Ok e <-> edge_try_id g e = Ok (Some id)) /\
  (forall id, (exists e, edge_try_idx_from g id = Ok e) \/ (exists m, edge_try_idx_from g id = Err m)) /\
  (forall id e f, edge_try_id g e = Ok (Some id) -> edge_try_id g f = Ok (Some id) -> e = f).
Proof.
  intros H1 H2 E. destruct (build_ids _ _ _ _ _ _ _ H1 H2 E) as [A B].
  split; auto. split; auto. intros id e f He Hf. apply A in He, Hf. congruence.
Qed.
Print Assumptions C09_edge_ids.
Theorem C09_duplicate_ids hav c ch1 ch2 es ns p q pe qe i :
  1 <= ch1 -> 1 <= ch2 -> shortcuts_in_range es ->
  nth_error es p = Some pe -> nth_error es q = Some qe ->
  pe_id pe = Some i -> pe_id qe = Some i ->
  (pe_src pe <> pe_src qe \/ pe_dst pe <> pe_dst qe) ->
  exists m, build hav c ch1 ch2 es ns = Err m.
Proof. apply build_dup_ids. Qed.
Print Assumptions C09_duplicate_ids.
Example C09_case :
  edge_try_idx_from ex_graph 4 = Ok 3 /\ edge_try_id ex_graph 3 = Ok (Some 4) /\
  shortcuts_in_range [ex_edge 1 10 20 2 None; ex_edge 1 20 30 2 None] /\
  (exists m, build ex_hav (ex_cfg false) 1 1 [ex_edge 1 10 20 2 None; ex_edge 1 20 30 2 None] ex_ns = Err m).
Proof.
  split; [reflexivity|]. split; [reflexivity|]. split; [|eexists; vm_compute; reflexivity].
  intros e p q [<-|[<-|[]]]; discriminate.
Qed.

(** *** C10: adjacency lists are sorted by descending level *)
Theorem C10_level_order hav c ch1 ch2 es ns g d v l1 e l2 :
  1 <= ch1 -> 1 <= ch2 -> build hav c ch1 ch2 es ns = Ok g ->
  starting_from g d v = Ok (l1 ++ e :: l2) ->
  forall f, In f l2 -> forall x y lx ly,
    dst_idx g d e = Ok x -> dst_idx g d f = Ok y ->
    node_level g x = Ok lx -> node_level g y = Ok ly -> ly <= lx.
Proof.
  intros H1 H2 E El f Hf. pose proof (build_starting_levels _ _ _ _ _ _ _ _ _ _ H1 H2 E El) as H.
  apply StronglySorted_app_inv in H. destruct H as (_ & H & _).
  inversion H as [|? ? _ HF]; subst. rewrite Forall_forall in HF. now apply HF.
Qed.
Print Assumptions C10_level_order.
(** hence the edges before the first downward one are precisely the upward ones *)
Theorem C10_break_skips_downward hav c ch1 ch2 es ns g d v l1 e l2 x lx lv :
  1 <= ch1 -> 1 <= ch2 -> build hav c ch1 ch2 es ns = Ok g ->
  starting_from g d v = Ok (l1 ++ e :: l2) ->
  dst_idx g d e = Ok x -> node_level g x = Ok lx -> lx < lv ->
  forall f y ly, In f l2 -> dst_idx g d f = Ok y -> node_level g y = Ok ly -> ly < lv.
Proof.
  intros H1 H2 E El Hx Hlx Hlt f y ly Hf Hy Hly.
  pose proof (C10_level_order _ _ _ _ _ _ _ _ _ _ _ _ H1 H2 E El f Hf x y lx ly Hx Hy Hlx Hly). lia.
Qed.
Print Assumptions C10_break_skips_downward.
Example C10_case :
  starting_from ex_graph FWD 0 = Ok ([] ++ 0 :: [1]) /\ dst_idx ex_graph FWD 0 = Ok 2 /\
  dst_idx ex_graph FWD 1 = Ok 1 /\ node_level ex_graph 2 = Ok 2 /\ node_level ex_graph 1 = Ok 0.
Proof. repeat split. Qed.

(** *** C11: shortcuts *)
Theorem C11_shortcuts hav c ch1 ch2 es ns g :
  1 <= ch1 -> 1 <= ch2 -> build hav c ch1 ch2 es ns = Ok g ->
  exists rep orig : nat -> nat,
    (forall e, e < edge_count g FWD ->
       exists pe, nth_error es (orig e) = Some pe /\ rep (orig e) = e /\ same_ends g e pe /\
         (keeps_edge_ids c -> edge_try_id g e = Ok (pe_id pe)) /\
         sc_edges g e = Ok (match pe_sc pe with
                            | Some (p, q) => Some (rep p, rep q)
                            | None => None
                            end) /\
         is_shortcut g e = Ok (match pe_sc pe with Some _ => true | None => false end)) /\
    (forall p pe, nth_error es p = Some pe ->
       rep p < edge_count g FWD /\
       exists pe', nth_error es (orig (rep p)) = Some pe' /\ (orig (rep p) = p \/ same_edge pe' pe)).
Proof.
  intros H1 H2 E. destruct (build_edges _ _ _ _ _ _ _ H1 H2 E) as (rep & orig & A & B & _).
  exists rep, orig. split; auto. intros e He. destruct (A e He) as (pe & P1 & P2 & P3 & P4 & _ & P6).
  exists pe. repeat (split; auto).
  destruct (build_is_shortcut _ _ _ _ _ _ _ e H1 H2 E He) as (r & Er & Es).
  rewrite Er in P6. injection P6 as ->. rewrite Es. destruct (pe_sc pe) as [[]|]; reflexivity.
Qed.
Print Assumptions C11_shortcuts.
(** a shortcut declared with edges that were never inserted makes finalizing panic *)
Theorem C11_replaced_edges_exist hav c ch1 ch2 es ns g :
  1 <= ch1 -> 1 <= ch2 -> build hav c ch1 ch2 es ns = Ok g -> shortcuts_in_range es.
Proof.
  intros H1 H2 E. destruct (build_spec _ _ _ _ _ _ _ H1 H2 E) as (b & g0 & K & _ & _ & Hcore & _).
  exact (cs_valid _ _ _ _ _ Hcore).
Qed.
Print Assumptions C11_replaced_edges_exist.
Example C11_case :
  sc_edges ex_graph 0 = Ok (Some (1, 2)) /\ is_shortcut ex_graph 1 = Ok false /\
  edge_try_id ex_graph 0 = Ok (Some 3) /\ edge_try_id ex_graph 1 = Ok (Some 1) /\
  edge_try_id ex_graph 2 = Ok (Some 2).
Proof. repeat split. Qed.

(** *** C12: stored metrics *)
Theorem C12_metrics_not_small hav c ch1 ch2 es ns g :
  1 <= ch1 -> 1 <= ch2 -> build hav c ch1 ch2 es ns = Ok g -> plain_metrics c ->
  forall e ms, edge_metrics g e = Ok ms ->
    (forall x, In x ms -> not_too_small x) /\
    exists pe, In pe es /\ same_ends g e pe /\ Forall2 lifted (pe_metrics pe) ms.
Proof.
  intros H1 H2 E Hp e ms Hms.
  destruct (build_spec _ _ _ _ _ _ _ H1 H2 E) as (b & g0 & K & _ & _ & Hcore & Hnet & _ & _ & Hm).
  pose proof Hp as (P1 & P2 & P3). destruct (Hm P1 P2 P3) as [Em _].
  assert (He : e < edge_count g FWD).
  { rewrite (net_edge_count g0 g), (core_edge_count es b c K g0 Hcore) by auto.
    apply idx_ok, nth_error_lt in Hms. rewrite Em, (cs_metrics _ _ _ _ _ Hcore), map_length in Hms. exact Hms. }
  split.
  - intros x Hx. apply (metrics_not_small (metrics g)) with (m := ms); auto.
    + rewrite Em. apply (cs_small _ _ _ _ _ Hcore).
    + apply idx_ok in Hms. eapply nth_error_In; eauto.
  - destruct (build_edges _ _ _ _ _ _ _ H1 H2 E) as (rep & orig & A & _ & _).
    destruct (A e He) as (pe & Q1 & _ & Q3 & _ & Q5 & _). exists pe.
    split; [eapply nth_error_In; eauto|]. split; auto.
    destruct (Q5 Hp) as (ms' & Q6 & Q7). congruence.
Qed.
Print Assumptions C12_metrics_not_small.
(** finding: NaN and infinite metrics pass the check *)
Theorem C12_nan_accepted :
  exists hav c es ns g, build hav c 1 1 es ns = Ok g /\ plain_metrics c /\
    edge_metrics g 0 = Ok [NaN] /\ edge_metrics g 1 = Ok [PInf].
Proof.
  exists ex_hav, (ex_cfg false),
    [ {| pe_id := None; pe_src := 0; pe_dst := 1; pe_metrics := [NaN]; pe_sc := None |};
      {| pe_id := None; pe_src := 1; pe_dst := 0; pe_metrics := [PInf]; pe_sc := None |} ], dead_end_ns.
  eexists. split; [vm_compute; reflexivity|]. repeat split.
Qed.
Print Assumptions C12_nan_accepted.
Example C12_case :
  plain_metrics (ex_cfg false) /\ edge_metrics ex_graph 3 = Ok [Fin (1 # 1000000)] /\
  edge_metrics ex_graph 0 = Ok [Fin 5] /\
  (exists m, build ex_hav (ex_cfg false) 1 1 [ex_edge 1 10 20 (-1) None] ex_ns = Err m).
Proof. split; [repeat split|]. split; [reflexivity|]. split; [reflexivity|]. eexists. vm_compute. reflexivity. Qed.

(** *** C13: normalization *)
Lemma build_normalized_split hav c ch1 ch2 es ns g :
  build hav c ch1 ch2 es ns = Ok g ->
  exists b g0 g1, insert_nodes (eb_next (insert_edges es)) ns = Ok b /\ nb_inv es b /\
    build_core c ch1 ch2 b = Ok g0 /\ generate hav g0 = Ok g1 /\ normalize g1 = Ok g /\
    build hav (without_normalization c) ch1 ch2 es ns = Ok (setn g1).
Proof.
  intros E. destruct (build_split _ _ _ _ _ _ _ E) as (b & g0 & g1 & Eb & Hb & E0 & E1 & E2).
  exists b, g0, g1. repeat (split; auto). rewrite build_unnormalized, Eb. cbn [bind].
  rewrite E0. cbn [bind]. unfold rmap. now rewrite E1.
Qed.
Lemma gen_steps_normalized hav gcs : forall g g', foldM (gen_step hav) gcs g = Ok g' ->
  ec_normalized (cfg_edges (g_cfg g')) = ec_normalized (cfg_edges (g_cfg g)) /\
  length (metrics g') = length (metrics g).
Proof.
  induction gcs as [|gc gcs IH]; intros g g' E; simpl in E.
  - injection E as <-. auto.
  - apply bind_ok in E. destruct E as (g1 & E1 & E2). destruct (IH _ _ E2) as [-> ->].
    clear - E1. destruct gc as [info id|u id d|u id|fu fid tu tid|fu fid tu tid|ru rid au aid bu bid|rows eid info];
      simpl in E1.
    + destruct info; try discriminate; injection E1 as <-; auto.
    + injection E1 as <-. simpl. now rewrite map_length.
    + destruct u; try discriminate. apply bind_ok in E1. destruct E1 as (ms & A & E1). injection E1 as <-.
      simpl. apply mapM_length in A. now rewrite enumerate_length in A.
    + apply bind_ok in E1. destruct E1 as (mi & _ & E1). apply bind_ok in E1. destruct E1 as (ms & A & E1).
      injection E1 as <-. simpl. apply mapM_length in A. auto.
    + apply bind_ok in E1. destruct E1 as (mi & _ & E1). apply bind_ok in E1. destruct E1 as (ms & A & E1).
      apply bind_ok in E1. destruct E1 as (us & _ & E1). apply bind_ok in E1. destruct E1 as (is & _ & E1).
      injection E1 as <-. simpl. apply mapM_length in A. auto.
    + apply bind_ok in E1. destruct E1 as (mi & _ & E1). apply bind_ok in E1. destruct E1 as (mj & _ & E1).
      apply bind_ok in E1. destruct E1 as (ms & A & E1).
      injection E1 as <-. simpl. apply mapM_length in A. auto.
    + revert g E1. induction rows as [|r rows IH]; intros g E1; simpl in E1.
      * injection E1 as <-. auto.
      * apply bind_ok in E1. destruct E1 as (g2 & A & E1). destruct (IH _ E1) as [-> ->].
        unfold merge_row in A. apply bind_ok in A. destruct A as (e & _ & A).
        apply bind_ok in A. destruct A as (ms & B & A). injection A as <-. simpl. split; auto.
        unfold merge_cols in B.
        apply (foldM_inv _ (fun l => length l = length (metrics g))) in B; auto.
        intros s [i [id|]] t _ Hs Ht; simpl in Ht; [|congruence].
        destruct (String.eqb id eid); [congruence|].
        apply bind_ok in Ht. destruct Ht as (k & _ & Ht). apply bind_ok in Ht. destruct Ht as (tk & _ & Ht).
        destruct (tok_f64 tk); [|discriminate].
        apply bind_ok in Ht. destruct Ht as (o & _ & Ht). apply bind_ok in Ht. destruct Ht as (nw & _ & Ht).
        apply set_ok in Ht. destruct Ht as [_ ->]. now rewrite upd_length.
Qed.
Lemma build_generated hav c ch1 ch2 es b g0 g1 :
  1 <= ch1 -> 1 <= ch2 -> nb_inv es b ->
  build_core c ch1 ch2 b = Ok g0 -> generate hav g0 = Ok g1 ->
  ec_normalized (cfg_edges (g_cfg g1)) = ec_normalized (cfg_edges c) /\
  length (metrics g1) = edge_count g1 FWD.
Proof.
  intros H1 H2 Hb E0 E1. pose proof (build_core_spec es b c ch1 ch2 g0 H1 H2 Hb E0) as Hcore.
  destruct (generate_net _ _ _ E1) as (Hnet & _ & _).
  unfold generate in E1. apply bind_ok in E1. destruct E1 as (c' & Ec & E1).
  destruct (gen_nodes_edges _ _ _ Ec) as [A _].
  destruct (gen_dup _ _); [discriminate|].
  destruct (gen_steps_normalized _ _ _ _ E1) as [B C]. split.
  - rewrite B. simpl. rewrite A. now rewrite (cs_cfg _ _ _ _ _ Hcore).
  - rewrite C. simpl. rewrite (net_edge_count g0 g1) by auto.
    rewrite (core_edge_count _ _ _ _ _ Hcore). rewrite (cs_metrics _ _ _ _ _ Hcore). now rewrite map_length.
Qed.

(** [g0] is the graph of the same history without normalization *)
Theorem C13_normalized hav c ch1 ch2 es ns g :
  1 <= ch1 -> 1 <= ch2 -> build hav c ch1 ch2 es ns = Ok g ->
  ec_normalized (cfg_edges c) = true ->
  exists g0, build hav (without_normalization c) ch1 ch2 es ns = Ok g0 /\
    edge_count g FWD = edge_count g0 FWD /\ edge_count g0 FWD <> 0 /\
    forall i (q : nat -> Q), i < metric_dim g0 ->
      (forall e, e < edge_count g0 FWD -> metric_of g0 e i = Some (Fin (q e))) ->
      exists mu, metric_mean g i = Ok (Some (Fin mu)) /\
        (mu == sum_to (edge_count g0 FWD) q / inject_Z (Z.of_nat (edge_count g0 FWD)))%Q /\
        (forall e, e < edge_count g FWD ->
           exists y, metric_of g e i = Some y /\ lifted (Fin (q e / mu)) y) /\
        ((forall e, e < edge_count g FWD -> (3 # 2000000 <= Qabs (q e / mu))%Q) ->
         exists y : nat -> Q, (forall e, e < edge_count g FWD -> metric_of g e i = Some (Fin (y e))) /\
           (sum_to (edge_count g FWD) y / inject_Z (Z.of_nat (edge_count g FWD)) == 1)%Q).
Proof.
  intros H1 H2 E Hn.
  destruct (build_normalized_split _ _ _ _ _ _ _ E) as (b & g0 & g1 & Eb & Hb & E0 & E1 & E2 & E3).
  destruct (build_generated hav c ch1 ch2 es b g0 g1 H1 H2 Hb E0 E1) as [Hf Hl].
  rewrite Hn in Hf.
  destruct (normalize_spec g1 g E2 Hf Hl) as [Hm Hspec].
  destruct (normalize_net g1 g E2) as (Hnet & _).
  pose proof (net_edge_count g1 g FWD Hnet) as Hcnt.
  exists (setn g1). split; auto. change (edge_count (setn g1) FWD) with (edge_count g1 FWD).
  split; auto. split; auto. intros i q Hi Hq.
  destruct (Hspec i q Hi Hq) as (mu & A & B & C & D).
  exists mu. split; auto. split; auto. rewrite Hcnt. split; auto.
  intros Hbig. exists (fun e => q e / mu)%Q. split.
  - intros e He. destruct (D e He) as (y & Ey & Ly). rewrite Ey. f_equal. apply lifted_fin_same; auto.
  - rewrite sum_to_scale.
    assert (Hpos : (0 < inject_Z (Z.of_nat (edge_count g1 FWD)))%Q) by now apply of_nat_pos.
    set (n := inject_Z (Z.of_nat (edge_count g1 FWD))) in *.
    assert (Hmu : ~ (mu == 0)%Q).
    { intros Hz. rewrite Hz in C. revert C. unfold Qle. simpl. lia. }
    setoid_replace (sum_to (edge_count g1 FWD) q) with (mu * n)%Q.
    + field. split; auto. intros Hz. rewrite Hz in Hpos. revert Hpos. unfold Qlt. simpl. lia.
    + rewrite B. field. intros Hz. rewrite Hz in Hpos. revert Hpos. unfold Qlt. simpl. lia.
Qed.
Print Assumptions C13_normalized.
Theorem C13_errors hav c ch1 ch2 es ns g0 :
  1 <= ch1 -> 1 <= ch2 -> ec_normalized (cfg_edges c) = true ->
  build hav (without_normalization c) ch1 ch2 es ns = Ok g0 ->
  (edge_count g0 FWD = 0 \/
   exists i (q : nat -> Q), i < metric_dim g0 /\
     (forall e, e < edge_count g0 FWD -> metric_of g0 e i = Some (Fin (q e))) /\
     (Qabs (sum_to (edge_count g0 FWD) q / inject_Z (Z.of_nat (edge_count g0 FWD))) < 3 # 2000000)%Q) ->
  exists m, build hav c ch1 ch2 es ns = Err m.
Proof.
  intros H1 H2 Hn E Hbad. rewrite build_unnormalized in E.
  apply bind_ok in E. destruct E as (b & Eb & E). apply bind_ok in E. destruct E as (gc & E0 & E).
  unfold rmap in E. apply bind_ok in E. destruct E as (g1 & E1 & E). injection E as <-.
  assert (Hb : nb_inv es b).
  { destruct (insert_nodes_total es _ ns (nb_inv_init es)) as (b' & Eb' & Hb'). congruence. }
  destruct (build_generated hav c ch1 ch2 es b gc g1 H1 H2 Hb E0 E1) as [Hf Hl]. rewrite Hn in Hf.
  unfold build, finalize. rewrite Eb. cbn [bind]. rewrite E0. cbn [bind]. rewrite E1. cbn [bind].
  change (edge_count (setn g1) FWD) with (edge_count g1 FWD) in Hbad.
  change (metric_dim (setn g1)) with (metric_dim g1) in Hbad.
  destruct (normalize g1) as [g| | |] eqn:E2.
  - exfalso. destruct (normalize_spec g1 g E2 Hf Hl) as [Hm Hspec].
    destruct Hbad as [Hz|(i & q & Hi & Hq & Hlt)]; [contradiction|].
    destruct (Hspec i q Hi Hq) as (mu & A & B & C & D). rewrite <- B in Hlt.
    apply (Qlt_not_le _ _ Hlt C).
  - eauto.
  - exfalso. unfold normalize in E2. rewrite Hf in E2.
    destruct Hbad as [Hz|(i & q & Hi & Hq & Hlt)].
    + rewrite Hz in E2. discriminate.
    + destruct (Nat.eqb_spec (edge_count g1 FWD) 0); [discriminate|].
      match type of E2 with (if ?x then _ else _) = _ => assert (Hx : x = true) end.
      { destruct (sums_nth (metrics g1) (repeat f0 (metric_dim g1)) i 0 q) as (s & Es & Hs).
        - rewrite nth_error_repeat by auto. reflexivity.
        - intros e He. rewrite Hl in He. specialize (Hq e He). unfold metric_of, edge_metrics, idx in Hq.
          simpl in Hq. destruct (nth_error (metrics g1) e) as [m|]; [|discriminate]. eauto.
        - apply existsb_exists. exists (Fin (s / inject_Z (Z.of_nat (edge_count g1 FWD)))). split.
          + apply in_map_iff. exists (Fin s). split.
            * unfold of_nat. apply fdiv_fin. intros Hz.
              pose proof (of_nat_pos (edge_count g1 FWD) n) as Hp. rewrite Hz in Hp. revert Hp. unfold Qlt. simpl. lia.
            * eapply nth_error_In. exact Es.
          + apply approx_eq_fin. rewrite Hs, Hl.
            setoid_replace ((0 + sum_to (edge_count g1 FWD) q) / inject_Z (Z.of_nat (edge_count g1 FWD)) - 0)%Q
              with (sum_to (edge_count g1 FWD) q / inject_Z (Z.of_nat (edge_count g1 FWD)))%Q
              by (unfold Qdiv; ring). exact Hlt. }
      rewrite Hx in E2. discriminate.
  - exfalso. unfold normalize in E2. rewrite Hf in E2. clear - E2.
    destruct (_ =? _); [discriminate|]. destruct (existsb _ _); [discriminate|].
    destruct (mapM _ _) eqn:Em; cbn [bind] in E2; try discriminate.
    clear - Em. revert Em.
    assert (Hne : forall mu m, normalize_vec mu m <> Diverge).
    { intros mu m. unfold normalize_vec. induction (enumerate m) as [|[i x] l IH]; simpl; [discriminate|].
      destruct (idx mu i) eqn:Ei; cbn [bind]; try discriminate.
      - destruct (mapM _ l); cbn [bind]; try discriminate. congruence.
      - unfold idx in Ei. destruct (nth_error mu i); discriminate. }
    match goal with |- mapM (normalize_vec ?mu) _ = _ -> _ => generalize mu end. intros mu.
    induction (metrics g1) as [|m l IH]; simpl; [discriminate|].
    destruct (normalize_vec mu m) eqn:Ev; cbn [bind]; try discriminate; [|exfalso; now apply (Hne mu m)].
    destruct (mapM _ l); cbn [bind]; try discriminate. auto.
Qed.
Print Assumptions C13_errors.
Example C13_case :
  ec_normalized (cfg_edges (ex_cfg true)) = true /\
  build ex_hav (ex_cfg true) 2 3 ex_es ex_ns = Ok ex_graph_norm /\
  without_normalization (ex_cfg true) = ex_cfg false /\
  (exists mu, metric_mean ex_graph_norm 0 = Ok (Some (Fin mu)) /\ mu == (10 + (1 # 1000000)) / 4)%Q.
Proof.
  split; [reflexivity|]. split; [exact ex_build_norm|]. split; [reflexivity|].
  eexists. split; [reflexivity|]. reflexivity.
Qed.

(** *** C14: chunk sizes *)
Theorem C14_chunk_size hav c ch1 ch2 ch1' ch2' es ns :
  1 <= ch1 -> 1 <= ch2 -> 1 <= ch1' -> 1 <= ch2' ->
  build hav c ch1 ch2 es ns = build hav c ch1' ch2' es ns.
Proof. apply build_chunks. Qed.
Print Assumptions C14_chunk_size.
Example C14_case : build ex_hav (ex_cfg false) 1 1 ex_es ex_ns = Ok ex_graph.
Proof. vm_compute. reflexivity. Qed.

(** *** C15: insertion order *)
Theorem C15_insertion_order hav c ch1 ch2 es es' ns :
  1 <= ch1 -> 1 <= ch2 -> Permutation es es' ->
  NoDup (map (fun e => (pe_src e, pe_dst e, pe_id e)) es) ->
  (forall e, In e es -> pe_sc e = None) ->
  build hav c ch1 ch2 es ns = build hav c ch1 ch2 es' ns.
Proof. apply build_order. Qed.
Print Assumptions C15_insertion_order.
Definition ex_es_plain : list proto_edge :=
  [ ex_edge 1 10 20 2 None; ex_edge 2 20 30 3 None; ex_edge 4 30 10 1 None ].
Example C15_case :
  NoDup (map (fun e => (pe_src e, pe_dst e, pe_id e)) ex_es_plain) /\
  (forall e, In e ex_es_plain -> pe_sc e = None) /\
  (exists g, build ex_hav (ex_cfg false) 1 1 ex_es_plain ex_ns = Ok g /\
             build ex_hav (ex_cfg false) 1 1 (rev ex_es_plain) ex_ns = Ok g).
Proof.
  split; [repeat constructor; simpl; intuition discriminate|].
  split; [intros e [<-|[<-|[<-|[]]]]; reflexivity|].
  eexists. split; vm_compute; reflexivity.
Qed.

(** *** C41: finalizing well-formed input never panics *)
Theorem C41_no_panic hav c ch1 ch2 es ns :
  1 <= ch1 -> 1 <= ch2 -> shortcuts_in_range es ->
  cfg_gen_nodes c = [] -> cfg_gen_edges c = [] ->
  (forall e, In e es -> length (pe_metrics e) = length (ec_units (cfg_edges c))) ->
  (exists g, build hav c ch1 ch2 es ns = Ok g) \/ (exists m, build hav c ch1 ch2 es ns = Err m).
Proof.
  intros H1 H2 Hv G1 G2 Hd.
  destruct (insert_nodes_total es _ ns (nb_inv_init es)) as (b & Eb & Hb).
  unfold build, finalize. rewrite Eb. cbn [bind].
  destruct (build_core_total es b c ch1 ch2 H1 H2 Hb Hv) as [(g & Eg)|(m & ->)]; [|cbn [bind]; eauto].
  rewrite Eg. cbn [bind]. pose proof (build_core_spec es b c ch1 ch2 g H1 H2 Hb Eg) as Hcore.
  unfold generate. rewrite (cs_cfg _ _ _ _ _ Hcore), G1, G2. cbn [foldM bind]. cbn [gen_dup existsb].
  cbn [bind]. apply normalize_total. simpl. unfold metric_dim. simpl.
  intros m Hm. rewrite (cs_metrics _ _ _ _ _ Hcore) in Hm. apply in_map_iff in Hm.
  destruct Hm as (k & <- & Hk). rewrite map_length.
  destruct (core_in_edge es b c _ g Hb Hcore k Hk) as (pe & Epe & -> & _). simpl.
  apply Hd. eapply nth_error_In; eauto.
Qed.
Print Assumptions C41_no_panic.
Example C41_case :
  shortcuts_in_range ex_es /\
  (forall e, In e ex_es -> length (pe_metrics e) = length (ec_units (cfg_edges (ex_cfg true)))).
Proof.
  split.
  - intros e p q [<-|[<-|[<-|[<-|[<-|[]]]]]] H; try discriminate. injection H as <- <-. simpl. lia.
  - intros e [<-|[<-|[<-|[<-|[<-|[]]]]]]; reflexivity.
Qed.
