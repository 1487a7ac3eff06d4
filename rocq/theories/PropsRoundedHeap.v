(** C63: routing as it runs.  The arithmetic is that of `f64` with infinities,
    the queue is std's BinaryHeap, and its comparisons calculate with `f64` as
    well. *)
From Coq Require Import String List Bool Arith ZArith QArith Qabs Lia Lqa Permutation.
From Verif Require Import Base F64 Lib ModelUnits ModelConfig ModelGraph ModelBuild Spec Examples
  ModelDijkstra SpecRouting ProofDijkstra ProofRouting ExamplesRouting PropsRouting
  ModelHeap SpecHeap ProofHeap ProofHeapSearch PropsHeap ModelRounded SpecRounded ProofRounded ExamplesRounded ProofRoundedRun ProofRounding64 ProofOverflow PropsRounded
  PropsOverflow ModelRoundedHeap SpecRoundedHeap ProofRoundedHeap ProofCompare64 ProofGrid64.
Import ListNotations.
Open Scope list_scope.
Open Scope nat_scope.

Lemma of64_ieee : of64 ieee.
Proof. right. reflexivity. Qed.

(** *** Comparing: costs that differ by less than 1.5e-6 are equal *)
Theorem C63_compare a b :
  ((Qabs (a - b) <= (3 # 2000000) - Qpower (2 # 1) (- (70)))%Q -> rapprox_cmp ieee (Fin a) (Fin b) = Some Eq) /\
  ((accuracy64 <= Qabs (a - b))%Q -> rapprox_cmp ieee (Fin a) (Fin b) = Some (a ?= b)%Q).
Proof.
  destruct (rapprox_eq_64 ieee a b of64_ieee) as [H1 H2]. unfold rapprox_cmp. split; intros H; [now rewrite H1|now rewrite H2].
Qed.
Print Assumptions C63_compare.
Example C63_compare_case :
  rapprox_cmp ieee (Fin 1) (Fin (1 + (14999 # 10000000000)))%Q = Some Eq /\
  rapprox_cmp ieee (Fin 1) (Fin (1 + (15001 # 10000000000)))%Q = Some Lt /\
  rapprox_cmp ieee (Fin top64) (Fin 0) = Some Gt.
Proof.
  split; [vm_compute; reflexivity|]. split; [vm_compute; reflexivity|]. destruct (C63_compare top64 0) as [_ H]. rewrite H; vm_compute; [reflexivity|discriminate].
Qed.

(** *** The search *)
Lemma accuracy64_nonneg : (0 <= accuracy64)%Q.
Proof. vm_compute. discriminate. Qed.
Lemma heap_error64_nonneg m k : (0 <= heap_error64 m k)%Q.
Proof. unfold heap_error64. apply err_nonneg. exact accuracy64_nonneg. Qed.
Lemma top64_nonneg : (0 <= top64)%Q.
Proof. vm_compute. discriminate. Qed.
Lemma ieee_nn x : not_negative x -> not_negative (ieee x).
Proof. apply (ofin_nn u64 eta64 rnd64 rounding64 top64 top64_nonneg). Qed.

(** the heap as one of the queues of C60, without overflow *)
Lemma heap64_run hav c ch1 ch2 es ns g0 g rc fuel sh s t (R : Q -> Prop) eps :
  1 <= ch1 -> 1 <= ch2 -> build hav c ch1 ch2 es ns = Ok g0 -> remeasured g0 g -> nonneg_metrics g ->
  rhistory_h sh -> roomy sh g -> s < node_count g -> t < node_count g -> fits64 g (rc_alphas rc) ->
  (0 <= eps)%Q -> R 0%Q ->
  (forall q e ms w, R q -> edge_metrics g e = Ok ms -> radd ieee (Fin q) (rdot ieee (rc_alphas rc) ms) = Fin w -> R w) ->
  (forall a b, R a -> R b -> rapprox_eq ieee (Fin a) (Fin b) = true -> (Qabs (a - b) <= eps)%Q) ->
  exists st pick, rhistory st /\ roomy st g /\ capacity st = capacity sh /\
    picks_min (inject_Z (Z.of_nat (2 + (edge_count g FWD + 2) * fuel)) * eps) pick /\
    answer (rcompute_best_path (rfin rnd64) pick fuel st g rc s t) = answer (rcompute_best_path_h ieee fuel sh g rc s t) /\
    answer (rcompute_best_path ieee pick fuel st g rc s t) = answer (rcompute_best_path_h ieee fuel sh g rc s t).
Proof.
  intros H1 H2 E Hg Hnn Hh Hr Hs Ht [Hn He] He0 R0 Rs Rc.
  pose proof (remeasured_wf _ _ Hg (build_wf _ _ _ _ _ _ _ H1 H2 E)) as Hwf.
  destruct (rheap_run ieee g rc fuel sh s t R eps ieee_nn Hwf Hnn Hh Hs Ht He0 R0 Rs Rc) as (st & pick & A & C & D & F).
  assert (Hr' : roomy st g) by (unfold roomy; now rewrite C).
  exists st, pick. split; [exact A|]. split; [exact Hr'|]. split; [exact C|]. split; [exact D|]. split; [|exact F].
  rewrite <- (C60_no_overflow_binary64 hav c ch1 ch2 es ns g0 g pick fuel st rc s t H1 H2 E Hg Hnn A Hr' Hs Ht (proj1 D) Hn He). exact F.
Qed.
Lemma heap64_near hav c ch1 ch2 es ns g0 g rc fuel sh s t :
  1 <= ch1 -> 1 <= ch2 -> build hav c ch1 ch2 es ns = Ok g0 -> remeasured g0 g -> nonneg_metrics g ->
  rhistory_h sh -> roomy sh g -> s < node_count g -> t < node_count g -> fits64 g (rc_alphas rc) ->
  exists st pick, rhistory st /\ roomy st g /\ capacity st = capacity sh /\
    picks_min (heap_error64 (edge_count g FWD) fuel) pick /\
    answer (rcompute_best_path (rfin rnd64) pick fuel st g rc s t) = answer (rcompute_best_path_h ieee fuel sh g rc s t) /\
    answer (rcompute_best_path ieee pick fuel st g rc s t) = answer (rcompute_best_path_h ieee fuel sh g rc s t).
Proof.
  intros H1 H2 E Hg Hnn Hh Hr Hs Ht Hf.
  apply (heap64_run hav c ch1 ch2 es ns g0 g rc fuel sh s t (fun _ => True) accuracy64); auto using accuracy64_nonneg.
  intros a b _ _ K. destruct (rapprox_eq_64 ieee a b of64_ieee) as [_ H]. apply Qnot_lt_le. intros L. rewrite H in K by lra. discriminate.
Qed.
Lemma ranswered ar ar' fuel sh g rc s t sh' r pick st :
  rcompute_best_path_h ar fuel sh g rc s t = Ok (sh', r) ->
  answer (rcompute_best_path ar' pick fuel st g rc s t) = answer (rcompute_best_path_h ar fuel sh g rc s t) ->
  exists st', rcompute_best_path ar' pick fuel st g rc s t = Ok (st', r).
Proof.
  intros E Ha. rewrite E in Ha. destruct (rcompute_best_path ar' pick fuel st g rc s t) as [[st' r']| | |]; cbn [answer fst snd] in Ha; try discriminate.
  injection Ha as ->. eauto.
Qed.

(** a found path is a road from the source to the destination *)
Theorem C63_real_path hav c ch1 ch2 es ns g0 g fuel st rc s t st' p :
  1 <= ch1 -> 1 <= ch2 -> build hav c ch1 ch2 es ns = Ok g0 -> remeasured g0 g -> nonneg_metrics g ->
  rhistory_h st -> roomy st g -> s < node_count g -> t < node_count g -> fits64 g (rc_alphas rc) ->
  rcompute_best_path_h ieee fuel st g rc s t = Ok (st', Some p) ->
  p_src_idx p = s /\ p_dst_idx p = t /\
  node_id g s = Ok (p_src_id p) /\ node_id g t = Ok (p_dst_id p) /\ p_costs p = None /\
  connects g s (p_edges p) t /\
  (exists q, costs_as g (rc_alphas rc) (p_edges p) q) /\
  (rc_algo rc = ACHDijkstra -> up_down g (p_edges p)).
Proof.
  intros H1 H2 E Hg Hnn Hh Hr Hs Ht Hf Ec.
  destruct (heap64_near hav c ch1 ch2 es ns g0 g rc fuel st s t) as (st0 & pick & Hh0 & Hr0 & _ & [Hv _] & Ha & _); auto.
  destruct (ranswered _ _ _ _ _ _ _ _ _ _ _ _ Ec Ha) as (st1 & E1).
  exact (C60_real_path rnd64 u64 eta64 hav c ch1 ch2 es ns g0 g pick fuel st0 rc s t st1 p rounding64 H1 H2 E Hg Hnn Hh0 Hr0 Hs Ht Hv E1).
Qed.
Print Assumptions C63_real_path.

(** a path is found if and only if there is a road *)
Theorem C63_found_iff hav c ch1 ch2 es ns g0 g fuel st rc s t st' r :
  1 <= ch1 -> 1 <= ch2 -> build hav c ch1 ch2 es ns = Ok g0 -> remeasured g0 g -> nonneg_metrics g ->
  rhistory_h st -> roomy st g -> s < node_count g -> t < node_count g -> fits64 g (rc_alphas rc) -> Forall not_negative (rc_alphas rc) ->
  rcompute_best_path_h ieee fuel st g rc s t = Ok (st', r) ->
  (rc_algo rc = ADijkstra -> (r = None <-> ~ exists l q, connects g s l t /\ costs_as g (rc_alphas rc) l q)) /\
  (rc_algo rc = ACHDijkstra -> (r = None <-> ~ exists l q, connects g s l t /\ costs_as g (rc_alphas rc) l q /\ up_down g l)).
Proof.
  intros H1 H2 E Hg Hnn Hh Hr Hs Ht Hf Hal Ec.
  destruct (heap64_near hav c ch1 ch2 es ns g0 g rc fuel st s t) as (st0 & pick & Hh0 & Hr0 & _ & [Hv _] & Ha & _); auto.
  destruct (ranswered _ _ _ _ _ _ _ _ _ _ _ _ Ec Ha) as (st1 & E1).
  exact (C60_found_iff rnd64 u64 eta64 hav c ch1 ch2 es ns g0 g pick fuel st0 rc s t st1 r rounding64 H1 H2 E Hg Hnn Hh0 Hr0 Hs Ht Hal Hv E1).
Qed.
Print Assumptions C63_found_iff.

(** the search ends, with an answer if the last node has edges in both directions *)
Theorem C63_total hav c ch1 ch2 es ns g0 g fuel st rc s t :
  1 <= ch1 -> 1 <= ch2 -> build hav c ch1 ch2 es ns = Ok g0 -> remeasured g0 g -> nonneg_metrics g -> last_node_connected g ->
  rhistory_h st -> roomy st g -> (node_count g <> 2 -> capacity st <= node_count g) ->
  s < node_count g -> t < node_count g -> fits64 g (rc_alphas rc) -> Forall not_negative (rc_alphas rc) ->
  (forall i, rc_algo rc <> AExplorator i) ->
  2 + 2 * powers (edge_count g FWD) (node_count g) <= fuel ->
  exists st' r, rcompute_best_path_h ieee fuel st g rc s t = Ok (st', r).
Proof.
  intros H1 H2 E Hg Hnn Hl Hh Hr Hc Hs Ht Hf Hal Hex Hfu.
  destruct (heap64_near hav c ch1 ch2 es ns g0 g rc fuel st s t) as (st0 & pick & Hh0 & Hr0 & Hcap & [Hv _] & Ha & _); auto.
  destruct (C60_total rnd64 u64 eta64 hav c ch1 ch2 es ns g0 g pick fuel st0 rc s t rounding64 H1 H2 E Hg Hnn Hl Hh0 Hr0) as (st1 & r & E1); auto.
  - now rewrite Hcap.
  - rewrite E1 in Ha. cbn [answer snd] in Ha. destruct (rcompute_best_path_h ieee fuel st g rc s t) as [[x y]| | |]; try discriminate. eauto.
Qed.
Print Assumptions C63_total.

(** the answer is nearly as cheap as any road *)
Theorem C63_cheapest hav c ch1 ch2 es ns g0 g fuel st rc s t st' p :
  1 <= ch1 -> 1 <= ch2 -> build hav c ch1 ch2 es ns = Ok g0 -> remeasured g0 g -> nonneg_metrics g ->
  rhistory_h st -> roomy st g -> s < node_count g -> t < node_count g -> fits64 g (rc_alphas rc) ->
  rcompute_best_path_h ieee fuel st g rc s t = Ok (st', Some p) ->
  manageable (length (rc_alphas rc)) (p_edges p) ->
  exists qp, costs_as g (rc_alphas rc) (p_edges p) qp /\
    forall l q, connects g s l t -> costs_as g (rc_alphas rc) l q -> manageable (length (rc_alphas rc)) l ->
      (rc_algo rc = ADijkstra \/ (rc_algo rc = ACHDijkstra /\ up_down g l)) ->
      (qp <= (1 + Qpower (2 # 1) (- (30))) * q + 3 * heap_error64 (edge_count g FWD) fuel + Qpower (2 # 1) (- (1000)))%Q.
Proof.
  intros H1 H2 E Hg Hnn Hh Hr Hs Ht Hf Ec Hlen.
  destruct (heap64_near hav c ch1 ch2 es ns g0 g rc fuel st s t) as (st0 & pick & Hh0 & Hr0 & _ & Hp & Ha & _); auto.
  destruct (ranswered _ _ _ _ _ _ _ _ _ _ _ _ Ec Ha) as (st1 & E1).
  exact (C60_cheapest_binary64 hav c ch1 ch2 es ns g0 g pick _ fuel st0 rc s t st1 p H1 H2 E Hg Hnn Hh0 Hr0 Hs Ht (heap_error64_nonneg _ _) Hp E1 Hlen).
Qed.
Print Assumptions C63_cheapest.

(** If alphas and metrics are multiples of powers of two, e.g. whole numbers,
    the answer is as cheap as any road that isn't too expensive, without any
    error *)
Theorem C63_cheapest_grid hav c ch1 ch2 es ns g0 g fuel st rc s t st' p a b :
  1 <= ch1 -> 1 <= ch2 -> build hav c ch1 ch2 es ns = Ok g0 -> remeasured g0 g -> nonneg_metrics g ->
  rhistory_h st -> roomy st g -> s < node_count g -> t < node_count g -> fits64 g (rc_alphas rc) ->
  (- (19) <= a + b)%Z -> Forall (finite_on_grid a) (rc_alphas rc) ->
  (forall e ms, edge_metrics g e = Ok ms -> Forall (finite_on_grid b) ms) ->
  rcompute_best_path_h ieee fuel st g rc s t = Ok (st', Some p) ->
  manageable (length (rc_alphas rc)) (p_edges p) ->
  exists qp, costs_as g (rc_alphas rc) (p_edges p) qp /\
    forall l q, connects g s l t -> costs_as g (rc_alphas rc) l q -> manageable (length (rc_alphas rc)) l ->
      (rc_algo rc = ADijkstra \/ (rc_algo rc = ACHDijkstra /\ up_down g l)) ->
      (q <= Qpower (2 # 1) (a + b + 29))%Q ->
      (qp <= q)%Q.
Proof.
  intros H1 H2 E Hg Hnn Hh Hr Hs Ht Hf Hab Hga Hgm Ec Hlen.
  destruct (heap64_run hav c ch1 ch2 es ns g0 g rc fuel st s t (on_grid (a + b)) 0%Q) as (st0 & pick & Hh0 & Hr0 & _ & Hp & Ha & _); auto.
  - lra.
  - apply grid_zero.
  - intros q e ms w Hq Em Ew. revert w Ew. apply (of64_grid ieee _ _ of64_ieee). apply fgrid_plus; [intros x Ex; injection Ex as <-; exact Hq|].
    apply (rdot_grid ieee a b _ of64_ieee); eauto. intros x Ex. injection Ex as <-. apply grid_zero.
  - intros x y Hx Hy. apply (grid_apart ieee (a + b) x y of64_ieee Hab Hx Hy).
  - destruct (ranswered _ _ _ _ _ _ _ _ _ _ _ _ Ec Ha) as (st1 & E1).
    destruct (C60_cheapest_binary64 hav c ch1 ch2 es ns g0 g pick (inject_Z (Z.of_nat (2 + (edge_count g FWD + 2) * fuel)) * 0)%Q fuel st0 rc s t st1 p) as (qp & Hqp & H); auto.
    { rewrite Qmult_0_r. lra. }
    exists qp. split; [exact Hqp|]. intros l q Hl Hq Hm Hal Hsmall. specialize (H l q Hl Hq Hm Hal). rewrite Qmult_0_r in H.
    apply (grid_close (a + b)); [exact (costs_grid _ _ _ _ _ _ Hga Hgm Hqp)|exact (costs_grid _ _ _ _ _ _ Hga Hgm Hq)|].
    fold (B (a + b + 29)) in Hsmall. fold (B (- (30))) in H. fold (B (- (1000))) in H.
    assert (K1 : (B (- (30)) * B (a + b + 29) == B (a + b + -1))%Q) by (rewrite <- B_plus; replace (- (30) + (a + b + 29))%Z with (a + b + -1)%Z by lia; reflexivity).
    assert (K2 : (B (a + b) == 2 * B (a + b + -1))%Q) by (rewrite <- B_succ; replace (a + b + -1 + 1)%Z with (a + b)%Z by lia; reflexivity).
    assert (K3 : (B (- (30)) * q <= B (- (30)) * B (a + b + 29))%Q).
    { rewrite !(Qmult_comm (B (- (30)))). apply Qmult_le_compat_r; [exact Hsmall|]. apply Qlt_le_weak, B_pos. }
    assert (K4 : (B (- (1000)) < B (a + b + -1))%Q).
    { apply Qlt_le_trans with (B (- (20))); [apply by_lt; vm_compute; reflexivity|]. apply B_mono. lia. }
    set (x := B (a + b)) in *. set (y := B (a + b + -1)) in *. set (w := B (- (30))) in *. set (v := B (- (1000))) in *.
    assert (K5 : ((1 + w) * q == q + w * q)%Q) by ring. lra.
Qed.
Print Assumptions C63_cheapest_grid.

(** *** Cases *)
Lemma fits_of_list g alphas : (Z.of_nat (2 * node_count g + length alphas + 2) <= 2 ^ 20)%Z ->
  forallb (fun ms => match weighted_sum alphas ms with Some w => Qle_bool w (inject_Z (2 ^ 1000)) | None => true end) (metrics g) = true ->
  fits64 g alphas.
Proof.
  intros Hn H. split; [exact Hn|]. intros e q Hq. inversion Hq as [|? ? ms a b Em Ew Hc]; subst. inversion Hc; subst.
  apply idx_ok in Em. apply nth_error_In in Em. rewrite forallb_forall in H. specialize (H _ Em). cbv beta in H. rewrite Ew in H.
  apply Qle_bool_iff in H. lra.
Qed.
Lemma grid_of_list k l : forallb (fun x => match x with Fin q => Pos.eqb (Qden (Qred (q * Qpower (2 # 1) (- k)))) 1 | _ => true end) l = true ->
  Forall (finite_on_grid k) l.
Proof.
  intros H. apply Forall_forall. intros x Hx q ->. rewrite forallb_forall in H. specialize (H _ Hx). cbv beta iota in H. apply Pos.eqb_eq in H.
  exists (Qnum (Qred (q * Qpower (2 # 1) (- k)))). fold (B k). fold (B (- k)) in *.
  assert (E : (Qred (q * B (- k)) == inject_Z (Qnum (Qred (q * B (- k)))))%Q).
  { destruct (Qred (q * B (- k))) as [n d]. cbn [Qnum Qden] in *. subst d. reflexivity. }
  rewrite <- E, Qred_correct. symmetry. apply scaled.
Qed.

(** 0.1 + 0.2 and a loop that can't be left; the queue's comparisons calculate *)
Example C63_paths_case :
  (fits64 tenth_graph [Fin 1]) /\ roomy dijkstra_new tenth_graph /\
  (exists st' p, rcompute_best_path_h ieee 50 dijkstra_new tenth_graph (ex_rc ADijkstra [Fin 1]) 0 3 = Ok (st', Some p) /\ p_edges p = [1; 3]) /\
  (exists st', rcompute_best_path_h ieee 50 dijkstra_new sink_graph (ex_rc ADijkstra [Fin 1]) 0 1 = Ok (st', None)) /\
  (exists st1 st2 p, rcompute_best_path_h ieee 50 dijkstra_new tenth_graph (ex_rc ADijkstra [Fin 1]) 0 3 = Ok (st1, Some p) /\
     rcompute_best_path_h ieee 50 st1 rt_graph (ex_rc ACHDijkstra [Fin (1 # 2)]) 0 4 = Ok (st2, Some (path_new 0 0 4 4 [0; 3; 5]))).
Proof.
  split; [apply fits_of_list; vm_compute; [discriminate|reflexivity]|]. split; [apply new_roomy; discriminate|]. split.
  { do 2 eexists. split; [vm_compute; reflexivity|reflexivity]. }
  split; [eexists; vm_compute; reflexivity|]. do 3 eexists. split; [vm_compute; reflexivity|]. vm_compute. reflexivity.
Qed.
Example C63_total_case :
  2 + 2 * powers (edge_count loop_graph FWD) (node_count loop_graph) <= 10 /\ fits64 loop_graph [Fin 0] /\
  exists st' r, rcompute_best_path_h ieee 10 dijkstra_new loop_graph (ex_rc ADijkstra [Fin 0]) 0 0 = Ok (st', r).
Proof.
  split; [vm_compute; lia|]. split; [apply fits_of_list; vm_compute; [discriminate|reflexivity]|]. do 2 eexists. vm_compute. reflexivity.
Qed.
(** whole metrics and half an alpha *)
Example C63_grid_case : exists st' p, fits64 rt_graph [Fin (1 # 2)] /\ (- (19) <= - (1) + 0)%Z /\
  Forall (finite_on_grid (- (1))) [Fin (1 # 2)] /\ (forall e ms, edge_metrics rt_graph e = Ok ms -> Forall (finite_on_grid 0) ms) /\
  rcompute_best_path_h ieee 50 dijkstra_new rt_graph (ex_rc ACHDijkstra [Fin (1 # 2)]) 0 4 = Ok (st', Some p) /\ p_edges p = [0; 3; 5] /\
  manageable 1 (p_edges p).
Proof.
  do 2 eexists. split; [apply fits_of_list; vm_compute; [discriminate|reflexivity]|]. split; [lia|].
  split; [apply grid_of_list; vm_compute; reflexivity|]. split.
  { intros e ms Em. apply grid_of_list. apply idx_ok in Em. apply nth_error_In in Em.
    assert (F : forallb (forallb (fun x => match x with Fin q => Pos.eqb (Qden (Qred (q * Qpower (2 # 1) (- 0)))) 1 | _ => true end)) (metrics rt_graph) = true)
      by (vm_compute; reflexivity).
    rewrite forallb_forall in F. exact (F _ Em). }
  split; [vm_compute; reflexivity|]. split; [reflexivity|]. vm_compute. discriminate.
Qed.

(** *** Without these conditions a cheaper road may be missed, cf.
    [C18_heap_optimal_refuted], here with numbers of f64 *)
Definition tie64_graph : graph := Eval vm_compute in
  mkGraph (g_cfg tie_graph) (node_ids tie_graph) (node_coords tie_graph) (node_levels tie_graph)
    (fwd_dsts tie_graph) (fwd_offsets tie_graph) (fwd_to_fwd tie_graph) (bwd_dsts tie_graph) (bwd_offsets tie_graph) (bwd_to_fwd tie_graph)
    (map (map (rfin rnd64)) (metrics tie_graph)) None (edge_ids tie_graph) (edge_ids_map tie_graph) (sc_offsets tie_graph) (sc_edges_arr tie_graph).
Theorem C63_optimal_refuted : exists hav c es ns g0 g rc s t,
  build hav c 1 1 es ns = Ok g0 /\ remeasured g0 g /\ nonneg_metrics g /\ roomy dijkstra_new g /\ s < node_count g /\ t < node_count g /\
  (forall e ms x, edge_metrics g e = Ok ms -> In (Fin x) ms -> (rnd64 x == x)%Q) /\ fits64 g (rc_alphas rc) /\
  rc_algo rc = ADijkstra /\ rc_alphas rc = [Fin 1] /\
  exists l q, connects g s l t /\ costs_as g (rc_alphas rc) l q /\
    exists st' p qp, rcompute_best_path_h ieee 20 dijkstra_new g rc s t = Ok (st', Some p) /\
      costs_as g (rc_alphas rc) (p_edges p) qp /\ (q + (7 # 10000000) < qp)%Q.
Proof.
  exists ex_hav, (ex_cfg false), tie_es, tie_ns, tie_graph, tie64_graph, (ex_rc ADijkstra [Fin 1]), 0, 5.
  split; [exact tie_build|]. split; [exists (map (map (rfin rnd64)) (metrics tie_graph)), None; split; [vm_compute; reflexivity|do 3 eexists; vm_compute; reflexivity]|]. split; [apply nonneg_of_list; vm_compute; repeat constructor; discriminate|]. split; [apply new_roomy; discriminate|].
  split; [vm_compute; lia|]. split; [vm_compute; lia|]. split.
  { assert (F : forallb (forallb (fun x => match x with Fin q => Qeq_bool (rnd64 q) q | _ => true end)) (metrics tie64_graph) = true)
      by (vm_compute; reflexivity).
    intros e ms x Em Hx. apply idx_ok in Em. apply nth_error_In in Em. rewrite forallb_forall in F. specialize (F _ Em).
    rewrite forallb_forall in F. specialize (F _ Hx). cbv beta iota in F. now apply Qeq_bool_iff. }
  split; [apply fits_of_list; vm_compute; [discriminate|reflexivity]|]. split; [reflexivity|]. split; [reflexivity|].
  exists [1; 3; 4; 5]. eexists. split; [|split].
  - repeat (econstructor; [split; reflexivity|]). constructor.
  - repeat (econstructor; [vm_compute; reflexivity|vm_compute; reflexivity|]). constructor.
  - do 3 eexists. split; [vm_compute; reflexivity|]. split.
    + cbn [p_edges]. repeat (econstructor; [vm_compute; reflexivity|vm_compute; reflexivity|]). constructor.
    + vm_compute. reflexivity.
Qed.
Print Assumptions C63_optimal_refuted.
