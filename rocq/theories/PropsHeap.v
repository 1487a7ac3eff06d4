(** C44: the binary heap behind the routing.  The properties C16-C22 hold for
    the search with the queue as it is implemented: std's BinaryHeap with an
    order that regards close costs as equal and, hence, isn't transitive. *)
From Coq Require Import String List Bool Arith ZArith QArith Qabs Lia Lqa Permutation.
From Verif Require Import Base F64 Lib ModelApprox ProofApprox ModelUnits ModelConfig ModelGraph ModelBuild Spec Examples
  ModelDijkstra SpecRouting ProofDijkstra ProofRouting ExamplesRouting PropsRouting
  ModelHeap SpecHeap ProofHeap ProofHeapSearch.
Import ListNotations.
Open Scope list_scope.
Open Scope nat_scope.

(** *** C44: the queue by itself *)

(** what a sequence of pushes ([Some]) and pops ([None]) leaves and delivers *)
Fixpoint heap_ops (ops : list (option costnode)) (h : list costnode) : list costnode * list costnode :=
  match ops with
  | [] => (h, [])
  | Some x :: t => heap_ops t (heap_push rev_le x h)
  | None :: t => match heap_pop rev_le h with
                 | None => heap_ops t h
                 | Some (x, h') => let r := heap_ops t h' in (fst r, x :: snd r)
                 end
  end.
Definition pushed (ops : list (option costnode)) : list costnode :=
  flat_map (fun o => match o with Some x => [x] | None => [] end) ops.

Lemma heap_ops_perm ops : forall h, Permutation (fst (heap_ops ops h) ++ snd (heap_ops ops h)) (h ++ pushed ops).
Proof.
  induction ops as [|[x|] ops IH]; intros h; cbn [heap_ops pushed flat_map]; [reflexivity| |].
  - rewrite IH, heap_push_perm. cbn [app]. apply Permutation_middle.
  - destruct (heap_pop rev_le h) as [[x h']|] eqn:E; [|apply IH].
    destruct (heap_pop_perm _ _ _ _ _ E) as [Hp _]. cbn [fst snd]. rewrite Hp, <- Permutation_middle.
    cbn [app]. constructor. apply IH.
Qed.
Lemma heap_ops_ok nn (R : Q -> Prop) eps (He : (0 <= eps)%Q)
  (Rc : forall a b, R a -> R b -> (a < b + TOL)%Q -> (a <= b + eps)%Q) ops : forall n h,
  heap_ok nn R eps n h -> Forall (entry_ok nn R) (pushed ops) -> heap_ok nn R eps (n + 2 * length ops) (fst (heap_ops ops h)).
Proof.
  induction ops as [|[x|] ops IH]; intros n h Hh Hf; cbn [heap_ops pushed flat_map length] in *.
  - rewrite Nat.add_0_r. exact Hh.
  - cbn [app] in Hf. inversion Hf; subst. apply (heap_ok_le nn R eps He (n + 1 + 2 * length ops)); [lia|]. apply IH; auto.
    now apply push_ok.
  - cbn [app] in Hf. destruct (heap_pop rev_le h) as [[x h']|] eqn:E.
    + destruct (pop_ok nn R eps He Rc n h x h' Hh E) as (A & _ & _). cbn [fst].
      apply (heap_ok_le nn R eps He (n + 2 + 2 * length ops)); [lia|]. now apply IH.
    + apply (heap_ok_le nn R eps He (n + 2 * length ops)); [lia|]. now apply IH.
Qed.
Lemma max_bound l i : In i l -> i < S (list_max l).
Proof. intros H. assert (Hm : list_max l <= list_max l) by lia. rewrite list_max_le, Forall_forall in Hm. specialize (Hm i H). lia. Qed.
Lemma heap_ops_pop (R : Q -> Prop) eps (He : (0 <= eps)%Q)
  (Rc : forall a b, R a -> R b -> (a < b + TOL)%Q -> (a <= b + eps)%Q) ops x h' :
  (forall c, In c (pushed ops) -> exists q, cn_cost c = Fin q /\ (0 <= q)%Q /\ R q) ->
  heap_pop rev_le (fst (heap_ops ops [])) = Some (x, h') ->
  forall y a b, In y (fst (heap_ops ops [])) -> cn_cost x = Fin a -> cn_cost y = Fin b ->
    (a <= b + inject_Z (Z.of_nat (2 * length ops)) * eps)%Q.
Proof.
  intros Hf E y a b Hy Ea Eb. set (nn := S (list_max (map cn_idx (pushed ops)))).
  destruct (pop_ok nn R eps He Rc (2 * length ops) (fst (heap_ops ops [])) x h') as (_ & _ & H); [|exact E|].
  - apply (heap_ops_ok nn R eps He Rc ops 0).
    + split; [constructor|]. intros i k u v _ Hu. destruct i; discriminate.
    + apply Forall_forall. intros c Hc. split; [|now apply Hf]. apply max_bound. now apply in_map.
  - specialize (H y Hy). unfold ckey in H. now rewrite Ea, Eb in H.
Qed.

(** nothing gets lost or made up *)
Theorem C44_contents ops : Permutation (fst (heap_ops ops []) ++ snd (heap_ops ops [])) (pushed ops).
Proof. exact (heap_ops_perm ops []). Qed.
Print Assumptions C44_contents.

(** an entry is delivered if there is one *)
Theorem C44_nonempty h : heap_pop rev_le h = None <-> h = [].
Proof. split; [apply heap_pop_none|now intros ->]. Qed.
Print Assumptions C44_nonempty.

(** what is delivered is the cheapest entry up to the accuracy times the number
    of operations so far *)
Theorem C44_delivers ops x h' :
  (forall c, In c (pushed ops) -> exists q, cn_cost c = Fin q /\ (0 <= q)%Q) ->
  heap_pop rev_le (fst (heap_ops ops [])) = Some (x, h') ->
  forall y a b, In y (fst (heap_ops ops [])) -> cn_cost x = Fin a -> cn_cost y = Fin b ->
    (a <= b + inject_Z (Z.of_nat (2 * length ops)) * accuracy)%Q.
Proof.
  intros Hf. apply (heap_ops_pop (fun _ => True)).
  - unfold accuracy. lra.
  - intros a b _ _ H. unfold TOL, accuracy in *. lra.
  - intros c Hc. destruct (Hf c Hc) as (q & A & B). eauto.
Qed.
Print Assumptions C44_delivers.

(** if costs that differ do so by at least the accuracy, it is the cheapest one *)
Theorem C44_exact ops x h' :
  (forall c, In c (pushed ops) -> exists q, cn_cost c = Fin q /\ (0 <= q)%Q) ->
  (forall c1 c2 a b, In c1 (pushed ops) -> In c2 (pushed ops) -> cn_cost c1 = Fin a -> cn_cost c2 = Fin b ->
     (a < b)%Q -> (a + accuracy <= b)%Q) ->
  heap_pop rev_le (fst (heap_ops ops [])) = Some (x, h') ->
  forall y a b, In y (fst (heap_ops ops [])) -> cn_cost x = Fin a -> cn_cost y = Fin b -> (a <= b)%Q.
Proof.
  intros Hf Hd E y a b Hy Ea Eb.
  pose proof (heap_ops_pop (fun q => exists c, In c (pushed ops) /\ cn_cost c = Fin q) 0 (Qle_refl 0)) as H.
  assert (Hx : (a <= b + inject_Z (Z.of_nat (2 * length ops)) * 0)%Q); [|lra].
  apply (H) with (x := x) (h' := h') (y := y); auto.
  - intros a' b' (c1 & I1 & E1) (c2 & I2 & E2) Hlt. destruct (Qlt_le_dec b' a') as [Hba|Hba]; [|lra].
    specialize (Hd c2 c1 b' a' I2 I1 E2 E1 Hba). unfold TOL, accuracy in *. lra.
  - intros c Hc. destruct (Hf c Hc) as (q & A & B). exists q. split; [auto|]. split; [auto|]. eauto.
Qed.
Print Assumptions C44_exact.

Definition entry (i : nat) (q : Q) : costnode := {| cn_idx := i; cn_cost := Fin q; cn_dir := FWD |}.
Example C44_case : heap_ops [Some (entry 0 5); Some (entry 1 3); Some (entry 2 4); None; Some (entry 3 1); None; None] [] =
  ([entry 0 5], [entry 1 3; entry 3 1; entry 2 4]).
Proof. vm_compute. reflexivity. Qed.

(** Otherwise it isn't, not even according to the order itself: an entry is
    delivered although another one is less. *)
Theorem C44_least_refuted : exists ops x h' y,
  (forall c, In c (pushed ops) -> exists q, cn_cost c = Fin q /\ (0 <= q)%Q) /\
  heap_pop rev_le (fst (heap_ops ops [])) = Some (x, h') /\ In y (fst (heap_ops ops [])) /\
  cn_cmp y x = Some Lt.
Proof.
  exists [Some (entry 0 (28 # 10000000)); Some (entry 1 (14 # 10000000)); Some (entry 9 5); Some (entry 2 0)].
  exists (entry 0 (28 # 10000000)). eexists. exists (entry 2 0). split; [|split; [vm_compute; reflexivity|split]].
  - intros c [<-|[<-|[<-|[<-|[]]]]]; eexists; (split; [reflexivity|]); apply Qle_bool_iff; reflexivity.
  - vm_compute. auto.
  - vm_compute. reflexivity.
Qed.
Print Assumptions C44_least_refuted.

(** *** The routing properties with this queue *)

Lemma answered fuel sh g rc s t sh' r pick st :
  compute_best_path_h fuel sh g rc s t = Ok (sh', r) ->
  answer (compute_best_path pick fuel st g rc s t) = answer (compute_best_path_h fuel sh g rc s t) ->
  exists st', compute_best_path pick fuel st g rc s t = Ok (st', r).
Proof.
  intros E Ha. rewrite E in Ha. destruct (compute_best_path pick fuel st g rc s t) as [[st' r']| | |]; cbn [answer fst snd] in Ha; try discriminate.
  injection Ha as ->. eauto.
Qed.
Lemma heap_error_nonneg m k : (0 <= heap_error m k)%Q.
Proof. unfold heap_error. apply err_nonneg. unfold accuracy. lra. Qed.

Theorem C16_heap hav c ch1 ch2 es ns g fuel st rc s t st' p :
  1 <= ch1 -> 1 <= ch2 -> build hav c ch1 ch2 es ns = Ok g -> nonneg_metrics g ->
  history_h st -> roomy st g -> s < node_count g -> t < node_count g ->
  compute_best_path_h fuel st g rc s t = Ok (st', Some p) ->
  p_src_idx p = s /\ p_dst_idx p = t /\
  node_id g s = Ok (p_src_id p) /\ node_id g t = Ok (p_dst_id p) /\ p_costs p = None /\
  connects g s (p_edges p) t /\
  (exists q, costs_as g (rc_alphas rc) (p_edges p) q) /\
  (rc_algo rc = ACHDijkstra -> up_down g (p_edges p)).
Proof.
  intros H1 H2 E Hnn Hh Hr Hs Ht Ec. pose proof (build_wf _ _ _ _ _ _ _ H1 H2 E) as Hwf.
  destruct (heap_run_near g rc fuel st s t Hwf Hnn Hh Hs Ht) as (st0 & pick & Hh0 & Hcap & [Hv _] & Ha).
  destruct (answered _ _ _ _ _ _ _ _ _ _ Ec Ha) as (st1 & E1).
  refine (C16_real_path _ _ _ _ _ _ _ pick fuel st0 rc s t st1 p H1 H2 E Hnn Hh0 _ Hs Ht Hv E1).
  unfold roomy. now rewrite Hcap.
Qed.
Print Assumptions C16_heap.

Theorem C17_heap hav c ch1 ch2 es ns g fuel st rc s t st' r :
  1 <= ch1 -> 1 <= ch2 -> build hav c ch1 ch2 es ns = Ok g -> nonneg_metrics g ->
  history_h st -> roomy st g -> s < node_count g -> t < node_count g -> Forall not_negative (rc_alphas rc) ->
  compute_best_path_h fuel st g rc s t = Ok (st', r) ->
  (rc_algo rc = ADijkstra -> (r = None <-> ~ exists l q, connects g s l t /\ costs_as g (rc_alphas rc) l q)) /\
  (rc_algo rc = ACHDijkstra -> (r = None <-> ~ exists l q, connects g s l t /\ costs_as g (rc_alphas rc) l q /\ up_down g l)).
Proof.
  intros H1 H2 E Hnn Hh Hr Hs Ht Hal Ec. pose proof (build_wf _ _ _ _ _ _ _ H1 H2 E) as Hwf.
  destruct (heap_run_near g rc fuel st s t Hwf Hnn Hh Hs Ht) as (st0 & pick & Hh0 & Hcap & [Hv _] & Ha).
  destruct (answered _ _ _ _ _ _ _ _ _ _ Ec Ha) as (st1 & E1).
  assert (Hr0 : roomy st0 g) by (unfold roomy; now rewrite Hcap). split; intros Hx.
  - exact (C17_found_iff _ _ _ _ _ _ _ pick fuel st0 rc s t st1 r H1 H2 E Hnn Hh0 Hr0 Hs Ht Hal Hv Hx E1).
  - exact (C17_found_iff_ch _ _ _ _ _ _ _ pick fuel st0 rc s t st1 r H1 H2 E Hnn Hh0 Hr0 Hs Ht Hal Hv Hx E1).
Qed.
Print Assumptions C17_heap.

Theorem C17_heap_total_partial hav c ch1 ch2 es ns g fuel st rc s t :
  1 <= ch1 -> 1 <= ch2 -> build hav c ch1 ch2 es ns = Ok g -> nonneg_metrics g -> last_node_connected g ->
  history_h st -> roomy st g -> (node_count g <> 2 -> capacity st <= node_count g) ->
  s < node_count g -> t < node_count g -> Forall not_negative (rc_alphas rc) ->
  (forall i, rc_algo rc <> AExplorator i) ->
  2 + 2 * powers (edge_count g FWD) (node_count g) <= fuel ->
  exists st' r, compute_best_path_h fuel st g rc s t = Ok (st', r).
Proof.
  intros H1 H2 E Hnn Hl Hh Hr Hc Hs Ht Hal Hex Hfu. pose proof (build_wf _ _ _ _ _ _ _ H1 H2 E) as Hwf.
  destruct (heap_run_near g rc fuel st s t Hwf Hnn Hh Hs Ht) as (st0 & pick & Hh0 & Hcap & [Hv _] & Ha).
  destruct (C17_total_partial _ _ _ _ _ _ _ pick fuel st0 rc s t H1 H2 E Hnn Hl Hh0) as (st1 & r & E1); auto.
  - unfold roomy. now rewrite Hcap.
  - now rewrite Hcap.
  - rewrite E1 in Ha. cbn [answer snd] in Ha. destruct (compute_best_path_h fuel st g rc s t) as [[x y]| | |]; try discriminate. eauto.
Qed.
Print Assumptions C17_heap_total_partial.

(** the path is optimal up to an error that grows with the number of pops *)
Theorem C18_heap_bound hav c ch1 ch2 es ns g fuel st rc s t st' p :
  1 <= ch1 -> 1 <= ch2 -> build hav c ch1 ch2 es ns = Ok g -> nonneg_metrics g ->
  history_h st -> roomy st g -> s < node_count g -> t < node_count g -> rc_algo rc = ADijkstra ->
  compute_best_path_h fuel st g rc s t = Ok (st', Some p) ->
  exists qp, costs_as g (rc_alphas rc) (p_edges p) qp /\
    forall l q, connects g s l t -> costs_as g (rc_alphas rc) l q ->
      (qp <= q + 2 * heap_error (edge_count g FWD) fuel)%Q.
Proof.
  intros H1 H2 E Hnn Hh Hr Hs Ht Hx Ec. pose proof (build_wf _ _ _ _ _ _ _ H1 H2 E) as Hwf.
  destruct (heap_run_near g rc fuel st s t Hwf Hnn Hh Hs Ht) as (st0 & pick & Hh0 & Hcap & Hp & Ha).
  destruct (answered _ _ _ _ _ _ _ _ _ _ Ec Ha) as (st1 & E1).
  assert (Hr0 : roomy st0 g) by (unfold roomy; now rewrite Hcap).
  exact (C18_optimal _ _ _ _ _ _ _ pick _ fuel st0 rc s t st1 p H1 H2 E Hnn Hh0 Hr0 Hs Ht (heap_error_nonneg _ _) Hp Hx E1).
Qed.
Print Assumptions C18_heap_bound.

(** ... and optimal if the costs are multiples of a unit, e.g. whole numbers *)
Theorem C18_heap_units hav c ch1 ch2 es ns g fuel st rc s t st' p u :
  1 <= ch1 -> 1 <= ch2 -> build hav c ch1 ch2 es ns = Ok g -> nonneg_metrics g ->
  history_h st -> roomy st g -> s < node_count g -> t < node_count g -> rc_algo rc = ADijkstra ->
  (accuracy <= u)%Q -> multiples_of u g (rc_alphas rc) ->
  compute_best_path_h fuel st g rc s t = Ok (st', Some p) ->
  exists qp, costs_as g (rc_alphas rc) (p_edges p) qp /\
    forall l q, connects g s l t -> costs_as g (rc_alphas rc) l q -> (qp <= q)%Q.
Proof.
  intros H1 H2 E Hnn Hh Hr Hs Ht Hx Hu Hm Ec. pose proof (build_wf _ _ _ _ _ _ _ H1 H2 E) as Hwf.
  destruct (heap_run_exact g rc fuel st s t u Hwf Hnn Hh Hs Ht Hu Hm) as (st0 & pick & Hh0 & Hcap & Hp & Ha).
  destruct (answered _ _ _ _ _ _ _ _ _ _ Ec Ha) as (st1 & E1).
  assert (Hr0 : roomy st0 g) by (unfold roomy; now rewrite Hcap).
  destruct (C18_optimal _ _ _ _ _ _ _ pick 0 fuel st0 rc s t st1 p H1 H2 E Hnn Hh0 Hr0 Hs Ht (Qle_refl 0) Hp Hx E1) as (qp & A & B).
  exists qp. split; [auto|]. intros l q Hl Hq. specialize (B l q Hl Hq). lra.
Qed.
Print Assumptions C18_heap_units.

(** Otherwise a path may be cheaper, here by 0.0000008: 0 -> 1 -> 5 costs 2 and is
    found, since the entries of 1 (cost 1) are delivered before the ones of 2
    and 4 (cost 0.9999986). *)
Definition tie_es : list proto_edge :=
  [ ex_edge 0 0 1 1 None; ex_edge 1 1 5 1 None;
    ex_edge 2 0 2 (9999986 # 10000000) None; ex_edge 3 2 3 (1 # 1000000) None; ex_edge 4 3 4 (1 # 1000000) None;
    ex_edge 5 4 5 (9999986 # 10000000) None; ex_edge 6 5 0 1 None ].
Definition tie_ns : list proto_node :=
  [ ex_node 0 0 None; ex_node 1 1 None; ex_node 2 2 None; ex_node 3 3 None; ex_node 4 4 None; ex_node 5 5 None ].
Definition tie_graph : graph := Eval vm_compute in unok empty_graph (build ex_hav (ex_cfg false) 1 1 tie_es tie_ns).
Lemma tie_build : build ex_hav (ex_cfg false) 1 1 tie_es tie_ns = Ok tie_graph.
Proof. vm_compute. reflexivity. Qed.
Lemma tie_nonneg : nonneg_metrics tie_graph.
Proof. apply nonneg_of_list. vm_compute. repeat constructor; discriminate. Qed.

Theorem C18_heap_optimal_refuted : exists hav c es ns g rc s t,
  build hav c 1 1 es ns = Ok g /\ nonneg_metrics g /\ roomy dijkstra_new g /\ s < node_count g /\ t < node_count g /\
  rc_algo rc = ADijkstra /\ Forall not_negative (rc_alphas rc) /\
  exists l q, connects g s l t /\ costs_as g (rc_alphas rc) l q /\
    forall fuel, 20 <= fuel -> exists st' p qp, compute_best_path_h fuel dijkstra_new g rc s t = Ok (st', Some p) /\
      costs_as g (rc_alphas rc) (p_edges p) qp /\ (q < qp)%Q.
Proof.
  exists ex_hav, (ex_cfg false), tie_es, tie_ns, tie_graph, (ex_rc ADijkstra [Fin 1]), 0, 5.
  split; [exact tie_build|]. split; [exact tie_nonneg|]. split; [apply new_roomy; discriminate|].
  split; [vm_compute; lia|]. split; [vm_compute; lia|]. split; [reflexivity|]. split; [repeat constructor; discriminate|].
  exists [1; 3; 4; 5]. eexists. split; [|split].
  - repeat (econstructor; [split; reflexivity|]). constructor.
  - repeat (econstructor; [vm_compute; reflexivity|vm_compute; reflexivity|]). constructor.
  - intros fuel Hf. replace fuel with (20 + (fuel - 20)) by lia. generalize (fuel - 20) as k. intros k.
    do 3 eexists. split; [vm_compute; reflexivity|]. split.
    + cbn [p_edges]. repeat (econstructor; [vm_compute; reflexivity|vm_compute; reflexivity|]). constructor.
    + vm_compute. reflexivity.
Qed.
Print Assumptions C18_heap_optimal_refuted.

Lemma units_of_list u g alphas : (0 < u)%Q ->
  forallb (fun ms => match weighted_sum alphas ms with Some w => Pos.eqb (Qden (Qred (w / u))) 1 | None => true end)
    (metrics g) = true -> multiples_of u g alphas.
Proof.
  intros Hu H e ms w Em Ew. apply idx_ok in Em. apply nth_error_In in Em. rewrite forallb_forall in H. specialize (H ms Em). rewrite Ew in H.
  apply Pos.eqb_eq in H. exists (Qnum (Qred (w / u))).
  assert (E : (Qred (w / u) == inject_Z (Qnum (Qred (w / u))))%Q).
  { destruct (Qred (w / u)) as [n d]. cbn [Qnum Qden] in *. subst d. reflexivity. }
  rewrite <- E, Qred_correct. field. lra.
Qed.
Example C18_heap_case : exists st' p, (accuracy <= 1)%Q /\ multiples_of 1 rt_graph [Fin 1] /\
  compute_best_path_h 50 dijkstra_new rt_graph (ex_rc ADijkstra [Fin 1]) 0 4 = Ok (st', Some p) /\ p_edges p = [0; 3; 5].
Proof.
  do 2 eexists. split; [unfold accuracy; lra|]. split; [apply units_of_list; [lra|vm_compute; reflexivity]|].
  split; [vm_compute; reflexivity|reflexivity].
Qed.

(** *** contracted graphs *)
Theorem C19_heap_bound hav c ch1 ch2 es ns g fuel st rc s t st' p :
  1 <= ch1 -> 1 <= ch2 -> build hav c ch1 ch2 es ns = Ok g -> nonneg_metrics g ->
  history_h st -> roomy st g -> s < node_count g -> t < node_count g -> rc_algo rc = ACHDijkstra ->
  compute_best_path_h fuel st g rc s t = Ok (st', Some p) ->
  up_down g (p_edges p) /\
  exists qp, costs_as g (rc_alphas rc) (p_edges p) qp /\
    forall l q, connects g s l t -> costs_as g (rc_alphas rc) l q -> up_down g l ->
      (qp <= q + heap_error (edge_count g FWD) fuel)%Q.
Proof.
  intros H1 H2 E Hnn Hh Hr Hs Ht Hx Ec. pose proof (build_wf _ _ _ _ _ _ _ H1 H2 E) as Hwf.
  destruct (heap_run_near g rc fuel st s t Hwf Hnn Hh Hs Ht) as (st0 & pick & Hh0 & Hcap & Hp & Ha).
  destruct (answered _ _ _ _ _ _ _ _ _ _ Ec Ha) as (st1 & E1).
  assert (Hr0 : roomy st0 g) by (unfold roomy; now rewrite Hcap).
  exact (C19_ch_optimal _ _ _ _ _ _ _ pick _ fuel st0 rc s t st1 p H1 H2 E Hnn Hh0 Hr0 Hs Ht (heap_error_nonneg _ _) Hp Hx E1).
Qed.
Print Assumptions C19_heap_bound.

Theorem C19_heap_units hav c ch1 ch2 es ns g fuel st rc s t st' p u :
  1 <= ch1 -> 1 <= ch2 -> build hav c ch1 ch2 es ns = Ok g -> nonneg_metrics g ->
  history_h st -> roomy st g -> s < node_count g -> t < node_count g -> rc_algo rc = ACHDijkstra ->
  (accuracy <= u)%Q -> multiples_of u g (rc_alphas rc) ->
  compute_best_path_h fuel st g rc s t = Ok (st', Some p) ->
  up_down g (p_edges p) /\
  exists qp, costs_as g (rc_alphas rc) (p_edges p) qp /\
    forall l q, connects g s l t -> costs_as g (rc_alphas rc) l q -> up_down g l -> (qp <= q)%Q.
Proof.
  intros H1 H2 E Hnn Hh Hr Hs Ht Hx Hu Hm Ec. pose proof (build_wf _ _ _ _ _ _ _ H1 H2 E) as Hwf.
  destruct (heap_run_exact g rc fuel st s t u Hwf Hnn Hh Hs Ht Hu Hm) as (st0 & pick & Hh0 & Hcap & Hp & Ha).
  destruct (answered _ _ _ _ _ _ _ _ _ _ Ec Ha) as (st1 & E1).
  assert (Hr0 : roomy st0 g) by (unfold roomy; now rewrite Hcap).
  destruct (C19_ch_optimal _ _ _ _ _ _ _ pick 0 fuel st0 rc s t st1 p H1 H2 E Hnn Hh0 Hr0 Hs Ht (Qle_refl 0) Hp Hx E1) as (A & qp & B & C).
  split; [auto|]. exists qp. split; [auto|]. intros l q Hl Hq Hud. specialize (C l q Hl Hq Hud). lra.
Qed.
Print Assumptions C19_heap_units.
Example C19_heap_case : exists st' p, multiples_of (1 # 2) rt_graph [Fin (1 # 2)] /\
  compute_best_path_h 50 dijkstra_new rt_graph (ex_rc ACHDijkstra [Fin (1 # 2)]) 0 4 = Ok (st', Some p) /\ p_edges p = [0; 3; 5].
Proof.
  do 2 eexists. split; [apply units_of_list; [lra|vm_compute; reflexivity]|]. split; [vm_compute; reflexivity|reflexivity].
Qed.

(** *** trivial queries *)
Theorem C20_heap hav c ch1 ch2 es ns g fuel st rc s t st' r :
  1 <= ch1 -> 1 <= ch2 -> build hav c ch1 ch2 es ns = Ok g -> nonneg_metrics g ->
  history_h st -> roomy st g -> s < node_count g ->
  compute_best_path_h fuel st g rc s t = Ok (st', r) ->
  (~ Forall not_negative (rc_alphas rc) -> r = None) /\
  (Forall not_negative (rc_alphas rc) -> t = s -> exists p, r = Some p /\ p_edges p = [] /\ p_src_idx p = s /\ p_dst_idx p = s).
Proof.
  intros H1 H2 E Hnn Hh Hr Hs Ec. pose proof (build_wf _ _ _ _ _ _ _ H1 H2 E) as Hwf. split.
  - intros Hn. unfold compute_best_path_h in Ec. destruct (existsb (fun a => fltb a f0) (rc_alphas rc)) eqn:Ex; [now injection Ec|].
    exfalso. apply Hn. apply Forall_forall. intros a Hin. apply not_lt_zero. destruct (fltb a f0) eqn:El; auto.
    assert (existsb (fun a => fltb a f0) (rc_alphas rc) = true) by (apply existsb_exists; eauto). congruence.
  - intros Hal ->. destruct (heap_run_near g rc fuel st s s Hwf Hnn Hh Hs Hs) as (st0 & pick & Hh0 & Hcap & [Hv _] & Ha).
    destruct (answered _ _ _ _ _ _ _ _ _ _ Ec Ha) as (st1 & E1).
    assert (Hr0 : roomy st0 g) by (unfold roomy; now rewrite Hcap).
    exact (C20_same_node _ _ _ _ _ _ _ pick fuel st0 rc s st1 r H1 H2 E Hnn Hh0 Hr0 Hs Hal Hv E1).
Qed.
Print Assumptions C20_heap.
Example C20_heap_case : exists st' p,
  compute_best_path_h 100 dijkstra_new rt_graph (ex_rc ADijkstra [Fin 1]) 3 3 = Ok (st', Some p) /\ p_edges p = [] /\
  compute_best_path_h 100 dijkstra_new rt_graph (ex_rc ADijkstra [Fin 1; NInf]) 3 4 = Ok (dijkstra_new, None).
Proof. do 2 eexists. split; [vm_compute; reflexivity|split; reflexivity]. Qed.

(** *** a used object answers like a new one *)
Theorem C21_heap_partial fuel st g rc s t :
  history_h st -> capacity st <= node_count g -> node_count g <> 2 ->
  answer (compute_best_path_h fuel st g rc s t) = answer (compute_best_path_h fuel dijkstra_new g rc s t).
Proof. exact (heap_reuse fuel st g rc s t). Qed.
Print Assumptions C21_heap_partial.
(** with the heap's order of pops, not just with some order *)
Example C21_heap_case : exists st, history_h st /\ st <> dijkstra_new /\ capacity st <= node_count tie_graph /\ node_count tie_graph <> 2.
Proof.
  eexists. split; [|split; [|split]].
  - eapply (history_h_query 50 dijkstra_new rt_graph (ex_rc ADijkstra [Fin 1]) 0 4 _ _ history_h_new). vm_compute. reflexivity.
  - discriminate.
  - vm_compute. lia.
  - discriminate.
Qed.

(** *** termination *)
Theorem C22_heap hav c ch1 ch2 es ns g fuel st rc s t :
  1 <= ch1 -> 1 <= ch2 -> build hav c ch1 ch2 es ns = Ok g -> nonneg_metrics g ->
  history_h st -> roomy st g -> s < node_count g -> t < node_count g ->
  2 + 2 * powers (edge_count g FWD) (node_count g) <= fuel ->
  compute_best_path_h fuel st g rc s t <> Diverge.
Proof.
  intros H1 H2 E Hnn Hh Hr Hs Ht Hfu Hd. pose proof (build_wf _ _ _ _ _ _ _ H1 H2 E) as Hwf.
  destruct (heap_run_near g rc fuel st s t Hwf Hnn Hh Hs Ht) as (st0 & pick & Hh0 & Hcap & [Hv _] & Ha).
  assert (Hr0 : roomy st0 g) by (unfold roomy; now rewrite Hcap).
  apply (C22_terminates _ _ _ _ _ _ _ pick fuel st0 rc s t H1 H2 E Hnn Hh0 Hr0 Hs Ht Hv Hfu).
  rewrite Hd in Ha. destruct (compute_best_path pick fuel st0 g rc s t) as [x| | |]; cbn [answer] in Ha; congruence.
Qed.
Print Assumptions C22_heap.

Theorem C22_heap_units hav c ch1 ch2 es ns g fuel st rc s t u :
  1 <= ch1 -> 1 <= ch2 -> build hav c ch1 ch2 es ns = Ok g -> nonneg_metrics g ->
  history_h st -> roomy st g -> s < node_count g -> t < node_count g ->
  (accuracy <= u)%Q -> multiples_of u g (rc_alphas rc) ->
  2 + 2 * edge_count g FWD <= fuel ->
  compute_best_path_h fuel st g rc s t <> Diverge.
Proof.
  intros H1 H2 E Hnn Hh Hr Hs Ht Hu Hm Hfu Hd. pose proof (build_wf _ _ _ _ _ _ _ H1 H2 E) as Hwf.
  destruct (heap_run_exact g rc fuel st s t u Hwf Hnn Hh Hs Ht Hu Hm) as (st0 & pick & Hh0 & Hcap & Hp & Ha).
  assert (Hr0 : roomy st0 g) by (unfold roomy; now rewrite Hcap).
  apply (C22_exact_queue _ _ _ _ _ _ _ pick fuel st0 rc s t H1 H2 E Hnn Hh0 Hr0 Hs Ht Hp Hfu).
  rewrite Hd in Ha. destruct (compute_best_path pick fuel st0 g rc s t) as [x| | |]; cbn [answer] in Ha; congruence.
Qed.
Print Assumptions C22_heap_units.
Example C22_heap_case : exists st' r, 2 + 2 * edge_count rt_graph FWD = 16 /\
  compute_best_path_h 16 dijkstra_new rt_graph (ex_rc ADijkstra [Fin 1]) 0 4 = Ok (st', r).
Proof. do 2 eexists. split; [reflexivity|vm_compute; reflexivity]. Qed.
