(** C63, C68: searching and exploring answer in `f64`, whatever the weights
    are *)
From Coq Require Import String List Bool Arith ZArith QArith Lia NArith.
From Verif Require Import Base F64 Lib ModelApprox ModelUnits ModelConfig ModelGraph ModelBuild ModelDijkstra ModelExplorator
  ModelHeap ModelRounded ModelRoundedHeap ModelRoundedExplorator
  Spec SpecRouting SpecPaths SpecExplorator SpecCells SpecExploreEnds SpecRounded SpecRoundedHeap SpecRoundedExplorator ProofDijkstra ProofRouting ProofRounding64
  PropsRouting PropsCells PropsRounded PropsRoundedHeap PropsRoundedExplorator PropsExplorator PropsExploreEnds ProofRoundedEnds ProofRoundedExploreEnds
  ProofRoundedWorks ProofRoundedExploreWorks Examples ExamplesRouting.
Import ListNotations.
Open Scope list_scope.
Open Scope nat_scope.

Lemma remeasured_routable hav c ch1 ch2 es ns g0 g : 1 <= ch1 -> 1 <= ch2 -> build hav c ch1 ch2 es ns = Ok g0 -> remeasured g0 g ->
  last_node_connected g -> routable g.
Proof. intros H1 H2 E Hg Hl. destruct Hg as (ms & mn & _ & c1 & ids1 & im1 & ->). exact (routable_last _ _ _ _ _ _ _ H1 H2 E Hl). Qed.

(** C63_total without [fits64]: weights may be negative, infinite or NaN, sums
    may overflow *)
Theorem C63_answers hav c ch1 ch2 es ns g0 g fuel st rc s t :
  1 <= ch1 -> 1 <= ch2 -> build hav c ch1 ch2 es ns = Ok g0 -> remeasured g0 g -> nonneg_metrics g -> last_node_connected g ->
  rhistory_h st -> roomy st g -> (node_count g <> 2 -> capacity st <= node_count g) ->
  s < node_count g -> t < node_count g -> (forall i, rc_algo rc <> AExplorator i) ->
  2 + 2 * powers (edge_count g FWD) (node_count g) <= fuel ->
  exists st' r, rcompute_best_path_h ieee fuel st g rc s t = Ok (st', r).
Proof.
  intros H1 H2 E Hg Hnn Hl Hh Hr Hc Hs Ht Ha Hf.
  exact (ofin_path_h_works u64 eta64 rnd64 top64 rounding64 top64_nonneg g fuel st rc s t (built_wf _ _ _ _ _ _ _ _ H1 H2 E Hg)
    (remeasured_routable _ _ _ _ _ _ _ _ H1 H2 E Hg Hl) Hnn Hh Hr Hc Hs Ht Ha Hf).
Qed.
Print Assumptions C63_answers.

(** enough rounds are a matter of the graph alone; the solver may answer
    anything, the metrics may be infinite or NaN *)
Theorem C68_answers hav c ch1 ch2 es ns g0 g :
  1 <= ch1 -> 1 <= ch2 -> build hav c ch1 ch2 es ns = Ok g0 -> remeasured g0 g -> nonneg_metrics g -> aligned_metrics g ->
  last_node_connected g -> metric_dim g < 32 ->
  exists enough, forall fuel T tri_new tri_add tri_cells solve rounds rc s t st,
    fresh_ids T tri_new tri_add -> no_new_cells T tri_new tri_add tri_cells ->
    takes_points T tri_add (considered_metrics (flags rc)) -> sound_cells T tri_new tri_add tri_cells (flags rc) ->
    rhistory_h st -> roomy st g -> (node_count g <> 2 -> capacity st <= node_count g) -> s < node_count g -> t < node_count g ->
    length (rc_alphas rc) = metric_dim g -> length (rc_scales rc) = metric_dim g -> (forall i, rc_algo rc <> AExplorator i) ->
    2 + 2 * powers (edge_count g FWD) (node_count g) <= fuel -> enough <= rounds ->
    exists st' ps, rfully_explorate ieee fuel T tri_new tri_add tri_cells solve rounds g rc s t st = Ok (st', ps).
Proof.
  intros H1 H2 E Hg Hnn Hal Hl H32. exists (renough_rounds g).
  intros fuel T tri_new tri_add tri_cells solve rounds rc s t st Hids Hcells Htakes Hsound Hh Hr Hcap Hs Ht Ha Hsc Halgo Hfuel Hrounds.
  destruct (rexploration_works u64 eta64 rnd64 top64 g fuel T tri_new tri_add tri_cells solve rounds rc s t st rounding64 top64_nonneg
    (built_wf _ _ _ _ _ _ _ _ H1 H2 E Hg) (remeasured_routable _ _ _ _ _ _ _ _ H1 H2 E Hg Hl) Hnn Hal H32
    Hids Hcells Htakes Hsound (conj (conj Hh Hr) Hcap) Hs Ht Ha Hsc Halgo Hfuel Hrounds) as (st' & ps & Ex & _). eauto.
Qed.
Print Assumptions C68_answers.

Lemma xp64_last : last_node_connected xp64_graph.
Proof. intros v Hv. assert (v <= 2) by (vm_compute in Hv; lia). split; [exists 4, 2, 0|exists 3, 1, 2]; (split; [split; reflexivity|auto]). Qed.
Lemma xp64_aligned : aligned_metrics xp64_graph.
Proof.
  intros e ms E. unfold edge_metrics in E. apply idx_ok in E. apply nth_error_In in E.
  assert (A : forallb (fun m => length m =? metric_dim xp64_graph) (metrics xp64_graph) = true) by (vm_compute; reflexivity).
  rewrite forallb_forall in A. now apply Nat.eqb_eq, A.
Qed.

(** whatever the solver says, here that NaN are the weights, there is an answer *)
Example C63_answers_case : forall al : list f64, exists st' r,
  rcompute_best_path_h ieee (6 * 100) dijkstra_new xp64_graph (with_alphas (xp_rc PInf PInf) al) 0 2 = Ok (st', r).
Proof.
  intros al. apply (C63_answers _ _ _ _ _ _ xp_graph xp64_graph (6 * 100) dijkstra_new _ 0 2 (le_n 1) (le_n 1) xp_build xp64_remeasured
    (ProofRoundedExploratorCosts.ordinary_nonneg _ xp64_ordinary) xp64_last).
  - constructor.
  - intros Hn. discriminate Hn.
  - intros _. vm_compute. lia.
  - vm_compute. lia.
  - vm_compute. lia.
  - discriminate.
  - apply Nat.leb_le. vm_compute. reflexivity.
Qed.
Example C68_answers_case :
  (exists enough, forall solve rounds, enough <= rounds ->
     exists st' ps, rfully_explorate ieee (6 * 100) lines_tri lines_new lines_add lines_cells solve rounds xp64_graph (xp_rc PInf PInf) 0 1 dijkstra_new = Ok (st', ps)) /\
  (exists st' ps, rfully_explorate ieee (6 * 100) lines_tri lines_new lines_add lines_cells (fun _ _ => Some [NaN; NaN]) 4 xp64_graph (xp_rc PInf PInf) 0 1 dijkstra_new
     = Ok (st', ps) /\ 2 <= length ps).
Proof.
  split.
  - destruct (C68_answers _ _ _ _ _ _ xp_graph xp64_graph (le_n 1) (le_n 1) xp_build xp64_remeasured
      (ProofRoundedExploratorCosts.ordinary_nonneg _ xp64_ordinary) xp64_aligned xp64_last) as (enough & H); [vm_compute; lia|].
    exists enough. intros solve rounds Hr. apply H; auto.
    + exact lines_fresh.
    + exact lines_settle.
    + apply lines_take.
    + apply lines_sound. vm_compute. lia.
    + constructor.
    + intros Hn. discriminate Hn.
    + intros _. vm_compute. lia.
    + vm_compute. lia.
    + vm_compute. lia.
    + discriminate.
    + apply Nat.leb_le. vm_compute. reflexivity.
  - do 2 eexists. split; [vm_compute; reflexivity|]. cbn. lia.
Qed.
