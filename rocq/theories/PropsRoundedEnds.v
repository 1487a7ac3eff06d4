(** C63, C68: searching and exploring come to an end in `f64`, whatever the
    weights are *)
From Coq Require Import String List Bool Arith ZArith QArith Lia NArith.
From Verif Require Import Base F64 Lib ModelApprox ModelUnits ModelConfig ModelGraph ModelBuild ModelDijkstra ModelExplorator
  ModelHeap ModelRounded ModelRoundedHeap ModelRoundedExplorator
  Spec SpecRouting SpecPaths SpecExplorator SpecExploreEnds SpecRounded SpecRoundedHeap SpecRoundedExplorator ProofDijkstra ProofRounding64
  PropsRouting PropsRounded PropsRoundedHeap PropsRoundedExplorator PropsExplorator PropsExploreEnds ProofRoundedEnds ProofRoundedExploreEnds Examples ExamplesRouting.
Import ListNotations.
Open Scope list_scope.
Open Scope nat_scope.

(** no weights, however large, negative or undefined, keep the search going:
    [fits64] of C63_total isn't needed for this *)
Theorem C63_ends hav c ch1 ch2 es ns g0 g fuel st rc s t :
  1 <= ch1 -> 1 <= ch2 -> build hav c ch1 ch2 es ns = Ok g0 -> remeasured g0 g -> nonneg_metrics g ->
  rhistory_h st -> roomy st g -> s < node_count g -> t < node_count g ->
  2 + 2 * powers (edge_count g FWD) (node_count g) <= fuel ->
  rcompute_best_path_h ieee fuel st g rc s t <> Diverge.
Proof.
  intros H1 H2 E Hg Hnn Hh Hr Hs Ht Hf.
  exact (ofin_path_h_ends u64 eta64 rnd64 top64 rounding64 top64_nonneg g fuel st rc s t (built_wf _ _ _ _ _ _ _ _ H1 H2 E Hg) Hnn Hh Hr Hs Ht Hf).
Qed.
Print Assumptions C63_ends.

(** enough rounds are a matter of the graph alone, whatever the solver answers
    and however the numbers are rounded *)
Theorem C68_ends hav c ch1 ch2 es ns g0 g :
  1 <= ch1 -> 1 <= ch2 -> build hav c ch1 ch2 es ns = Ok g0 -> remeasured g0 g -> nonneg_metrics g ->
  exists enough, forall fuel T tri_new tri_add tri_cells solve rounds rc s t st,
    no_new_cells T tri_new tri_add tri_cells -> rhistory_h st -> roomy st g -> s < node_count g -> t < node_count g ->
    2 + 2 * powers (edge_count g FWD) (node_count g) <= fuel -> enough <= rounds ->
    rfully_explorate ieee fuel T tri_new tri_add tri_cells solve rounds g rc s t st <> Diverge.
Proof.
  intros H1 H2 E Hg Hnn. exists (renough_rounds g). intros fuel T tri_new tri_add tri_cells solve rounds rc s t st Hc Hh Hr Hs Ht Hf HN.
  exact (rexploration_ends u64 eta64 rnd64 top64 rounding64 top64_nonneg g (built_wf _ _ _ _ _ _ _ _ H1 H2 E Hg) Hnn
    fuel T tri_new tri_add tri_cells solve rounds rc s t st Hc Hh Hr Hs Ht Hf HN).
Qed.
Print Assumptions C68_ends.

(** weights beyond any sum of C63: all roads cost infinity, no one is found; with
    NaN likewise *)
Example C63_ends_case : exists st1 st2,
  nonneg_metrics xp64_graph /\
  rcompute_best_path_h ieee (6 * 100) dijkstra_new xp64_graph (with_alphas (xp_rc PInf PInf) [Fin top64; PInf]) 0 2 = Ok (st1, None) /\
  rcompute_best_path_h ieee (6 * 100) dijkstra_new xp64_graph (with_alphas (xp_rc PInf PInf) [NaN; NaN]) 0 2 = Ok (st2, None).
Proof.
  do 2 eexists. split; [exact (ProofRoundedExploratorCosts.ordinary_nonneg _ xp64_ordinary)|]. split; vm_compute; reflexivity.
Qed.
Example C68_ends_case :
  (exists enough, forall solve rounds, enough <= rounds ->
     rfully_explorate ieee (6 * 100) lines_tri lines_new lines_add lines_cells solve rounds xp64_graph (xp_rc PInf PInf) 0 2 dijkstra_new <> Diverge) /\
  (exists st' ps, rfully_explorate ieee (6 * 100) lines_tri lines_new lines_add lines_cells xp_solve 4 xp64_graph (xp_rc PInf PInf) 0 2 dijkstra_new = Ok (st', ps) /\
     2 <= length ps).
Proof.
  split.
  - destruct (C68_ends _ _ _ _ _ _ xp_graph xp64_graph (le_n 1) (le_n 1) xp_build xp64_remeasured (ProofRoundedExploratorCosts.ordinary_nonneg _ xp64_ordinary)) as (enough & H).
    exists enough. intros solve rounds Hr. apply H; [exact lines_settle|constructor|intros Hn; discriminate Hn|vm_compute; lia|vm_compute; lia| |exact Hr].
    apply Nat.leb_le. vm_compute. reflexivity.
  - do 2 eexists. split; [vm_compute; reflexivity|]. cbn. lia.
Qed.
