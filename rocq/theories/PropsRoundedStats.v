(** C70: the balancer's statistics with the arithmetic of `f64` *)
From Coq Require Import String List Bool Arith ZArith QArith Lia Lqa NArith Permutation.
From Verif Require Import Base F64 Lib ModelApprox ModelUnits ModelConfig ModelGraph ModelBuild ModelDijkstra ModelExplorator ModelBalancing ModelStats
  ModelRounded ModelRoundedHeap ModelRoundedExplorator ModelRoundedBalancing ModelRoundedStats
  Spec SpecRouting SpecPaths SpecExplorator SpecCells SpecExploreEnds SpecBalancing SpecRounded SpecRoundedHeap SpecRoundedExplorator SpecRoundedBalancing
  SpecRoundedStats PropsRoundedHeap ProofRounded ProofCompare64 ProofWorkers ProofRoundedStats PropsBalancing PropsExploring PropsExplorator PropsCells PropsExploreEnds PropsRoundedExplorator PropsRoundedAnswers
  PropsStats PropsRoundedBalancing Examples ExamplesRouting.
Import ListNotations.
Open Scope list_scope.
Open Scope nat_scope.

(** However the counts are distributed over outcomes and in whatever order
    these arrive: if every route pair is counted, the calculated values are off
    from the mean and from the variance of all counts so far by no more than
    some roundings of the largest count (or its square) per outcome and, for the
    variance, per count. *)
Theorem C70_statistics cs M : Forall all_counted cs -> countings cs M ->
  exists mu sg m v, st_mean (rstats_of ieee cs) = Fin m /\ st_var (rstats_of ieee cs) = Fin v /\
    st_progress (rstats_of ieee cs) = length (all_found cs) /\
    mean_of (all_found cs) mu /\ variance_of (all_found cs) mu sg /\ (all_found cs = [] -> mu == 0 /\ sg == 0)%Q /\
    around ((32 # 1) * nq (length cs) * u64 * nq M) mu m /\
    around (((256 # 1) * nq (length cs) + (32 # 1) * nq (length (all_found cs))) * u64 * (nq M * nq M)) sg v.
Proof.
  intros F [A B C D]. destruct (follows_all M cs F 0 stats_new [] (follows_new M) A B C D) as (Hp & mu & sg & m & v & R).
  exists mu, sg, m, v. unfold rstats_of. cbn [app] in *. tauto.
Qed.
Print Assumptions C70_statistics.
(** two orders of three outcomes *)
Definition one_way : list counts := [mkCounts 1 [1]; mkCounts 0 []; mkCounts 1 [1]; mkCounts 1 [3]].
Definition other_way : list counts := [mkCounts 1 [1]; mkCounts 0 []; mkCounts 1 [3]; mkCounts 1 [1]].
Lemma one_way_fine : Forall all_counted one_way /\ countings one_way 3.
Proof.
  split; [repeat constructor|]. constructor; [|lia|apply Z.leb_le; reflexivity|apply Z.leb_le; reflexivity].
  intros x Hx. cbn in Hx. lia.
Qed.
Example C70_statistics_case : exists m v, st_mean (rstats_of ieee one_way) = Fin m /\ st_var (rstats_of ieee one_way) = Fin v /\
  Forall all_counted one_way /\ countings one_way 3 /\
  around ((32 # 1) * nq 4 * u64 * nq 3) (5 # 3) m /\ around (((256 # 1) * nq 4 + (32 # 1) * nq 3) * u64 * (nq 3 * nq 3)) (8 # 9) v /\
  ~ (m == 5 # 3)%Q.
Proof.
  do 2 eexists. split; [vm_compute; reflexivity|]. split; [vm_compute; reflexivity|]. split; [apply one_way_fine|]. split; [apply one_way_fine|].
  split; [split; apply by_le; vm_compute; reflexivity|]. split; [split; apply by_le; vm_compute; reflexivity|]. vm_compute. discriminate.
Qed.

(** What is calculated depends on the order the outcomes arrive in, though. *)
Theorem C70_order_refuted : exists cs cs' m m', Forall all_counted cs /\ Permutation cs cs' /\
  st_mean (rstats_of ieee cs) = Fin m /\ st_mean (rstats_of ieee cs') = Fin m' /\ ~ (m == m')%Q.
Proof.
  exists one_way, other_way. do 2 eexists. split; [apply one_way_fine|].
  split; [repeat (first [apply perm_skip|apply perm_swap|reflexivity])|]. split; [vm_compute; reflexivity|]. split; [vm_compute; reflexivity|]. vm_compute. discriminate.
Qed.
Print Assumptions C70_order_refuted.

(** If the same number of paths is found for all routes, mean and variance are
    exact, e.g. if Dijkstra finds a path for all. *)
Theorem C70_equal cs a : Forall all_counted cs -> (forall x, In x (all_found cs) -> x = a) -> all_found cs <> [] ->
  (Z.of_nat (length (all_found cs)) <= 2 ^ 53)%Z -> (Z.of_nat (length (all_found cs) * a) <= 2 ^ 53)%Z ->
  exists m v, st_mean (rstats_of ieee cs) = Fin m /\ st_var (rstats_of ieee cs) = Fin v /\ (m == nq a)%Q /\ (v == 0)%Q.
Proof.
  intros F Hx Hne Hn Hk. assert (L : length (all_found cs) <> 0) by (destruct (all_found cs); [contradiction|cbn; lia]).
  destruct (level_all a cs F stats_new 0) as (_ & m & v & A & B & C & D); auto; [|nia|].
  - split; [reflexivity|]. exists 0%Q, 0%Q. repeat split; reflexivity.
  - cbn [Nat.add] in D. exists m, v. split; [exact A|]. split; [exact B|]. split; [|exact C].
    destruct (Nat.eqb_spec (length (all_found cs)) 0); [contradiction|exact D].
Qed.
Print Assumptions C70_equal.
Example C70_equal_case : let cs := [mkCounts 2 [7; 7]; mkCounts 0 []; mkCounts 1 [7]; mkCounts 3 [7; 7; 7]] in
  Forall all_counted cs /\ (forall x, In x (all_found cs) -> x = 7) /\
  exists m v, st_mean (rstats_of ieee cs) = Fin m /\ st_var (rstats_of ieee cs) = Fin v /\ (m == 7)%Q /\ (v == 0)%Q.
Proof.
  cbv zeta. split; [repeat constructor|]. split; [intros x Hx; cbn in Hx; lia|]. do 2 eexists.
  split; [vm_compute; reflexivity|]. split; [vm_compute; reflexivity|]. split; reflexivity.
Qed.

(** Workers with the explorator count every route pair by the paths found for
    it.  So for any schedule the statistics printed at the end are nearly mean
    and variance of these numbers: the outcomes arrive in some order, among
    empty ones. *)
Theorem C70_explorator hav c ch1 ch2 es ns g0 g :
  1 <= ch1 -> 1 <= ch2 -> build hav c ch1 ch2 es ns = Ok g0 -> remeasured g0 g -> nonneg_metrics g -> last_node_connected g -> node_count g <> 2 ->
  aligned_metrics g -> metric_dim g < 32 ->
  exists enough, forall fuel ff rc ch routes T tri_new tri_add tri_cells solve rounds sample count collecting s0 l log s received M,
  2 + 2 * powers (edge_count g FWD) (node_count g) <= fuel -> enough <= rounds -> demanded g routes -> unpackable g ff ->
  rc_algo rc = AExplorator ch -> length (rc_alphas rc) = metric_dim g -> length (rc_scales rc) = metric_dim g ->
  fresh_ids T tri_new tri_add -> no_new_cells T tri_new tri_add tri_cells ->
  takes_points T tri_add (considered_metrics (flags rc)) -> sound_cells T tri_new tri_add tri_cells (flags rc) ->
  (forall seed k n, 0 < n -> sample seed k n < n) -> 1 <= count ->
  let job := rdo_work ieee fuel g rc T tri_new tri_add tri_cells solve rounds sample in
  spawned g count routes collecting = Ok s0 -> runs g ff job l s0 log s -> s_phase s = PDone ->
  Permutation received (map counts_of log ++ repeat (mkCounts 0 []) count) -> countings received M ->
  exists routes' found mu sg m v, Permutation routes routes' /\
    Forall2 (rexplored fuel g rc T tri_new tri_add tri_cells solve rounds) routes' found /\
    st_mean (rstats_of ieee received) = Fin m /\ st_var (rstats_of ieee received) = Fin v /\
    mean_of (map (@length path) found) mu /\ variance_of (map (@length path) found) mu sg /\
    around ((32 # 1) * nq (length received) * u64 * nq M) mu m /\
    around (((256 # 1) * nq (length received) + (32 # 1) * nq (length routes)) * u64 * (nq M * nq M)) sg v.
Proof.
  intros H1 H2 E Hg Hnn Hl Hn Hal H32.
  destruct (C69_explorator _ _ _ _ _ _ _ _ H1 H2 E Hg Hnn Hl Hn Hal H32) as (enough & HX). exists enough.
  intros fuel ff rc ch routes T tri_new tri_add tri_cells solve rounds sample count collecting s0 l log s received M
    Hfuel Hrounds Hdem Hun Halgo Ha Hsc Hids Hcells Htakes Hsound Hsample Hc job E0 R Hd P HM.
  destruct (HX fuel ff rc ch routes T tri_new tri_add tri_cells solve rounds sample count collecting s0 l log s
    Hfuel Hrounds Hdem Hun Halgo Ha Hsc Hids Hcells Htakes Hsound Hsample Hc E0 R) as (_ & _ & _ & _ & _ & _ & HD).
  destruct (HD Hd) as (PR & HL & _). clear HX HD.
  set (xpl := rexplored fuel g rc T tri_new tri_add tri_cells solve rounds) in *.
  assert (HLL : exists fs, Forall2 xpl (logged_routes log) fs /\ all_found (map counts_of log) = map (@length path) fs).
  { clear - HL. induction log as [|[w o] log IH]; [exists []; split; [constructor|reflexivity]|].
    destruct IH as (fs & A & B); [intros; apply HL; simpl; auto|]. destruct (HL w o (or_introl eq_refl)) as (f & A' & B' & _).
    exists (f ++ fs). split; [cbn [logged_routes flat_map fst]; now apply Forall2_app|].
    unfold all_found in *. cbn [map flat_map counts_of ct_found snd]. rewrite B, B', map_app. reflexivity. }
  destruct HLL as (fs & FL & EL).
  assert (Fc : Forall all_counted received).
  { apply Forall_forall. intros x Hin. apply (Permutation_in _ P) in Hin. apply in_app_iff in Hin. destruct Hin as [Hin|Hin].
    - apply in_map_iff in Hin. destruct Hin as ([w o] & <- & Hin). destruct (HL w o Hin) as (f & A & B & _).
      unfold all_counted, counts_of. cbn [ct_found ct_pairs fst snd]. rewrite B, map_length. symmetry. exact (Forall2_len _ _ _ A).
    - apply repeat_spec in Hin. subst x. reflexivity. }
  assert (Pa : Permutation (all_found received) (map (@length path) fs)).
  { transitivity (all_found (map counts_of log ++ repeat (mkCounts 0 []) count)).
    - unfold all_found. now apply Permutation_flat_map.
    - unfold all_found in *. rewrite flat_map_app. rewrite EL.
      replace (flat_map ct_found (repeat (mkCounts 0 []) count)) with (@nil nat) by (clear; induction count; simpl; auto). rewrite app_nil_r. reflexivity. }
  destruct (C70_statistics received M Fc HM) as (mu & sg & m & v & A & B & _ & C & D & _ & N1 & N2).
  replace (length (all_found received)) with (length routes) in N2
    by (rewrite (Permutation_length Pa), map_length, <- (Forall2_len _ _ _ FL); exact (Permutation_length PR)).
  exists (logged_routes log), fs, mu, sg, m, v. do 4 (split; [assumption|]).
  split; [eapply mean_perm; eauto|]. split; [eapply variance_perm; eauto|]. split; assumption.
Qed.
Print Assumptions C70_explorator.
(** the run of [C69_explorator_case] *)
Example C70_explorator_case : exists s0 l log s, spawned xp64_graph 1 b64_routes false = Ok s0 /\
  runs xp64_graph 6 (b64_job (AExplorator false)) l s0 log s /\ s_phase s = PDone /\
  countings (map counts_of log ++ repeat (mkCounts 0 []) 1) 4 /\ length (all_found (map counts_of log)) = 3 /\
  exists m v, st_mean (rstats_of ieee (map counts_of log ++ [mkCounts 0 []])) = Fin m /\ st_var (rstats_of ieee (map counts_of log ++ [mkCounts 0 []])) = Fin v /\
  (1 < m)%Q /\ (0 < v)%Q.
Proof.
  destruct (exec xp64_graph 6 (b64_job (AExplorator false)) b64_schedule b64_start) as [[log s]|] eqn:E; [|vm_compute in E; discriminate].
  exists b64_start, b64_schedule, log, s. split; [vm_compute; reflexivity|]. split; [now apply exec_runs|].
  vm_compute in E. injection E as <- <-. split; [reflexivity|].
  split; [constructor; [intros x Hx; cbn in Hx; lia|lia|apply Z.leb_le; reflexivity|apply Z.leb_le; reflexivity]|]. split; [reflexivity|].
  do 2 eexists. split; [vm_compute; reflexivity|]. split; [vm_compute; reflexivity|]. split; apply by_lt; vm_compute; reflexivity.
Qed.

(** Workers with Dijkstra count every route pair with a path by 1.  So if there
    is one for each, the statistics of any run are exactly 1 and 0. *)
Theorem C70_dijkstra hav c ch1 ch2 es ns g0 g fuel ff rc routes T tri_new tri_add tri_cells solve rounds sample count collecting s0 l log s received :
  1 <= ch1 -> 1 <= ch2 -> build hav c ch1 ch2 es ns = Ok g0 -> remeasured g0 g -> nonneg_metrics g -> last_node_connected g -> node_count g <> 2 ->
  2 + 2 * powers (edge_count g FWD) (node_count g) <= fuel -> demanded g routes -> unpackable g ff ->
  rc_algo rc = ADijkstra -> fits64 g (rc_alphas rc) -> Forall not_negative (rc_alphas rc) ->
  (forall r i j, In r routes -> ends_of g r i j -> exists es q, connects g i es j /\ costs_as g (rc_alphas rc) es q) ->
  routes <> [] -> (Z.of_nat (length routes) <= 2 ^ 53)%Z -> 1 <= count ->
  let job := rdo_work ieee fuel g rc T tri_new tri_add tri_cells solve rounds sample in
  spawned g count routes collecting = Ok s0 -> runs g ff job l s0 log s -> s_phase s = PDone ->
  Permutation received (map counts_of log ++ repeat (mkCounts 0 []) count) ->
  exists m v, st_mean (rstats_of ieee received) = Fin m /\ st_var (rstats_of ieee received) = Fin v /\ (m == 1)%Q /\ (v == 0)%Q.
Proof.
  intros H1 H2 E Hg Hnn Hl Hn Hfuel Hdem Hun Halgo Hfit Hal Hway Hne Hlen Hc job E0 R Hd P.
  destruct (C69_dijkstra hav c ch1 ch2 es ns g0 g fuel ff rc routes T tri_new tri_add tri_cells solve rounds sample count collecting s0 l log s
    H1 H2 E Hg Hnn Hl Hn Hfuel Hdem Hun) as (_ & _ & _ & _ & _ & _ & HD); auto; [intros i; rewrite Halgo; discriminate|].
  destruct (HD Hd) as (PR & HL & _). clear HD.
  assert (Hone : forall r ps, In r routes -> served fuel g rc r ps -> ps <> []).
  { intros r ps Hr (i & j & st & st' & o & He & Hh & Ec & -> & _). destruct (Hdem r Hr) as (Hpos & _).
    assert (Hi : i < node_count g) by (destruct He as [Ei _]; unfold node_id in Ei; apply idx_ok in Ei; apply nth_error_Some; congruence).
    assert (Hj : j < node_count g) by (destruct He as [_ Ej]; unfold node_id in Ej; apply idx_ok in Ej; apply nth_error_Some; congruence).
    assert (Hr' : roomy st g) by (intros F; contradiction).
    destruct (C63_found_iff hav c ch1 ch2 es ns g0 g fuel st rc i j st' o H1 H2 E Hg Hnn Hh Hr' Hi Hj Hfit Hal Ec) as [Hf _].
    destruct (Hf Halgo) as [Hf' _]. destruct o as [p|]; [destruct (snd r); [lia|discriminate]|]. exfalso. apply (Hf' eq_refl). eapply Hway; eauto. }
  assert (HL1 : forall w o, In (w, o) log -> oc_found o = repeat 1 (length (wk_routes w))).
  { intros w o Hin. destruct (HL w o Hin) as (pss & F & _ & ->).
    assert (Hsub : incl (wk_routes w) routes).
    { intros r Hr. apply (Permutation_in _ (Permutation_sym PR)). unfold logged_routes. apply in_flat_map. exists (w, o). auto. }
    clear - F Hsub Hone. induction F as [|r ps rs pss Hr F IH]; [reflexivity|]. unfold ones. cbn [flat_map length repeat]. fold (ones pss).
    rewrite IH by (intros x Hx; apply Hsub; now right). pose proof (Hone r ps (Hsub r (or_introl eq_refl)) Hr). destruct ps; [contradiction|reflexivity]. }
  assert (Fc : Forall all_counted received).
  { apply Forall_forall. intros x Hin. apply (Permutation_in _ P) in Hin. apply in_app_iff in Hin. destruct Hin as [Hin|Hin].
    - apply in_map_iff in Hin. destruct Hin as ([w o] & <- & Hin). unfold all_counted, counts_of. cbn [ct_found ct_pairs fst snd]. now rewrite (HL1 w o Hin), repeat_length.
    - apply repeat_spec in Hin. subst x. reflexivity. }
  assert (Pa : Permutation (all_found received) (all_found (map counts_of log))).
  { transitivity (all_found (map counts_of log ++ repeat (mkCounts 0 []) count)).
    - unfold all_found. now apply Permutation_flat_map.
    - unfold all_found. rewrite flat_map_app.
      replace (flat_map ct_found (repeat (mkCounts 0 []) count)) with (@nil nat) by (clear; induction count; simpl; auto). now rewrite app_nil_r. }
  assert (Ea : all_found (map counts_of log) = repeat 1 (length (logged_routes log))).
  { clear - HL1. induction log as [|[w o] log IH]; [reflexivity|]. unfold all_found, logged_routes in *. cbn [map flat_map counts_of ct_found snd fst].
    rewrite IH by (intros; apply HL1; now right). rewrite (HL1 w o (or_introl eq_refl)), app_length. symmetry. apply repeat_app. }
  pose proof (Permutation_length PR) as Lr. pose proof (Permutation_length Pa) as La. rewrite Ea, repeat_length, <- Lr in La.
  destruct (C70_equal received 1 Fc) as (m & v & A & B & C & D).
  - intros x Hx. apply (Permutation_in _ Pa) in Hx. rewrite Ea in Hx. now apply repeat_spec in Hx.
  - intros F. rewrite F in La. destruct routes; [contradiction|discriminate].
  - rewrite La. exact Hlen.
  - rewrite La, Nat.mul_1_r. exact Hlen.
  - exists m, v. split; [exact A|]. split; [exact B|]. split; [exact C|exact D].
Qed.
Print Assumptions C70_dijkstra.
(** the run of [C69_dijkstra_case] *)
Example C70_dijkstra_case : exists s0 l log s, spawned xp64_graph 1 b64_routes false = Ok s0 /\
  runs xp64_graph 6 (b64_job ADijkstra) l s0 log s /\ s_phase s = PDone /\ map counts_of log = [mkCounts 3 [1; 1; 1]] /\
  fits64 xp64_graph (rc_alphas (b64_rc ADijkstra)) /\
  (forall r i j, In r b64_routes -> ends_of xp64_graph r i j -> exists es q, connects xp64_graph i es j /\ costs_as xp64_graph (rc_alphas (b64_rc ADijkstra)) es q).
Proof.
  destruct (exec xp64_graph 6 (b64_job ADijkstra) b64_schedule b64_start) as [[log s]|] eqn:E; [|vm_compute in E; discriminate].
  exists b64_start, b64_schedule, log, s. split; [vm_compute; reflexivity|]. split; [now apply exec_runs|].
  vm_compute in E. injection E as <- <-. split; [reflexivity|]. split; [reflexivity|]. split.
  - apply fits_of_list; [apply Z.leb_le; reflexivity|vm_compute; reflexivity].
  - assert (Hends : forall r i j, ends_of xp64_graph r i j -> i = Z.to_nat (fst (fst r)) /\ j = Z.to_nat (snd (fst r))).
    { intros r i j [Hi Hj]. split.
      - do 3 (destruct i as [|i]; [injection Hi as <-; reflexivity|]). destruct i; discriminate.
      - do 3 (destruct j as [|j]; [injection Hj as <-; reflexivity|]). destruct j; discriminate. }
    intros r i j Hr He. destruct (Hends r i j He) as [-> ->]. destruct Hr as [<-|[<-|[<-|[]]]]; cbn [fst snd].
    + exists [0]. eexists. split; [econstructor; [split; vm_compute; reflexivity|constructor]|econstructor; [reflexivity|reflexivity|constructor]].
    + exists [4]. eexists. split; [econstructor; [split; vm_compute; reflexivity|constructor]|econstructor; [reflexivity|reflexivity|constructor]].
    + exists [3]. eexists. split; [econstructor; [split; vm_compute; reflexivity|constructor]|econstructor; [reflexivity|reflexivity|constructor]].
Qed.
