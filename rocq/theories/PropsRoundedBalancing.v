(** C69: the balancer's workers as they run, with the arithmetic of `f64` and
    std's BinaryHeap *)
From Coq Require Import String List Bool Arith ZArith QArith Lia NArith Permutation.
From Verif Require Import Base F64 Lib ModelApprox ModelUnits ModelConfig ModelGraph ModelBuild ModelDijkstra ModelExplorator ModelBalancing
  ModelHeap ModelRounded ModelRoundedHeap ModelRoundedExplorator ModelRoundedBalancing
  Spec SpecRouting SpecPaths SpecExplorator SpecCells SpecExploreEnds SpecBalancing SpecRounded SpecRoundedHeap SpecRoundedExplorator SpecRoundedBalancing
  ProofDijkstra ProofRouting ProofExplorator ProofWorkers ProofRoundedExploreEnds ProofRoundedExploreWorks ProofRoundedBalancing
  PropsBalancing PropsExploring PropsCells PropsRounded PropsRoundedHeap PropsRoundedExplorator PropsRoundedAnswers PropsExplorator PropsExploreEnds
  ModelRoundedMetrics SpecRoundedMetrics PropsRoundedMetrics ProofCompare64 Examples ExamplesRouting.
Import ListNotations.
Open Scope list_scope.
Open Scope nat_scope.

(** With (CH-)Dijkstra: whatever the weights are, every schedule of master and
    workers is finite, nothing fails, everybody can go on until all is done;
    then every route has been worked off once with what a Dijkstra object finds
    for it, as often as demanded, and the workloads count the edges of these
    roads, unpacked. *)
Theorem C69_dijkstra hav c ch1 ch2 es ns g0 g fuel ff rc routes T tri_new tri_add tri_cells solve rounds sample count collecting s0 l log s :
  1 <= ch1 -> 1 <= ch2 -> build hav c ch1 ch2 es ns = Ok g0 -> remeasured g0 g -> nonneg_metrics g -> last_node_connected g -> node_count g <> 2 ->
  2 + 2 * powers (edge_count g FWD) (node_count g) <= fuel -> demanded g routes -> unpackable g ff ->
  (forall i, rc_algo rc <> AExplorator i) -> 1 <= count ->
  let job := rdo_work ieee fuel g rc T tri_new tri_add tri_cells solve rounds sample in
  spawned g count routes collecting = Ok s0 -> runs g ff job l s0 log s ->
  length l <= 3 * length routes + 4 * count + 2 /\
  s_phase s <> PErr /\ s_phase s <> PPanic /\ (forall w, In w (s_workers s) -> w_thread w <> Crashed) /\
  (exists l' log' s', runs g ff job l' s log' s' /\ s_phase s' = PDone) /\
  (blocked g ff job s -> s_phase s = PDone) /\
  (s_phase s = PDone ->
   Permutation routes (logged_routes log) /\
   (forall w o, In (w, o) log -> exists pss, Forall2 (served fuel g rc) (wk_routes w) pss /\ oc_chosen o = concat pss /\ oc_found o = ones pss) /\
   exists ps fl, Permutation (logged_paths log) ps /\ Forall2 (flattens g ff) ps fl /\
     length (s_loads s) = edge_count g FWD /\
     forall e, e < edge_count g FWD -> nth_error (s_loads s) e = Some (occurrences e fl)).
Proof.
  intros H1 H2 E Hg Hnn Hl Hn Hfuel Hdem Hun Halgo Hc job E0 R.
  assert (Hjob : forall st w, job st w = rwork_with_dijkstra ieee fuel g rc st w).
  { intros st w. unfold job, rdo_work. destruct (rc_algo rc) as [| |i] eqn:Ea; try reflexivity. now destruct (Halgo i). }
  assert (Hst : steady g ff job routes (rready g)).
  { destruct (rdijkstra_steady _ _ _ _ _ _ _ _ H1 H2 E Hg Hnn Hl Hn fuel ff rc routes Hfuel Hdem Hun Halgo) as [A B].
    split; auto. intros st w Hf Hi. rewrite Hjob. auto. }
  destruct (C30_schedules _ _ _ _ _ _ _ _ _ _ _ Hst E0 R) as (A1 & A4 & A5 & A6 & _ & A2 & A3).
  do 6 (split; [assumption|]). intros Hd.
  destruct (C30_accounting _ _ _ _ _ _ _ _ _ _ _ Hst Hc E0 R Hd) as (B1 & _ & ps & fl & B2 & B3 & B4 & B5 & _).
  split; [auto|]. split; [|exists ps, fl; auto].
  intros w o Hin. revert w o Hin.
  eapply (logged_ok g ff job count routes collecting (rready g) Hst
    (fun w o => exists pss, Forall2 (served fuel g rc) (wk_routes w) pss /\ oc_chosen o = concat pss /\ oc_found o = ones pss)); eauto.
  - intros st w st' o Hf Hin Ej. rewrite Hjob in Ej.
    destruct (rdijkstra_works _ _ _ _ _ _ _ _ H1 H2 E Hg Hnn Hl Hn fuel ff rc routes Hfuel Hdem Hun Halgo st w Hf Hin) as (st2 & o2 & pss & E2 & _ & X & Y & Z & _).
    rewrite E2 in Ej. injection Ej as _ <-. eauto.
  - apply (proj1 (spawned_inv _ _ _ _ _ _ _ Hst _ E0)).
Qed.
Print Assumptions C69_dijkstra.

(** With the explorator, likewise: every route is worked off with paths drawn
    from those the explorator finds, whatever the solver answers.  How many
    rounds are enough depends on the graph alone. *)
Theorem C69_explorator hav c ch1 ch2 es ns g0 g :
  1 <= ch1 -> 1 <= ch2 -> build hav c ch1 ch2 es ns = Ok g0 -> remeasured g0 g -> nonneg_metrics g -> last_node_connected g -> node_count g <> 2 ->
  aligned_metrics g -> metric_dim g < 32 ->
  exists enough, forall fuel ff rc ch routes T tri_new tri_add tri_cells solve rounds sample count collecting s0 l log s,
  2 + 2 * powers (edge_count g FWD) (node_count g) <= fuel -> enough <= rounds -> demanded g routes -> unpackable g ff ->
  rc_algo rc = AExplorator ch -> length (rc_alphas rc) = metric_dim g -> length (rc_scales rc) = metric_dim g ->
  fresh_ids T tri_new tri_add -> no_new_cells T tri_new tri_add tri_cells ->
  takes_points T tri_add (considered_metrics (flags rc)) -> sound_cells T tri_new tri_add tri_cells (flags rc) ->
  (forall seed k n, 0 < n -> sample seed k n < n) -> 1 <= count ->
  let job := rdo_work ieee fuel g rc T tri_new tri_add tri_cells solve rounds sample in
  spawned g count routes collecting = Ok s0 -> runs g ff job l s0 log s ->
  length l <= 3 * length routes + 4 * count + 2 /\
  s_phase s <> PErr /\ s_phase s <> PPanic /\ (forall w, In w (s_workers s) -> w_thread w <> Crashed) /\
  (exists l' log' s', runs g ff job l' s log' s' /\ s_phase s' = PDone) /\
  (blocked g ff job s -> s_phase s = PDone) /\
  (s_phase s = PDone ->
   Permutation routes (logged_routes log) /\
   (forall w o, In (w, o) log -> exists fs,
      Forall2 (rexplored fuel g rc T tri_new tri_add tri_cells solve rounds) (wk_routes w) fs /\
      oc_found o = map (@length path) fs /\ drawn sample (wk_seed w) 0 (map snd (wk_routes w)) fs (oc_chosen o)) /\
   exists ps fl, Permutation (logged_paths log) ps /\ Forall2 (flattens g ff) ps fl /\
     length (s_loads s) = edge_count g FWD /\
     forall e, e < edge_count g FWD -> nth_error (s_loads s) e = Some (occurrences e fl)).
Proof.
  intros H1 H2 E Hg Hnn Hl Hn Hal H32. exists (renough_rounds g).
  intros fuel ff rc ch routes T tri_new tri_add tri_cells solve rounds sample count collecting s0 l log s
    Hfuel Hrounds Hdem Hun Halgo Ha Hsc Hids Hcells Htakes Hsound Hsample Hc job E0 R.
  assert (Hjob : forall st w, job st w = rwork_with_explorator ieee fuel g rc T tri_new tri_add tri_cells solve rounds sample st w).
  { intros st w. unfold job, rdo_work. now rewrite Halgo. }
  assert (Hst : steady g ff job routes (rready g)).
  { destruct (rexplorator_steady _ _ _ _ _ _ _ _ H1 H2 E Hg Hnn Hl Hn fuel ff rc routes Hfuel Hdem Hun T tri_new tri_add tri_cells solve rounds sample
      Hsample Hal H32 Hids Hcells Htakes Hsound Ha Hsc Hrounds) as [A B].
    split; auto. intros st w Hf Hi. rewrite Hjob. auto. }
  destruct (C30_schedules _ _ _ _ _ _ _ _ _ _ _ Hst E0 R) as (A1 & A4 & A5 & A6 & _ & A2 & A3).
  do 6 (split; [assumption|]). intros Hd.
  destruct (C30_accounting _ _ _ _ _ _ _ _ _ _ _ Hst Hc E0 R Hd) as (B1 & _ & ps & fl & B2 & B3 & B4 & B5 & _).
  split; [auto|]. split; [|exists ps, fl; auto].
  intros w o Hin. revert w o Hin.
  eapply (logged_ok g ff job count routes collecting (rready g) Hst
    (fun w o => exists fs, Forall2 (rexplored fuel g rc T tri_new tri_add tri_cells solve rounds) (wk_routes w) fs /\
      oc_found o = map (@length path) fs /\ drawn sample (wk_seed w) 0 (map snd (wk_routes w)) fs (oc_chosen o))); eauto.
  - intros st w st' o Hf Hin Ej. rewrite Hjob in Ej.
    destruct (rexplorator_works _ _ _ _ _ _ _ _ H1 H2 E Hg Hnn Hl Hn fuel ff rc routes Hfuel Hdem Hun T tri_new tri_add tri_cells solve rounds sample
      Hsample Hal H32 Hids Hcells Htakes Hsound Ha Hsc Hrounds st w Hf Hin) as (st2 & o2 & fs & E2 & _ & X & Y & Z & _).
    rewrite E2 in Ej. injection Ej as _ <-. eauto.
  - apply (proj1 (spawned_inv _ _ _ _ _ _ _ Hst _ E0)).
Qed.
Print Assumptions C69_explorator.

(** roads of C68, three routes *)
Definition b64_routes : list route := [((0%Z, 1%Z), 2); ((2%Z, 0%Z), 1); ((1%Z, 2%Z), 3)].
Lemma b64_demanded : demanded xp64_graph b64_routes.
Proof.
  intros r [<-|[<-|[<-|[]]]]; (split; [cbn; lia|]); [exists 0, 1|exists 2, 0|exists 1, 2]; split; reflexivity.
Qed.
Lemma b64_unpackable : unpackable xp64_graph 6.
Proof.
  apply plain_unpackable.
  - intros e He. vm_compute in He. do 5 (destruct e as [|e]; [reflexivity|]). lia.
  - intros e He. vm_compute in He. do 5 (destruct e as [|e]; [eexists; reflexivity|]). lia.
  - intros s l t. apply connects_exist.
  - vm_compute. lia.
Qed.
Definition b64_rc (a : routing_algo) : routing_cfg := {| rc_algo := a; rc_alphas := [Fin 1; Fin 1]; rc_scales := [PInf; PInf] |}.
Definition b64_job (a : routing_algo) := rdo_work ieee (6 * 100) xp64_graph (b64_rc a) lines_tri lines_new lines_add lines_cells (fun _ _ => Some [NaN; NaN]) 4 xw_sample.
Definition b64_start : sys :=
  match spawned xp64_graph 1 b64_routes false with Ok s => s | _ => mkSys PErr [] 0 None [] None [] [] 0 end.
Definition b64_schedule : list action := [AMaster; AMaster; AWorker 0; AMaster; AWorker 0; AMaster; AMaster; AMaster].
Lemma b64_nonneg : nonneg_metrics xp64_graph.
Proof. exact (ProofRoundedExploratorCosts.ordinary_nonneg _ xp64_ordinary). Qed.
Example C69_dijkstra_case : exists s0 l log s, spawned xp64_graph 1 b64_routes false = Ok s0 /\
  runs xp64_graph 6 (b64_job ADijkstra) l s0 log s /\ s_phase s = PDone /\ s_loads s = [0; 0; 2; 3; 1] /\
  demanded xp64_graph b64_routes /\ unpackable xp64_graph 6 /\ last_node_connected xp64_graph /\ nonneg_metrics xp64_graph /\
  2 + 2 * powers (edge_count xp64_graph FWD) (node_count xp64_graph) <= 6 * 100.
Proof.
  destruct (exec xp64_graph 6 (b64_job ADijkstra) b64_schedule b64_start) as [[log s]|] eqn:E; [|vm_compute in E; discriminate].
  exists b64_start, b64_schedule, log, s. split; [vm_compute; reflexivity|]. split; [now apply exec_runs|].
  vm_compute in E. injection E as <- <-. split; [reflexivity|]. split; [reflexivity|].
  split; [exact b64_demanded|]. split; [exact b64_unpackable|]. split; [exact xp64_last|]. split; [exact b64_nonneg|].
  apply Nat.leb_le. vm_compute. reflexivity.
Qed.
Example C69_explorator_case : exists s0 l log s, spawned xp64_graph 1 b64_routes false = Ok s0 /\
  runs xp64_graph 6 (b64_job (AExplorator false)) l s0 log s /\ s_phase s = PDone /\ list_sum (s_loads s) = 6 /\
  (forall seed k n, 0 < n -> xw_sample seed k n < n) /\ aligned_metrics xp64_graph /\ metric_dim xp64_graph < 32 /\
  takes_points lines_tri lines_add (considered_metrics (flags (b64_rc (AExplorator false)))) /\
  sound_cells lines_tri lines_new lines_add lines_cells (flags (b64_rc (AExplorator false))).
Proof.
  destruct (exec xp64_graph 6 (b64_job (AExplorator false)) b64_schedule b64_start) as [[log s]|] eqn:E; [|vm_compute in E; discriminate].
  exists b64_start, b64_schedule, log, s. split; [vm_compute; reflexivity|]. split; [now apply exec_runs|].
  vm_compute in E. injection E as <- <-. split; [reflexivity|]. split; [reflexivity|].
  split; [intros seed k n Hn; unfold xw_sample; apply Nat.mod_upper_bound; lia|]. split; [exact xp64_aligned|]. split; [vm_compute; lia|].
  split; [apply lines_take|]. apply lines_sound. vm_compute. lia.
Qed.

(** After an iteration, the metric is updated by the workloads.  If this doesn't
    fail, the graph again meets the conditions under which the workers work
    off all routes. *)
Theorem C69_next g0 g iteration ws bc mi old g' :
  remeasured g0 g -> nonneg_metrics g -> aligned_metrics g -> last_node_connected g ->
  updates g ws bc iteration mi old -> rupdate_new_metric ieee iteration ws bc g = (Ok tt, g') ->
  remeasured g0 g' /\ nonneg_metrics g' /\ aligned_metrics g' /\ last_node_connected g' /\
  node_count g' = node_count g /\ metric_dim g' = metric_dim g /\ edge_count g' FWD = edge_count g FWD /\
  (forall routes, demanded g routes -> demanded g' routes) /\ forall ff, unpackable g ff -> unpackable g' ff.
Proof.
  intros Hg Hnn Hal Hl U Eu.
  destruct (C64_update_total _ _ _ _ _ _ U) as [(msg & F)|(g1 & F & Hnew & [Hlen Hother] & Hsame & _)]; [rewrite F in Eu; discriminate|].
  rewrite F in Eu. injection Eu as ->. pose proof (u_len _ _ _ _ _ _ U) as Lw.
  assert (Eg : g' = with_means (with_metrics g (metrics g')) (means g')).
  { unfold same_network in Hsame. destruct g', g. unfold with_means, with_metrics in *. cbn in *. injection Hsame. intros. subst. reflexivity. }
  assert (Hrow : forall e ms, edge_metrics g' e = Ok ms -> e < length ws /\ exists ms0, edge_metrics g e = Ok ms0).
  { intros e ms He. unfold edge_metrics in *. apply idx_ok in He.
    assert (e < length (metrics g')) by (apply nth_error_Some; congruence). split; [lia|].
    destruct (nth_error (metrics g) e) as [ms0|] eqn:E0; [|apply nth_error_None in E0; lia]. exists ms0. now apply idx_ok. }
  assert (Hdim : metric_dim g' = metric_dim g) by (rewrite Eg; reflexivity).
  assert (Hnnew : nonneg_metrics g').
  { intros e ms x He Hx. destruct (Hrow _ _ He) as [Le (ms0 & E0)]. apply In_nth_error in Hx. destruct Hx as (j & Hj).
    destruct (Nat.eq_dec j mi) as [->|Hne].
    - destruct (Hnew e Le) as (y & Hy & Py). unfold metric_of in Hy. rewrite He in Hy. rewrite Hy in Hj. injection Hj as <-. exact Py.
    - destruct (proj1 (Hother e j x Hne)) as (ms1 & E1 & N1); [exists ms; auto|]. eapply Hnn; [exact E1|eapply nth_error_In; eauto]. }
  assert (Hanew : aligned_metrics g').
  { intros e ms He. destruct (Hrow _ _ He) as [Le (ms0 & E0)]. rewrite Hdim. pose proof (Hal _ _ E0) as L0.
    assert (Hmi : mi < length ms0).
    { destruct (u_old _ _ _ _ _ _ U e Le) as (A & _). unfold metric_of in A. rewrite E0 in A. apply nth_error_Some. congruence. }
    destruct (Hnew e Le) as (y & Hy & _). unfold metric_of in Hy. rewrite He in Hy.
    assert (K : forall j, nth_error ms j <> None <-> nth_error ms0 j <> None).
    { intros j. destruct (Nat.eq_dec j mi) as [->|Hne]; [rewrite Hy; split; [intros _; now apply nth_error_Some|discriminate]|]. split; intros Hj.
      - destruct (nth_error ms j) as [x|] eqn:Ex; [|congruence]. destruct (proj1 (Hother e j x Hne)) as (ms1 & E1 & N1); [exists ms; auto|]. congruence.
      - destruct (nth_error ms0 j) as [x|] eqn:Ex; [|congruence]. destruct (proj2 (Hother e j x Hne)) as (ms1 & E1 & N1); [exists ms0; auto|]. congruence. }
    destruct (lt_eq_lt_dec (length ms) (length ms0)) as [[L|L]|L]; [|lia|].
    - exfalso. assert (nth_error ms (length ms) <> None) by (apply K, nth_error_Some; exact L). apply nth_error_Some in H. lia.
    - exfalso. assert (nth_error ms0 (length ms0) <> None) by (apply K, nth_error_Some; exact L). apply nth_error_Some in H. lia. }
  assert (Hcon : forall a l b, connects g' a l b -> connects g a l b).
  { intros a l b H. induction H; econstructor; eauto. match goal with H : edge_from_to g' _ _ _ |- _ => rewrite Eg in H; exact H end. }
  split.
  { destruct Hg as (ms & mn & Lm & c1 & ids1 & im1 & E1). exists (metrics g'), (means g'). split.
    - rewrite Hlen. rewrite E1. exact Lm.
    - exists c1, ids1, im1. rewrite Eg at 1. rewrite E1. reflexivity. }
  split; [exact Hnnew|]. split; [exact Hanew|]. split; [rewrite Eg; exact Hl|]. split; [rewrite Eg; reflexivity|]. split; [exact Hdim|].
  split; [rewrite Eg; reflexivity|]. split.
  { intros routes Hd r Hr. destruct (Hd r Hr) as (A & s & t & B & C). split; auto. exists s, t. split; rewrite Eg; auto. }
  intros ff Hun s l t p Hc Ln Ep. assert (Ln' : length l + 2 <= 2 * node_count g) by (rewrite Eg in Ln; exact Ln).
  destruct (Hun s l t p (Hcon _ _ _ Hc) Ln' Ep) as (p' & Hf & He).
  assert (KL : forall fuel top stack acc cs cs' r, flatten_loop g fuel top stack acc cs = Ok r ->
    exists z, flatten_loop g' fuel top stack acc cs' = Ok (fst r, z)).
  { induction fuel as [|fuel IH]; intros top stack acc cs cs' r Hloop; cbn [flatten_loop] in *; [discriminate|].
    apply bind_ok in Hloop. destruct Hloop as (sc & Esc & Hloop). replace (sc_edges g' top) with (sc_edges g top) by (rewrite Eg; reflexivity).
    rewrite Esc. cbn [bind]. destruct sc as [[e0 e1]|].
    - replace (edge_count g' FWD) with (edge_count g FWD) by (rewrite Eg; reflexivity). destruct (_ <? _); [discriminate|]. eapply IH; eauto.
    - apply bind_ok in Hloop. destruct Hloop as (m & Em & Hloop).
      assert (exists m', edge_metrics g' top = Ok m') as (m' & Em').
      { unfold edge_metrics in *. apply idx_ok in Em. assert (top < length (metrics g)) by (apply nth_error_Some; congruence).
        destruct (nth_error (metrics g') top) as [m'|] eqn:Z; [|apply nth_error_None in Z; lia]. exists m'. now apply idx_ok. }
      rewrite Em'. cbn [bind]. destruct stack as [|e stack]; [injection Hloop as <-; eauto|]. eapply IH; eauto. }
  unfold flattens, flatten, try_flatten in *. destruct (p_edges p) as [|e es'].
  - cbn [bind] in *. injection Hf as <-. eexists. split; [reflexivity|]. cbn [p_edges fst] in *. intros e [].
  - destruct (flatten_loop g ff e es' [] (repeat f0 (metric_dim g))) as [r| | |] eqn:Z; cbn [bind] in Hf; try discriminate. injection Hf as <-.
    destruct (KL _ _ _ _ _ (repeat f0 (metric_dim g')) _ Z) as (z & ->). cbn [bind]. eexists. split; [reflexivity|]. cbn [p_edges fst] in *.
    rewrite Eg. exact He.
Qed.
Print Assumptions C69_next.

(** the workloads of [C69_dijkstra_case] are taken into the first metric *)
Definition b64_balancing : balancing_cfg := {| bc_metric := "a"%string; bc_method := Averaging; bc_min := Some (Fin (1 # 8)); bc_zero_err := true |}.
Definition b64_old (e : nat) : Q := match metric_of xp64_graph e 0 with Some (Fin q) => q | _ => 0%Q end.
Lemma b64_updates : updates xp64_graph [0; 0; 2; 3; 1] b64_balancing 0 0 b64_old.
Proof.
  constructor; [|reflexivity|apply Nat.ltb_lt; reflexivity|apply Z.leb_le; reflexivity|apply Z.leb_le; reflexivity|apply Z.leb_le; reflexivity| | |exact I|exists (1 # 8); split; [reflexivity|]; split; apply by_le; vm_compute; reflexivity].
  - split; [reflexivity|intros j Hj; lia].
  - intros e He. cbn [length] in He. do 5 (destruct e as [|e]; [split; [reflexivity|split; [split; apply by_le; vm_compute; reflexivity|apply representable_by; vm_compute; reflexivity]]|]). lia.
  - intros mu H. discriminate.
Qed.
Example C69_next_case : exists g', updates xp64_graph [0; 0; 2; 3; 1] b64_balancing 0 0 b64_old /\
  rupdate_new_metric ieee 0 [0; 0; 2; 3; 1] b64_balancing xp64_graph = (Ok tt, g') /\ metrics g' <> metrics xp64_graph /\
  remeasured xp_graph g' /\ demanded g' b64_routes /\ unpackable g' 6 /\ nonneg_metrics g'.
Proof.
  destruct (rupdate_new_metric ieee 0 [0; 0; 2; 3; 1] b64_balancing xp64_graph) as [r g'] eqn:E.
  assert (r = Ok tt) as -> by (apply (f_equal fst) in E; symmetry; vm_compute in E |- *; exact E).
  exists g'. split; [exact b64_updates|]. split; [reflexivity|].
  destruct (C69_next _ _ _ _ _ _ _ _ xp64_remeasured b64_nonneg xp64_aligned xp64_last b64_updates E) as (A & B & _ & _ & _ & _ & _ & C & D).
  split; [change g' with (snd (@Ok unit tt, g')); rewrite <- E; vm_compute; discriminate|]. split; [exact A|].
  split; [apply C; exact b64_demanded|]. split; [apply D; exact b64_unpackable|exact B].
Qed.
