(** C71: updating the balanced metric again and again, in f64 *)
From Coq Require Import String List Bool Arith ZArith QArith Lia.
From Verif Require Import Base F64 Lib ModelUnits ModelConfig ModelGraph ModelBuild ModelDijkstra ModelExplorator ModelBalancing
  ModelHeap ModelRounded ModelRoundedHeap ModelRoundedExplorator ModelRoundedBalancing ModelRoundedMetrics
  Spec SpecRouting SpecPaths SpecExplorator SpecCells SpecExploreEnds SpecBalancing SpecRounded SpecRoundedHeap SpecRoundedExplorator SpecRoundedBalancing
  SpecRoundedMetrics SpecRoundedAgain ProofCompare64 ProofRounding64 ProofRoundedAgain PropsRoundedMetrics PropsRoundedBalancing
  PropsRounded PropsRoundedHeap PropsRoundedExplorator PropsRoundedAnswers PropsExplorator PropsExploreEnds Examples ExamplesRouting.
Import ListNotations.
Open Scope list_scope.
Open Scope nat_scope.

(** After an update, whatever the values have been, the value of an edge is at
    most twice the number of edges, and the graph can be updated again. *)
Theorem C71_again g ws bc iteration mi old g' :
  updates g ws bc iteration mi old -> rupdate_new_metric ieee iteration ws bc g = (Ok tt, g') ->
  exists new, (forall e, e < length ws -> metric_of g' e mi = Some (Fin (new e)) /\ (0 <= new e <= 2 * inject_Z (Z.of_nat (length ws)))%Q) /\
    forall ws' iteration', loads (length ws) ws' -> countable iteration' -> updates g' ws' bc iteration' mi new.
Proof.
  intros U E. destruct (again_updates _ _ _ _ _ _ _ U E) as (new & A & C). exists new. split; [exact A|].
  intros ws' it' [H1 H2] H3. now apply C.
Qed.
Print Assumptions C71_again.

Lemma same_other_trans g1 g2 g3 mi : same_other_metrics g1 g2 mi -> same_other_metrics g2 g3 mi -> same_other_metrics g1 g3 mi.
Proof. intros [A C] [D E]. split; [congruence|]. intros e j x H. rewrite E, C by auto. reflexivity. Qed.
Lemma same_network_trans g1 g2 g3 : same_network g1 g2 -> same_network g2 g3 -> same_network g1 g3.
Proof.
  unfold same_network. intros A C. destruct g1, g2, g3. unfold with_means, with_metrics in *. cbn in *. injection A. injection C. intros. subst. reflexivity.
Qed.

(** Any number of updates: no one panics.  Either all are done, or one of them
    is rejected and leaves the graph as it is.  Nothing but the metric has
    changed then. *)
Theorem C71_rounds bc mi wss : forall g iteration ws old,
  updates g ws bc iteration mi old -> Forall (loads (length ws)) wss -> countable (iteration + length wss) ->
  exists pre g', repeated bc iteration pre g g' /\ same_other_metrics g g' mi /\ same_network g g' /\
    (pre <> [] -> evened g' (length ws) mi) /\
    (pre = ws :: wss \/
     exists ws' post msg, ws :: wss = pre ++ ws' :: post /\ rupdate_new_metric ieee (iteration + length pre) ws' bc g' = (Err msg, g')).
Proof.
  induction wss as [|ws2 wss IH]; intros g i ws old U Hl Hc.
  - destruct (C64_update_total _ _ _ _ _ _ U) as [(msg & E)|(g' & E & _ & S1 & S2 & _)].
    + exists [], g. split; [constructor|]. split; [split; [reflexivity|reflexivity]|]. split; [unfold same_network; now destruct g|]. split; [congruence|].
      right. exists ws, [], msg. split; [reflexivity|]. cbn [length]. now rewrite Nat.add_0_r.
    + exists [ws], g'. split; [econstructor; [exact E|constructor]|]. split; auto. split; auto. split; [|left; reflexivity].
      intros _. destruct (C71_again _ _ _ _ _ _ _ U E) as (new & A & _). intros e He. exists (new e). apply A, He.
  - destruct (C64_update_total _ _ _ _ _ _ U) as [(msg & E)|(g1 & E & _ & S1 & S2 & _)].
    + exists [], g. split; [constructor|]. split; [split; [reflexivity|reflexivity]|]. split; [unfold same_network; now destruct g|]. split; [congruence|].
      right. exists ws, (ws2 :: wss), msg. split; [reflexivity|]. cbn [length]. now rewrite Nat.add_0_r.
    + destruct (C71_again _ _ _ _ _ _ _ U E) as (new & A & Hagain). inversion Hl as [|x l Hx Hl']; subst.
      cbn [length] in Hc. destruct (IH g1 (S i) ws2 new) as (pre & g' & R & T1 & T2 & He & Hend).
      * apply Hagain; auto. unfold countable in *. lia.
      * destruct Hx as [-> _]. exact Hl'.
      * unfold countable in *. lia.
      * assert (L2 : length ws2 = length ws) by apply Hx. exists (ws :: pre), g'. split; [econstructor; eauto|].
        split; [eapply same_other_trans; eauto|]. split; [eapply same_network_trans; eauto|]. split.
        -- intros _. destruct pre as [|p pre]; [|rewrite <- L2; apply He; discriminate].
           inversion R; subst. intros e Hlt. exists (new e). apply A, Hlt.
        -- destruct Hend as [->|(ws' & post & msg & F1 & F2)]; [left; reflexivity|]. right. exists ws', post, msg.
           split; [cbn; now rewrite F1|]. cbn [length]. now replace (i + S (length pre)) with (S i + length pre) by lia.
Qed.
Print Assumptions C71_rounds.

(** With a minimum of at least 2^-19 and at least one load in 2^19 edges, no
    update is rejected. *)
Theorem C71_accepted bc mi k wss : bc_min bc = Some (Fin k) -> (Qpower (2 # 1) (- (19)) <= k)%Q -> forall g iteration ws old,
  updates g ws bc iteration mi old -> Forall (loads (length ws)) wss -> countable (iteration + length wss) ->
  Forall (fun l => (Z.of_nat (length ws) <= 2 ^ 19 * Z.of_nat (list_sum l))%Z) (ws :: wss) ->
  exists g', repeated bc iteration (ws :: wss) g g' /\ evened g' (length ws) mi.
Proof.
  intros Hmin Hk. induction wss as [|ws2 wss IH]; intros g i ws old U Hl Hc Hs; inversion Hs as [|x l Hs1 Hs2]; subst;
    destruct (update_accepted _ _ _ _ _ _ k U Hmin Hk Hs1) as (g1 & E); destruct (C71_again _ _ _ _ _ _ _ U E) as (new & A & Hagain).
  - exists g1. split; [econstructor; [exact E|constructor]|]. intros e He. exists (new e). apply A, He.
  - inversion Hl as [|x l Hx Hl']; subst. cbn [length] in Hc. assert (L2 : length ws2 = length ws) by apply Hx.
    destruct (IH g1 (S i) ws2 new) as (g' & R & He).
    + apply Hagain; auto. unfold countable in *. lia.
    + rewrite L2. exact Hl'.
    + unfold countable in *. lia.
    + rewrite L2. exact Hs2.
    + exists g'. split; [econstructor; eauto|]. rewrite <- L2. exact He.
Qed.
Print Assumptions C71_accepted.

(** Whatever the workloads of the iterations have been, the balancer's workers
    meet a graph they can work on, as in C69. *)
Theorem C71_balancing g0 bc mi wss : forall g iteration ws old g',
  remeasured g0 g -> nonneg_metrics g -> aligned_metrics g -> last_node_connected g ->
  updates g ws bc iteration mi old -> Forall (loads (length ws)) wss -> countable (iteration + length wss) ->
  repeated bc iteration (ws :: wss) g g' ->
  remeasured g0 g' /\ nonneg_metrics g' /\ aligned_metrics g' /\ last_node_connected g' /\
  node_count g' = node_count g /\ metric_dim g' = metric_dim g /\ edge_count g' FWD = edge_count g FWD /\
  (forall routes, demanded g routes -> demanded g' routes) /\ forall ff, unpackable g ff -> unpackable g' ff.
Proof.
  induction wss as [|ws2 wss IH]; intros g i ws old g' Hg Hnn Hal Hlast U Hl Hc R; inversion R as [|i' ws' wss' ga g1 gb E R']; subst;
    destruct (C69_next _ _ _ _ _ _ _ _ Hg Hnn Hal Hlast U E) as (A1 & A2 & A3 & A4 & A5 & A6 & A7 & A8 & A9).
  - inversion R'; subst. auto 12.
  - destruct (C71_again _ _ _ _ _ _ _ U E) as (new & _ & Hagain). inversion Hl as [|x l Hx Hl']; subst. cbn [length] in Hc.
    destruct (IH g1 (S i) ws2 new g' A1 A2 A3 A4) as (B1 & B2 & B3 & B4 & B5 & B6 & B7 & B8 & B9); auto.
    + apply Hagain; auto. unfold countable in *. lia.
    + destruct Hx as [-> _]. exact Hl'.
    + unfold countable in *. lia.
    + split; auto. split; auto. split; auto. split; auto. split; [congruence|]. split; [congruence|]. split; [congruence|]. auto.
Qed.
Print Assumptions C71_balancing.

(** the update of C69_next_case; an edge ends up above the mean, below the bound *)
Example C71_again_case : exists g' y, updates xp64_graph [0; 0; 2; 3; 1] b64_balancing 0 0 b64_old /\
  rupdate_new_metric ieee 0 [0; 0; 2; 3; 1] b64_balancing xp64_graph = (Ok tt, g') /\ metric_of g' 3 0 = Some (Fin y) /\ (2 < y <= 10)%Q.
Proof.
  destruct (rupdate_new_metric ieee 0 [0; 0; 2; 3; 1] b64_balancing xp64_graph) as [r g'] eqn:E.
  assert (r = Ok tt) as -> by (apply (f_equal fst) in E; symmetry; vm_compute in E |- *; exact E).
  destruct (C71_again _ _ _ _ _ _ _ b64_updates E) as (new & A & _). destruct (A 3) as (N & _ & Hi); [cbn; lia|].
  exists g', (new 3). split; [exact b64_updates|]. split; [reflexivity|]. split; [exact N|]. split; [|exact Hi].
  apply (f_equal snd) in E. cbn [snd] in E. subst g'. vm_compute in N. injection N as <-. reflexivity.
Qed.

(** the roads of C69: three iterations *)
Definition again_loads : list (list nat) := [[1; 1; 1; 1; 2]; [6; 0; 0; 0; 0]].
Lemma again_counted : Forall (loads (length [0; 0; 2; 3; 1])) again_loads.
Proof. repeat constructor; apply Z.leb_le; reflexivity. Qed.
Example C71_accepted_case : exists g', repeated b64_balancing 0 ([0; 0; 2; 3; 1] :: again_loads) xp64_graph g' /\ evened g' 5 0 /\
  metrics g' <> metrics xp64_graph /\ remeasured xp_graph g' /\ demanded g' b64_routes /\ unpackable g' 6.
Proof.
  destruct (C71_accepted b64_balancing 0 (1 # 8) again_loads eq_refl ltac:(apply by_le; vm_compute; reflexivity) xp64_graph 0 [0; 0; 2; 3; 1] b64_old) as (g' & R & He).
  - exact b64_updates.
  - exact again_counted.
  - apply Z.leb_le. reflexivity.
  - repeat constructor; apply Z.leb_le; reflexivity.
  - exists g'. split; [exact R|]. split; [exact He|].
    destruct (C71_balancing xp_graph b64_balancing 0 again_loads xp64_graph 0 [0; 0; 2; 3; 1] b64_old g' xp64_remeasured b64_nonneg xp64_aligned xp64_last
      b64_updates again_counted ltac:(apply Z.leb_le; reflexivity) R) as (A & _ & _ & _ & _ & _ & _ & C & D).
    split; [|split; [exact A|split; [apply C, b64_demanded|apply D, b64_unpackable]]].
    inversion R as [|? ? ? ? g1 ? E1 R1]; subst. inversion R1 as [|? ? ? ? g2 ? E2 R2]; subst. inversion R2 as [|? ? ? ? g3 ? E3 R3]; subst. inversion R3; subst.
    apply (f_equal snd) in E1. cbn [snd] in E1. subst g1. apply (f_equal snd) in E2. cbn [snd] in E2. subst g2. apply (f_equal snd) in E3. cbn [snd] in E3. subst g'.
    clear. vm_compute. discriminate.
Qed.
(** without a minimum, an edge without load stops the second iteration *)
Definition strict64 : balancing_cfg := {| bc_metric := "a"%string; bc_method := ExplicitEuler (Fin 1); bc_min := None; bc_zero_err := true |}.
Example C71_rounds_case : updates xp64_graph [1; 1; 1; 1; 2] strict64 0 0 b64_old /\
  exists g' msg, repeated strict64 0 [[1; 1; 1; 1; 2]] xp64_graph g' /\ rupdate_new_metric ieee 1 [6; 0; 0; 0; 0] strict64 g' = (Err msg, g').
Proof.
  split.
  - destruct b64_updates as [A _ _ _ _ _ D E _ _]. constructor; [exact A|reflexivity|apply Nat.ltb_lt; reflexivity|apply Z.leb_le; reflexivity|apply Z.leb_le; reflexivity|apply Z.leb_le; reflexivity|exact D|exact E| |exact I].
    exists 1%Q. split; [reflexivity|]. split; apply by_le; vm_compute; reflexivity.
  - destruct (rupdate_new_metric ieee 0 [1; 1; 1; 1; 2] strict64 xp64_graph) as [r g1] eqn:E.
    assert (r = Ok tt) as -> by (apply (f_equal fst) in E; symmetry; vm_compute in E |- *; exact E).
    exists g1. apply (f_equal snd) in E as E'. cbn [snd] in E'.
    eexists. split; [econstructor; [exact E|constructor]|]. subst g1. vm_compute. reflexivity.
Qed.
