(** Property C51: iterating the balancer *)
From Coq Require Import String List Bool Arith ZArith QArith NArith Lia Lqa.
From Verif Require Import Base F64 ModelApprox ModelUnits ModelText ModelConfig ModelGraph ModelBuild ModelDijkstra ModelRoutingCfg ModelBalancing ModelLoop
  Lib Spec SpecGenerate SpecBalancing ProofApprox ProofMetrics ProofGenerate ProofBalancing Examples PropsConfig PropsBalancing PropsWriting.
Import ListNotations.
Open Scope string_scope.
Open Scope list_scope.
Open Scope nat_scope.

(** *** Vocabulary *)

(** edge [e]'s workload, relative to the mean workload *)
Definition load_of (ws : list nat) (e : nat) : Q := (qn (nth e ws 0%nat) * qn (length ws) / qn (list_sum ws))%Q.
(** the sum of [f] over a list *)
Definition total {A} (f : A -> Q) (l : list A) : Q := fold_right (fun a s => (f a + s)%Q) 0%Q l.
(** moving from [old] to each of the values, each time by a share of [k] *)
Fixpoint smoothed (k old : Q) (rs : list Q) : Q :=
  match rs with
  | [] => old
  | r :: rs => smoothed k ((1 - k) * old + k * r) rs
  end.

Section Vocabulary.
  Variables (routing_of : graph -> res routing_cfg) (rebuild : nat -> graph -> res graph)
            (simulate : nat -> graph -> routing_cfg -> res (list nat)) (bc : balancing_cfg).

  (** the config used in iteration [i]: first, the balanced metric has no weight *)
  Definition routed (i : nat) (ch : graph) (rc : routing_cfg) : Prop :=
    exists rc0, routing_of ch = Ok rc0 /\ rc_algo rc = rc_algo rc0 /\ rc_scales rc = rc_scales rc0 /\
      match i with
      | O => exists mi, metric_at ch (bc_metric bc) mi /\ length (rc_alphas rc) = length (rc_alphas rc0) /\
               nth_error (rc_alphas rc) mi = Some f0 /\ forall j, j <> mi -> nth_error (rc_alphas rc) j = nth_error (rc_alphas rc0) j
      | S _ => rc_alphas rc = rc_alphas rc0
      end.

  (** iterations with workloads [wss] lead from [g] to [g'], the first one being
      number [i] *)
  Inductive iterated : nat -> graph -> list (list nat) -> graph -> Prop :=
  | iterated_none i g : iterated i g [] g
  | iterated_one i g ch rc ws g1 wss g' :
      rebuild i g = Ok ch -> routed i ch rc -> simulate i ch rc = Ok ws ->
      update_new_metric i ws bc ch = (Ok tt, g1) -> iterated (S i) g1 wss g' -> iterated i g (ws :: wss) g'.
End Vocabulary.

(** rebuilding keeps the balanced metric of every edge *)
Definition keeps (rebuild : nat -> graph -> res graph) (id : string) (mi : nat) : Prop :=
  forall i g ch, rebuild i g = Ok ch -> metric_at g id mi ->
    metric_at ch id mi /\ length (metrics ch) = length (metrics g) /\
    forall e x, has_metric g e mi x -> has_metric ch e mi x.
(** simulating counts every edge *)
Definition counts_edges (simulate : nat -> graph -> routing_cfg -> res (list nat)) : Prop :=
  forall i g rc ws, simulate i g rc = Ok ws -> length ws = length (metrics g).

(** *** The loop *)
Section Loop.
  Variables (routing_of : graph -> res routing_cfg) (rebuild : nat -> graph -> res graph)
            (simulate : nat -> graph -> routing_cfg -> res (list nat)) (export : nat -> graph -> list nat -> res unit)
            (store : graph -> res text) (bc : balancing_cfg).
  Notation iterated := (iterated routing_of rebuild simulate bc).
  Notation loop := (balancing_loop routing_of rebuild simulate export store bc).

  Lemma routing_routed i ch rc : iteration_routing routing_of bc i ch = Ok rc -> routed routing_of bc i ch rc.
  Proof.
    unfold iteration_routing. intros H. apply bind_ok in H. destruct H as (rc0 & E0 & H). exists rc0. split; [exact E0|].
    destruct i as [|i]; cbn [Nat.eqb] in H.
    - apply bind_ok in H. destruct H as (mi & Em & H). apply bind_ok in H. destruct H as (al & Ea & H). injection H as <-. cbn [rc_algo rc_scales rc_alphas].
      split; [reflexivity|]. split; [reflexivity|]. apply try_idx_first in Em. apply set_ok in Ea. destruct Ea as [L ->].
      exists mi. split; [exact Em|]. split; [apply upd_length|]. split; [now apply nth_error_upd_eq|]. intros j Hj. apply nth_error_upd_neq; auto.
    - injection H as <-. auto.
  Qed.
  Lemma balance_updates i ch rc g : balance simulate export bc i ch rc = Ok g ->
    exists ws, simulate i ch rc = Ok ws /\ update_new_metric i ws bc ch = (Ok tt, g) /\ export i g ws = Ok tt.
  Proof.
    unfold balance. intros H. apply bind_ok in H. destruct H as (ws & Ew & H). exists ws. split; [exact Ew|].
    destruct (update_new_metric i ws bc ch) as [[[]| | |] g']; try discriminate.
    apply bind_ok in H. destruct H as ([] & Ex & H). injection H as <-. auto.
  Qed.
  Lemma loop_iterated n : forall todo i g st g' st', i + todo = n -> 0 < todo -> loop n todo i g st = Ok (g', st') ->
    exists wss ws g1 t, length wss = todo - 1 /\ iterated i g wss g1 /\ store g1 = Ok t /\ st' = st ++ [t] /\ iterated (n - 1) g1 [ws] g'.
  Proof.
    induction todo as [|todo IH]; intros i g st g' st' Hn Ht H; [lia|]. cbn [balancing_loop] in H.
    apply bind_ok in H. destruct H as (st1 & Es & H). apply bind_ok in H. destruct H as (ch & Ec & H).
    apply bind_ok in H. destruct H as (rc & Er & H). apply bind_ok in H. destruct H as (g1 & Eg & H).
    apply routing_routed in Er. destruct (balance_updates _ _ _ _ Eg) as (ws & Ew & Eu & _).
    destruct (Nat.eqb_spec i (n - 1)) as [E|N].
    - assert (todo = 0) by lia. subst todo. cbn [balancing_loop] in H. injection H as <- <-.
      apply bind_ok in Es. destruct Es as (t & Et & Es). injection Es as <-.
      exists [], ws, g, t. split; [reflexivity|]. split; [constructor|]. split; [exact Et|]. split; [reflexivity|].
      rewrite <- E. econstructor; eauto. constructor.
    - injection Es as <-. destruct (IH (S i) g1 st g' st') as (wss & ws' & g2 & t & L & I & T & S' & I'); [lia|lia|exact H|].
      exists (ws :: wss), ws', g2, t. split; [cbn [length]; lia|]. split; [econstructor; eauto|]. auto.
  Qed.
End Loop.

(** A run stores one graph: the one after exactly the configured number of
    updates.  Then follows one more iteration, for evaluating this graph. *)
Theorem C51_loop routing_of rebuild simulate export store bc k g g' stored :
  run_balancing routing_of rebuild simulate export store bc k g = Ok (g', stored) ->
  exists wss ws gs t, length wss = k /\ iterated routing_of rebuild simulate bc 0 g wss gs /\
    store gs = Ok t /\ stored = [t] /\ iterated routing_of rebuild simulate bc k gs [ws] g'.
Proof.
  unfold run_balancing. intros H. apply bind_ok in H. destruct H as (rc & _ & H).
  destruct (loop_iterated routing_of rebuild simulate export store bc (k + 1) (k + 1) 0 g [] g' stored) as (wss & ws & gs & t & L & I & T & S' & I'); [lia|lia|exact H|].
  exists wss, ws, gs, t. split; [lia|]. split; [exact I|]. split; [exact T|]. split; [exact S'|]. now replace k with (k + 1 - 1) by lia.
Qed.
Print Assumptions C51_loop.

(** *** Averaging *)
Lemma qn_pos n : 0 < n -> (0 < qn n)%Q.
Proof. intros H. unfold qn. change 0%Q with (inject_Z 0). rewrite <- Zlt_Qlt. lia. Qed.
Lemma qn_S n : (qn (S n) == qn n + 1)%Q.
Proof. unfold qn. rewrite Nat2Z.inj_succ. unfold Z.succ. rewrite inject_Z_plus. reflexivity. Qed.
Lemma sum_to_plus n f h : (sum_to n (fun i => f i + h i) == sum_to n f + sum_to n h)%Q.
Proof. induction n as [|n IH]; cbn [sum_to]; [lra|]. rewrite IH. lra. Qed.
Lemma sum_to_times n f k : (sum_to n (fun i => k * f i) == k * sum_to n f)%Q.
Proof. induction n as [|n IH]; cbn [sum_to]; [lra|]. rewrite IH. lra. Qed.

Lemma relative_load ws e load r : 0 < list_sum ws -> nth_error ws e = Some load -> relative ws load r -> (r == load_of ws e)%Q.
Proof.
  intros Hs He H. unfold relative in H. unfold load_of. rewrite (nth_error_nth ws e 0 He). rewrite <- H. pose proof (qn_pos _ Hs). field. lra.
Qed.
Lemma loads_sum ws : 0 < list_sum ws -> (sum_to (length ws) (load_of ws) == qn (length ws))%Q.
Proof.
  intros Hs. pose proof (qn_pos _ Hs) as Hq.
  rewrite (sum_to_ext _ _ (fun i => (qn (length ws) / qn (list_sum ws)) * nth i (map qn ws) 0)%Q).
  - rewrite sum_to_times, list_sum_to. field. lra.
  - intros i Hi. unfold load_of. change 0%Q with (qn 0). rewrite map_nth. field. lra.
Qed.

(** one iteration, if rebuilding keeps the metric: without minimum, dividing by
    the mean afterwards changes nothing if the values sum up to the number of
    edges before *)
Lemma one_step i ws bc g mi old g' n :
  finite_cfg bc -> bc_min bc = None -> metric_at g (bc_metric bc) mi -> 0 < n -> length (metrics g) = n -> length ws = n ->
  (forall e, e < n -> has_metric g e mi (Fin (old e))) ->
  update_new_metric i ws bc g = (Ok tt, g') ->
  0 < list_sum ws /\ metric_at g' (bc_metric bc) mi /\ length (metrics g') = n /\
  exists y, (forall e, e < n -> has_metric g' e mi (Fin (y e))) /\ (sum_to n y == qn n)%Q /\
    ((forall v, (forall e, e < n -> moved (bc_method bc) i (old e) (load_of ws e) (v e)) -> (sum_to n v == qn n)%Q) ->
     forall e, e < n -> moved (bc_method bc) i (old e) (load_of ws e) (y e)).
Proof.
  intros Hf Hmin Hat Hn Lm Lw Hold H.
  destruct (C29_update_partial i ws bc g mi old g' Hf Hat) as (Hs & m2 & x & y & (Hm & Hmx) & Hv & Hy & Ho & Hnet & _); auto.
  { destruct (metrics g); [cbn in Lm; lia|discriminate]. }
  { congruence. }
  { rewrite Lw. exact Hold. }
  rewrite Lw in *. split; [exact Hs|]. split.
  { unfold same_network in Hnet. unfold metric_at in *. rewrite <- Hnet in Hat. exact Hat. }
  split; [destruct Ho as [Ho _]; congruence|].
  assert (Hld : forall e, e < n -> exists l, nth_error ws e = Some l).
  { intros e He. destruct (nth_error ws e) eqn:E; [eauto|]. apply nth_error_None in E. lia. }
  assert (Mv : forall m o r r' v, (r == r')%Q -> moved m i o r v -> moved m i o r' v).
  { intros [c|] o r r' v Er; cbn [moved]; [intros (k & Ek & E); exists k; split; [exact Ek|]; rewrite E, Er; reflexivity|intros E; rewrite E, Er; reflexivity]. }
  assert (Mv' : forall m o r v v', (v == v')%Q -> moved m i o r v -> moved m i o r v').
  { intros [c|] o r v v' Ev; cbn [moved]; [intros (k & Ek & E); exists k; split; [exact Ek|]; rewrite <- Ev; exact E|intros E; rewrite <- Ev; exact E]. }
  assert (Hx : forall e, e < n -> moved (bc_method bc) i (old e) (load_of ws e) (x e) /\ (y e * m2 == x e)%Q /\ has_metric g' e mi (Fin (y e))).
  { intros e He. destruct (Hld e He) as [l El]. destruct (Hv e l El) as ((r & v & Hr & Hmv & Hrz & _) & Hy' & Hq).
    split; [|auto]. rewrite Hmin in Hrz. cbn [raised] in Hrz. apply (Mv' _ _ _ v); [now symmetry|]. apply (Mv _ _ r); [|exact Hmv]. now apply (relative_load ws e l). }
  exists y. split; [intros e He; now apply Hx|]. split; [exact Hy|].
  intros Hsum e He. destruct (Hx e He) as (A & B & _). pose proof (Hsum x (fun e' He' => proj1 (Hx e' He'))) as Hx'.
  pose proof (qn_pos n Hn) as Hq. assert (m2 == 1)%Q.
  { apply (Qmult_inj_r m2 1 (qn n)); [lra|]. rewrite Hmx, Hx'. lra. }
  apply (Mv' _ _ _ (x e)); [|exact A]. rewrite <- B, H0. lra.
Qed.

Lemma averaging_from routing_of rebuild simulate bc mi n :
  bc_method bc = Averaging -> bc_min bc = None -> keeps rebuild (bc_metric bc) mi -> counts_edges simulate -> 0 < n ->
  forall i g wss g', iterated routing_of rebuild simulate bc i g wss g' ->
  forall (past : nat -> Q) old, metric_at g (bc_metric bc) mi -> length (metrics g) = n ->
  (forall e, e < n -> has_metric g e mi (Fin (old e)) /\ (old e * qn i == past e)%Q) -> i = 0 \/ (sum_to n old == qn n)%Q ->
  metric_at g' (bc_metric bc) mi /\ length (metrics g') = n /\
  exists y, (forall e, e < n -> has_metric g' e mi (Fin (y e)) /\ (y e * qn (i + length wss) == past e + total (fun ws => load_of ws e) wss)%Q) /\
    (i + length wss = 0 \/ (sum_to n y == qn n)%Q).
Proof.
  intros Hmeth Hmin Hk Hc Hn. induction 1 as [i g|i g ch rc ws g1 wss g' Er Ert Es Eu I IH]; intros past old Hat L Hold Hsum.
  - split; [exact Hat|]. split; [exact L|]. exists old. cbn [length total fold_right]. rewrite Nat.add_0_r. split; [|exact Hsum].
    intros e He. destruct (Hold e He) as [A B]. split; [exact A|]. rewrite B. lra.
  - destruct (Hk _ _ _ Er Hat) as (Hat1 & L1 & Hm1). rewrite L in L1. pose proof (Hc _ _ _ _ Es) as Lw. rewrite L1 in Lw.
    assert (Hf : finite_cfg bc) by (split; [now rewrite Hmeth|now rewrite Hmin]).
    destruct (one_step i ws bc ch mi old g1 n Hf Hmin Hat1 Hn L1 Lw) as (Hs & Hat2 & L2 & y & Hy & Hys & Hmv); [intros e He; apply Hm1, Hold, He|exact Eu|].
    rewrite Hmeth in Hmv. cbn [moved] in Hmv.
    assert (Hq : (0 < qn i + 1)%Q) by (rewrite <- qn_S; apply qn_pos; lia).
    assert (Hmv' : forall e, e < n -> (y e * (qn i + 1) == qn i * old e + load_of ws e)%Q).
    { apply Hmv. intros v Hv. apply (Qmult_inj_r _ _ (qn i + 1)); [lra|].
      rewrite (Qmult_comm (sum_to n v)), <- sum_to_times.
      rewrite (sum_to_ext _ _ (fun e => qn i * old e + load_of ws e)%Q); [|intros e He; rewrite <- Hv by exact He; lra].
      rewrite sum_to_plus, sum_to_times. rewrite <- Lw at 2 3. rewrite loads_sum by exact Hs.
      destruct Hsum as [->|Hsum]; [change (qn 0) with 0%Q; rewrite Lw; lra|]. rewrite Hsum, Lw. lra. }
    destruct (IH (fun e => past e + load_of ws e)%Q y Hat2 L2) as (A & B & z & Hz & Hzs).
    + intros e He. split; [now apply Hy|]. rewrite qn_S, Hmv' by exact He. destruct (Hold e He) as [_ <-]. lra.
    + right. exact Hys.
    + split; [exact A|]. split; [exact B|]. exists z. cbn [length total fold_right]. rewrite <- plus_n_Sm. split; [|destruct Hzs as [Hz0|Hzs]; [lia|right; exact Hzs]].
      intros e He. destruct (Hz e He) as [C D]. split; [exact C|]. cbn [Nat.add] in D. rewrite D. unfold total. lra.
Qed.

(** With averaging, without minimum, and if rebuilding keeps the metric: after any
    number of iterations, every edge's balanced metric is the mean of its
    workloads, each relative to the iteration's mean workload.  What the metric
    has been before the first iteration does not matter. *)
Theorem C51_averaging routing_of rebuild simulate bc mi g wss g' :
  bc_method bc = Averaging -> bc_min bc = None -> keeps rebuild (bc_metric bc) mi -> counts_edges simulate ->
  metrics g <> [] -> metric_at g (bc_metric bc) mi -> (forall e, e < length (metrics g) -> exists q, has_metric g e mi (Fin q)) ->
  iterated routing_of rebuild simulate bc 0 g wss g' -> wss <> [] ->
  length (metrics g') = length (metrics g) /\
  forall e, e < length (metrics g) -> exists y, has_metric g' e mi (Fin y) /\ (y * qn (length wss) == total (fun ws => load_of ws e) wss)%Q.
Proof.
  intros Hmeth Hmin Hk Hc Hne Hat Hfin I Hw.
  assert (exists old, forall e, e < length (metrics g) -> has_metric g e mi (Fin (old e))) as [old Hold].
  { exists (fun e => match metric_of g e mi with Some (Fin q) => q | _ => 0%Q end). intros e He. destruct (Hfin e He) as (q & ms & A & B).
    unfold metric_of. rewrite A, B. exists ms. auto. }
  destruct (averaging_from routing_of rebuild simulate bc mi (length (metrics g)) Hmeth Hmin Hk Hc) with (i := 0) (g := g) (wss := wss) (g' := g') (past := fun _ : nat => 0%Q) (old := old)
    as (_ & L & y & Hy & _); auto.
  - destruct (metrics g); [congruence|cbn; lia].
  - intros e He. split; [now apply Hold|]. change (qn 0) with 0%Q. lra.
  - split; [exact L|]. intros e He. destruct (Hy e He) as [A B]. exists (y e). split; [exact A|]. cbn [Nat.add] in B. rewrite B. lra.
Qed.
Print Assumptions C51_averaging.

Lemma euler_from routing_of rebuild simulate bc k mi n :
  bc_method bc = ExplicitEuler (Fin k) -> bc_min bc = None -> keeps rebuild (bc_metric bc) mi -> counts_edges simulate -> 0 < n ->
  forall i g wss g', iterated routing_of rebuild simulate bc i g wss g' ->
  forall old, metric_at g (bc_metric bc) mi -> length (metrics g) = n ->
  (forall e, e < n -> has_metric g e mi (Fin (old e))) -> (sum_to n old == qn n)%Q ->
  length (metrics g') = n /\
  exists y, (forall e, e < n -> has_metric g' e mi (Fin (y e)) /\ (y e == smoothed k (old e) (map (fun ws => load_of ws e) wss))%Q) /\
    (sum_to n y == qn n)%Q.
Proof.
  assert (Sm : forall rs o o', (o == o')%Q -> (smoothed k o rs == smoothed k o' rs)%Q).
  { induction rs as [|r rs IHr]; intros o o' E; cbn [smoothed]; [exact E|]. apply IHr. now rewrite E. }
  intros Hmeth Hmin Hk Hc Hn. induction 1 as [i g|i g ch rc ws g1 wss g' Er Ert Es Eu I IH]; intros old Hat L Hold Hsum.
  - split; [exact L|]. exists old. split; [|exact Hsum]. intros e He. split; [now apply Hold|]. cbn. lra.
  - destruct (Hk _ _ _ Er Hat) as (Hat1 & L1 & Hm1). rewrite L in L1. pose proof (Hc _ _ _ _ Es) as Lw. rewrite L1 in Lw.
    assert (Hf : finite_cfg bc) by (split; [rewrite Hmeth; eauto|now rewrite Hmin]).
    destruct (one_step i ws bc ch mi old g1 n Hf Hmin Hat1 Hn L1 Lw) as (Hs & Hat2 & L2 & y & Hy & Hys & Hmv); [intros e He; apply Hm1, Hold, He|exact Eu|].
    rewrite Hmeth in Hmv. cbn [moved] in Hmv.
    assert (Hmv' : forall e, e < n -> (y e == (1 - k) * old e + k * load_of ws e)%Q).
    { intros e He. destruct (Hmv) with (e := e) as (k' & Ek & E); [|exact He|injection Ek as <-; rewrite E; lra].
      intros v Hv. rewrite (sum_to_ext _ _ (fun e => (1 - k) * old e + k * load_of ws e)%Q).
      - rewrite sum_to_plus, !sum_to_times, Hsum. rewrite <- Lw at 2 3. rewrite loads_sum by exact Hs. rewrite Lw. lra.
      - intros j Hj. destruct (Hv j Hj) as (k' & Ek & E). injection Ek as <-. rewrite E. lra. }
    destruct (IH y Hat2 L2 Hy Hys) as (B & z & Hz & Hzs). split; [exact B|]. exists z. split; [|exact Hzs].
    intros e He. destruct (Hz e He) as [C D]. split; [exact C|]. rewrite D. cbn [map smoothed]. apply Sm. now apply Hmv'.
Qed.

(** With explicit euler and a metric of mean 1 at the beginning: every edge's
    balanced metric is its old one moved towards its relative workloads, one
    after the other. *)
Theorem C51_euler routing_of rebuild simulate bc k mi g old wss g' :
  bc_method bc = ExplicitEuler (Fin k) -> bc_min bc = None -> keeps rebuild (bc_metric bc) mi -> counts_edges simulate ->
  metrics g <> [] -> metric_at g (bc_metric bc) mi ->
  (forall e, e < length (metrics g) -> has_metric g e mi (Fin (old e))) -> (sum_to (length (metrics g)) old == qn (length (metrics g)))%Q ->
  iterated routing_of rebuild simulate bc 0 g wss g' ->
  length (metrics g') = length (metrics g) /\
  forall e, e < length (metrics g) -> exists y, has_metric g' e mi (Fin y) /\ (y == smoothed k (old e) (map (fun ws => load_of ws e) wss))%Q.
Proof.
  intros Hmeth Hmin Hk Hc Hne Hat Hold Hsum I.
  destruct (euler_from routing_of rebuild simulate bc k mi (length (metrics g)) Hmeth Hmin Hk Hc) with (i := 0) (g := g) (wss := wss) (g' := g') (old := old)
    as (L & y & Hy & _); auto.
  - destruct (metrics g); [congruence|cbn; lia].
  - split; [exact L|]. intros e He. exists (y e). now apply Hy.
Qed.
Print Assumptions C51_euler.

(** *** Cases *)
Definition lp_routing (g : graph) : res routing_cfg :=
  Ok {| rc_algo := ADijkstra; rc_alphas := map (fun _ => Fin 1) (ec_ids (cfg_edges (g_cfg g))); rc_scales := map (fun _ => PInf) (ec_ids (cfg_edges (g_cfg g))) |}.
Definition lp_rebuild (i : nat) (g : graph) : res graph := Ok g.
(** other edges are busy in the first iteration, which ignores the metric *)
Definition lp_simulate (i : nat) (g : graph) (rc : routing_cfg) : res (list nat) :=
  match rc_alphas rc with
  | Fin 0 :: _ => Ok (map S (seq 0 (length (metrics g))))
  | _ => Ok (map (fun e => S (length (metrics g) - e)) (seq 0 (length (metrics g))))
  end.
Definition lp_bc (m : opt_method) : balancing_cfg := {| bc_metric := "km"; bc_method := m; bc_min := None; bc_zero_err := true |}.
Definition lp_store (g : graph) : res text := Ok (concat (map (fun ms => line (concat (map show_num ms))) (metrics g))).
Lemma lp_keeps mi : keeps lp_rebuild "km" mi.
Proof. intros i g ch H Hat. injection H as <-. auto. Qed.
Lemma lp_counts : counts_edges lp_simulate.
Proof.
  intros i g rc ws H. unfold lp_simulate in H.
  assert (E : ws = map S (seq 0 (length (metrics g))) \/ ws = map (fun e => S (length (metrics g) - e)) (seq 0 (length (metrics g)))).
  { destruct (rc_alphas rc) as [|[[[] []]| | |] l]; injection H as <-; auto. }
  destruct E as [->| ->]; now rewrite map_length, seq_length.
Qed.
Lemma lp_at : metric_at wr_graph "km" 0.
Proof. split; [reflexivity|]. intros; lia. Qed.
Lemma lp_finite e : e < length (metrics wr_graph) -> exists q, has_metric wr_graph e 0 (Fin q).
Proof. intros H. cbn in H. do 4 (destruct e as [|e]; [do 2 eexists; split; vm_compute; reflexivity|]). lia. Qed.
(** two updates; the stored values are 32/35, 34/35, 36/35 and 38/35 *)
Example C51_loop_case : exists g' t,
  run_balancing lp_routing lp_rebuild lp_simulate (fun _ _ _ => Ok tt) lp_store (lp_bc Averaging) 2 wr_graph = Ok (g', [t]) /\
  lines t = map T ["322000"; "345000"; "363000"; "381"].
Proof. do 2 eexists. split; vm_compute; reflexivity. Qed.
Lemma lp_iterated m : fst (update_new_metric 0 [1; 2; 3; 4] (lp_bc m) wr_graph) = Ok tt ->
  fst (update_new_metric 1 [5; 4; 3; 2] (lp_bc m) (snd (update_new_metric 0 [1; 2; 3; 4] (lp_bc m) wr_graph))) = Ok tt ->
  exists g', iterated lp_routing lp_rebuild lp_simulate (lp_bc m) 0 wr_graph [[1; 2; 3; 4]; [5; 4; 3; 2]] g'.
Proof.
  intros H0 H1. destruct (update_new_metric 0 [1; 2; 3; 4] (lp_bc m) wr_graph) as [r1 g1] eqn:E1. cbn [fst snd] in H0, H1. subst r1.
  destruct (update_new_metric 1 [5; 4; 3; 2] (lp_bc m) g1) as [r2 g2] eqn:E2. cbn [fst] in H1. subst r2. exists g2.
  assert (Hd : length (metrics g1) = 4 /\ ec_ids (cfg_edges (g_cfg g1)) = ["km"; "m"]).
  { unfold update_new_metric in E1. destruct (new_metric_values 0 [1; 2; 3; 4] (lp_bc m) wr_graph) as [[[k mean] news]| | |] eqn:E; try discriminate.
    cbn [means wr_graph] in E1. destruct (values_reads _ _ _ _ _ _ _ E) as [_ Hr].
    destruct (write_spec k news 0 (metrics wr_graph)) as (ms' & Ew & L & _); [intros j Hj; apply Hr, Hj|]. rewrite Ew in E1. injection E1 as <-.
    cbn [with_metrics with_means metrics g_cfg]. split; [exact L|reflexivity]. }
  destruct Hd as [Hl Hi].
  eapply iterated_one with (ch := wr_graph) (rc := {| rc_algo := ADijkstra; rc_alphas := [Fin 0; Fin 1]; rc_scales := [PInf; PInf] |}); [reflexivity| |reflexivity|exact E1|].
  { eexists. split; [reflexivity|]. split; [reflexivity|]. split; [reflexivity|]. exists 0. split; [exact lp_at|]. split; [reflexivity|]. split; [reflexivity|].
    intros [|j] Hj; [congruence|reflexivity]. }
  eapply iterated_one with (ch := g1) (rc := {| rc_algo := ADijkstra; rc_alphas := [Fin 1; Fin 1]; rc_scales := [PInf; PInf] |}); [reflexivity| | |exact E2|constructor].
  - eexists. split; [unfold lp_routing; rewrite Hi; reflexivity|]. auto.
  - unfold lp_simulate. cbn [rc_alphas]. now rewrite Hl.
Qed.
Example C51_averaging_case :
  keeps lp_rebuild "km" 0 /\ counts_edges lp_simulate /\ metric_at wr_graph "km" 0 /\
  (forall e, e < length (metrics wr_graph) -> exists q, has_metric wr_graph e 0 (Fin q)) /\
  (exists g', iterated lp_routing lp_rebuild lp_simulate (lp_bc Averaging) 0 wr_graph [[1; 2; 3; 4]; [5; 4; 3; 2]] g') /\
  (total (fun ws => load_of ws 3) [[1; 2; 3; 4]; [5; 4; 3; 2]]%nat == 2 * (38 # 35))%Q.
Proof.
  split; [apply lp_keeps|]. split; [exact lp_counts|]. split; [exact lp_at|]. split; [exact lp_finite|].
  split; [apply lp_iterated; vm_compute; reflexivity|]. vm_compute. reflexivity.
Qed.

(** a graph whose metric has mean 1 *)
Definition eu_graph : graph := with_metrics wr_graph [[Fin (1 # 2); Fin 1]; [Fin (3 # 2); Fin 1]; [Fin 1; Fin 1]; [Fin 1; Fin 1]].
Definition eu_old (e : nat) : Q := nth e [1 # 2; 3 # 2; 1; 1]%Q 0%Q.
Example C51_euler_case :
  metric_at eu_graph "km" 0 /\ (forall e, e < length (metrics eu_graph) -> has_metric eu_graph e 0 (Fin (eu_old e))) /\
  (sum_to 4 eu_old == qn 4)%Q /\
  exists g1, iterated lp_routing lp_rebuild lp_simulate (lp_bc (ExplicitEuler (Fin (1 # 4)))) 0 eu_graph [[1; 2; 3; 4]] g1 /\
    exists x, has_metric g1 0 0 (Fin x) /\ (x == smoothed (1 # 4) (1 # 2) [4 # 10])%Q /\ (x == (3 # 8) + (1 # 10))%Q.
Proof.
  split; [split; [reflexivity|intros; lia]|]. split.
  { intros e H. cbn in H. do 4 (destruct e as [|e]; [eexists; split; vm_compute; reflexivity|]). lia. }
  split; [vm_compute; reflexivity|]. eexists. split.
  - eapply iterated_one with (ch := eu_graph) (rc := {| rc_algo := ADijkstra; rc_alphas := [Fin 0; Fin 1]; rc_scales := [PInf; PInf] |}); [reflexivity| |reflexivity|vm_compute; reflexivity|constructor].
    eexists. split; [reflexivity|]. split; [reflexivity|]. split; [reflexivity|]. exists 0. split; [split; [reflexivity|intros; lia]|].
    split; [reflexivity|]. split; [reflexivity|]. intros [|j] Hj; [congruence|reflexivity].
  - eexists. split; [eexists; split; [vm_compute; reflexivity|reflexivity]|]. split; vm_compute; reflexivity.
Qed.

(** finding: updating treats shortcuts like other edges, though flattened paths
    never use them.  Hence, a shortcut's balanced metric is not the sum of the
    metrics of the edges it replaces any more. *)
Theorem C51_shortcuts_refuted : exists hav c es ns g bc ws g' e a b,
  build hav c 2 3 es ns = Ok g /\ sc_edges g e = Ok (Some (a, b)) /\ nth_error ws e = Some 0 /\
  (exists x y z, has_metric g e 0 (Fin x) /\ has_metric g a 0 (Fin y) /\ has_metric g b 0 (Fin z) /\ (x == y + z)%Q) /\
  update_new_metric 1 ws bc g = (Ok tt, g') /\
  (exists x y z, has_metric g' e 0 (Fin x) /\ has_metric g' a 0 (Fin y) /\ has_metric g' b 0 (Fin z) /\ (x < y /\ x < z)%Q).
Proof.
  exists ex_hav, wr_cfg, ex_es, wr_ns, wr_graph, {| bc_metric := "km"; bc_method := ExplicitEuler (Fin 1); bc_min := Some (Fin (1 # 10)); bc_zero_err := true |}, [1; 0; 1; 2].
  eexists. exists 1, 0, 2. split; [exact wr_build|]. split; [vm_compute; reflexivity|]. split; [reflexivity|]. split.
  { do 3 eexists. do 3 (split; [eexists; split; [vm_compute; reflexivity|reflexivity]|]). reflexivity. }
  split; [vm_compute; reflexivity|]. do 3 eexists. do 3 (split; [eexists; split; [vm_compute; reflexivity|reflexivity]|]).
  split; vm_compute; reflexivity.
Qed.
Print Assumptions C51_shortcuts_refuted.
