(** Property C60: the search with arithmetic that rounds.  [rnd] is any
    rounding with relative error [u] and absolute error [eta]; binary64 is one.
    The graph's metrics are any numbers: the graph is a built one whose metrics
    may have been replaced, e.g. by rounded ones. *)
From Coq Require Import String List Bool Arith ZArith QArith Qabs Lqa Lia.
From Verif Require Import Base F64 Lib ModelUnits ModelConfig ModelGraph ModelBuild Spec Examples
  ModelDijkstra AbsSearch SpecRouting ProofDijkstra ProofRouting ExamplesRouting PropsRouting
  ModelRounded SpecRounded ProofRounded ProofRoundedRun ProofRounding64 SpecPaths ProofPaths ProofRoundedCosts ExamplesRounded.
Import ListNotations.
Open Scope list_scope.
Open Scope nat_scope.

(** *** which arithmetic *)
(** Without rounding it is the search of C16-C22. *)
Theorem C60_exact pick fuel st g rc s t :
  rcompute_best_path (rfin (fun q => q)) pick fuel st g rc s t = compute_best_path pick fuel st g rc s t.
Proof. exact (rcompute_id pick fuel st g rc s t). Qed.
Print Assumptions C60_exact.
Lemma exact_rounding : rounding 0 0 (fun q => q).
Proof. constructor; intros; lra. Qed.
Example C60_exact_case : exists st' p, rounding 0 0 (fun q => q) /\
  rcompute_best_path (rfin (fun q => q)) exact_pick 50 dijkstra_new rt_graph (ex_rc ADijkstra [Fin 1]) 0 4 = Ok (st', Some p) /\
  p_edges p = [0; 3; 5].
Proof. do 2 eexists. split; [exact exact_rounding|]. split; [vm_compute; reflexivity|reflexivity]. Qed.

(** binary64 rounds to a nearest representable number, and is a rounding *)
Theorem C60_binary64 :
  (forall q, representable (rnd64 q) /\ forall r, representable r -> (Qabs (rnd64 q - q) <= Qabs (r - q))%Q) /\
  rounding u64 eta64 rnd64.
Proof.
  split; [|exact rounding64]. intros q. split; [apply rnd64_representable|]. intros r. apply rnd64_nearest.
Qed.
Print Assumptions C60_binary64.
(** ties go to even significands; subnormal numbers; 0.1 + 0.2 *)
Example C60_binary64_case :
  (rnd64 (inject_Z (2 ^ 53 + 1)) == inject_Z (2 ^ 53))%Q /\ (rnd64 (inject_Z (2 ^ 53 + 3)) == inject_Z (2 ^ 53 + 4))%Q /\
  (rnd64 (Qpower (2 # 1) (- (1075))) == 0)%Q /\ (rnd64 (3 * Qpower (2 # 1) (- (1075))) == 2 * Qpower (2 # 1) (- (1074)))%Q /\
  (rnd64 (1 # 10) == 3602879701896397 # 36028797018963968)%Q /\ (rnd64 (rnd64 (1 # 10) + rnd64 (1 # 5)) == 1351079888211149 # 4503599627370496)%Q /\
  (rnd64 (- (1 # 3)) == - rnd64 (1 # 3))%Q.
Proof. repeat split; vm_compute; reflexivity. Qed.

(** *** paths *)
(** Whatever the queue does, a returned path is a path. *)
Theorem C60_real_path rnd u eta hav c ch1 ch2 es ns g0 g pick fuel st rc s t st' p :
  rounding u eta rnd ->
  1 <= ch1 -> 1 <= ch2 -> build hav c ch1 ch2 es ns = Ok g0 -> remeasured g0 g -> nonneg_metrics g ->
  rhistory st -> roomy st g -> s < node_count g -> t < node_count g -> valid_pick pick ->
  rcompute_best_path (rfin rnd) pick fuel st g rc s t = Ok (st', Some p) ->
  p_src_idx p = s /\ p_dst_idx p = t /\
  node_id g s = Ok (p_src_id p) /\ node_id g t = Ok (p_dst_id p) /\ p_costs p = None /\
  connects g s (p_edges p) t /\
  (exists q, costs_as g (rc_alphas rc) (p_edges p) q) /\
  (rc_algo rc = ACHDijkstra -> up_down g (p_edges p)).
Proof.
  intros R H1 H2 E Hg Hnn Hh Hr Hs Ht Hv Ec. pose proof (ralphas_of_some _ _ _ _ _ _ _ _ _ _ Ec) as Ha.
  pose proof (remeasured_wf _ _ Hg (build_wf _ _ _ _ _ _ _ H1 H2 E)) as Hwf.
  destruct (rcompute_run rnd u eta R g rc s t Hwf Hnn Hs Ht Ha pick pops fuel st st' (Some p) Hh Hr Hv) as (a & Hrun & Hans);
    auto using pops_pick.
  destruct (bst a) as [[m b]|] eqn:Eb; [|unfold answer_of in Hans; rewrite Eb in Hans; discriminate].
  destruct (r_answer rnd u eta R g rc s t Hwf Hnn Hs Ht Ha pops a m b p (fun _ _ _ _ _ H => H) Hrun Eb Hans)
    as (A & B & C & D & F & G & I & q & J & _).
  repeat (split; [now auto|]). split; [eauto|auto].
Qed.
Print Assumptions C60_real_path.

(** An answer is "no path" iff no path of finite cost exists. *)
Theorem C60_found_iff rnd u eta hav c ch1 ch2 es ns g0 g pick fuel st rc s t st' r :
  rounding u eta rnd ->
  1 <= ch1 -> 1 <= ch2 -> build hav c ch1 ch2 es ns = Ok g0 -> remeasured g0 g -> nonneg_metrics g ->
  rhistory st -> roomy st g -> s < node_count g -> t < node_count g -> Forall not_negative (rc_alphas rc) ->
  valid_pick pick ->
  rcompute_best_path (rfin rnd) pick fuel st g rc s t = Ok (st', r) ->
  (rc_algo rc = ADijkstra ->
   (r = None <-> ~ exists l q, connects g s l t /\ costs_as g (rc_alphas rc) l q)) /\
  (rc_algo rc = ACHDijkstra ->
   (r = None <-> ~ exists l q, connects g s l t /\ costs_as g (rc_alphas rc) l q /\ up_down g l)).
Proof.
  intros R H1 H2 E Hg Hnn Hh Hr Hs Ht Ha Hv Ec.
  pose proof (remeasured_wf _ _ Hg (build_wf _ _ _ _ _ _ _ H1 H2 E)) as Hwf.
  destruct (rcompute_run rnd u eta R g rc s t Hwf Hnn Hs Ht Ha pick pops fuel st st' r Hh Hr Hv) as (a & Hrun & Hans);
    auto using pops_pick.
  assert (Hsome : r <> None -> exists l q, connects g s l t /\ costs_as g (rc_alphas rc) l q /\ (rc_algo rc = ACHDijkstra -> up_down g l)).
  { intros Hn. destruct r as [p|]; [|congruence].
    destruct (C60_real_path rnd u eta hav c ch1 ch2 es ns g0 g pick fuel st rc s t st' p R H1 H2 E Hg Hnn Hh Hr Hs Ht Hv Ec)
      as (_ & _ & _ & _ & _ & A & (q & B) & C). eauto. }
  assert (Hnone : bst a <> None -> r <> None).
  { intros Hb ->. unfold answer_of in Hans. destruct (bst a) as [[m b]|]; [|congruence].
    destruct Hans as (lf & lb & sid & tid & _ & _ & _ & _ & _ & _ & Hx). discriminate. }
  split; intros Hal; (split; [|intros Hn; destruct r as [p|]; auto; exfalso; apply Hn; destruct Hsome as (l & q & A & B & C); [discriminate|eauto 6]]).
  - intros -> (l & q & Hl & Hq). apply Hnone; [|reflexivity]. destruct (costs_sumw _ _ _ _ Hq) as [Hfin _].
    pose proof (r_found rnd u eta R g rc s t Hwf Hnn Hs Ht Ha pops a) as Hf. rewrite Hal in *. cbn [is_ch] in *.
    destruct (splits_of g (rc_alphas rc) s t l Hwf Hs Ht Hl Hfin l []) as (x & Wf & Wb); [now rewrite app_nil_r|].
    exact (Hf x _ _ (fun _ _ _ _ _ H => H) Hrun Wf Wb).
  - intros -> (l & q & Hl & Hq & Hud). apply Hnone; [|reflexivity]. destruct (costs_sumw _ _ _ _ Hq) as [Hfin _].
    pose proof (r_found rnd u eta R g rc s t Hwf Hnn Hs Ht Ha pops a) as Hf. rewrite Hal in *. cbn [is_ch] in *.
    destruct (up_down_walks g (rc_alphas rc) s t l Hwf Hs Ht Hl Hfin Hud) as (x & l1 & l2 & _ & Wf & Wb).
    exact (Hf x _ _ (fun _ _ _ _ _ H => H) Hrun Wf Wb).
Qed.
Print Assumptions C60_found_iff.

Lemma remeasured_refl g : remeasured g g.
Proof. exists (metrics g), (means g). split; auto. exists (g_cfg g), (edge_ids g), (edge_ids_map g). now destruct g. Qed.
Lemma tenth_nonneg : nonneg_metrics tenth_graph.
Proof. apply nonneg_of_list. vm_compute. repeat constructor; discriminate. Qed.
(** a queue ignoring the costs, binary64; and a graph whose metrics were replaced *)
Definition tripled : graph :=
  mkGraph (g_cfg rt_graph) (node_ids rt_graph) (node_coords rt_graph) (node_levels rt_graph)
    (fwd_dsts rt_graph) (fwd_offsets rt_graph) (fwd_to_fwd rt_graph) (bwd_dsts rt_graph) (bwd_offsets rt_graph) (bwd_to_fwd rt_graph)
    (map (map (rmul (rfin rnd64) (Fin (1 # 3)))) (metrics rt_graph)) None
    (edge_ids rt_graph) (edge_ids_map rt_graph) (sc_offsets rt_graph) (sc_edges_arr rt_graph).
Example C60_paths_case :
  (exists st' p, rcompute_best_path (rfin rnd64) lifo_pick 50 dijkstra_new tenth_graph (ex_rc ADijkstra [Fin (1 # 3)]) 0 3 = Ok (st', Some p) /\
     connects tenth_graph 0 (p_edges p) 3) /\
  (exists st', rcompute_best_path (rfin rnd64) exact_pick 50 dijkstra_new sink_graph (ex_rc ADijkstra [Fin 1]) 0 1 = Ok (st', None)) /\
  (exists st' p, rcompute_best_path (rfin rnd64) exact_pick 50 dijkstra_new tripled (ex_rc ACHDijkstra [Fin 1]) 0 4 = Ok (st', Some p) /\
     p_edges p = [0; 3; 5]) /\
  remeasured rt_graph tripled /\ nonneg_metrics tripled /\ rhistory dijkstra_new /\ roomy dijkstra_new tenth_graph.
Proof.
  split; [|split; [|split; [|split; [|split; [|split]]]]].
  - do 2 eexists. split; [vm_compute; reflexivity|]. cbn [p_edges].
    repeat (econstructor; [split; vm_compute; reflexivity|]). constructor.
  - eexists. vm_compute. reflexivity.
  - do 2 eexists. split; [vm_compute; reflexivity|reflexivity].
  - exists (map (map (rmul (rfin rnd64) (Fin (1 # 3)))) (metrics rt_graph)), None. split; [apply map_length|do 3 eexists; reflexivity].
  - apply nonneg_of_list. vm_compute. repeat constructor; discriminate.
  - constructor.
  - apply new_roomy. discriminate.
Qed.

(** *** termination *)
Theorem C60_terminates rnd u eta hav c ch1 ch2 es ns g0 g pick fuel st rc s t :
  rounding u eta rnd ->
  1 <= ch1 -> 1 <= ch2 -> build hav c ch1 ch2 es ns = Ok g0 -> remeasured g0 g -> nonneg_metrics g ->
  rhistory st -> roomy st g -> s < node_count g -> t < node_count g -> valid_pick pick ->
  2 + 2 * powers (edge_count g FWD) (node_count g) <= fuel ->
  rcompute_best_path (rfin rnd) pick fuel st g rc s t <> Diverge.
Proof.
  intros R H1 H2 E Hg Hnn Hh Hr Hs Ht Hv Hfuel Hd.
  pose proof (remeasured_wf _ _ Hg (build_wf _ _ _ _ _ _ _ H1 H2 E)) as Hwf.
  destruct (rcompute_diverge (rfin rnd) pick fuel st g rc s t Hh Hr Hd) as (Ha & st0 & Hf & Hq).
  exact (rquery_terminates rnd u eta R g rc s t Hwf Hnn Hs Ht Ha pick fuel st0 Hv Hf Hfuel Hq).
Qed.
Print Assumptions C60_terminates.
Example C60_terminates_case :
  2 + 2 * powers (edge_count loop_graph FWD) (node_count loop_graph) <= 10 /\
  exists st' r, rcompute_best_path (rfin rnd64) lifo_pick 10 dijkstra_new loop_graph (ex_rc ADijkstra [Fin 0]) 0 0 = Ok (st', r).
Proof. split; [apply Nat.leb_le; vm_compute; reflexivity|]. do 2 eexists. vm_compute. reflexivity. Qed.

(** It doesn't panic where the exact search doesn't (C17). *)
Theorem C60_total rnd u eta hav c ch1 ch2 es ns g0 g pick fuel st rc s t :
  rounding u eta rnd ->
  1 <= ch1 -> 1 <= ch2 -> build hav c ch1 ch2 es ns = Ok g0 -> remeasured g0 g -> nonneg_metrics g -> last_node_connected g ->
  rhistory st -> roomy st g -> (node_count g <> 2 -> capacity st <= node_count g) ->
  s < node_count g -> t < node_count g -> Forall not_negative (rc_alphas rc) ->
  (forall i, rc_algo rc <> AExplorator i) -> valid_pick pick ->
  2 + 2 * powers (edge_count g FWD) (node_count g) <= fuel ->
  exists st' r, rcompute_best_path (rfin rnd) pick fuel st g rc s t = Ok (st', r).
Proof.
  intros R H1 H2 E Hg Hnn Hl Hh Hr Hcap Hs Ht Ha Hal Hv Hfuel.
  pose proof (remeasured_wf _ _ Hg (build_wf _ _ _ _ _ _ _ H1 H2 E)) as Hwf.
  destruct (rcompute_prepared (rfin rnd) pick fuel st g rc s t Hh Hr Hcap Ha Hal) as (st0 & Hf & ->).
  pose proof (rquery_terminates rnd u eta R g rc s t Hwf Hnn Hs Ht Ha pick fuel st0 Hv Hf Hfuel) as Hd.
  destruct (rquery_sim u eta rnd R g (rc_alphas rc) (is_ch (rc_algo rc)) s t Hwf Hnn Ha Hs Ht pick pops fuel st0 Hv (fun _ _ _ _ _ H => H) (fun k q v c d => pops_pick pick k q v c d) Hf)
    as [(st1 & r1 & a & E1 & _)|[(E1 & _)|(_ & Hp)]]; [eauto|congruence|].
  exfalso. apply Hp. destruct Hg as (ms & mn & _ & c1 & ids1 & im1 & ->). exact (routable_last _ _ _ _ _ _ _ H1 H2 E Hl).
Qed.
Print Assumptions C60_total.
Example C60_total_case : last_node_connected rt_graph /\ (node_count rt_graph <> 2 -> capacity dijkstra_new <= node_count rt_graph) /\
  exists st' r, rcompute_best_path (rfin rnd64) exact_pick 50 dijkstra_new rt_graph (ex_rc ACHDijkstra [Fin (1 # 10)]) 0 4 = Ok (st', r).
Proof.
  split; [apply (proj1 C17_total_case)|]. split; [intros _; vm_compute; lia|]. do 2 eexists. vm_compute. reflexivity.
Qed.

(** *** how good the answer is *)
(** The exact costs of the returned path, less the rounding, are those of any
    other path, plus the rounding. *)
Theorem C60_cheapest rnd u eta hav c ch1 ch2 es ns g0 g pick delta fuel st rc s t st' p :
  rounding u eta rnd ->
  1 <= ch1 -> 1 <= ch2 -> build hav c ch1 ch2 es ns = Ok g0 -> remeasured g0 g -> nonneg_metrics g ->
  rhistory st -> roomy st g -> s < node_count g -> t < node_count g ->
  (0 <= delta)%Q -> picks_min delta pick ->
  rcompute_best_path (rfin rnd) pick fuel st g rc s t = Ok (st', Some p) ->
  exists qp, costs_as g (rc_alphas rc) (p_edges p) qp /\
    (rc_algo rc = ADijkstra -> forall l q, connects g s l t -> costs_as g (rc_alphas rc) l q ->
       (at_least u eta (length (rc_alphas rc)) (length (p_edges p)) qp <=
        stretch u * at_most u eta (length (rc_alphas rc)) (length l) q + slip u eta delta)%Q) /\
    (rc_algo rc = ACHDijkstra -> forall l q, connects g s l t -> costs_as g (rc_alphas rc) l q -> up_down g l ->
       (at_least u eta (length (rc_alphas rc)) (length (p_edges p)) qp <=
        at_most u eta (length (rc_alphas rc)) (length l) q + delta)%Q).
Proof.
  intros R H1 H2 E Hg Hnn Hh Hr Hs Ht Hd Hpk Ec. pose proof (ralphas_of_some _ _ _ _ _ _ _ _ _ _ Ec) as Ha.
  pose proof (remeasured_wf _ _ Hg (build_wf _ _ _ _ _ _ _ H1 H2 E)) as Hwf.
  destruct (rcompute_run rnd u eta R g rc s t Hwf Hnn Hs Ht Ha pick (near_min delta) fuel st st' (Some p) Hh Hr (proj1 Hpk))
    as (a & Hrun & Hans); auto.
  { intros q v c0 d q' [H _]. exact H. }
  { intros k q v c0 d. now apply near_pick. }
  assert (Hnear : forall q v c d q', near_min delta q v c d q' -> pops q v c d q') by (intros q v c0 d q' [H _]; exact H).
  destruct (bst a) as [[m b]|] eqn:Eb; [|unfold answer_of in Hans; rewrite Eb in Hans; discriminate].
  destruct (r_answer rnd u eta R g rc s t Hwf Hnn Hs Ht Ha _ a m b p Hnear Hrun Eb Hans)
    as (_ & _ & _ & _ & _ & _ & _ & qp & Hqp & Hlow).
  exists qp. split; [auto|]. split.
  - intros Hal l q Hl Hq. destruct (r_plain rnd u eta R g rc s t Hwf Hnn Hs Ht Ha a delta Hal Hd Hrun l q Hl Hq) as (m' & b' & Eb' & Hle).
    rewrite Eb in Eb'. injection Eb' as <- <-. change (stretch u) with (rho u). change (slip u eta delta) with (sigma u eta delta). lra.
  - intros Hal l q Hl Hq Hud. destruct (r_ch rnd u eta R g rc s t Hwf Hnn Hs Ht Ha a delta Hal Hd Hrun l q Hl Hq Hud) as (m' & b' & Eb' & Hle).
    rewrite Eb in Eb'. injection Eb' as <- <-. lra.
Qed.
Print Assumptions C60_cheapest.

(** without rounding nothing is lost *)
Example C60_cheapest_case : forall m n q, (at_least 0 0 m n q == q)%Q /\ (at_most 0 0 m n q == q)%Q /\ (stretch 0 == 1)%Q /\
  forall delta, (slip 0 0 delta == 2 * delta)%Q.
Proof.
  intros m n q. unfold at_least, at_most.
  assert (P : forall x k, (x == 1)%Q -> (pow x k == 1)%Q) by (intros x k E; induction k as [|k IH]; simpl; [reflexivity|rewrite IH, E; reflexivity]).
  rewrite (P (1 - 0)%Q) by reflexivity. rewrite (P (1 + 0)%Q) by reflexivity.
  split; [ring|]. split; [ring|]. split; [reflexivity|]. intros delta. unfold slip. change (stretch 0) with (stretch 0). ring.
Qed.

(** *** with numbers: binary64 and paths of up to a million edges *)
Lemma pow_low x n : (0 <= x)%Q -> (x <= 1)%Q -> (1 - nq n * x <= pow (1 - x) n)%Q.
Proof.
  intros H H1. induction n as [|n IH]; simpl; [change (nq 0) with 0%Q; lra|]. rewrite nq_S.
  assert (0 <= (1 - x) * (pow (1 - x) n - (1 - nq n * x)))%Q by (apply Qmult_le_0_compat; lra).
  pose proof (nq_nonneg n). assert (0 <= nq n * x * x)%Q by (apply Qmult_le_0_compat; [apply Qmult_le_0_compat|]; auto). lra.
Qed.
Lemma pow_high x n : (0 <= x)%Q -> (nq n * x <= 1 # 2)%Q -> (pow (1 + x) n <= 1 + 2 * (nq n * x))%Q.
Proof.
  intros H. induction n as [|n IH]; intros Hn; simpl; [change (nq 0) with 0%Q; lra|]. rewrite nq_S in *.
  assert (IH' : (pow (1 + x) n <= 1 + 2 * (nq n * x))%Q) by (apply IH; lra). clear IH.
  assert (0 <= (1 + x) * (1 + 2 * (nq n * x) - pow (1 + x) n))%Q by (apply Qmult_le_0_compat; lra).
  assert (0 <= x * ((1 # 2) - nq n * x))%Q by (apply Qmult_le_0_compat; lra). lra.
Qed.

Definition million : Z := (2 ^ 20)%Z.
Lemma depth_error k : (Z.of_nat k <= million)%Z -> (0 <= nq k * u64)%Q /\ (nq k * u64 <= Qpower (2 # 1) (- (33)))%Q.
Proof.
  intros H. assert (P : (0 <= u64)%Q) by (apply Qlt_le_weak, (B_pos (- (53)))).
  split; [apply Qmult_le_0_compat; [apply nq_nonneg|auto]|].
  apply Qle_trans with (inject_Z million * u64)%Q; [|vm_compute; discriminate].
  apply Qmult_le_compat_r; [|auto]. unfold nq. now rewrite <- Zle_Qle.
Qed.
Lemma low_64 m n q : (Z.of_nat (depth m n) <= million)%Z -> (0 <= q)%Q ->
  ((1 - Qpower (2 # 1) (- (33))) * q - inject_Z (2 ^ 42) * eta64 <= at_least u64 eta64 m n q)%Q /\
  (at_most u64 eta64 m n q <= (1 + 2 * Qpower (2 # 1) (- (33))) * (q + inject_Z (2 ^ 42) * eta64))%Q /\
  (0 <= at_most u64 eta64 m n q)%Q.
Proof.
  intros H Hq. destruct (depth_error _ H) as [D0 D]. unfold at_least, at_most. set (x := Qpower (2 # 1) (- (33))) in *.
  assert (Hx : (x <= 1 # 2)%Q) by (vm_compute; discriminate).
  assert (P : (0 <= u64)%Q) by (apply Qlt_le_weak, (B_pos (- (53)))). assert (P1 : (u64 <= 1)%Q) by (vm_compute; discriminate).
  assert (Pe : (0 <= eta64)%Q) by (apply Qlt_le_weak, (B_pos (- (1075)))).
  assert (Ho : (nq (operations m n) * eta64 <= inject_Z (2 ^ 42) * eta64)%Q).
  { apply Qmult_le_compat_r; [|auto]. unfold nq. rewrite <- Zle_Qle. unfold operations, depth, million in *.
    assert (Hn : (Z.of_nat n <= 2 ^ 20)%Z) by lia. assert (Hm : (2 * Z.of_nat m + 1 <= 2 ^ 21 + 1)%Z) by lia.
    rewrite Nat2Z.inj_add, Nat2Z.inj_mul. replace (Z.of_nat (2 * m + 1)) with (2 * Z.of_nat m + 1)%Z by lia.
    assert (Z.of_nat n * (2 * Z.of_nat m + 1) <= 2 ^ 20 * (2 ^ 21 + 1))%Z by (apply Z.mul_le_mono_nonneg; lia).
    lia. }
  assert (Ho0 : (0 <= nq (operations m n) * eta64)%Q) by (apply Qmult_le_0_compat; [apply nq_nonneg|auto]).
  pose proof (pow_low u64 (depth m n) P P1) as L.
  assert (Hh : (nq (depth m n) * u64 <= 1 # 2)%Q) by lra. pose proof (pow_high u64 (depth m n) P Hh) as U.
  assert (U0 : (1 <= pow (1 + u64) (depth m n))%Q) by (apply pow_ge_1; lra).
  set (lo := pow (1 - u64) (depth m n)) in *. set (hi := pow (1 + u64) (depth m n)) in *.
  set (o := (nq (operations m n) * eta64)%Q) in *. set (O := (inject_Z (2 ^ 42) * eta64)%Q) in *. split; [|split].
  - assert (0 <= (lo - (1 - x)) * q)%Q by (apply Qmult_le_0_compat; lra). lra.
  - apply Qle_trans with (hi * (q + O))%Q.
    + assert (0 <= hi * (O - o))%Q by (apply Qmult_le_0_compat; lra). lra.
    + apply Qmult_le_compat_r; lra.
  - apply Qmult_le_0_compat; lra.
Qed.
Lemma costs_nonneg g al l q : nonneg_metrics g -> Forall not_negative al -> costs_as g al l q -> (0 <= q)%Q.
Proof.
  intros Hn Ha H. destruct (costs_sumw _ _ _ _ H) as [_ E]. rewrite E. clear - Hn Ha.
  unfold sumw. induction l as [|e l IH]; simpl; [lra|]. pose proof (wq_nonneg g al Hn Ha e). lra.
Qed.

(** At most a billionth, three errors of the queue and next to nothing are
    lost. *)
Theorem C60_cheapest_binary64 hav c ch1 ch2 es ns g0 g pick delta fuel st rc s t st' p :
  1 <= ch1 -> 1 <= ch2 -> build hav c ch1 ch2 es ns = Ok g0 -> remeasured g0 g -> nonneg_metrics g ->
  rhistory st -> roomy st g -> s < node_count g -> t < node_count g ->
  (0 <= delta)%Q -> picks_min delta pick ->
  rcompute_best_path (rfin rnd64) pick fuel st g rc s t = Ok (st', Some p) ->
  (Z.of_nat (length (p_edges p) + length (rc_alphas rc) + 2) <= 2 ^ 20)%Z ->
  exists qp, costs_as g (rc_alphas rc) (p_edges p) qp /\
    forall l q, connects g s l t -> costs_as g (rc_alphas rc) l q ->
      (Z.of_nat (length l + length (rc_alphas rc) + 2) <= 2 ^ 20)%Z ->
      (rc_algo rc = ADijkstra \/ (rc_algo rc = ACHDijkstra /\ up_down g l)) ->
      (qp <= (1 + Qpower (2 # 1) (- (30))) * q + 3 * delta + Qpower (2 # 1) (- (1000)))%Q.
Proof.
  intros H1 H2 E Hg Hnn Hh Hr Hs Ht Hd Hpk Ec Hlen. pose proof (ralphas_of_some _ _ _ _ _ _ _ _ _ _ Ec) as Ha.
  destruct (C60_cheapest rnd64 u64 eta64 hav c ch1 ch2 es ns g0 g pick delta fuel st rc s t st' p rounding64 H1 H2 E Hg Hnn Hh Hr Hs Ht Hd Hpk Ec)
    as (qp & Hqp & Hplain & Hch).
  exists qp. split; [auto|]. intros l q Hl Hq Hll Hal.
  pose proof (costs_nonneg _ _ _ _ Hnn Ha Hqp) as Pp. pose proof (costs_nonneg _ _ _ _ Hnn Ha Hq) as Pq.
  destruct (low_64 (length (rc_alphas rc)) (length (p_edges p)) qp Hlen Pp) as (L & _ & _).
  destruct (low_64 (length (rc_alphas rc)) (length l) q Hll Pq) as (_ & U & U0).
  set (al := at_least u64 eta64 (length (rc_alphas rc)) (length (p_edges p)) qp) in *.
  set (am := at_most u64 eta64 (length (rc_alphas rc)) (length l) q) in *.
  assert (Pe : (0 <= eta64)%Q) by (apply Qlt_le_weak, (B_pos (- (1075)))).
  assert (Se : (inject_Z (2 ^ 46) * eta64 <= (1 # 2) * Qpower (2 # 1) (- (1000)))%Q) by (vm_compute; discriminate).
  assert (St : (1 <= stretch u64 /\ stretch u64 <= 1 + Qpower (2 # 1) (- (50)))%Q) by (split; vm_compute; discriminate).
  assert (Um : (u64 <= Qpower (2 # 1) (- (53)))%Q) by apply Qle_refl.
  assert (Hb : (al <= stretch u64 * am + slip u64 eta64 delta)%Q).
  { destruct Hal as [Hal|[Hal Hud]]; [now apply Hplain|]. specialize (Hch Hal l q Hl Hq Hud). fold am in Hch. clear Hplain.
    assert (0 <= (stretch u64 - 1) * am)%Q by (apply Qmult_le_0_compat; lra).
    assert (0 <= (1 + 2 * u64) * delta)%Q by (apply Qmult_le_0_compat; [vm_compute; discriminate|auto]).
    assert (0 <= (3 + 2 * stretch u64) * eta64)%Q by (apply Qmult_le_0_compat; [vm_compute; discriminate|auto]).
    unfold slip. clearbody al am. clear L U Se Um. lra. }
  unfold slip in Hb. clear Hplain Hch.
  set (S := stretch u64) in *. set (e := eta64) in *. set (tiny := Qpower (2 # 1) (- (1000))) in *.
  assert (Pt : (0 <= tiny)%Q) by (vm_compute; discriminate).
  set (v := u64) in *.
  assert (Hs1 : (S * am <= (1 + Qpower (2 # 1) (- (50))) * am)%Q) by (apply Qmult_le_compat_r; lra).
  assert (Hs2 : (2 * (1 + v) * delta <= (2 + Qpower (2 # 1) (- (52))) * delta)%Q)
    by (apply Qmult_le_compat_r; [vm_compute; discriminate|auto]).
  assert (Hs3 : ((3 + 2 * S) * e <= 6 * e)%Q) by (apply Qmult_le_compat_r; [vm_compute; discriminate|auto]).
  change (inject_Z (2 ^ 46)) with (70368744177664 # 1)%Q in Se.
  change (inject_Z (2 ^ 42)) with (4398046511104 # 1)%Q in *.
  change (Qpower (2 # 1) (- (50))) with (1 # 1125899906842624)%Q in *.
  change (Qpower (2 # 1) (- (52))) with (1 # 4503599627370496)%Q in *.
  change (Qpower (2 # 1) (- (33))) with (1 # 8589934592)%Q in *.
  change (Qpower (2 # 1) (- (30))) with (1 # 1073741824)%Q.
  clearbody S e tiny v al am. clear - L U Hb Hs1 Hs2 Hs3 Se Pt Pe Pp Pq Hd. lra.
Qed.
Print Assumptions C60_cheapest_binary64.

(** For the alphas, the costs of both paths are exact rationals; the path the
    program takes from 0 to 3 isn't the cheapest one, as 0.1 + 0.2 is rounded
    up. *)
Theorem C60_strictly_cheapest_refuted : exists hav c es ns g rc fuel s t st' p qp l q,
  build hav c 1 1 es ns = Ok g /\ nonneg_metrics g /\ (forall e ms x, edge_metrics g e = Ok ms -> In (Fin x) ms -> (rnd64 x == x)%Q) /\
  rc_algo rc = ADijkstra /\ rc_alphas rc = [Fin 1] /\ picks_min 0 exact_pick /\ last_node_connected g /\
  rcompute_best_path (rfin rnd64) exact_pick fuel dijkstra_new g rc s t = Ok (st', Some p) /\
  costs_as g (rc_alphas rc) (p_edges p) qp /\
  connects g s l t /\ costs_as g (rc_alphas rc) l q /\ (q < qp)%Q.
Proof.
  exists ex_hav, (ex_cfg false), tenth_es, tenth_ns, tenth_graph, (ex_rc ADijkstra [Fin 1]), 50, 0, 3. do 2 eexists.
  eexists. exists [0; 2]. eexists.
  split; [exact tenth_build|]. split; [exact tenth_nonneg|]. split.
  { assert (F : forallb (forallb (fun x => match x with Fin q => Qeq_bool (rnd64 q) q | _ => true end)) (metrics tenth_graph) = true)
      by (vm_compute; reflexivity).
    intros e ms x Em Hx. apply idx_ok in Em. apply nth_error_In in Em. rewrite forallb_forall in F. specialize (F _ Em).
    rewrite forallb_forall in F. specialize (F _ Hx). cbv beta iota in F. now apply Qeq_bool_iff. }
  split; [reflexivity|]. split; [reflexivity|]. split; [exact exact_picks|]. split.
  { apply last_connected_of; [exists 4, 3, 0|exists 3, 2, 3]; (split; [split; reflexivity|vm_compute; lia]). }
  split; [vm_compute; reflexivity|]. cbn [p_edges]. split.
  { repeat (econstructor; [vm_compute; reflexivity|vm_compute; reflexivity|]); constructor. }
  split. { repeat (econstructor; [split; vm_compute; reflexivity|]). constructor. }
  split. { repeat (econstructor; [vm_compute; reflexivity|vm_compute; reflexivity|]); constructor. }
  vm_compute. reflexivity.
Qed.
Print Assumptions C60_strictly_cheapest_refuted.
(** the theorem's bound holds of it *)
Example C60_cheapest_binary64_case :
  exists st' p, rcompute_best_path (rfin rnd64) exact_pick 50 dijkstra_new tenth_graph (ex_rc ADijkstra [Fin 1]) 0 3 = Ok (st', Some p) /\
  (Z.of_nat (length (p_edges p) + 1 + 2) <= 2 ^ 20)%Z /\ rhistory dijkstra_new /\ roomy dijkstra_new tenth_graph /\ picks_min 0 exact_pick /\
  exists qp, costs_as tenth_graph [Fin 1] (p_edges p) qp /\ (qp <= (1 + Qpower (2 # 1) (- (30))) * (tenth + fifth))%Q.
Proof.
  do 2 eexists. split; [vm_compute; reflexivity|]. split; [vm_compute; discriminate|]. split; [constructor|].
  split; [apply new_roomy; discriminate|]. split; [exact exact_picks|]. cbn [p_edges]. eexists. split.
  { repeat (econstructor; [vm_compute; reflexivity|vm_compute; reflexivity|]); constructor. }
  vm_compute. discriminate.
Qed.

(** *** the costs a found path is given *)
Theorem C60_costs rnd u eta hav c ch1 ch2 es ns g0 g p :
  rounding u eta rnd ->
  1 <= ch1 -> 1 <= ch2 -> build hav c ch1 ch2 es ns = Ok g0 -> remeasured g0 g -> nonneg_metrics g -> aligned_metrics g ->
  edges_exist g (p_edges p) -> p_costs p = None ->
  exists p' cs, rcalc_costs (rfin rnd) g p = Ok p' /\ path_costs p' = Ok cs /\ length cs = metric_dim g /\
    same_route p p' /\ p_edges p' = p_edges p /\
    forall i q, i < metric_dim g -> sums g i (p_edges p) q ->
      exists y, nth_error cs i = Some (Fin y) /\ (0 <= y)%Q /\
        (pow (1 - u) (length (p_edges p)) * q - nq (length (p_edges p)) * eta <= y)%Q /\
        (y <= pow (1 + u) (length (p_edges p)) * (q + nq (length (p_edges p)) * eta))%Q.
Proof.
  intros R H1 H2 E Hg Hnn Hal Hex Hc.
  destruct (rcalc_costs_near rnd u eta R g p Hal Hnn) as (p' & cs & E1 & E2 & Hl & Hr & He & H); [|exact Hc|].
  - intros e Hi. specialize (Hex e Hi). destruct Hg as (ms & mn & Hlm & c1 & ids1 & im1 & ->). change (e < edge_count g0 FWD) in Hex.
    destruct (build_metrics _ _ _ _ _ _ _ e H1 H2 E Hex) as (m0 & Em). unfold edge_metrics in *. cbn [metrics].
    apply idx_ok in Em. assert (e < length ms) by (rewrite Hlm; apply nth_error_Some; congruence).
    unfold idx. destruct (nth_error ms e) eqn:Ex; [eauto|apply nth_error_None in Ex; lia].
  - exists p', cs. do 5 (split; [assumption|]). intros i q Hi Hs. destruct (H i q Hi Hs) as (y & Hy & (_ & Hlo & Hhi) & H0).
    exists y. split; [auto|]. split; [auto|]. split; [lra|auto].
Qed.
Print Assumptions C60_costs.
(** [0.1 + 0.2] *)
Example C60_costs_case : exists p' y, rcalc_costs (rfin rnd64) tenth_graph (path_new 0 0 3 3 [0; 2]) = Ok p' /\ path_costs p' = Ok [Fin y] /\
  sums tenth_graph 0 [0; 2] (tenth + (fifth + 0)) /\ (tenth + fifth < y)%Q /\ edges_exist tenth_graph [0; 2] /\ aligned_metrics tenth_graph.
Proof.
  do 2 eexists. split; [vm_compute; reflexivity|]. split; [vm_compute; reflexivity|]. split.
  { repeat (constructor; [vm_compute; reflexivity|]). constructor. }
  split; [vm_compute; reflexivity|]. split; [intros e [<-|[<-|[]]]; vm_compute; lia|].
  intros e ms He. do 5 (destruct e as [|e]; [injection He as <-; reflexivity|]). destruct e; discriminate.
Qed.

(** costs which are known are kept, also those of another graph *)
Theorem C60_costs_kept rnd g g' p p' cs : rcalc_costs (rfin rnd) g p = Ok p' -> path_costs p' = Ok cs ->
  exists p2, rcalc_costs (rfin rnd) g' p' = Ok p2 /\ path_costs p2 = Ok cs /\ same_route p p2 /\ p_edges p2 = p_edges p.
Proof.
  intros E Ec. exists p'. unfold path_costs in Ec. unfold rcalc_costs at 1. destruct (p_costs p') as [c|] eqn:Ep; [|discriminate].
  split; [reflexivity|]. split; [unfold path_costs; now rewrite Ep|]. unfold rcalc_costs in E. destruct (p_costs p).
  - injection E as <-. split; [unfold same_route; auto|reflexivity].
  - apply bind_ok in E. destruct E as (x & _ & E). injection E as <-. split; [unfold same_route; auto|reflexivity].
Qed.
Print Assumptions C60_costs_kept.
Example C60_costs_kept_case : exists p' p2, rcalc_costs (rfin rnd64) tenth_graph (path_new 0 0 3 3 [0; 2]) = Ok p' /\
  rcalc_costs (rfin rnd64) empty_graph p' = Ok p2 /\ path_costs p2 = path_costs p' /\ p_edges p2 = [0; 2].
Proof. do 2 eexists. split; [vm_compute; reflexivity|]. split; [vm_compute; reflexivity|]. split; reflexivity. Qed.
