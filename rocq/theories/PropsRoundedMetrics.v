(** C64: normalizing metrics and balancing them in binary64 *)
From Coq Require Import String List Bool Arith ZArith QArith Qabs Lia Lqa.
From Verif Require Import Base F64 Lib ModelUnits ModelConfig ModelGraph ModelBuild ModelDijkstra ModelBalancing ModelRounded ModelRoundedHeap ModelRoundedMetrics
  Spec Examples SpecRouting ExamplesRouting SpecRounded SpecRoundedHeap SpecRoundedMetrics SpecBalancing ProofMetrics ProofRounded ProofRounding64 ProofCompare64
  ProofFactor64 ProofRoundedMetrics ProofMonotone64 ProofBalancing ProofRoundedUpdate ProofRoundedUpdate2.
Import ListNotations.
Open Scope string_scope.
Open Scope list_scope.
Open Scope nat_scope.

(** *** Data for the cases *)

(** a number whose nearest f64 is meant *)
Definition dec (q : Q) : Q := Qred (rnd64 q).
Definition graph_of (c : cfg) (l : list Q) : graph :=
  mkGraph c (node_ids rt_graph) (node_coords rt_graph) (node_levels rt_graph)
    (fwd_dsts rt_graph) (fwd_offsets rt_graph) (fwd_to_fwd rt_graph) (bwd_dsts rt_graph) (bwd_offsets rt_graph) (bwd_to_fwd rt_graph)
    (map (fun q => [Fin q]) l) None (edge_ids rt_graph) (edge_ids_map rt_graph) (sc_offsets rt_graph) (sc_edges_arr rt_graph).
Definition norm_built : graph := Eval vm_compute in unok empty_graph (build ex_hav (ex_cfg true) 2 3 rt_es rt_ns).
Lemma norm_built_ok : build ex_hav (ex_cfg true) 2 3 rt_es rt_ns = Ok norm_built.
Proof. vm_compute. reflexivity. Qed.
Lemma norm_remeasured l : length l = 7 -> remeasured norm_built (graph_of (ex_cfg true) l).
Proof. intros H. exists (map (fun q => [Fin q]) l), None. split; [now rewrite map_length|do 3 eexists; reflexivity]. Qed.
Definition bal64 (m : opt_method) (mn : option f64) : balancing_cfg :=
  {| bc_metric := "km"; bc_method := m; bc_min := mn; bc_zero_err := true |}.
Lemma representable_dec q : representable (dec q).
Proof.
  destruct (rnd64_representable q) as (m & k & A & B & C). exists m, k. split; auto. split; auto. unfold dec. now rewrite Qred_correct.
Qed.
Lemma representable_by x : Qeq_bool (dec x) x = true -> representable x.
Proof. intros H. apply Qeq_bool_iff in H. destruct (representable_dec x) as (m & k & A & C & D). exists m, k. split; auto. split; auto. now rewrite <- H. Qed.
(** checking the seven edges of a case *)
Lemma seven (P : nat -> Prop) : P 0 -> P 1 -> P 2 -> P 3 -> P 4 -> P 5 -> P 6 -> forall e, e < 7 -> P e.
Proof. intros. do 7 (destruct e as [|e]; [assumption|]). lia. Qed.

(** *** Normalizing *)

(** Every metric is divided by the mean of the metrics; how far the result may
    be off grows with the number of edges [n]: the [n] sums, the mean and the
    quotient are rounded.  What comes out as zero is raised. *)
Theorem C64_normalize g g' i (q : nat -> Q) :
  rnormalize ieee g = Ok g' -> ec_normalized (cfg_edges (g_cfg g)) = true ->
  length (metrics g) = edge_count g FWD -> countable (edge_count g FWD) -> i < metric_dim g ->
  (forall e, e < edge_count g FWD -> metric_of g e i = Some (Fin (q e)) /\ usual (q e)) ->
  let n := edge_count g FWD in let mu := (sum_to n q / nq n)%Q in
  (0 < mu)%Q /\
  (exists m, metric_mean g' i = Ok (Some (Fin m)) /\ off (n + 1) mu m) /\
  forall e, e < n -> exists y, metric_of g' e i = Some (Fin y) /\ (rnd64 ABSQ <= y)%Q /\
    (off (n + 2) (q e / mu) y \/ y == rnd64 ABSQ /\ q e / mu <= accuracy64 * pow H64 (n + 2))%Q.
Proof. exact (rnormalize_spec g g' i q). Qed.
Print Assumptions C64_normalize.

(** the metrics 0.1, 0.2, 0.3, 0.4, 0.5, 1/2^21 and 0 *)
Definition dec_metrics : list Q := Eval vm_compute in [dec (1 # 10); dec (2 # 10); dec (3 # 10); dec (4 # 10); dec (1 # 2); dec (1 # 2097152); 0%Q].
Example C64_normalize_case : exists g',
  rnormalize ieee (graph_of (ex_cfg true) dec_metrics) = Ok g' /\ edge_count (graph_of (ex_cfg true) dec_metrics) FWD = 7 /\
  (forall e, e < 7 -> metric_of (graph_of (ex_cfg true) dec_metrics) e 0 = Some (Fin (nth e dec_metrics 0%Q)) /\ usual (nth e dec_metrics 0%Q)) /\
  match metric_of g' 0 0, metric_of g' 6 0 with Some (Fin y), Some (Fin z) => Qeq_bool z (rnd64 ABSQ) && negb (Qeq_bool y ((1 # 10) / ((3 # 2) / 7))) = true | _, _ => False end.
Proof.
  eexists. split; [vm_compute; reflexivity|]. split; [reflexivity|]. split; [|vm_compute; reflexivity].
  apply seven; (split; [reflexivity|]); try (right; split; apply by_le; vm_compute; reflexivity). left. reflexivity.
Qed.

(** in plain numbers: with up to 2^30 edges the relative error stays below 2^-22 *)
Theorem C64_small k : (Z.of_nat k <= 2 ^ 30)%Z -> (pow H64 k <= 1 + Qpower (2 # 1) (- (22)))%Q.
Proof.
  intros H. assert (H' : (Z.of_nat k <= 2 ^ 52)%Z) by lia. eapply Qle_trans; [apply powH_small; exact H'|].
  assert (N : (nq k <= inject_Z (2 ^ 30))%Q) by (unfold nq; now rewrite <- Zle_Qle).
  assert (N2 : (nq k * u64 <= inject_Z (2 ^ 30) * u64)%Q) by (apply Qmult_le_compat_r; auto; apply u64_01).
  assert (E : (2 * (inject_Z (2 ^ 30) * u64) == Qpower (2 # 1) (- (22)))%Q) by (apply by_eq; vm_compute; reflexivity). lra.
Qed.
Print Assumptions C64_small.
Example C64_small_case : (Z.of_nat 1000 <= 2 ^ 30)%Z /\ Qle_bool (pow H64 50) 1 = false.
Proof. split; [vm_compute; discriminate|vm_compute; reflexivity]. Qed.

(** Normalizing keeps the order of any metrics that are finite and not
    negative, also if a sum overflows. *)
Theorem C64_order g g' i (q : nat -> Q) a b :
  rnormalize ieee g = Ok g' -> ec_normalized (cfg_edges (g_cfg g)) = true ->
  length (metrics g) = edge_count g FWD -> (Z.of_nat (edge_count g FWD) <= 2 ^ 53)%Z -> i < metric_dim g ->
  (forall e, e < edge_count g FWD -> metric_of g e i = Some (Fin (q e)) /\ (0 <= q e)%Q) ->
  a < edge_count g FWD -> b < edge_count g FWD -> (q a <= q b)%Q ->
  exists x y, metric_of g' a i = Some x /\ metric_of g' b i = Some y /\ fleb x y = true.
Proof.
  intros E Hf Hl Hc Hi Hq Ha Hb Hab.
  destruct (rnormalize_nth ieee g g' i (fun e => Fin (q e)) E Hf Hl Hi (fun e He => proj1 (Hq e He))) as (Hn0 & d & _ & Hd & Hz & Hy).
  exists (rclamp ieee (rdiv ieee (Fin (q a)) d)), (rclamp ieee (rdiv ieee (Fin (q b)) d)). split; [exact (Hy a Ha)|]. split; [exact (Hy b Hb)|].
  destruct (by_mean (map (fun e => Fin (q e)) (seq 0 (edge_count g FWD))) (edge_count g FWD) d (Fin (q a)) (Fin (q b))) as [M0 M1];
    [lia|exact Hc| |exact Hd|exact Hz|eauto|apply fle_fin, Hq, Ha|eauto|apply fle_fin, Hab|].
  - apply Forall_forall. intros x Hx. apply in_map_iff in Hx. destruct Hx as (e & <- & He). apply in_seq in He. apply fle_fin, Hq. lia.
  - clear Hz Hd. apply (rclamp_mono _ _ M0 M1).
Qed.
Print Assumptions C64_order.
(** three metrics of 2^1023 make the mean infinite, and nothing of the order is left but equality *)
Example C64_order_case :
  let l := [Qpower (2 # 1) 1023; Qpower (2 # 1) 1023; Qpower (2 # 1) 1023; 1; 2; 3; 4]%Q in
  exists g', rnormalize ieee (graph_of (ex_cfg true) l) = Ok g' /\ metric_mean g' 0 = Ok (Some PInf) /\
    metric_of g' 0 0 = metric_of g' 3 0.
Proof. eexists. split; [vm_compute; reflexivity|]. split; vm_compute; reflexivity. Qed.

(** But equal metrics don't become 1. *)
Theorem C64_uniform_refuted : exists hav c ch1 ch2 es ns g0 g g' q y,
  build hav c ch1 ch2 es ns = Ok g0 /\ remeasured g0 g /\ g_cfg g = g_cfg g0 /\ ec_normalized (cfg_edges (g_cfg g)) = true /\ representable q /\ (1 # 100 <= q)%Q /\ (q <= 1)%Q /\
  edge_count g FWD = 7 /\ (forall e, e < 7 -> metric_of g e 0 = Some (Fin q)) /\
  rnormalize ieee g = Ok g' /\ (forall e, e < 7 -> metric_of g' e 0 = Some (Fin y)) /\ ~ (y == 1)%Q.
Proof.
  set (q := dec (1 # 10)).
  exists ex_hav, (ex_cfg true), 2, 3, rt_es, rt_ns, norm_built, (graph_of (ex_cfg true) (repeat q 7)),
    (unok empty_graph (rnormalize ieee (graph_of (ex_cfg true) (repeat q 7)))).
  exists q, (match metric_of (unok empty_graph (rnormalize ieee (graph_of (ex_cfg true) (repeat q 7)))) 0 0 with Some (Fin y) => y | _ => 0%Q end).
  split; [exact norm_built_ok|]. split; [apply norm_remeasured; reflexivity|]. split; [reflexivity|]. split; [reflexivity|]. split; [apply representable_dec|].
  split; [apply by_le; vm_compute; reflexivity|]. split; [apply by_le; vm_compute; reflexivity|]. split; [reflexivity|].
  split; [apply seven; reflexivity|]. split; [vm_compute; reflexivity|]. split; [apply seven; vm_compute; reflexivity|].
  intros H. apply Qeq_bool_iff in H. vm_compute in H. discriminate.
Qed.
Print Assumptions C64_uniform_refuted.

(** And different metrics may become equal. *)
Theorem C64_strict_refuted : exists hav c ch1 ch2 es ns g0 g g' q q' y y',
  build hav c ch1 ch2 es ns = Ok g0 /\ remeasured g0 g /\ g_cfg g = g_cfg g0 /\ ec_normalized (cfg_edges (g_cfg g)) = true /\
  (forall e, e < 7 -> exists x, metric_of g e 0 = Some (Fin x) /\ representable x /\ (1 <= x)%Q /\ (x <= 2)%Q) /\
  metric_of g 0 0 = Some (Fin q) /\ metric_of g 1 0 = Some (Fin q') /\ (q < q')%Q /\
  rnormalize ieee g = Ok g' /\ metric_of g' 0 0 = Some (Fin y) /\ metric_of g' 1 0 = Some (Fin y') /\ (y == y')%Q.
Proof.
  set (q := (dec (19 # 10) + Qpower (2 # 1) (- (51)))%Q). set (q' := (q + Qpower (2 # 1) (- (52)))%Q).
  set (l := [Qred q; Qred q'; dec (17 # 10); dec (175 # 100); dec (16 # 10); dec (18 # 10); dec (15 # 10)]).
  exists ex_hav, (ex_cfg true), 2, 3, rt_es, rt_ns, norm_built, (graph_of (ex_cfg true) l), (unok empty_graph (rnormalize ieee (graph_of (ex_cfg true) l))).
  exists (Qred q), (Qred q'),
    (match metric_of (unok empty_graph (rnormalize ieee (graph_of (ex_cfg true) l))) 0 0 with Some (Fin y) => y | _ => 0%Q end),
    (match metric_of (unok empty_graph (rnormalize ieee (graph_of (ex_cfg true) l))) 1 0 with Some (Fin y) => y | _ => 0%Q end).
  split; [exact norm_built_ok|]. split; [apply norm_remeasured; reflexivity|]. split; [reflexivity|]. split; [reflexivity|]. split.
  { apply seven; (eexists; split; [reflexivity|]; split; [|split; apply by_le; vm_compute; reflexivity]);
      apply representable_by; vm_compute; reflexivity. }
  split; [reflexivity|]. split; [reflexivity|]. split; [apply by_lt; vm_compute; reflexivity|].
  split; [vm_compute; reflexivity|]. split; [vm_compute; reflexivity|]. split; [vm_compute; reflexivity|]. apply by_eq. vm_compute. reflexivity.
Qed.
Print Assumptions C64_strict_refuted.

(** *** Updating the balanced metric *)

(** The workloads are whole numbers, so their mean is the f64 nearest to the
    exact mean, no matter in which order they are added. *)
Theorem C64_load_mean ws : countable (length ws) -> 0 < length ws -> (Z.of_nat (list_sum ws) <= 2 ^ 53)%Z ->
  exists m, rmean ieee (map (rof_nat ieee) ws) = Fin m /\ (m == rnd64 (nq (list_sum ws) / nq (length ws)))%Q.
Proof. intros A B C. destruct (up_mean_64 ws A B C) as (m & E & H & _). exists m. split; [exact E|exact H]. Qed.
Print Assumptions C64_load_mean.
Example C64_load_mean_case : countable (length [1; 0; 0]) /\ (Z.of_nat (list_sum [1; 0; 0]%nat) <= 2 ^ 53)%Z /\
  match rmean ieee (map (rof_nat ieee) [1; 0; 0]) with Fin m => Qeq_bool m (rnd64 (1 # 3)) && negb (Qeq_bool m (1 # 3)) = true | _ => False end.
Proof. split; [vm_compute; discriminate|]. split; [vm_compute; discriminate|]. vm_compute. reflexivity. Qed.
(** Above 2^53 this isn't so. *)
Theorem C64_load_mean_refuted : exists x y z : Q, (x == inject_Z (2 ^ 53) /\ y == 1 /\ z == 1)%Q /\
  exists s, fold_left (radd ieee) [Fin x; Fin y; Fin z] f0 = Fin s /\ ~ (s == rnd64 (x + y + z))%Q.
Proof.
  exists (inject_Z (2 ^ 53)), 1%Q, 1%Q. split; [split; [reflexivity|split; reflexivity]|]. eexists. split; [vm_compute; reflexivity|].
  intros H. apply Qeq_bool_iff in H. vm_compute in H. discriminate.
Qed.
Print Assumptions C64_load_mean_refuted.

(** An update either fails and leaves the graph as it is, or writes finite
    numbers that aren't negative: no overflow, no NaN, no panic. *)
Theorem C64_update_total g ws bc iteration mi old :
  updates g ws bc iteration mi old ->
  (exists msg, rupdate_new_metric ieee iteration ws bc g = (Err msg, g)) \/
  exists g', rupdate_new_metric ieee iteration ws bc g = (Ok tt, g') /\
    (forall e, e < length ws -> exists y, metric_of g' e mi = Some (Fin y) /\ (0 <= y)%Q) /\
    same_other_metrics g g' mi /\ same_network g g' /\
    (forall mu, means g = Some mu -> exists mu' m, means g' = Some mu' /\ nth_error mu' mi = Some (Fin m) /\ (0 < m)%Q).
Proof.
  intros U. destruct (update_64 g ws bc iteration mi old U) as [L|(g' & m & m2 & zs & E & _ & _ & _ & _ & H2 & _ & _ & _ & Hz & S1 & S2 & S3)]; [left; exact L|right].
  exists g'. split; [exact E|]. split.
  - intros e He. destruct (Hz e He) as (_ & _ & _ & _ & Y & P). eauto.
  - split; [exact S1|]. split; [exact S2|]. intros mu Hmu. destruct (S3 mu Hmu) as (mu' & A & C). exists mu', m2. split; auto. split; auto. lra.
Qed.
Print Assumptions C64_update_total.

Definition bal_metrics : list Q := Eval vm_compute in [dec (1 # 10); dec (2 # 10); dec (3 # 10); dec (4 # 10); dec (1 # 2); 1%Q; 2%Q].
Lemma bal_representable e : e < 7 -> representable (nth e bal_metrics 0%Q).
Proof.
  revert e. apply seven; apply representable_by; vm_compute; reflexivity.
Qed.
Lemma bal_updates m mn iteration : corrects m -> floors mn -> countable iteration ->
  updates (graph_of (ex_cfg false) bal_metrics) [1; 0; 2; 3; 0; 5; 4] (bal64 m mn) iteration 0 (fun e => nth e bal_metrics 0%Q).
Proof.
  intros Hm Hmn Hi. constructor; [|reflexivity|apply Nat.ltb_lt; reflexivity|apply Z.leb_le; reflexivity|apply Z.leb_le; reflexivity|exact Hi| | |exact Hm|exact Hmn].
  - split; [reflexivity|intros j Hj; lia].
  - intros e He. split; [|split; [|now apply bal_representable]]; revert e He;
      apply seven; try reflexivity; split; apply by_le; vm_compute; reflexivity.
  - intros mu H. discriminate.
Qed.
Example C64_update_case : exists g',
  updates (graph_of (ex_cfg false) bal_metrics) [1; 0; 2; 3; 0; 5; 4] (bal64 (ExplicitEuler (Fin (dec (3 # 10)))) (Some (Fin (1 # 8)))) 0 0 (fun e => nth e bal_metrics 0%Q) /\
  rupdate_new_metric ieee 0 [1; 0; 2; 3; 0; 5; 4] (bal64 (ExplicitEuler (Fin (dec (3 # 10)))) (Some (Fin (1 # 8)))) (graph_of (ex_cfg false) bal_metrics) = (Ok tt, g').
Proof.
  eexists. split; [|vm_compute; reflexivity]. apply bal_updates; [|exists (1 # 8); split; [reflexivity|]|vm_compute; discriminate].
  - exists (dec (3 # 10)). split; [reflexivity|]. split; apply by_le; vm_compute; reflexivity.
  - split; apply by_le; vm_compute; reflexivity.
Qed.

(** With averaging, an edge that had at least the metric of another edge and
    gets at least its workload has at least its metric afterwards.  With the
    explicit Euler method this holds for edges of the same metric. *)
Theorem C64_update_order g ws bc iteration mi old g' a b :
  updates g ws bc iteration mi old -> rupdate_new_metric ieee iteration ws bc g = (Ok tt, g') ->
  a < length ws -> b < length ws -> nth a ws 0 <= nth b ws 0 ->
  match bc_method bc with Averaging => (old a <= old b)%Q | ExplicitEuler _ => (old a == old b)%Q end ->
  exists x y, metric_of g' a mi = Some (Fin x) /\ metric_of g' b mi = Some (Fin y) /\ (x <= y)%Q.
Proof.
  intros U E Ha Hb Hl Ho. destruct (C64_update_total _ _ _ _ _ _ U) as [(msg & E')|(g'' & E' & Hy & _)]; rewrite E in E'; inversion E'; subst g''.
  destruct (Hy a Ha) as (x & Hx & _). destruct (Hy b Hb) as (y & Hy' & _). exists x, y. split; auto. split; auto.
  exact (update_order g ws bc iteration mi old U g' a b x y E Ha Hb Hl Ho Hx Hy').
Qed.
Print Assumptions C64_update_order.
Example C64_update_order_case : exists g',
  updates (graph_of (ex_cfg false) bal_metrics) [1; 0; 2; 3; 0; 5; 4] (bal64 Averaging (Some (Fin (1 # 8)))) 3 0 (fun e => nth e bal_metrics 0%Q) /\
  rupdate_new_metric ieee 3 [1; 0; 2; 3; 0; 5; 4] (bal64 Averaging (Some (Fin (1 # 8)))) (graph_of (ex_cfg false) bal_metrics) = (Ok tt, g') /\
  match metric_of g' 2 0, metric_of g' 3 0 with Some (Fin x), Some (Fin y) => Qle_bool y x = false | _, _ => False end.
Proof.
  eexists. split; [apply bal_updates; [exact I|exists (1 # 8); split; [reflexivity|]; split; apply by_le; vm_compute; reflexivity|vm_compute; discriminate]|].
  split; [vm_compute; reflexivity|]. vm_compute. reflexivity.
Qed.

(** With the explicit Euler method and different metrics it doesn't: the edge
    with the smaller metric overtakes the one with the larger, both having the
    same workload, although the correction is 1 and both should become equal. *)
Theorem C64_euler_order_refuted : exists g ws bc old g' x y,
  updates g ws bc 0 0 old /\ bc_method bc = ExplicitEuler (Fin 1) /\ rupdate_new_metric ieee 0 ws bc g = (Ok tt, g') /\
  nth 0 ws 0 = nth 1 ws 0 /\ (old 0%nat < old 1%nat)%Q /\
  metric_of g' 0 0 = Some (Fin x) /\ metric_of g' 1 0 = Some (Fin y) /\ (y < x)%Q.
Proof.
  set (l := [dec (3 # 10); dec (4 # 10); 1; 1; 1; 1; 1]%Q). set (g := graph_of (ex_cfg false) l). set (ws := [9; 9; 10; 10; 10; 10; 12]).
  set (bc := bal64 (ExplicitEuler (Fin 1)) None).
  exists g, ws, bc, (fun e => nth e l 0%Q), (snd (rupdate_new_metric ieee 0 ws bc g)).
  exists (match metric_of (snd (rupdate_new_metric ieee 0 ws bc g)) 0 0 with Some (Fin y) => y | _ => 0%Q end),
    (match metric_of (snd (rupdate_new_metric ieee 0 ws bc g)) 1 0 with Some (Fin y) => y | _ => 0%Q end).
  split.
  { constructor; [|reflexivity|apply Nat.ltb_lt; reflexivity|apply Z.leb_le; reflexivity|apply Z.leb_le; reflexivity|apply Z.leb_le; reflexivity| | | |exact I].
    - split; [reflexivity|intros j Hj; lia].
    - apply seven; (split; [reflexivity|]; split; [split; apply by_le; vm_compute; reflexivity|]); apply representable_by; vm_compute; reflexivity.
    - intros mu H. discriminate.
    - exists 1%Q. split; [reflexivity|]. split; apply by_le; reflexivity. }
  split; [reflexivity|]. split; [vm_compute; reflexivity|]. split; [reflexivity|]. split; [apply by_lt; vm_compute; reflexivity|].
  split; [vm_compute; reflexivity|]. split; [vm_compute; reflexivity|]. apply by_lt. vm_compute. reflexivity.
Qed.
Print Assumptions C64_euler_order_refuted.

(** A step of averaging without minimum: every edge gets the documented value,
    divided by the mean of all of them, up to [n + 10] roundings. *)
Theorem C64_averaging g ws bc iteration mi old g' :
  updates g ws bc iteration mi old -> bc_method bc = Averaging -> bc_min bc = None -> (forall e, e < length ws -> usual (old e)) ->
  rupdate_new_metric ieee iteration ws bc g = (Ok tt, g') ->
  let n := length ws in
  exists v, (forall e, e < n -> exists r, relative ws (nth e ws 0) r /\ moved Averaging iteration (old e) r (v e)) /\
    let mean := (sum_to n v / nq n)%Q in
    (0 < mean)%Q /\ (forall mu, means g = Some mu -> exists m, metric_mean g' mi = Ok (Some (Fin m)) /\ off (n + 5) mean m) /\
    forall e, e < n -> exists y, metric_of g' e mi = Some (Fin y) /\ off (n + 10) (v e / mean) y.
Proof.
  intros U Ha Hm Hu E n. exists (exact_value ws iteration old). split; [|exact (averaging_off g ws bc iteration mi old U Ha Hm Hu g' E)].
  intros e He. exists (exact_rel ws e). split.
  - unfold relative, exact_rel, qn, nq.
    assert (P : 0 < list_sum ws).
    { destruct (update_64 g ws bc iteration mi old U) as [(msg & E')|(g'' & m & m2 & zs & E' & Hm' & H7 & _)]; rewrite E in E'; inversion E'.
      destruct (list_sum ws) as [|s]; [|lia]. exfalso. pose proof (nq_pos _ (u_some _ _ _ _ _ _ U)) as Pn.
      assert (Z : (rnd64 (nq 0 / nq (length ws)) == 0)%Q) by (rewrite rnd64_zero; [reflexivity|change (nq 0) with 0%Q; field; lra]). rewrite Z in Hm'. lra. }
    apply nq_pos in P. unfold nq in P. field. lra.
  - unfold moved, exact_value, qn. rewrite nq_plus. fold (nq iteration). change (nq 1) with 1%Q.
    pose proof (nq_nonneg iteration). field. lra.
Qed.
Print Assumptions C64_averaging.
Example C64_averaging_case : exists g',
  updates (graph_of (ex_cfg false) bal_metrics) [1; 0; 2; 3; 0; 5; 4] (bal64 Averaging None) 3 0 (fun e => nth e bal_metrics 0%Q) /\
  (forall e, e < 7 -> usual (nth e bal_metrics 0%Q)) /\
  rupdate_new_metric ieee 3 [1; 0; 2; 3; 0; 5; 4] (bal64 Averaging None) (graph_of (ex_cfg false) bal_metrics) = (Ok tt, g').
Proof.
  eexists. split; [apply bal_updates; [exact I|exact I|vm_compute; discriminate]|]. split; [|vm_compute; reflexivity].
  apply seven; right; split; apply by_le; vm_compute; reflexivity.
Qed.

(** A metric that already is the workload relative to the mean isn't left
    alone by averaging. *)
Theorem C64_averaging_fixed_refuted : exists g ws bc iteration old g' r y,
  updates g ws bc iteration 0 old /\ bc_method bc = Averaging /\ bc_min bc = None /\
  (forall e, e < length ws -> exists m, rmean ieee (map (rof_nat ieee) ws) = Fin m /\ rdiv ieee (rof_nat ieee (nth e ws 0)) (Fin m) = Fin (old e)) /\
  rmean ieee (map (fun e => Fin (old e)) (seq 0 (length ws))) = Fin r /\ (r == 1)%Q /\
  rupdate_new_metric ieee iteration ws bc g = (Ok tt, g') /\ metric_of g' 0 0 = Some (Fin y) /\ ~ (y == old 0%nat)%Q.
Proof.
  set (l := [rnd64 (1 # 10); rnd64 (9 # 10); rnd64 (10 # 10); rnd64 (10 # 10); rnd64 (10 # 10); rnd64 (10 # 10); rnd64 (20 # 10)]%Q).
  set (g := graph_of (ex_cfg false) l). set (ws := [1; 9; 10; 10; 10; 10; 20]). set (bc := bal64 Averaging None).
  exists g, ws, bc, 2, (fun e => nth e l 0%Q), (snd (rupdate_new_metric ieee 2 ws bc g)).
  exists (match rmean ieee (map (fun e => Fin (nth e l 0%Q)) (seq 0 (length ws))) with Fin r => r | _ => 0%Q end).
  exists (match metric_of (snd (rupdate_new_metric ieee 2 ws bc g)) 0 0 with Some (Fin y) => y | _ => 0%Q end).
  split.
  { constructor; [|reflexivity|apply Nat.ltb_lt; reflexivity|apply Z.leb_le; reflexivity|apply Z.leb_le; reflexivity|apply Z.leb_le; reflexivity| | |exact I|exact I].
    - split; [reflexivity|intros j Hj; lia].
    - apply seven; (split; [reflexivity|]; split; [split; apply by_le; vm_compute; reflexivity|]); apply rnd64_representable.
    - intros mu H. discriminate. }
  split; [reflexivity|]. split; [reflexivity|]. split.
  { apply seven; (eexists; split; [vm_compute; reflexivity|]; vm_compute; reflexivity). }
  split; [vm_compute; reflexivity|]. split; [apply by_eq; vm_compute; reflexivity|]. split; [vm_compute; reflexivity|].
  split; [vm_compute; reflexivity|]. intros H. apply Qeq_bool_iff in H. vm_compute in H. discriminate.
Qed.
Print Assumptions C64_averaging_fixed_refuted.
