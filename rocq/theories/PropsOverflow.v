(** Property C60, continued: the search with `f64` that overflows *)
From Coq Require Import String List Bool Arith ZArith QArith Qabs Lqa Lia.
From Verif Require Import Base F64 Lib ModelUnits ModelConfig ModelGraph ModelBuild Spec Examples
  ModelDijkstra AbsSearch SpecRouting ProofDijkstra ProofRouting ExamplesRouting PropsRouting
  ModelRounded SpecRounded ProofRounded ProofRoundedRun ProofRounding64 SpecPaths ProofPaths ProofRoundedCosts ExamplesRounded
  ProofOverflow PropsRounded.
Import ListNotations.
Open Scope list_scope.
Open Scope nat_scope.

(** *** the arithmetic *)
(** A result is the nearest number of binary64; it is infinite from half a unit
    in the last place beyond the largest one on. *)
Definition edge_of_range : Q := inject_Z (2 ^ 1024 - 2 ^ 970).
Lemma above_top r : representable r -> (top64 < r)%Q -> (inject_Z (2 ^ 1024) <= r)%Q.
Proof.
  intros (m & k & Hm & Hk & E) H. destruct (Z.le_gt_cases 971 k) as [K|K].
  - assert (Er : (r == inject_Z (m * 2 ^ (k - 971) * 2 ^ 971))%Q).
    { rewrite E, <- Z.mul_assoc, <- Z.pow_add_r by lia. replace (k - 971 + 971)%Z with k by lia.
      rewrite inject_Z_mult. rewrite <- (B_nat k) by lia. reflexivity. }
    rewrite Er in *. unfold top64 in H. rewrite <- Zlt_Qlt in H. rewrite <- Zle_Qle.
    apply Z.mul_lt_mono_pos_r in H; [|reflexivity]. replace (2 ^ 1024)%Z with (2 ^ 53 * 2 ^ 971)%Z by reflexivity.
    apply Z.mul_le_mono_nonneg_r; [lia|]. lia.
  - exfalso. assert (Hb : (r <= inject_Z (2 ^ 53) * Qpower (2 # 1) 970)%Q).
    { rewrite E. apply Qle_trans with (inject_Z (2 ^ 53) * Qpower (2 # 1) k)%Q.
      - apply Qmult_le_compat_r; [rewrite <- Zle_Qle; lia|]. apply Qlt_le_weak, (B_pos k).
      - rewrite (Qmult_comm (inject_Z (2 ^ 53)) (Qpower _ k)), (Qmult_comm (inject_Z (2 ^ 53)) (Qpower _ 970)).
        apply Qmult_le_compat_r; [|vm_compute; discriminate]. apply (B_mono k 970). lia. }
    assert (Hc : (inject_Z (2 ^ 53) * Qpower (2 # 1) 970 < top64)%Q) by (vm_compute; reflexivity). lra.
Qed.
Lemma top_representable : representable top64.
Proof.
  exists (2 ^ 53 - 1)%Z, 971%Z. split; [lia|]. split; [lia|]. unfold top64. rewrite inject_Z_mult. vm_compute. reflexivity.
Qed.
Lemma over_iff q : (top64 < rnd64 q)%Q <-> (edge_of_range <= q)%Q.
Proof.
  split; intros H.
  - destruct (Qlt_le_dec q edge_of_range) as [Hl|]; [exfalso|auto].
    pose proof (above_top _ (rnd64_representable q) H) as Hb.
    pose proof (rnd64_nearest q top64 top_representable) as Hn.
    assert (H1 : (inject_Z (2 ^ 1024) == edge_of_range + inject_Z (2 ^ 970))%Q) by (vm_compute; reflexivity).
    assert (H2 : (top64 == edge_of_range - inject_Z (2 ^ 970))%Q) by (vm_compute; reflexivity).
    assert (Hp : (0 < inject_Z (2 ^ 970))%Q) by (vm_compute; reflexivity).
    set (e := edge_of_range) in *. set (h := inject_Z (2 ^ 970)) in *. set (b := inject_Z (2 ^ 1024)) in *. set (tp := top64) in *.
    set (r := rnd64 q) in *. clearbody e h b tp r.
    assert (Hr : (Qabs (r - q) == r - q)%Q) by (apply Qabs_pos; lra). rewrite Hr in Hn.
    apply (Qabs_case (tp - q) (fun x => (r - q <= x)%Q -> False)); [| |exact Hn]; intros; lra.
  - pose proof (r_mono _ _ _ rounding64 _ _ H) as Hm.
    assert (E : (top64 < rnd64 edge_of_range)%Q) by (vm_compute; reflexivity). lra.
Qed.
Lemma rnd64_opp q : (rnd64 (- q) == - rnd64 q)%Q.
Proof.
  pose proof (r_mono _ _ _ rounding64) as M.
  assert (Hp : forall x, (0 < x)%Q -> rnd64 x = pos64 x).
  { intros x Hx. unfold rnd64. assert (E : (x ?= 0)%Q = Gt) by (apply Qgt_alt; exact Hx). now rewrite E. }
  assert (Hn : forall x, (x < 0)%Q -> rnd64 x = (- pos64 (- x))%Q).
  { intros x Hx. unfold rnd64. assert (E : (x ?= 0)%Q = Lt) by (apply Qlt_alt; exact Hx). now rewrite E. }
  assert (Hc : forall x y, (0 < x)%Q -> (x == y)%Q -> (pos64 x == pos64 y)%Q).
  { intros x y Hx Hxy. assert (Hy : (0 < y)%Q) by lra. rewrite <- (Hp x Hx), <- (Hp y Hy).
    pose proof (M x y ltac:(lra)). pose proof (M y x ltac:(lra)). lra. }
  destruct (Q_dec q 0) as [[H|H]|H].
  - rewrite (Hn q H), Hp by lra. ring.
  - rewrite (Hp q H), Hn by lra. apply Qopp_comp, Hc; [lra|ring].
  - unfold rnd64. assert (E : (q ?= 0)%Q = Eq) by (now apply Qeq_alt). assert (E' : (- q ?= 0)%Q = Eq) by (apply Qeq_alt; lra).
    rewrite E, E'. reflexivity.
Qed.
Theorem C60_ieee :
  (forall q, ieee (Fin q) = PInf <-> (edge_of_range <= q)%Q) /\
  (forall q, ieee (Fin q) = NInf <-> (q <= - edge_of_range)%Q) /\
  (forall q r, ieee (Fin q) = Fin r -> representable r /\ (Qabs r <= top64)%Q /\
     forall r', representable r' -> (Qabs (r - q) <= Qabs (r' - q))%Q) /\
  ieee PInf = PInf /\ ieee NInf = NInf /\ ieee NaN = NaN.
Proof.
  assert (Hup : forall q, Qle_bool (rnd64 q) top64 = false <-> (edge_of_range <= q)%Q).
  { intros q. rewrite <- over_iff. destruct (Qle_bool (rnd64 q) top64) eqn:E.
    - apply Qle_bool_iff in E. split; [discriminate|intros; lra].
    - split; [intros _|reflexivity]. apply Qnot_le_lt. intros H. apply Qle_bool_iff in H. congruence. }
  assert (Hlow : forall q, Qle_bool (- top64) (rnd64 q) = false <-> (q <= - edge_of_range)%Q).
  { intros q. assert (Hq : (q <= - edge_of_range)%Q <-> (edge_of_range <= - q)%Q) by (split; intros; lra). rewrite Hq, <- over_iff.
    pose proof (rnd64_opp q) as Ho. destruct (Qle_bool (- top64) (rnd64 q)) eqn:E.
    - apply Qle_bool_iff in E. split; [discriminate|intros; lra].
    - split; [intros _|reflexivity]. apply Qnot_le_lt. intros H.
      assert (Hc : (- top64 <= rnd64 q)%Q) by lra. apply Qle_bool_iff in Hc. congruence. }
  assert (Hpos : (0 < edge_of_range)%Q) by (vm_compute; reflexivity).
  split; [|split; [|split]].
  - intros q. rewrite <- Hup. cbn [ieee ofin]. unfold ieee, ofin. destruct (Qle_bool (rnd64 q) top64); [|tauto].
    destruct (Qle_bool (- top64) (rnd64 q)); split; discriminate.
  - intros q. rewrite <- Hlow. unfold ieee, ofin. destruct (Qle_bool (rnd64 q) top64) eqn:E.
    + destruct (Qle_bool (- top64) (rnd64 q)); split; congruence.
    + apply Hup in E. split; [discriminate|]. intros H. apply Hlow in H. lra.
  - intros q r. unfold ieee, ofin. destruct (Qle_bool (rnd64 q) top64) eqn:E1; [|discriminate].
    destruct (Qle_bool (- top64) (rnd64 q)) eqn:E2; [|discriminate]. intros E. injection E as <-.
    apply Qle_bool_iff in E1, E2. split; [apply rnd64_representable|]. split; [apply Qabs_Qle_condition; split; lra|].
    intros r'. apply rnd64_nearest.
  - auto.
Qed.
Print Assumptions C60_ieee.
(** `f64::MAX` plus a little, plus half a unit, doubled *)
Example C60_ieee_case :
  radd ieee (Fin top64) (Fin 1) = Fin top64 /\ radd ieee (Fin top64) (Fin (inject_Z (2 ^ 970))) = PInf /\
  rmul ieee (Fin top64) (Fin (- (2))) = NInf /\ (top64 < edge_of_range)%Q.
Proof. repeat split; vm_compute; reflexivity. Qed.

(** *** where nothing overflows *)
(** If an edge costs at most [W], and twice as many edges as there are nodes
    cost less than the largest number, then the search does what it does without
    overflow, whatever the queue does. *)
Theorem C60_no_overflow rnd u eta top hav c ch1 ch2 es ns g0 g pick fuel st rc s t W :
  rounding u eta rnd -> (0 <= top)%Q ->
  1 <= ch1 -> 1 <= ch2 -> build hav c ch1 ch2 es ns = Ok g0 -> remeasured g0 g -> nonneg_metrics g ->
  rhistory st -> roomy st g -> s < node_count g -> t < node_count g -> valid_pick pick ->
  (0 <= W)%Q -> (forall e q, costs_as g (rc_alphas rc) [e] q -> (q <= W)%Q) ->
  (at_most u eta (length (rc_alphas rc)) (2 * node_count g) (nq (2 * node_count g) * W) <= top)%Q ->
  rcompute_best_path (ofin rnd top) pick fuel st g rc s t = rcompute_best_path (rfin rnd) pick fuel st g rc s t.
Proof.
  intros R Ht H1 H2 E Hg Hnn Hh Hr Hs Htt Hv HW He Hb.
  pose proof (remeasured_wf _ _ Hg (build_wf _ _ _ _ _ _ _ H1 H2 E)) as Hwf.
  exact (rcompute_same u eta rnd top g pick fuel st rc s t W R Ht Hwf Hnn Hh Hr Hs Htt Hv HW He Hb).
Qed.
Print Assumptions C60_no_overflow.

(** With `f64`, on graphs of half a million nodes and edges that cost at most
    2^1000. *)
Theorem C60_no_overflow_binary64 hav c ch1 ch2 es ns g0 g pick fuel st rc s t :
  1 <= ch1 -> 1 <= ch2 -> build hav c ch1 ch2 es ns = Ok g0 -> remeasured g0 g -> nonneg_metrics g ->
  rhistory st -> roomy st g -> s < node_count g -> t < node_count g -> valid_pick pick ->
  (Z.of_nat (2 * node_count g + length (rc_alphas rc) + 2) <= 2 ^ 20)%Z ->
  (forall e q, costs_as g (rc_alphas rc) [e] q -> (q <= inject_Z (2 ^ 1000))%Q) ->
  rcompute_best_path ieee pick fuel st g rc s t = rcompute_best_path (rfin rnd64) pick fuel st g rc s t.
Proof.
  intros H1 H2 E Hg Hnn Hh Hr Hs Htt Hv Hn He.
  assert (W0 : (0 <= inject_Z (2 ^ 1000))%Q) by (vm_compute; discriminate).
  apply (C60_no_overflow rnd64 u64 eta64 top64 hav c ch1 ch2 es ns g0 g pick fuel st rc s t (inject_Z (2 ^ 1000)) rounding64); auto.
  set (n := 2 * node_count g) in *. set (W := inject_Z (2 ^ 1000)) in *.
  assert (Hq0 : (0 <= nq n * W)%Q) by (apply Qmult_le_0_compat; [apply nq_nonneg|exact W0]).
  assert (Hq : (nq n * W <= inject_Z (2 ^ 20) * W)%Q).
  { apply Qmult_le_compat_r; [|exact W0]. unfold nq. rewrite <- Zle_Qle. lia. }
  destruct (low_64 (length (rc_alphas rc)) n (nq n * W)) as (_ & Hu & _); [unfold depth, million; lia|exact Hq0|].
  eapply Qle_trans; [exact Hu|].
  apply Qle_trans with ((1 + 2 * Qpower (2 # 1) (- (33))) * (inject_Z (2 ^ 20) * W + inject_Z (2 ^ 42) * eta64))%Q; [|vm_compute; discriminate].
  assert (Hk : (0 < 1 + 2 * Qpower (2 # 1) (- (33)))%Q) by (vm_compute; reflexivity).
  apply Qmult_le_l; [exact Hk|]. lra.
Qed.
Print Assumptions C60_no_overflow_binary64.

(** So all of C60 is about `f64`; in particular: *)
Theorem C60_cheapest_ieee hav c ch1 ch2 es ns g0 g pick delta fuel st rc s t st' p :
  1 <= ch1 -> 1 <= ch2 -> build hav c ch1 ch2 es ns = Ok g0 -> remeasured g0 g -> nonneg_metrics g ->
  rhistory st -> roomy st g -> s < node_count g -> t < node_count g -> valid_pick pick ->
  (0 <= delta)%Q -> picks_min delta pick ->
  (Z.of_nat (2 * node_count g + length (rc_alphas rc) + 2) <= 2 ^ 20)%Z ->
  (forall e q, costs_as g (rc_alphas rc) [e] q -> (q <= inject_Z (2 ^ 1000))%Q) ->
  rcompute_best_path ieee pick fuel st g rc s t = Ok (st', Some p) ->
  (Z.of_nat (length (p_edges p) + length (rc_alphas rc) + 2) <= 2 ^ 20)%Z ->
  exists qp, costs_as g (rc_alphas rc) (p_edges p) qp /\
    forall l q, connects g s l t -> costs_as g (rc_alphas rc) l q ->
      (Z.of_nat (length l + length (rc_alphas rc) + 2) <= 2 ^ 20)%Z ->
      (rc_algo rc = ADijkstra \/ (rc_algo rc = ACHDijkstra /\ up_down g l)) ->
      (qp <= (1 + Qpower (2 # 1) (- (30))) * q + 3 * delta + Qpower (2 # 1) (- (1000)))%Q.
Proof.
  intros H1 H2 E Hg Hnn Hh Hr Hs Ht Hv Hd Hpk Hn He Ec Hlen.
  rewrite (C60_no_overflow_binary64 hav c ch1 ch2 es ns g0 g) in Ec by auto.
  exact (C60_cheapest_binary64 hav c ch1 ch2 es ns g0 g pick delta fuel st rc s t st' p H1 H2 E Hg Hnn Hh Hr Hs Ht Hd Hpk Ec Hlen).
Qed.
Print Assumptions C60_cheapest_ieee.
Example C60_cheapest_ieee_case : exists st' p,
  rcompute_best_path ieee exact_pick 50 dijkstra_new tenth_graph (ex_rc ADijkstra [Fin 1]) 0 3 = Ok (st', Some p) /\
  p_edges p = [1; 3] /\
  (Z.of_nat (2 * node_count tenth_graph + 1 + 2) <= 2 ^ 20)%Z /\
  (forall e q, costs_as tenth_graph [Fin 1] [e] q -> (q <= inject_Z (2 ^ 1000))%Q).
Proof.
  do 2 eexists. split; [vm_compute; reflexivity|]. split; [reflexivity|]. split; [vm_compute; discriminate|].
  intros e q Hq. inversion Hq as [|? ? ms a b Em Ew Hc]; subst. inversion Hc; subst.
  do 5 (destruct e as [|e]; [vm_compute in Em; injection Em as <-; vm_compute in Ew; injection Ew as <-; vm_compute; discriminate|]).
  destruct e; discriminate.
Qed.

(** *** where something does *)
(** Edges that cost `f64::MAX`: the road is there, all numbers are finite, but
    the search doesn't find it. *)
Definition far_es : list proto_edge :=
  [ ex_edge 0 0 1 top64 None; ex_edge 1 1 2 top64 None; ex_edge 2 2 3 top64 None; ex_edge 3 3 0 1 None ].
Definition far_ns : list proto_node := [ ex_node 0 0 None; ex_node 1 1 None; ex_node 2 2 None; ex_node 3 3 None ].
Definition far_graph : graph := Eval vm_compute in unok empty_graph (build ex_hav (ex_cfg false) 1 1 far_es far_ns).
Lemma far_build : build ex_hav (ex_cfg false) 1 1 far_es far_ns = Ok far_graph.
Proof. vm_compute. reflexivity. Qed.
Theorem C60_found_ieee_refuted : exists hav c es ns g rc fuel s t st' st'' l q p,
  build hav c 1 1 es ns = Ok g /\ nonneg_metrics g /\
  (forall e ms x, edge_metrics g e = Ok ms -> In x ms -> exists r, x = Fin r /\ ieee (Fin r) = Fin r) /\
  rc_algo rc = ADijkstra /\ rc_alphas rc = [Fin 1] /\ picks_min 0 exact_pick /\ last_node_connected g /\
  connects g s l t /\ costs_as g (rc_alphas rc) l q /\
  rcompute_best_path (rfin rnd64) exact_pick fuel dijkstra_new g rc s t = Ok (st'', Some p) /\
  rcompute_best_path ieee exact_pick fuel dijkstra_new g rc s t = Ok (st', None).
Proof.
  exists ex_hav, (ex_cfg false), far_es, far_ns, far_graph, (ex_rc ADijkstra [Fin 1]), 50, 0, 3. do 2 eexists.
  exists [0; 1; 2]. do 2 eexists.
  split; [exact far_build|]. split; [apply nonneg_of_list; vm_compute; repeat constructor; discriminate|]. split.
  { intros e ms x Em Hx. apply idx_ok in Em. apply nth_error_In in Em.
    assert (F : forallb (forallb (fun x => match x with Fin r => match ieee (Fin r) with Fin r' => if Qeq_dec r' r then Z.eqb (Qnum r') (Qnum r) && Pos.eqb (Qden r') (Qden r) else false | _ => false end | _ => false end)) (metrics far_graph) = true)
      by (vm_compute; reflexivity).
    rewrite forallb_forall in F. specialize (F _ Em). rewrite forallb_forall in F. specialize (F _ Hx). cbv beta in F.
    destruct x as [r| | |]; try discriminate. exists r. split; [reflexivity|].
    destruct (ieee (Fin r)) as [r'| | |]; try discriminate. destruct (Qeq_dec r' r); [|discriminate].
    apply andb_true_iff in F. destruct F as [F1 F2]. apply Z.eqb_eq in F1. apply Pos.eqb_eq in F2.
    destruct r, r'. simpl in *. now subst. }
  split; [reflexivity|]. split; [reflexivity|]. split; [exact exact_picks|]. split.
  { apply last_connected_of; [exists 3, 3, 0|exists 2, 2, 3]; (split; [split; reflexivity|vm_compute; lia]). }
  split. { repeat (econstructor; [split; vm_compute; reflexivity|]). constructor. }
  split. { repeat (econstructor; [vm_compute; reflexivity|vm_compute; reflexivity|]); constructor. }
  split; vm_compute; reflexivity.
Qed.
Print Assumptions C60_found_ieee_refuted.
