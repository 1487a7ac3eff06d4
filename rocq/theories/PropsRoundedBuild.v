(** C67: graphs built in f64 *)
From Coq Require Import String List Bool Arith NArith ZArith QArith Qabs Lia Lqa.
From Verif Require Import Base F64 Lib ModelText ModelStreets ModelUnits ModelConfig ModelGraph ModelBuild ModelParsing
  ModelDijkstra ModelHeap ModelRounded ModelRoundedHeap ModelRoundedMetrics ModelRoundedBuild Spec SpecRouting SpecRouted SpecRounded SpecRoundedHeap SpecRoundedBuild SpecOsm
  Examples ProofNodes ProofProps PropsGraph ProofRouting ExamplesRouting ProofRounding64 ProofCompare64 ProofRoundedBuild ProofRoundedBuild2 ProofRoundedBuild3
  ProofOsm ProofOsmRide PropsOsm PropsRoundedHeap ProofRoundedOsm.
Import ListNotations.
Open Scope string_scope.
Open Scope list_scope.
Open Scope nat_scope.

(** *** The network *)

(** Whatever the arithmetic, the configuration and the generated metrics: nodes
    are the endpoints of edges, in order; there is an edge wherever one has been
    inserted; and the network is one that exact arithmetic builds from edges with
    some metrics, so the theorems about routing (C60, C63) apply. *)
Theorem C67_network ar uc hav c ch1 ch2 es ns g :
  1 <= ch1 -> 1 <= ch2 -> rbuild ar uc hav c ch1 ch2 es ns = Ok g ->
  (forall id, (exists i, node_id g i = Ok id) <-> is_endpoint es id) /\
  (forall i j x y, node_id g i = Ok x -> node_id g j = Ok y -> i < j -> (x < y)%Z) /\
  (forall a b, (exists pe, In pe es /\ pe_src pe = a /\ pe_dst pe = b) <->
     exists e s d, edge_from_to g e s d /\ node_id g s = Ok a /\ node_id g d = Ok b) /\
  (exists hav' c' es' g0, Forall2 same_road es es' /\ build hav' c' ch1 ch2 es' ns = Ok g0 /\ remeasured g0 g).
Proof.
  intros H1 H2 E. destruct (rbuild_sim ar uc hav hav c ch1 ch2 es ns g H1 H2 E) as (es' & g0 & F & E0 & Hr).
  destruct (C01_node_set _ _ _ _ _ _ _ H1 H2 E0) as (A & B & _).
  destruct (C05_edges_kept _ _ _ _ _ _ _ H1 H2 E0) as (rep & orig & C & D & _).
  assert (S1 : forall pe, In pe es -> exists pe', In pe' es' /\ same_road pe pe').
  { clear - F. induction F; intros pe []; [subst; eexists; split; [now left|auto]|]. destruct (IHF pe H0) as (p & P & Q). exists p. split; [now right|auto]. }
  assert (S2 : forall pe', In pe' es' -> exists pe, In pe es /\ same_road pe pe').
  { clear - F. induction F; intros pe []; [subst; eexists; split; [now left|auto]|]. destruct (IHF pe H0) as (p & P & Q). exists p. split; [now right|auto]. }
  destruct Hr as (ms & mn & Hl & c1 & ids & im & ->).
  split; [|split; [|split]].
  - intros id. specialize (A id). change (exists i, node_id (mkGraph c1 (node_ids g0) (node_coords g0) (node_levels g0) (fwd_dsts g0) (fwd_offsets g0) (fwd_to_fwd g0) (bwd_dsts g0) (bwd_offsets g0) (bwd_to_fwd g0) ms mn ids im (sc_offsets g0) (sc_edges_arr g0)) i = Ok id) with (exists i, node_id g0 i = Ok id).
    rewrite A. split.
    + intros (pe & Hpe & Hid). destruct (S2 pe Hpe) as (p & Hp & _ & R1 & R2 & _). exists p. split; auto. rewrite <- R1, <- R2. exact Hid.
    + intros (pe & Hpe & Hid). destruct (S1 pe Hpe) as (p & Hp & _ & R1 & R2 & _). exists p. split; auto. rewrite R1, R2. exact Hid.
  - exact B.
  - intros a b. split.
    + intros (pe0 & Hpe0 & Ha & Hb). destruct (S1 pe0 Hpe0) as (pe & Hpe & _ & R1 & R2 & _). rewrite <- R1 in Ha. rewrite <- R2 in Hb. subst a b.
      apply In_nth_error in Hpe. destruct Hpe as (p & Hp). destruct (D p pe Hp) as (Hlt & pe' & Hpe' & Hs).
      destruct (C _ Hlt) as (pe2 & E2 & _ & (s & d & Hft & Es & Ed) & _). exists (rep p), s, d. split; [exact Hft|].
      assert (K : pe_src pe' = pe_src pe /\ pe_dst pe' = pe_dst pe).
      { destruct Hs as [Ho|(T1 & T2 & _)]; [|auto]. rewrite Ho in Hpe'. assert (pe' = pe) by congruence. now subst. }
      assert (pe2 = pe') by congruence. subst pe2. destruct K as [<- <-]. auto.
    + intros (e & s & d & [F1 F2] & Es & Ed). assert (He : e < edge_count g0 FWD) by (apply idx_ok in F2; exact (nth_error_lt _ _ _ F2)).
      destruct (C e He) as (pe & Hpe & _ & (s' & d' & [G1 G2] & Es' & Ed') & _). apply nth_error_In in Hpe. destruct (S2 pe Hpe) as (p & Hp & _ & R1 & R2 & _).
      exists p. split; [exact Hp|]. cbn in F1, F2, Es, Ed.
      assert (s' = s) by (change (dst_idx g0 BWD e = Ok s) in F1; congruence). assert (d' = d) by (change (dst_idx g0 FWD e = Ok d) in F2; congruence). subst.
      change (node_id g0 s = Ok a) in Es. change (node_id g0 d = Ok b) in Ed. rewrite <- R1, <- R2. split; congruence.
  - exists hav, bare_cfg, es', g0. split; [exact F|]. split; [exact E0|]. exists ms, mn. split; [exact Hl|]. exists c1, ids, im. reflexivity.
Qed.
Print Assumptions C67_network.
Definition far64 : Q := Eval vm_compute in Qred (rnd64 (3 # 2000000) - Qpower (2 # 1) (- (72))).
Definition nameless (s d : Z) (m : Q) : proto_edge := {| pe_id := None; pe_src := s; pe_dst := d; pe_metrics := [Fin m]; pe_sc := None |}.
Definition blur_es : list proto_edge := [nameless 0 1 far64; nameless 0 1 (Qred (2 * far64)); nameless 1 0 0].
Definition blur_ns : list proto_node := [ex_node 0 0 None; ex_node 1 1 None].
Definition no_uc (u v : unit_info) (x : f64) : f64 := x.
Example C67_network_case : exists g, rbuild ieee no_uc ex_hav (ex_cfg true) 2 3 ex_es ex_ns = Ok g /\ node_count g = 3 /\ edge_count g FWD = 4.
Proof. eexists. split; [vm_compute; reflexivity|]. split; reflexivity. Qed.

(** *** Stored metrics *)
Lemma ieee_abs : rABS ieee = Fin (rnd64 ABSQ).
Proof. vm_compute. reflexivity. Qed.
Lemma clamp_raised x : raised64 (rnd64 ABSQ) x (rclamp ieee x).
Proof.
  unfold rclamp. destruct (rapprox_eq ieee x f0) eqn:E.
  - destruct x as [a| | |]; [|vm_compute in E; discriminate..]. right. exists a. split; [reflexivity|].
    split; [|apply ieee_abs]. destruct (rapprox_eq_64 ieee a 0 of64_ieee) as [_ H]. apply Qnot_le_lt. intros L. unfold f0 in E.
    rewrite H in E; [discriminate|]. assert (K : (a - 0 == a)%Q) by ring. now rewrite K.
  - left. split; [reflexivity|]. intros a ->. destruct (rapprox_eq_64 ieee a 0 of64_ieee) as [H _]. apply Qnot_le_lt. intros L. unfold f0 in E.
    rewrite H in E; [discriminate|]. assert (K : (a - 0 == a)%Q) by ring. now rewrite K.
Qed.
Lemma rsame_close p q : rsame_edge ieee p q -> same_edge64 p q.
Proof.
  intros (A & B & C & D). split; [exact A|]. split; [exact B|]. split; [exact C|]. revert D. generalize (pe_metrics p) (pe_metrics q).
  induction l as [|x l IH]; intros [|y m] D i a b Ha Hb; try (destruct i; discriminate). cbn [rapprox_eq_vec] in D. apply andb_prop in D. destruct D as [D1 D2].
  destruct i as [|i]; cbn in Ha, Hb; [|eapply IH; eauto]. injection Ha as ->. injection Hb as ->.
  destruct (rapprox_eq_64 ieee a b of64_ieee) as [_ H]. apply Qnot_le_lt. intros L. rewrite H in D1; auto. discriminate.
Qed.

(** The edges are inserted ones, with their metrics, those around zero being
    raised to 1e-6; and an inserted edge is only missing if there is another one
    between the same nodes whose metrics differ by 1.5e-6 at most. *)
Theorem C67_edges uc hav c ch1 ch2 es ns g :
  1 <= ch1 -> 1 <= ch2 -> plain_metrics c -> rbuild ieee uc hav c ch1 ch2 es ns = Ok g ->
  (forall e, e < edge_count g FWD -> exists pe ms, In pe es /\ same_ends g e pe /\ edge_metrics g e = Ok ms /\ Forall2 (raised64 (rnd64 ABSQ)) (pe_metrics pe) ms /\
     forall a, In (Fin a) ms -> (rnd64 ABSQ <= a)%Q) /\
  (forall pe, In pe es -> exists e pe' ms, e < edge_count g FWD /\ In pe' es /\ (pe' = pe \/ same_edge64 pe' pe) /\ same_ends g e pe' /\
     edge_metrics g e = Ok ms /\ Forall2 (raised64 (rnd64 ABSQ)) (pe_metrics pe') ms).
Proof.
  intros H1 H2 (P1 & P2 & P3) E. destruct (rbuild_split _ _ _ _ _ _ _ _ _ H1 H2 E) as (b & gc & g1 & c' & _ & Hb & Ec & En & Eg & Er & _).
  rewrite P1 in En. cbn in En. injection En as <-. rewrite P2 in Eg. cbn in Eg. injection Eg as <-.
  unfold rnormalize in Er. cbn [with_cfg g_cfg] in Er. rewrite P3 in Er. injection Er as <-.
  destruct (rcore_traced ieee es b c ch1 ch2 gc H1 H2 Hb Ec) as [A B]. destruct (rcore_size ieee es b c ch1 ch2 gc H1 H2 Hb Ec) as (_ & Hs & _).
  assert (R : forall ms, Forall2 (raised64 (rnd64 ABSQ)) ms (map (rclamp ieee) ms)).
  { generalize (rnd64 ABSQ) clamp_raised. intros least K ms. induction ms as [|m ms IH]; cbn [map]; constructor; [apply K|exact IH]. }
  split.
  - intros e He. destruct (A e He) as (pe & Hpe & Hse & _ & Hm). exists pe, (map (rclamp ieee) (pe_metrics pe)). split; [exact Hpe|].
    split; [exact Hse|]. split; [exact Hm|]. split; [apply R|]. intros a Ha. unfold edge_metrics in Hm. apply idx_ok in Hm. apply nth_error_In in Hm.
    unfold rmetrics_too_small in Hs. apply Qnot_lt_le. intros L.
    assert (T : existsb (existsb (fun x => fltb x (rABS ieee))) (metrics gc) = true).
    { apply existsb_exists. eexists. split; [exact Hm|]. apply existsb_exists. exists (Fin a). split; [exact Ha|]. rewrite ieee_abs. revert L. generalize (rnd64 ABSQ). intros w L. unfold fltb, fcmp. apply Qlt_alt in L. unfold Qcompare in *. now rewrite L. }
    congruence.
  - intros pe Hpe. destruct (B pe Hpe) as (e & pe' & He & Hpe' & Hor & Hse & _ & Hm). exists e, pe', (map (rclamp ieee) (pe_metrics pe')).
    split; [exact He|]. split; [exact Hpe'|]. split; [destruct Hor; [now left|right; now apply rsame_close]|]. split; [exact Hse|]. split; [exact Hm|]. apply R.
Qed.
Print Assumptions C67_edges.
Example C67_edges_case : plain_metrics (ex_cfg false) /\
  exists g, rbuild ieee no_uc ex_hav (ex_cfg false) 1 1 blur_es blur_ns = Ok g /\ metrics g = [[Fin far64]; [Fin (Qred (2 * far64))]; [Fin (rnd64 ABSQ)]].
Proof. split; [repeat split|]. eexists. split; [vm_compute; reflexivity|]. vm_compute. reflexivity. Qed.

(** If metrics are away from zero and differ clearly or hardly, the graph is the
    one exact arithmetic builds (and errors and panics are the same). *)
Theorem C67_same uc hav c ch1 ch2 es ns : 1 <= ch1 -> 1 <= ch2 -> clear_cut es -> plain_metrics c ->
  rbuild ieee uc hav c ch1 ch2 es ns = build hav c ch1 ch2 es ns.
Proof. apply rbuild_plain. exact of64_ieee. Qed.
Print Assumptions C67_same.
Example C67_same_case : clear_cut rt_es /\ plain_metrics (ex_cfg false) /\ rbuild ieee no_uc ex_hav (ex_cfg false) 2 3 rt_es rt_ns = Ok rt_graph.
Proof.
  assert (C : clear_cut rt_es).
  { assert (W : forall e i x, In e rt_es -> nth_error (pe_metrics e) i = Some x -> exists z, x = Fin (inject_Z z) /\ (1 <= z)%Z).
    { intros e i x He Hx. destruct i as [|i]; [|repeat (destruct He as [<-|He]; [destruct i; discriminate|]); destruct He].
      repeat (destruct He as [<-|He]; [cbn in Hx; injection Hx as <-; eexists; split; [unfold inject_Z; reflexivity|lia]|]). destruct He. }
    split.
    - intros e x He Hx. apply In_nth_error in Hx. destruct Hx as (i & Hi). destruct (W e i x He Hi) as (z & -> & Hz). eexists. split; [reflexivity|]. now apply int_big.
    - intros e e' i a b He He' Ha Hb. destruct (W e i _ He Ha) as (z & Ez & _). destruct (W e' i _ He' Hb) as (z' & Ez' & _). injection Ez as ->. injection Ez' as ->. apply int_told. }
  split; [exact C|]. split; [repeat split|]. rewrite C67_same; [exact rt_build|lia|lia|exact C|repeat split].
Qed.

(** In between, f64 keeps edges that exact arithmetic takes for duplicates: these
    metrics differ by less than 1.5e-6. *)
Theorem C67_same_refuted : exists hav uc c es ns g g',
  plain_metrics c /\ (forall e x, In e es -> In x (pe_metrics e) -> exists a, x = Fin a /\ representable a) /\
  rbuild ieee uc hav c 1 1 es ns = Ok g /\ build hav c 1 1 es ns = Ok g' /\ edge_count g FWD <> edge_count g' FWD.
Proof.
  exists ex_hav, no_uc, (ex_cfg false), blur_es, blur_ns. eexists. eexists. split; [repeat split|]. split.
  - intros e x [<-|[<-|[<-|[]]]] [<-|[]]; eexists; (split; [reflexivity|]).
    + exists 7083549724304467%Z, (- (72))%Z. split; [lia|]. split; [lia|]. apply Qeq_bool_iff. vm_compute. reflexivity.
    + exists 7083549724304467%Z, (- (71))%Z. split; [lia|]. split; [lia|]. apply Qeq_bool_iff. vm_compute. reflexivity.
    + exists 0%Z, 0%Z. split; [lia|]. split; [lia|]. apply Qeq_bool_iff. vm_compute. reflexivity.
  - split; [vm_compute; reflexivity|]. split; [vm_compute; reflexivity|]. vm_compute. discriminate.
Qed.
Print Assumptions C67_same_refuted.

(** *** OpenStreetMap data *)

(** With the configuration of the maps shipped, the graph is the one of C66 with
    durations rounded. *)
Theorem C67_osm uc hav dim vc ch1 ch2 objs : 1 <= ch1 -> 1 <= ch2 ->
  rpbf_graph ieee uc hav dim (osm_cfg vc) ch1 ch2 objs =
  match pbf_graph hav dim (osm_cfg vc) ch1 ch2 objs with
  | Ok g => Ok (with_metrics g (map (round_last ieee) (metrics g)))
  | r => r
  end.
Proof.
  intros H1 H2. rewrite (osm_rounded ieee uc hav dim vc ch1 ch2 objs of64_ieee H1 H2). now destruct (pbf_graph hav dim (osm_cfg vc) ch1 ch2 objs).
Qed.
Print Assumptions C67_osm.
Definition town64_graph : graph := Eval vm_compute in unok empty_graph (rpbf_graph ieee no_uc town_hav 4 (osm_cfg car) 1 2 town).
Lemma town64_read : rpbf_graph ieee no_uc town_hav 4 (osm_cfg car) 1 2 town = Ok town64_graph.
Proof. vm_compute. reflexivity. Qed.
Example C67_osm_case : edge_metrics town64_graph 0 = Ok [fz 130; fz 3; Fin 20; Fin (rnd64 (20 # 130))] /\ Qeq_bool (rnd64 (20 # 130)) (20 # 130) = false.
Proof. split; vm_compute; reflexivity. Qed.

Lemma osm64_graph uc hav dim vc ch1 ch2 objs g' : 1 <= ch1 -> 1 <= ch2 -> rpbf_graph ieee uc hav dim (osm_cfg vc) ch1 ch2 objs = Ok g' ->
  exists g, pbf_graph hav dim (osm_cfg vc) ch1 ch2 objs = Ok g /\ g' = with_metrics g (map (round_last ieee) (metrics g)).
Proof.
  intros H1 H2 E. rewrite C67_osm in E by auto. destruct (pbf_graph hav dim (osm_cfg vc) ch1 ch2 objs) as [g| | |]; try discriminate. injection E as <-. eauto.
Qed.

Lemma heap_error64_least m k : (2 * accuracy64 <= heap_error64 m k)%Q.
Proof.
  unfold heap_error64. apply Qmult_le_compat_r; [|vm_compute; discriminate]. change 2%Q with (inject_Z 2). rewrite <- Zle_Qle. lia.
Qed.

(** the numbers of the bound below *)
Lemma bound64 P P' qp q H : (0 <= P')%Q -> (2 * accuracy64 <= H)%Q ->
  ((1 - u64) * P - (1 # 1000000000) <= qp)%Q -> (q <= (1 + u64) * P' + (1 # 1000000000))%Q ->
  (qp <= (1 + Qpower (2 # 1) (- (30))) * q + 3 * H + Qpower (2 # 1) (- (1000)))%Q ->
  (P <= (1 + Qpower (2 # 1) (- (29))) * P' + 4 * H)%Q.
Proof.
  intros P0 H0 A B C.
  assert (N1 : ((1 + Qpower (2 # 1) (- (30))) * (1 + u64) <= (1 - u64) * (1 + Qpower (2 # 1) (- (29))))%Q) by (vm_compute; discriminate).
  assert (N2 : (2 * ((1 + Qpower (2 # 1) (- (30))) * (1 # 1000000000)) + Qpower (2 # 1) (- (1000)) <= accuracy64)%Q) by (vm_compute; discriminate).
  assert (N3 : (1 # 2 <= 1 - u64)%Q) by (vm_compute; discriminate).
  assert (N4 : (0 <= 1 + Qpower (2 # 1) (- (30)))%Q) by (vm_compute; discriminate).
  assert (N5 : ((1 # 1000000000) <= (1 + Qpower (2 # 1) (- (30))) * (1 # 1000000000))%Q) by (vm_compute; discriminate).
  assert (N6 : (4 * u64 <= 1 # 2)%Q) by (vm_compute; discriminate).
  assert (N7 : (0 <= accuracy64)%Q) by (vm_compute; discriminate).
  set (s := (1 + Qpower (2 # 1) (- (30)))%Q) in *. set (w := (1 + Qpower (2 # 1) (- (29)))%Q) in *. set (z := Qpower (2 # 1) (- (1000))) in *.
  set (u := u64) in *. set (a := accuracy64) in *. set (d := (1 # 1000000000)%Q) in *. clearbody s w z u a d.
  assert (M1 : (s * q <= s * ((1 + u) * P' + d))%Q) by (rewrite !(Qmult_comm s); now apply Qmult_le_compat_r).
  assert (M2 : (s * (1 + u) * P' <= (1 - u) * w * P')%Q) by (now apply Qmult_le_compat_r).
  assert (M3 : (4 * u * H <= (1 # 2) * H)%Q) by (apply Qmult_le_compat_r; auto; lra).
  assert (M4 : ((1 - u) * P <= (1 - u) * (w * P' + 4 * H))%Q).
  { assert (E1 : ((1 - u) * (w * P' + 4 * H) == (1 - u) * w * P' + 4 * H - 4 * u * H)%Q) by ring.
    assert (E2 : (s * ((1 + u) * P' + d) == s * (1 + u) * P' + s * d)%Q) by ring. rewrite E1. rewrite E2 in M1.
    set (t1 := (s * q)%Q) in *. set (t2 := (s * (1 + u) * P')%Q) in *. set (t3 := ((1 - u) * w * P')%Q) in *. set (t4 := (4 * u * H)%Q) in *. set (t5 := (s * d)%Q) in *.
    set (t6 := ((1 - u) * P)%Q) in *. lra. }
  rewrite !(Qmult_comm (1 - u)) in M4. apply Qmult_lt_0_le_reg_r in M4; [exact M4|]. lra.
Qed.

(** What Dijkstra's algorithm answers in f64 on the graph built in f64 is a ride
    of the data, and nearly the best one.  Without an answer there is no ride. *)
Theorem C67_route uc hav dim vc ch1 ch2 objs g fuel st rc s t st' r a b x y :
  1 <= ch1 -> 1 <= ch2 -> earthly_distance hav -> rpbf_graph ieee uc hav dim (osm_cfg vc) ch1 ch2 objs = Ok g ->
  (Z.of_nat (2 * node_count g + 6) <= 2 ^ 20)%Z ->
  rhistory_h st -> roomy st g -> node_id g s = Ok a -> node_id g t = Ok b ->
  rc_algo rc = ADijkstra -> rc_alphas rc = [Fin 0; Fin 0; Fin x; Fin y] ->
  (0 <= x)%Q -> (0 <= y)%Q -> (x <= inject_Z (2 ^ 900))%Q -> (y <= inject_Z (2 ^ 900))%Q ->
  rcompute_best_path_h ieee fuel st g rc s t = Ok (st', r) ->
  match r with
  | None => forall l km h, ~ ride hav vc objs a l b km h
  | Some p => exists l km h, over g (p_edges p) l /\ ride hav vc objs a l b km h /\
      forall l' km' h', ride hav vc objs a l' b km' h' -> (Z.of_nat (length l + 6) <= 2 ^ 20)%Z -> (Z.of_nat (length l' + 6) <= 2 ^ 20)%Z ->
        (x * km + y * h <= (1 + Qpower (2 # 1) (- (29))) * (x * km' + y * h') + 4 * heap_error64 (edge_count g FWD) fuel)%Q
  end.
Proof.
  intros H1 H2 He E64 Hn Hh Hro Ha Hb Hal Hrc Hx Hy Ux Uy E. destruct (osm64_graph _ _ _ _ _ _ _ _ H1 H2 E64) as (g0 & HG & Eg). subst g.
  pose proof (osm_built _ _ _ _ _ _ _ HG) as Eb. pose proof (remetric_remeasured g0 (round_last ieee)) as Hre.
  set (g := with_metrics g0 (map (round_last ieee) (metrics g0))) in *.
  pose proof (osm_nonneg64 _ _ _ _ _ _ _ H1 H2 HG He) as Hnn. fold g in Hnn.
  destruct (C01_node_set _ _ _ _ _ _ _ H1 H2 Eb) as (_ & _ & Hlt).
  assert (Hs : s < node_count g) by (apply (Hlt s); eauto). assert (Ht : t < node_count g) by (apply (Hlt t); eauto).
  assert (Hpos : Forall not_negative (rc_alphas rc)).
  { rewrite Hrc. repeat constructor; cbn; try assumption; apply Qle_refl. }
  assert (Hf : fits64 g (rc_alphas rc)).
  { rewrite Hrc. exact (osm_fits64 _ _ _ _ _ _ _ H1 H2 HG He x y Hx Hy Ux Uy Hn). }
  assert (Len : forall es l, over g es l -> length l = length es).
  { intros es l H. induction H; cbn; congruence. }
  destruct r as [p|].
  - destruct (C63_real_path _ _ _ _ _ _ _ _ _ _ _ _ _ _ _ H1 H2 Eb Hre Hnn Hh Hro Hs Ht Hf E) as (_ & _ & _ & _ & _ & Hc & _).
    destruct (path_ride64 _ _ _ _ _ _ _ H1 H2 HG He x y Hx Hy _ _ _ Hc a Ha b Hb) as (l & km & h & q & Ho & Hr & Hq & Ab).
    exists l, km, h. split; [exact Ho|]. split; [exact Hr|]. intros l' km' h' Hr' L1 L2.
    assert (Hma : manageable (length (rc_alphas rc)) (p_edges p)).
    { unfold manageable. rewrite Hrc. cbn [length]. rewrite <- (Len _ _ Ho). lia. }
    destruct (C63_cheapest _ _ _ _ _ _ _ _ _ _ _ _ _ _ _ H1 H2 Eb Hre Hnn Hh Hro Hs Ht Hf E Hma) as (qp & Hqp & Hbest).
    rewrite Hrc in Hqp. assert (qp = q) as -> by exact (costs_unique _ _ _ _ Hqp _ Hq).
    destruct (ride_path64 _ _ _ _ _ _ _ H1 H2 HG He x y Hx Hy _ _ _ _ _ Hr' s Ha) as (es & t' & q' & Hc' & Ht' & Ho' & Hq' & Ab').
    assert (t' = t) by (eapply osm_one_index; [exact H1|exact H2|exact HG|exact Ht'|exact Hb]). subst t'.
    pose proof (Len _ _ Ho) as Le. pose proof (Len _ _ Ho') as Le'.
    destruct (about_small y (p_edges p) q (x * km + y * h)%Q Hy Uy) as [A1 _]; [lia|exact Ab|].
    destruct (about_small y es q' (x * km' + y * h')%Q Hy Uy) as [_ A2]; [lia|exact Ab'|].
    destruct (ride_nonneg64 _ _ _ _ _ _ _ _ He Hr') as [K1 K2].
    eapply bound64; [|apply heap_error64_least|exact A1|exact A2|].
    + pose proof (Qmult_le_0_compat _ _ Hx K1). pose proof (Qmult_le_0_compat _ _ Hy K2). lra.
    + apply Hbest with es; [exact Hc'|rewrite Hrc; exact Hq'| |now left]. unfold manageable. rewrite Hrc. cbn [length]. lia.
  - intros l km h Hr. destruct (ride_path64 _ _ _ _ _ _ _ H1 H2 HG He x y Hx Hy _ _ _ _ _ Hr s Ha) as (es & t' & q' & Hc' & Ht' & _ & Hq' & _).
    assert (t' = t) by (eapply osm_one_index; [exact H1|exact H2|exact HG|exact Ht'|exact Hb]). subst t'.
    destruct (C63_found_iff _ _ _ _ _ _ _ _ _ _ _ _ _ _ _ H1 H2 Eb Hre Hnn Hh Hro Hs Ht Hf Hpos E) as [N _].
    apply (proj1 (N Hal) eq_refl). exists es, q'. split; [exact Hc'|]. rewrite Hrc. exact Hq'.
Qed.
Print Assumptions C67_route.
(** places at most a degree or so apart *)
Definition small_hav (a b : coord) : f64 :=
  match town_hav a b with Fin q => if Qle_bool q (inject_Z (2 ^ 20)) then Fin q else Fin (inject_Z (2 ^ 20)) | x => x end.
Lemma small_earthly : earthly_distance small_hav.
Proof.
  intros a b. unfold small_hav. destruct (town_proper a b) as (q & -> & Hq). destruct (Qle_bool q (inject_Z (2 ^ 20))) eqn:E.
  - exists q. split; [reflexivity|]. split; [exact Hq|now apply Qle_bool_iff].
  - exists (inject_Z (2 ^ 20)). split; [reflexivity|]. split; [vm_compute; discriminate|apply Qle_refl].
Qed.
Example C67_route_case :
  rpbf_graph ieee no_uc small_hav 4 (osm_cfg car) 1 2 town = Ok town64_graph /\ (Z.of_nat (2 * node_count town64_graph + 6) <= 2 ^ 20)%Z /\
  (exists st p, rcompute_best_path_h ieee 99 dijkstra_new town64_graph (prefer 1 0) 1 3 = Ok (st, Some p) /\ over town64_graph (p_edges p) [3]%Z) /\
  (exists st p, rcompute_best_path_h ieee 99 dijkstra_new town64_graph (prefer 0 1) 1 3 = Ok (st, Some p) /\ over town64_graph (p_edges p) [2; 3]%Z) /\
  (exists st, rcompute_best_path_h ieee 99 dijkstra_new town64_graph (prefer 0 1) 0 3 = Ok (st, None)) /\
  rhistory_h dijkstra_new /\ roomy dijkstra_new town64_graph.
Proof.
  split; [vm_compute; reflexivity|]. split; [vm_compute; discriminate|]. split; [|split; [|split; [|split]]].
  - eexists. eexists. split; [vm_compute; reflexivity|]. repeat constructor; eexists; split; vm_compute; reflexivity.
  - eexists. eexists. split; [vm_compute; reflexivity|]. repeat constructor; eexists; split; vm_compute; reflexivity.
  - eexists. vm_compute. reflexivity.
  - constructor.
  - intros H. discriminate.
Qed.

(** There is an answer if the node with the greatest id can be left and reached. *)
Theorem C67_answered uc hav dim vc ch1 ch2 objs g fuel st rc s t a b x y :
  1 <= ch1 -> 1 <= ch2 -> earthly_distance hav -> rpbf_graph ieee uc hav dim (osm_cfg vc) ch1 ch2 objs = Ok g ->
  (Z.of_nat (2 * node_count g + 6) <= 2 ^ 20)%Z ->
  rhistory_h st -> roomy st g -> (node_count g <> 2 -> capacity st <= node_count g) ->
  node_id g s = Ok a -> node_id g t = Ok b ->
  (exists z a' b' v n v' n', leg vc objs z b' v n /\ leg vc objs a' z v' n' /\
     forall p q v n, leg vc objs p q v n -> (p <= z)%Z /\ (q <= z)%Z) ->
  rc_algo rc = ADijkstra -> rc_alphas rc = [Fin 0; Fin 0; Fin x; Fin y] ->
  (0 <= x)%Q -> (0 <= y)%Q -> (x <= inject_Z (2 ^ 900))%Q -> (y <= inject_Z (2 ^ 900))%Q ->
  2 + 2 * powers (edge_count g FWD) (node_count g) <= fuel ->
  exists st' r, rcompute_best_path_h ieee fuel st g rc s t = Ok (st', r) /\
    (r = None <-> forall l km h, ~ ride hav vc objs a l b km h).
Proof.
  intros H1 H2 He E64 Hn Hh Hro Hcap Ha Hb (z & a' & b' & v & n & v' & n' & Hout & Hin & Hmax) Hal Hrc Hx Hy Ux Uy Hfu.
  pose proof E64 as E64'. destruct (osm64_graph _ _ _ _ _ _ _ _ H1 H2 E64) as (g0 & HG & Eg). subst g.
  pose proof (osm_built _ _ _ _ _ _ _ HG) as Eb. pose proof (remetric_remeasured g0 (round_last ieee)) as Hre.
  set (g := with_metrics g0 (map (round_last ieee) (metrics g0))) in *.
  pose proof (osm_nonneg64 _ _ _ _ _ _ _ H1 H2 HG He) as Hnn. fold g in Hnn.
  destruct (C01_node_set _ _ _ _ _ _ _ H1 H2 Eb) as (_ & Hsort & Hlt).
  destruct (C66_graph _ _ _ _ _ _ _ H1 H2 HG) as (Hed & Hno & _). cbn [osm_cfg pc_vehicles] in Hed, Hno.
  assert (Hs : s < node_count g) by (apply (Hlt s); eauto). assert (Ht : t < node_count g) by (apply (Hlt t); eauto).
  assert (Hpos : Forall not_negative (rc_alphas rc)).
  { rewrite Hrc. repeat constructor; cbn; try assumption; apply Qle_refl. }
  assert (Hf : fits64 g (rc_alphas rc)).
  { rewrite Hrc. exact (osm_fits64 _ _ _ _ _ _ _ H1 H2 HG He x y Hx Hy Ux Uy Hn). }
  assert (Hz : forall i j, i < node_count g -> node_id g j = Ok z -> i <= j).
  { intros i j Hi Hj. apply (Hlt i) in Hi. destruct Hi as (w & Hw). destruct (le_lt_dec i j) as [|Hji]; auto. exfalso.
    pose proof (Hsort _ _ _ _ Hj Hw Hji). destruct (proj1 (Hno w) (ex_intro _ i Hw)) as (u & v0 & n0 & [Hl|Hl]); apply Hmax in Hl; lia. }
  assert (Hlast : last_node_connected g).
  { intros i Hi. destruct (proj1 (Hed z b') (ex_intro _ v (ex_intro _ n Hout))) as (e & u & d & Hft & Eu & _).
    destruct (proj1 (Hed a' z) (ex_intro _ v' (ex_intro _ n' Hin))) as (e' & u' & d' & Hft' & _ & Ed').
    split; [exists e, u, d|exists e', u', d']; split; auto. }
  destruct (C63_total _ _ _ _ _ _ _ _ fuel st rc s t H1 H2 Eb Hre Hnn Hlast Hh Hro Hcap Hs Ht Hf Hpos) as (st' & r & E); auto.
  { intros i. rewrite Hal. discriminate. }
  exists st', r. split; [exact E|].
  pose proof (C67_route uc hav dim vc ch1 ch2 objs g fuel st rc s t st' r a b x y H1 H2 He E64' Hn Hh Hro Ha Hb Hal Hrc Hx Hy Ux Uy E) as R.
  destruct r as [p|]; [|now split]. split; [discriminate|]. intros N. destruct R as (l & km & h & _ & Hr & _). destruct (N _ _ _ Hr).
Qed.
Print Assumptions C67_answered.
Example C67_answered_case : exists z a' b' v n v' n', leg car town z b' v n /\ leg car town a' z v' n' /\
  (forall p q v n, leg car town p q v n -> (p <= z)%Z /\ (q <= z)%Z) /\ node_id town64_graph 3 = Ok z.
Proof. exact C66_answered_case. Qed.
