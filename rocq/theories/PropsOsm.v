(** C66: routes on OpenStreetMap data *)
From Coq Require Import String List Bool Arith NArith ZArith QArith Lia Lqa.
From Verif Require Import Base F64 Lib ModelText ModelStreets ModelUnits ModelConfig ModelGraph ModelBuild ModelParsing ModelYaml ModelDocs ModelProgram
  ModelDijkstra ModelHeap Spec SpecStreets SpecRouting SpecHeap SpecDocs Examples ExamplesDocs ProofNodes ProofProps PropsGraph PropsStreets PropsHeap
  SpecOsm ProofOsm ProofOsmBuild ProofOsmRide.
Import ListNotations.
Open Scope string_scope.
Open Scope list_scope.
Open Scope nat_scope.

(** *** A map: a motorway from 1 over 2 to 3, a street between 1 and 3, a street
    leading away from 3, and things without importance *)
Definition town : list osm_obj :=
  [ OsmNode 3 0 0; OsmNode 1 480000000 90000000; OsmNode 2 481000000 91000000; OsmNode 3 480000000 92000000; OsmRelation;
    OsmNode 0 480000000 93000000; OsmNode 99 0 0;
    OsmWay [1; 2; 3]%Z [(T "highway", T "motorway"); (T "oneway", T "yes")];
    OsmWay [1; 3]%Z [(T "highway", T "residential"); (T "maxspeed", T "50")];
    OsmWay [0; 3]%Z [(T "highway", T "residential"); (T "oneway", T "-1")];
    OsmWay [0; 1]%Z [(T "highway", T "footway")] ].
(** 100 km per degree, along the axes *)
Definition town_hav (a b : coord) : f64 :=
  match lat a, lon a, lat b, lon b with
  | Fin p, Fin q, Fin p', Fin q' => Fin (Qred (100 * (Qabs.Qabs (p - p') + Qabs.Qabs (q - q'))))
  | _, _, _, _ => Fin 0
  end.
Definition car : vehicle_cfg := mkVehicle Car false.
Definition town_graph : graph := Eval vm_compute in unok empty_graph (pbf_graph town_hav 4 (osm_cfg car) 1 2 town).
Lemma town_read : pbf_graph town_hav 4 (osm_cfg car) 1 2 town = Ok town_graph.
Proof. vm_compute. reflexivity. Qed.
Lemma town_proper : proper_distance town_hav.
Proof.
  intros [la lo] [la' lo']. unfold town_hav. cbn [lat lon].
  destruct la, lo, la', lo'; try (eexists; split; [reflexivity|apply Qle_refl]).
  eexists. split; [reflexivity|]. rewrite Qred_correct.
  pose proof (Qabs.Qabs_nonneg (q - q1)). pose proof (Qabs.Qabs_nonneg (q0 - q2)). lra.
Qed.

(** *** The graph *)

(** Nodes are the ones one may drive from or to; there is an edge wherever one
    may drive; whatever the configuration says about metrics. *)
Theorem C66_graph hav dim pc ch1 ch2 objs g :
  1 <= ch1 -> 1 <= ch2 -> pbf_graph hav dim pc ch1 ch2 objs = Ok g ->
  (forall a b, (exists v n, leg (pc_vehicles pc) objs a b v n) <->
     exists e s d, edge_from_to g e s d /\ node_id g s = Ok a /\ node_id g d = Ok b) /\
  (forall a, (exists i, node_id g i = Ok a) <-> exists b v n, leg (pc_vehicles pc) objs a b v n \/ leg (pc_vehicles pc) objs b a v n) /\
  (forall i a, node_id g i = Ok a -> exists x, node_coord g i = Ok x /\ located objs a x).
Proof.
  intros H1 H2 E. unfold pbf_graph in E. apply bind_ok in E. destruct E as ([] & _ & E).
  set (es := pbf_edges pc objs) in *.
  assert (L : forall a b, (exists v n, leg (pc_vehicles pc) objs a b v n) <-> exists pe, In pe es /\ pe_src pe = a /\ pe_dst pe = b).
  { intros a b. split.
    - intros (v & n & nodes & ts & c & Hw & Hp & _). eexists. split; [apply pbf_edges_in; exists nodes, ts, c, a, b; eauto|]. split; reflexivity.
    - intros (pe & Hpe & <- & <-). apply pbf_edges_in in Hpe. destruct Hpe as (nodes & ts & c & a & b & Hw & Hp & ->).
      exists (parse_maxspeed c ts), (parse_lane_count c ts), nodes, ts, c. auto. }
  destruct (C01_node_set _ _ _ _ _ _ _ H1 H2 E) as (Hin & _ & _).
  destruct (C05_edges_kept _ _ _ _ _ _ _ H1 H2 E) as (rep & orig & A & B & _).
  split; [|split].
  - intros a b. rewrite L. split.
    + intros (pe & Hpe & <- & <-). apply In_nth_error in Hpe. destruct Hpe as (p & Hp). destruct (B p pe Hp) as (Hlt & pe' & Hpe' & Hs).
      destruct (A _ Hlt) as (pe2 & E2 & _ & (s & d & Hft & Es & Ed) & _). exists (rep p), s, d. split; [exact Hft|].
      assert (K : pe_src pe' = pe_src pe /\ pe_dst pe' = pe_dst pe).
      { destruct Hs as [Ho|(S1 & S2 & _)]; [|auto]. rewrite Ho in Hpe'. assert (pe' = pe) by congruence. now subst. }
      assert (pe2 = pe') by congruence. subst pe2. destruct K as [<- <-]. auto.
    + intros (e & s & d & [F1 F2] & Es & Ed). assert (He : e < edge_count g FWD) by (apply idx_ok in F2; exact (nth_error_lt _ _ _ F2)).
      destruct (A e He) as (pe & Hpe & _ & (s' & d' & [G1 G2] & Es' & Ed') & _). exists pe. split; [eapply nth_error_In; eauto|].
      assert (s' = s) by congruence. assert (d' = d) by congruence. subst. split; congruence.
  - intros a. rewrite Hin. unfold is_endpoint. split.
    + intros (pe & Hpe & [Ha|Ha]).
      * destruct (proj2 (L a (pe_dst pe)) (ex_intro _ pe (conj Hpe (conj (eq_sym Ha) eq_refl)))) as (v & n & Hl). exists (pe_dst pe), v, n. now left.
      * destruct (proj2 (L (pe_src pe) a) (ex_intro _ pe (conj Hpe (conj eq_refl (eq_sym Ha))))) as (v & n & Hl). exists (pe_src pe), v, n. now right.
    + intros (b & v & n & [Hl|Hl]).
      * destruct (proj1 (L a b) (ex_intro _ v (ex_intro _ n Hl))) as (pe & Hpe & <- & <-). eauto.
      * destruct (proj1 (L b a) (ex_intro _ v (ex_intro _ n Hl))) as (pe & Hpe & <- & <-). eauto.
  - intros i a Hi. destruct (build_nodes _ _ _ _ _ _ _ H1 H2 E) as (_ & _ & _ & _ & Hn). apply idx_ok in Hi.
    destruct (Hn i a Hi) as [(n & Hl & <- & Hc) _]. exists (pn_coord n). split; [exact Hc|now apply located_last].
Qed.
Print Assumptions C66_graph.
Example C66_graph_case :
  pbf_graph town_hav 4 (osm_cfg car) 1 2 town = Ok town_graph /\
  map (node_id town_graph) [0; 1; 2; 3; 4] = [Ok 0; Ok 1; Ok 2; Ok 3; Panic]%Z /\ edge_count town_graph FWD = 5 /\
  leg car town 3 0 50 1 /\ ~ exists v n, leg car town 0 3 v n.
Proof.
  split; [exact town_read|]. split; [reflexivity|]. split; [reflexivity|]. split.
  - exists [0; 3]%Z, [(T "highway", T "residential"); (T "oneway", T "-1")], Residential. split; [vm_compute; tauto|].
    split; [|split; vm_compute; reflexivity]. split; [vm_compute; reflexivity|]. split; [reflexivity|].
    exists [], []. right. split; [reflexivity|]. intros _. vm_compute. reflexivity.
  - intros H. apply (C66_graph town_hav 4 (osm_cfg car) 1 2 town town_graph (le_n 1) (le_S _ _ (le_n 1)) town_read) in H.
    destruct H as (e & s & d & [F1 F2] & Es & Ed).
    assert (Hs : s = 0). { destruct s as [|[|[|[|s]]]]; cbn in Es; try discriminate; auto. unfold node_id in Es. apply idx_ok in Es. destruct s; discriminate. }
    subst s. do 5 (destruct e as [|e]; [vm_compute in F1; discriminate|]). apply idx_ok in F1. vm_compute in F1. destruct e; discriminate.
Qed.

(** With the configuration of the maps shipped, every leg becomes an edge which
    tells the speed limit, the number of lanes, the distance and the duration;
    and every edge is such a leg. *)
Theorem C66_measured hav dim vc ch1 ch2 objs g :
  1 <= ch1 -> 1 <= ch2 -> pbf_graph hav dim (osm_cfg vc) ch1 ch2 objs = Ok g ->
  (forall e, e < edge_count g FWD -> exists a b v n, leg vc objs a b v n /\ exists s d xa xb,
     edge_from_to g e s d /\ node_id g s = Ok a /\ node_id g d = Ok b /\ located objs a xa /\ located objs b xb /\
     edge_metrics g e = Ok [fz (Z.of_N v); fz (Z.of_nat n); hav xa xb; fdiv (hav xa xb) (fz (Z.of_N v))]) /\
  (forall a b v n, leg vc objs a b v n -> exists e s d xa xb,
     edge_from_to g e s d /\ node_id g s = Ok a /\ node_id g d = Ok b /\ located objs a xa /\ located objs b xb /\
     edge_metrics g e = Ok [fz (Z.of_N v); fz (Z.of_nat n); hav xa xb; fdiv (hav xa xb) (fz (Z.of_N v))]).
Proof.
  intros H1 H2 E. destruct (osm_edges _ _ _ _ _ _ _ H1 H2 E) as (A & B). split.
  - intros e He. destruct (A e He) as (a & b & v & n & s & d & xa & xb & Hl & Hft & Hs & Hd & _ & _ & La & Lb & Hm).
    exists a, b, v, n. split; [exact Hl|]. exists s, d, xa, xb. auto 10.
  - intros a b v n Hl. destruct (B a b v n Hl) as (e & _ & s & d & xa & xb & _ & Hft & Hs & Hd & _ & _ & La & Lb & Hm).
    exists e, s, d, xa, xb. auto 10.
Qed.
Print Assumptions C66_measured.
Example C66_measured_case : exists e s d, edge_from_to town_graph e s d /\ node_id town_graph s = Ok 1%Z /\ node_id town_graph d = Ok 2%Z /\
  edge_metrics town_graph e = Ok [fz 130; fz 3; Fin 20; Fin (20 # 130)].
Proof. exists 0, 1, 2. repeat split; vm_compute; reflexivity. Qed.

(** The graph is built if and only if the ways' nodes are in the data; 4 is the
    number of metrics (SMALLVEC_INLINE_SIZE has to be at least that). *)
Theorem C66_built hav dim vc ch1 ch2 objs : 1 <= ch1 -> 1 <= ch2 -> 4 <= dim ->
  ((exists g, pbf_graph hav dim (osm_cfg vc) ch1 ch2 objs = Ok g) <->
   forall a b v n, leg vc objs a b v n -> (exists x, located objs a x) /\ (exists x, located objs b x)).
Proof.
  intros H1 H2 Hd. split; [|now apply osm_builds].
  intros (g & E) a b v n Hl. destruct (osm_edges _ _ _ _ _ _ _ H1 H2 E) as (_ & B).
  destruct (B a b v n Hl) as (e & _ & s & d & xa & xb & _ & _ & _ & _ & _ & _ & La & Lb & _). eauto.
Qed.
Print Assumptions C66_built.
Example C66_built_case : exists objs m, pbf_graph town_hav 4 (osm_cfg car) 1 1 objs = Err m /\ (exists a b v n, leg car objs a b v n) /\
  exists g, pbf_graph town_hav 4 (osm_cfg car) 1 1 (objs ++ [OsmNode 8 1 1]) = Ok g.
Proof.
  exists [OsmNode 7 0 0; OsmWay [7; 8]%Z [(T "highway", T "primary")]]. eexists. split; [vm_compute; reflexivity|]. split.
  - exists 7%Z, 8%Z, 100%N, 2, [7; 8]%Z, [(T "highway", T "primary")], Primary. split; [vm_compute; tauto|].
    split; [|split; vm_compute; reflexivity]. split; [vm_compute; reflexivity|]. split; [reflexivity|]. exists [], []. left. split; vm_compute; reflexivity.
  - eexists. vm_compute. reflexivity.
Qed.

(** *** Routes *)

(** What Dijkstra's algorithm answers on such a graph, with any preferences for
    short and for fast rides, is a ride of the data, and the best one up to the
    error of the queue (C44).  Without an answer there is no ride. *)
Theorem C66_route hav dim vc ch1 ch2 objs g fuel st rc s t st' r a b x y :
  1 <= ch1 -> 1 <= ch2 -> proper_distance hav -> pbf_graph hav dim (osm_cfg vc) ch1 ch2 objs = Ok g ->
  history_h st -> roomy st g -> node_id g s = Ok a -> node_id g t = Ok b ->
  rc_algo rc = ADijkstra -> rc_alphas rc = [Fin 0; Fin 0; Fin x; Fin y] -> (0 <= x)%Q -> (0 <= y)%Q ->
  compute_best_path_h fuel st g rc s t = Ok (st', r) ->
  match r with
  | None => forall l km h, ~ ride hav vc objs a l b km h
  | Some p => exists l km h, over g (p_edges p) l /\ ride hav vc objs a l b km h /\
      forall l' km' h', ride hav vc objs a l' b km' h' ->
        (x * km + y * h <= x * km' + y * h' + 2 * heap_error (edge_count g FWD) fuel)%Q
  end.
Proof.
  intros H1 H2 Hp HG Hh Hro Ha Hb Hal Hrc Hx Hy E. pose proof (osm_built _ _ _ _ _ _ _ HG) as Eb.
  pose proof (osm_nonneg _ _ _ _ _ _ _ H1 H2 HG Hp) as Hnn.
  destruct (C01_node_set _ _ _ _ _ _ _ H1 H2 Eb) as (_ & _ & Hlt).
  assert (Hs : s < node_count g) by (apply Hlt; eauto). assert (Ht : t < node_count g) by (apply Hlt; eauto).
  assert (Hpos : Forall not_negative (rc_alphas rc)).
  { rewrite Hrc. repeat constructor; cbn; try assumption; apply Qle_refl. }
  destruct r as [p|].
  - destruct (C16_heap _ _ _ _ _ _ _ _ _ _ _ _ _ _ H1 H2 Eb Hnn Hh Hro Hs Ht E) as (_ & _ & _ & _ & _ & Hc & _).
    destruct (C18_heap_bound _ _ _ _ _ _ _ _ _ _ _ _ _ _ H1 H2 Eb Hnn Hh Hro Hs Ht Hal E) as (qp & Hqp & Hbest).
    destruct (path_ride _ _ _ _ _ _ _ H1 H2 HG x y Hp _ _ _ Hc a Ha b Hb) as (l & km & h & q & Ho & Hr & Hq & Eq).
    rewrite <- Hrc in Hq. rewrite (costs_unique _ _ _ _ Hqp _ Hq) in Hbest. exists l, km, h. split; [exact Ho|]. split; [exact Hr|].
    intros l' km' h' Hr'. destruct (ride_path _ _ _ _ _ _ _ H1 H2 HG x y _ _ _ _ _ Hr' s Ha) as (es & t' & q' & Hc' & Ht' & _ & Hq' & Eq').
    assert (t' = t) by (eapply osm_one_index; [exact H1|exact H2|exact HG|eauto|eauto]). subst t'.
    rewrite <- Hrc in Hq'. rewrite <- Eq, <- Eq'. exact (Hbest _ _ Hc' Hq').
  - intros l km h Hr. destruct (ride_path _ _ _ _ _ _ _ H1 H2 HG x y _ _ _ _ _ Hr s Ha) as (es & t' & q' & Hc' & Ht' & _ & Hq' & _).
    assert (t' = t) by (eapply osm_one_index; [exact H1|exact H2|exact HG|eauto|eauto]). subst t'. rewrite <- Hrc in Hq'.
    destruct (C17_heap _ _ _ _ _ _ _ _ _ _ _ _ _ _ H1 H2 Eb Hnn Hh Hro Hs Ht Hpos E) as [N _].
    apply (proj1 (N Hal) eq_refl). eauto.
Qed.
Print Assumptions C66_route.
Definition prefer (x y : Q) : routing_cfg := {| rc_algo := ADijkstra; rc_alphas := [Fin 0; Fin 0; Fin x; Fin y]; rc_scales := [] |}.
Example C66_route_case : (* from 1 to 3 by distance and by duration; and from 0, which no way leads away from *)
  (exists st p, compute_best_path_h 99 dijkstra_new town_graph (prefer 1 0) 1 3 = Ok (st, Some p) /\ over town_graph (p_edges p) [3]%Z) /\
  (exists st p, compute_best_path_h 99 dijkstra_new town_graph (prefer 0 1) 1 3 = Ok (st, Some p) /\ over town_graph (p_edges p) [2; 3]%Z) /\
  (exists st, compute_best_path_h 99 dijkstra_new town_graph (prefer 0 1) 0 3 = Ok (st, None)) /\
  history_h dijkstra_new /\ roomy dijkstra_new town_graph.
Proof.
  split; [|split; [|split; [|split]]].
  - eexists. eexists. split; [vm_compute; reflexivity|]. repeat constructor; eexists; split; vm_compute; reflexivity.
  - eexists. eexists. split; [vm_compute; reflexivity|]. repeat constructor; eexists; split; vm_compute; reflexivity.
  - eexists. vm_compute. reflexivity.
  - constructor.
  - intros H. discriminate.
Qed.

(** There is an answer if the node with the greatest id can be left and reached
    (otherwise the routing may panic, see C17), within a number of pops. *)
Theorem C66_answered hav dim vc ch1 ch2 objs g fuel st rc s t a b x y :
  1 <= ch1 -> 1 <= ch2 -> proper_distance hav -> pbf_graph hav dim (osm_cfg vc) ch1 ch2 objs = Ok g ->
  history_h st -> roomy st g -> (node_count g <> 2 -> capacity st <= node_count g) ->
  node_id g s = Ok a -> node_id g t = Ok b ->
  (exists z a' b' v n v' n', leg vc objs z b' v n /\ leg vc objs a' z v' n' /\
     forall p q v n, leg vc objs p q v n -> (p <= z)%Z /\ (q <= z)%Z) ->
  rc_algo rc = ADijkstra -> rc_alphas rc = [Fin 0; Fin 0; Fin x; Fin y] -> (0 <= x)%Q -> (0 <= y)%Q ->
  2 + 2 * powers (edge_count g FWD) (node_count g) <= fuel ->
  exists st' r, compute_best_path_h fuel st g rc s t = Ok (st', r) /\
    (r = None <-> forall l km h, ~ ride hav vc objs a l b km h).
Proof.
  intros H1 H2 Hp HG Hh Hro Hcap Ha Hb (z & a' & b' & v & n & v' & n' & Hout & Hin & Hmax) Hal Hrc Hx Hy Hfu.
  pose proof (osm_built _ _ _ _ _ _ _ HG) as Eb.
  pose proof (osm_nonneg _ _ _ _ _ _ _ H1 H2 HG Hp) as Hnn.
  destruct (C01_node_set _ _ _ _ _ _ _ H1 H2 Eb) as (_ & Hsort & Hlt).
  destruct (C66_graph _ _ _ _ _ _ _ H1 H2 HG) as (Hed & Hno & _). cbn [osm_cfg pc_vehicles] in Hed, Hno.
  assert (Hs : s < node_count g) by (apply Hlt; eauto). assert (Ht : t < node_count g) by (apply Hlt; eauto).
  assert (Hpos : Forall not_negative (rc_alphas rc)).
  { rewrite Hrc. repeat constructor; cbn; try assumption; apply Qle_refl. }
  assert (Hz : forall i j, i < node_count g -> node_id g j = Ok z -> i <= j).
  { intros i j Hi Hj. apply Hlt in Hi. destruct Hi as (w & Hw). destruct (le_lt_dec i j) as [|Hji]; auto. exfalso.
    pose proof (Hsort _ _ _ _ Hj Hw Hji). destruct (proj1 (Hno w) (ex_intro _ i Hw)) as (u & v0 & n0 & [Hl|Hl]); apply Hmax in Hl; lia. }
  assert (Hlast : last_node_connected g).
  { intros i Hi. destruct (proj1 (Hed z b') (ex_intro _ v (ex_intro _ n Hout))) as (e & u & d & He & Eu & _).
    destruct (proj1 (Hed a' z) (ex_intro _ v' (ex_intro _ n' Hin))) as (e' & u' & d' & He' & _ & Ed').
    split; [exists e, u, d|exists e', u', d']; split; auto. }
  destruct (C17_heap_total_partial _ _ _ _ _ _ _ fuel st rc s t H1 H2 Eb Hnn Hlast Hh Hro Hcap Hs Ht Hpos) as (st' & r & E); auto.
  { intros i. rewrite Hal. discriminate. }
  exists st', r. split; [exact E|]. pose proof (C66_route _ _ _ _ _ _ _ _ _ _ _ _ _ _ _ _ _ _ H1 H2 Hp HG Hh Hro Ha Hb Hal Hrc Hx Hy E) as R.
  destruct r as [p|]; [|now split]. split; [discriminate|]. intros N. destruct R as (l & km & h & _ & Hr & _). destruct (N _ _ _ Hr).
Qed.
Print Assumptions C66_answered.
Example C66_answered_case : exists z a' b' v n v' n', leg car town z b' v n /\ leg car town a' z v' n' /\
  (forall p q v n, leg car town p q v n -> (p <= z)%Z /\ (q <= z)%Z) /\ node_id town_graph 3 = Ok z.
Proof.
  pose proof (C66_graph town_hav 4 (osm_cfg car) 1 2 town town_graph (le_n 1) (le_S _ _ (le_n 1)) town_read) as (He & Hn & _).
  cbn [osm_cfg pc_vehicles] in He, Hn.
  destruct (proj2 (He 3 0)%Z) as (v & n & Hl). { exists 3, 3, 0. repeat split; vm_compute; reflexivity. }
  destruct (proj2 (He 1 3)%Z) as (v' & n' & Hl'). { exists 1, 1, 3. repeat split; vm_compute; reflexivity. }
  exists 3%Z, 1%Z, 0%Z, v, n, v', n'. split; [exact Hl|]. split; [exact Hl'|]. split; [|reflexivity].
  intros p q v0 n0 H.
  assert (K : forall c, (exists i, node_id town_graph i = Ok c) -> (c <= 3)%Z).
  { intros c (i & Hi). unfold node_id in Hi. do 4 (destruct i as [|i]; [vm_compute in Hi; injection Hi as <-; lia|]).
    apply idx_ok in Hi. vm_compute in Hi. destruct i; discriminate. }
  split; apply K, Hn; [exists q, v0, n0; now left|exists p, v0, n0; now right].
Qed.

(** *** What signs say *)

(** A street tagged with its type, open for the vehicles according to the
    documentation, can be driven on: in both directions unless it is tagged to be
    a oneway; at the documented speed unless tagged differently.  (C33 tells
    about service roads and undefined roads, and about more spellings.) *)
Theorem C66_signs vc objs nodes ts c a b l r :
  In (OsmWay nodes ts) objs -> nodes = l ++ a :: b :: r ->
  tag (T "highway") ts = Some (T (highway_value c)) -> (c, vc_category vc) <> (Service, Car) -> c <> Road ->
  admits (documented_for c (vc_category vc)) (vc_picky vc) = true ->
  exists v n,
    (tag (T "maxspeed") ts = None -> v = N.of_nat (documented_speed c)) /\
    (forall k, (k < 65536)%N -> tag (T "maxspeed") ts = Some (show_N k) -> v = N.max 5 k) /\
    (tag (T "oneway") ts = None \/ tag (T "oneway") ts = Some (T "no") -> leg vc objs a b v n /\ leg vc objs b a v n) /\
    (tag (T "oneway") ts = Some (T "yes") -> leg vc objs a b v n) /\
    (tag (T "oneway") ts = Some (T "-1") -> leg vc objs b a v n).
Proof.
  intros Hw -> Ht Hc1 Hc2 Had. rewrite <- (C33_table_partial c (vc_category vc) (vc_picky vc) Hc1 Hc2) in Had.
  assert (Hst : street_from ts = Some c).
  { destruct (C33_street ts (T (highway_value c)) []) as (K & _ & _); [now rewrite app_nil_r|constructor|]. apply K.
    generalize (T (highway_value c)). intros w. induction w; constructor; auto. now left. }
  exists (parse_maxspeed c ts), (parse_lane_count c ts).
  split; [intros Hm; unfold parse_maxspeed; now rewrite Hm, C33_default_speed|].
  split; [intros k Hk Hm; now apply C33_number|].
  assert (Fwd : snd (parse_oneway c ts) = false -> leg vc objs a b (parse_maxspeed c ts) (parse_lane_count c ts)).
  { intros Ho. exists (l ++ a :: b :: r), ts, c. split; [exact Hw|]. split; [|auto]. split; [exact Hst|]. split; [exact Had|]. exists l, r. now left. }
  assert (Bwd : (fst (parse_oneway c ts) = true -> snd (parse_oneway c ts) = true) -> leg vc objs b a (parse_maxspeed c ts) (parse_lane_count c ts)).
  { intros Ho. exists (l ++ a :: b :: r), ts, c. split; [exact Hw|]. split; [|auto]. split; [exact Hst|]. split; [exact Had|]. exists l, r. now right. }
  split; [|split].
  - intros [Ho|Ho]; assert (Eo : parse_oneway c ts = (false, false)) by (unfold parse_oneway; rewrite Ho; vm_compute; reflexivity);
      rewrite Eo in *; auto.
  - intros Ho. assert (Eo : parse_oneway c ts = (true, false)) by (unfold parse_oneway; rewrite Ho; vm_compute; reflexivity). rewrite Eo in *. auto.
  - intros Ho. assert (Eo : parse_oneway c ts = (true, true)) by (unfold parse_oneway; rewrite Ho; vm_compute; reflexivity). rewrite Eo in *. auto.
Qed.
Print Assumptions C66_signs.
Example C66_signs_case : exists v n, leg car town 1 3 v n /\ v = 50%N /\ leg car town 3 1 v n.
Proof.
  destruct (C66_signs car town [1; 3]%Z [(T "highway", T "residential"); (T "maxspeed", T "50")] Residential 1 3 [] []) as (v & n & _ & Hs & Hb & _);
    [vm_compute; tauto|reflexivity|vm_compute; reflexivity|discriminate|discriminate|reflexivity|].
  specialize (Hs 50%N). exists v, n. destruct Hb as [A B]; [left; vm_compute; reflexivity|].
  split; [exact A|]. split; [|exact B]. rewrite Hs; vm_compute; reflexivity.
Qed.

(** *** The configuration is the one of the file *)
Definition isle_yaml : yaml :=
  YMap [
    ("parsing", YMap [
      ("map-file", quoted "resources/isle_of_man_2020-03-14/graph.osm.pbf");
      ("nodes", YSeq [
        YMap [("meta", YMap [("info", quoted "NodeId"); ("id", quoted "node-id")])];
        YMap [("metric", YMap [("unit", quoted "Latitude"); ("id", quoted "latitude")])];
        YMap [("metric", YMap [("unit", quoted "Longitude"); ("id", quoted "longitude")])]]);
      ("edges", YMap [
        ("data", YSeq [
          YMap [("meta", YMap [("info", quoted "SrcId"); ("id", quoted "src-id")])];
          YMap [("meta", YMap [("info", quoted "DstId"); ("id", quoted "dst-id")])];
          plain "ignored";
          YMap [("metric", YMap [("unit", quoted "KilometersPerHour"); ("id", quoted "kmph")])];
          YMap [("metric", YMap [("unit", quoted "LaneCount"); ("id", quoted "lanecount")])]])]);
      ("generating", YMap [
        ("nodes", YSeq [
          YMap [("meta", YMap [("info", quoted "NodeIdx"); ("id", quoted "node-idx")])]]);
        ("edges", YSeq [
          YMap [("meta", YMap [("info", quoted "SrcIdx"); ("id", quoted "src-idx")])];
          YMap [("meta", YMap [("info", quoted "DstIdx"); ("id", quoted "dst-idx")])];
          YMap [("haversine", YMap [("unit", quoted "Kilometers"); ("id", quoted "kilometers")])];
          YMap [("calc", YMap [
            ("result", YMap [("unit", quoted "Hours"); ("id", quoted "hours")]);
            ("a", YMap [("unit", quoted "Kilometers"); ("id", quoted "kilometers")]);
            ("b", YMap [("unit", quoted "KilometersPerHour"); ("id", quoted "kmph")])])]])])]);
    ("routing", YMap [
      ("route-pairs-file", quoted "resources/isle_of_man_2020-03-14/10_000.route-pairs");
      ("algorithm", quoted "Dijkstra");
      ("metrics", YSeq [
        YMap [("id", quoted "kilometers")];
        YMap [("id", quoted "hours")]])])].
Example C66_configured_case : exists d gens, read_parsing sc0 isle_yaml = Ok d /\ map DGen gens = gen_edges d /\
  config_of d gens = osm_cfg (pd_vehicles d) /\ vc_category (pd_vehicles d) = Car.
Proof.
  eexists. exists (cfg_gen_edges (pc_cfg (osm_cfg car))). split; [vm_compute; reflexivity|]. split; [reflexivity|]. split; reflexivity.
Qed.
