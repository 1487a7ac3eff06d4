(** Building a graph of OpenStreetMap data works: lemmas for C66 *)
From Coq Require Import String List Bool Arith NArith ZArith QArith Lia Sorted Lqa.
From Verif Require Import Base F64 Lib ModelApprox ModelText ModelStreets ModelUnits ModelConfig ModelGraph ModelBuild ModelParsing
  Spec ProofNodes ProofStages ProofBuild ProofGraph ProofOrder ProofMetrics ProofProps SpecGenerate ProofGenerate PropsStreets
  SpecOsm ProofOsm.
Import ListNotations.
Open Scope string_scope.
Open Scope list_scope.
Open Scope nat_scope.

Lemma last_coord_some id ns : forall acc n, In n ns -> pn_id n = id -> exists x, last_coord id ns acc = Some x.
Proof.
  assert (S : forall ns x, exists y, last_coord id ns (Some x) = Some y).
  { induction ns0 as [|m ns0 IH]; intros x; cbn; [eauto|]. destruct (Z.eqb (pn_id m) id); apply IH. }
  induction ns as [|m ns IH]; intros acc n Hin Hid; [destruct Hin|]. cbn. destruct Hin as [->|Hin].
  - rewrite (proj2 (Z.eqb_eq _ _) Hid). apply S.
  - eapply IH; eauto.
Qed.

Lemma build_core_works es ns b c ch1 ch2 :
  1 <= ch1 -> 1 <= ch2 -> insert_nodes (eb_next (insert_edges es)) ns = Ok b ->
  (forall id, is_endpoint es id -> exists n, In n ns /\ pn_id n = id) ->
  (forall pe, In pe es -> pe_id pe = None /\ pe_sc pe = None) ->
  (forall pe x, In pe es -> In x (pe_metrics pe) -> fltb (clamp_metric x) F64_ABS = false) ->
  exists g, build_core c ch1 ch2 b = Ok g.
Proof.
  intros H1 H2 Eb Hn Hi Hm. destruct (insert_nodes_spec es _ ns b (nb_inv_init es) Eb) as (Hb & Hnid & Hnodes).
  assert (Hv : sc_valid es) by (intros e p q He Hs; destruct (Hi e He); congruence).
  rewrite (build_core_closed es) by auto. unfold core_fun.
  set (K := kept_edges es (nb_node_ids b) (nb_levels b)).
  assert (HK : forall k, In k K -> exists pe, In pe es /\ b_metrics k = pe_metrics pe /\ b_id k = pe_id pe).
  { intros k Hk. unfold K in Hk. apply dedup_by_incl in Hk. destruct (sorted_in _ _ _ _ Hk) as (pe & Hpe & Ek).
    exists pe. split; [eapply nth_error_In; eauto|]. rewrite Ek. split; reflexivity. }
  destruct (all_coords_cases (nb_coords b)) as [(l & -> & _)|[_ Hno]]; cbn [bind].
  2:{ exfalso. apply In_nth_error in Hno. destruct Hno as [i Ei]. pose proof (nth_error_lt _ _ _ Ei) as L.
      destruct (nth_error (nb_node_ids (eb_next (insert_edges es))) i) as [id|] eqn:Eid.
      - destruct (Hnodes i id Eid) as (c0 & l0 & _ & _ & Hc & _). rewrite Ei in Hc. injection Hc as Hc.
        assert (Hep : is_endpoint es id) by (apply (nbi_ids _ _ (nb_inv_init es)); eapply nth_error_In; eauto).
        destruct (Hn id Hep) as (n & Hin & Hid). destruct (last_coord_some id ns c0 n Hin Hid) as [x Hx]. congruence.
      - apply nth_error_None in Eid. rewrite <- Hnid in Eid. destruct Hb as [_ _ Hcl _ _ _]. lia. }
  assert (Hsm : metrics_too_small (map (fun e => map clamp_metric (b_metrics e)) K) = false).
  { unfold metrics_too_small. destruct (existsb _ _) eqn:E; [|reflexivity]. exfalso. apply existsb_exists in E. destruct E as (ms & Hms & E).
    apply in_map_iff in Hms. destruct Hms as (k & <- & Hk). destruct (HK k Hk) as (pe & Hpe & Em & _). rewrite Em in E.
    apply existsb_exists in E. destruct E as (x & Hx & E). apply in_map_iff in Hx. destruct Hx as (y & <- & Hy).
    rewrite (Hm pe y Hpe Hy) in E. discriminate. }
  rewrite Hsm.
  assert (Hl : length K = length (sc_opts es (nb_node_ids b) (nb_levels b))) by (unfold sc_opts; now rewrite map_length).
  destruct (build_sc_spec (sc_opts es (nb_node_ids b) (nb_levels b))) as (offs & E & _).
  rewrite Hl, E. cbn [bind].
  destruct (build_offsets_spec (map b_src K)) as (fo & -> & _); [apply kept_src_sorted|]. cbn [bind].
  destruct (build_id_map_cases (id_pairs (core_edges K))) as [(m & ->)|[_ Hd]]; cbn [bind].
  2:{ exfalso. apply Hd. assert (En : id_pairs (core_edges K) = []).
      { destruct (id_pairs (core_edges K)) as [|[i e] rest] eqn:Ep; [reflexivity|]. exfalso.
        assert (Hin : In (i, e) (id_pairs (core_edges K))) by (rewrite Ep; now left).
        apply id_pairs_in in Hin. destruct Hin as (x & Hx & Hid & _). unfold core_edges in Hx. apply in_map_iff in Hx.
        destruct Hx as ([j kc] & <- & Hk). apply enumerate_in in Hk. rewrite nth_error_map in Hk.
        destruct (nth_error K j) as [k|] eqn:Ek; [|discriminate]. injection Hk as <-. rename Ek into Hk. destruct (HK k) as (pe & Hpe & _ & Ei); [eapply nth_error_In; exact Hk|].
        destruct (Hi pe Hpe) as [Hi1 _]. cbn in Hid. congruence. }
      rewrite En. constructor. }
  destruct (build_offsets_spec (map c_dst (core_bwd (nb_levels b) K))) as (bo & -> & _); [|cbn [bind]; eauto].
  apply StronglySorted_map. eapply StronglySorted_impl; [|apply core_bwd_sorted].
  intros x y _ _ Hk. unfold bwd_key in Hk. apply key_le_src in Hk. tauto.
Qed.

Lemma mapM_exists {A B} (f : A -> res B) l : (forall a, In a l -> exists b, f a = Ok b) -> exists bs, mapM f l = Ok bs.
Proof.
  induction l as [|a l IH]; intros H; [exists []; reflexivity|]. cbn [mapM].
  destruct (H a (or_introl eq_refl)) as (b & E). destruct (IH (fun x Hx => H x (or_intror Hx))) as (bs & E').
  rewrite E. cbn [bind]. rewrite E'. cbn [bind]. eauto.
Qed.

(** the shipped configuration's generated metrics *)
Lemma haversine_works hav g : (forall e, e < length (metrics g) -> exists s d x y, edge_from_to g e s d /\ node_coord g s = Ok x /\ node_coord g d = Ok y) ->
  forall id, exists g', gen_step hav g (GHaversine Kilometers id) = Ok g' /\ g_cfg g' = g_cfg (push_metric_cfg g Kilometers id) /\
    Forall2 (fun m m' => length m' = S (length m)) (metrics g) (metrics g').
Proof.
  intros H id. cbn [gen_step].
  destruct (mapM_exists (haversine_edge hav g Kilometers) (enumerate (metrics g))) as [ms Ems].
  { intros [e m] Hin. apply enumerate_in in Hin. apply nth_error_lt in Hin. destruct (H e Hin) as (s & d & x & y & [A B] & C & D).
    unfold haversine_edge. cbn [fst snd]. rewrite A. cbn [bind]. rewrite B. cbn [bind]. rewrite C. cbn [bind]. rewrite D. cbn [bind]. cbn. eauto. }
  rewrite Ems. cbn [bind]. eexists. split; [reflexivity|]. split; [reflexivity|]. cbn.
  apply mapM_ok in Ems. clear H. revert Ems. unfold enumerate. generalize 0. revert ms. induction (metrics g) as [|m l IH]; intros ms k F; inversion F; subst; constructor.
  - match goal with H : haversine_edge _ _ _ _ = _ |- _ => rename H into Hh end. unfold haversine_edge in Hh. cbn [fst snd] in Hh.
    do 4 (apply bind_ok in Hh; destruct Hh as (? & _ & Hh)). apply bind_ok in Hh. destruct Hh as (z & _ & Hh). injection Hh as <-. rewrite app_length. cbn. lia.
  - match goal with H : Forall2 _ _ _ |- _ => exact (IH _ _ H) end.
Qed.

Lemma osm_builds hav dim vc ch1 ch2 objs : 1 <= ch1 -> 1 <= ch2 -> 4 <= dim ->
  (forall a b v n, leg vc objs a b v n -> (exists x, located objs a x) /\ (exists x, located objs b x)) ->
  exists g, pbf_graph hav dim (osm_cfg vc) ch1 ch2 objs = Ok g.
Proof.
  intros H1 H2 Hdim Hall. unfold pbf_graph.
  assert (Ep : pbf_preprocess dim (osm_cfg vc) = Ok tt).
  { unfold pbf_preprocess, check_config. cbn. destruct dim as [|[|[|[|dim]]]]; [lia..|]. reflexivity. }
  rewrite Ep. cbn [bind]. set (es := pbf_edges (osm_cfg vc) objs). set (ns := pbf_nodes objs). set (c := pc_cfg (osm_cfg vc)).
  assert (Hes : forall pe, In pe es -> exists nodes ts c a b, In (OsmWay nodes ts) objs /\ passable vc nodes ts c a b /\ pe = plain_edge (osm_row c ts) a b).
  { intros pe. unfold es. rewrite pbf_edges_in. auto. }
  destruct (insert_nodes_total es _ ns (nb_inv_init es)) as (b & Eb & Hb).
  destruct (build_core_works es ns b c ch1 ch2 H1 H2 Eb) as [g Eg].
  - assert (L : forall id x, located objs id x -> exists n, In n ns /\ pn_id n = id).
    { intros id x (pre & la & lo & post & -> & _). eexists. split; [apply pbf_nodes_in; exists id, la, lo; split; [apply in_or_app; right; now left|reflexivity]|reflexivity]. }
    intros id (pe & Hpe & Hid). apply Hes in Hpe. destruct Hpe as (nodes & ts & k & a & d & Hw & Hp & ->). cbn in Hid.
    destruct (Hall a d (parse_maxspeed k ts) (parse_lane_count k ts)) as [[x Hx] [y Hy]]; [exists nodes, ts, k; auto|].
    destruct Hid as [->| ->]; eauto.
  - intros pe Hpe. apply Hes in Hpe. destruct Hpe as (nodes & ts & k & a & d & Hw & Hp & ->). split; reflexivity.
  - intros pe x Hpe Hx. apply Hes in Hpe. destruct Hpe as (nodes & ts & k & a & d & Hw & Hp & ->). cbn [pe_metrics plain_edge] in Hx.
    assert (G : forall z, (1 <= z)%Z -> fltb (clamp_metric (fz z)) F64_ABS = false).
    { intros z Hz. rewrite clamp_big by auto. cbn. unfold Qcompare, inject_Z. cbn. destruct (Z.compare_spec (z * 1000000) 1); auto; lia. }
    destruct Hx as [<-|[<-|[]]]; apply G; auto using speed_pos, lanes_pos.
  - unfold build. rewrite Eb. cbn [bind]. unfold finalize. rewrite Eg. cbn [bind].
    pose proof (build_core_spec _ _ _ _ _ _ H1 H2 Hb Eg) as Hc.
    set (K := kept_edges es (nb_node_ids b) (nb_levels b)) in *.
    assert (Hms : forall m, In m (metrics g) -> length m = 2).
    { intros m Hm. rewrite (cs_metrics _ _ _ _ _ Hc) in Hm. apply in_map_iff in Hm. destruct Hm as (k & <- & Hk).
      destruct (core_in_edge es b c _ g Hb Hc k Hk) as (pe & Epe & Ekk & _ & _). rewrite map_length, Ekk. cbn.
      destruct (Hes pe (nth_error_In _ _ Epe)) as (? & ? & ? & ? & ? & _ & _ & ->). reflexivity. }
    assert (Hft : forall e, e < length (metrics g) -> exists s d x y, edge_from_to g e s d /\ node_coord g s = Ok x /\ node_coord g d = Ok y).
    { intros e He. rewrite (cs_metrics _ _ _ _ _ Hc), map_length in He. destruct (nth_error K e) as [k|] eqn:Ek; [|apply nth_error_None in Ek; lia].
      destruct (core_in_edge es b c _ g Hb Hc k (nth_error_In _ _ Ek)) as (pe & Epe & Ekk & Es & Ed).
      assert (Lc : length (node_coords g) = length (node_ids g)).
      { rewrite (cs_ids _ _ _ _ _ Hc). pose proof (f_equal (@length _) (cs_coords _ _ _ _ _ Hc)) as L. rewrite map_length in L.
        destruct Hb as [_ _ Hcl _ _ _]. congruence. }
      destruct (idx_lt (node_coords g) (b_src k)) as [x Hx]; [rewrite Lc; eapply nth_error_lt; eauto|].
      destruct (idx_lt (node_coords g) (b_dst k)) as [y Hy]; [rewrite Lc; eapply nth_error_lt; eauto|].
      exists (b_src k), (b_dst k), x, y. split; [split; apply (core_dst es b c _ g Hc); eauto|]. split; auto. }
    unfold generate. rewrite (cs_cfg _ _ _ _ _ Hc). cbn [c osm_cfg pc_cfg cfg_gen_nodes cfg_gen_edges foldM gen_node fst snd cfg_nodes].
    match goal with |- context [node_cat_has ?x ?y] => change (node_cat_has x y) with false end. cbn [bind].
    match goal with |- context [with_cfg g ?x] => set (c1 := x) end.
    match goal with |- context [gen_dup ?x ?y] => change (gen_dup x y) with false end. cbv iota.
    set (g2 := push_meta (push_meta (with_cfg g c1) SrcIdx "src-idx") DstIdx "dst-idx").
    change (gen_step hav (with_cfg g c1) (GMeta GSrcIdx "src-idx")) with (Ok (push_meta (with_cfg g c1) SrcIdx "src-idx")). cbn [bind].
    change (gen_step hav (push_meta (with_cfg g c1) SrcIdx "src-idx") (GMeta GDstIdx "dst-idx")) with (Ok g2). cbn [bind].
    destruct (haversine_works hav g2 Hft "kilometers") as (g3 & E3 & C3 & F3). rewrite E3. cbn [bind].
    assert (Ei : ec_ids (cfg_edges (g_cfg g3)) = ["kmph"; "lanecount"; "kilometers"]) by (rewrite C3; reflexivity).
    cbn [gen_step]. rewrite Ei. change (idx_of ["kmph"; "lanecount"; "kilometers"] "kilometers") with (Ok 2).
    change (idx_of ["kmph"; "lanecount"; "kilometers"] "kmph") with (Ok 0). cbn [bind].
    match goal with |- context [mapM ?f (metrics g3)] => destruct (mapM_exists f (metrics g3)) as [ms Ems] end.
    + intros m Hm. assert (Lm : length m = 3).
      { clear -F3 Hms Hm. change (metrics g2) with (metrics g) in F3. induction F3 as [|x y l l' R F IH]; [destruct Hm|].
        destruct Hm as [<-|Hm]; [rewrite R; f_equal; apply Hms; now left|apply IH; auto; intros; apply Hms; now right]. }
      destruct m as [|x [|y [|z [|]]]]; try discriminate Lm. cbn. eauto.
    + rewrite Ems. cbn [bind]. unfold normalize. cbn [push_metric_cfg with_edge_cfg with_cfg with_metrics g_cfg cfg_edges ec_normalized].
      rewrite C3. cbn. eauto.
Qed.
