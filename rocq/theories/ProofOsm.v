(** Ways, legs and edges: lemmas for C66 *)
From Coq Require Import String List Bool Arith NArith ZArith QArith Lia Sorted Lqa.
From Verif Require Import Base F64 Lib ModelApprox ModelText ModelStreets ModelUnits ModelConfig ModelGraph ModelBuild ModelParsing
  Spec ProofNodes ProofStages ProofBuild ProofGraph ProofOrder ProofMetrics ProofProps SpecGenerate ProofGenerate PropsStreets SpecOsm.
Import ListNotations.
Open Scope string_scope.
Open Scope list_scope.
Open Scope nat_scope.

(** *** Consecutive nodes *)
Definition follows (l : list Z) (a b : Z) : Prop := exists p q, l = p ++ a :: b :: q.

Lemma follows_rev l a b : follows (rev l) a b <-> follows l b a.
Proof.
  assert (G : forall l a b, follows l b a -> follows (rev l) a b).
  { intros l0 x y (p & q & ->). exists (rev q), (rev p). rewrite rev_app_distr. cbn [rev]. now rewrite <- !app_assoc. }
  split; [|apply G]. intros H. apply G in H. now rewrite rev_involutive in H.
Qed.

Lemma follows_join l z m a b : follows (l ++ z :: m) a b <-> follows (l ++ [z]) a b \/ follows (z :: m) a b.
Proof.
  split.
  - intros (p & q & E). revert p E. induction l as [|x l IH]; intros p E.
    + right. exists p, q. exact E.
    + destruct p as [|y p].
      * cbn in E. injection E as -> E. destruct l as [|w l]; cbn in E; injection E as -> E.
        -- left. exists [], []. reflexivity.
        -- left. exists [], (l ++ [z]). reflexivity.
      * cbn in E. injection E as -> E. destruct (IH p E) as [(p' & q' & E')|H]; [left|now right].
        exists (y :: p'), q'. cbn. now rewrite E'.
  - intros [(p & q & E)|(p & q & E)].
    + exists p, (q ++ m). replace (l ++ z :: m) with ((l ++ [z]) ++ m) by (now rewrite <- app_assoc). rewrite E, <- app_assoc. reflexivity.
    + exists (l ++ p), q. now rewrite E, app_assoc.
Qed.

Definition plain_edge (ms : list f64) (a b : Z) : proto_edge :=
  {| pe_id := None; pe_src := a; pe_dst := b; pe_metrics := ms; pe_sc := None |}.

Lemma consecutive_in ms l pe : In pe (consecutive ms l) <-> exists a b, follows l a b /\ pe = plain_edge ms a b.
Proof.
  induction l as [|a l IH]; [split; [intros []|intros (a & b & ([|] & q & E) & _); discriminate]|].
  destruct l as [|b l].
  - split; [intros []|]. intros (x & y & ([|? [|]] & q & E) & _); discriminate.
  - change (consecutive ms (a :: b :: l)) with (plain_edge ms a b :: consecutive ms (b :: l)). split.
    + intros [<-|H]; [exists a, b; split; [exists [], l|]; reflexivity|].
      apply IH in H. destruct H as (x & y & (p & q & E) & ->). exists x, y. split; auto. exists (a :: p), q. cbn. now rewrite E.
    + intros (x & y & ([|w p] & q & E) & ->).
      * cbn in E. injection E as <- <- _. now left.
      * cbn in E. injection E as <- E. right. apply IH. exists x, y. split; auto. exists p, q. exact E.
Qed.

(** the edges of a way are its legs *)
Lemma way_edges_in pc nodes ts pe : In pe (way_edges pc nodes ts) <->
  exists c a b, passable (pc_vehicles pc) nodes ts c a b /\ pe = plain_edge (way_metrics c ts (ec_categories (cfg_edges (pc_cfg pc)))) a b.
Proof.
  unfold way_edges, passable. destruct (Nat.ltb_spec (length nodes) 2) as [L|L].
  { split; [intros []|]. intros (c & a & b & (_ & _ & l & r & [[-> _]|[-> _]]) & _); rewrite app_length in L; simpl in L; lia. }
  destruct (street_from ts) as [c|].
  2:{ split; [intros []|]. intros (c & a & b & (E & _) & _). discriminate. }
  destruct (is_for c _ _) eqn:Ef; cbn [negb].
  2:{ split; [intros []|]. intros (c' & a & b & (E & F & _) & _). injection E as <-. congruence. }
  destruct (parse_oneway c ts) as [o r] eqn:Eo. cbv zeta. rewrite consecutive_in.
  set (ms := way_metrics c ts _). set (ns := if r then rev nodes else nodes).
  assert (Ln : length ns = length nodes) by (unfold ns; destruct r; [apply rev_length|auto]).
  assert (Hf : forall a b, follows (ns ++ rev (if o then [] else firstn (length ns - 1) ns)) a b <-> follows ns a b \/ (o = false /\ follows ns b a)).
  { intros a b. destruct o; [rewrite app_nil_r; intuition discriminate|].
    destruct (exists_last (l := ns)) as (i & z & E); [intros ->; simpl in Ln; lia|]. rewrite E, app_length. cbn [length].
    replace (length i + 1 - 1) with (length i) by lia. rewrite firstn_app, Nat.sub_diag, firstn_all, app_nil_r. rewrite <- app_assoc. cbn [app].
    rewrite follows_join. rewrite <- (follows_rev (i ++ [z]) a b), rev_app_distr. cbn. intuition. }
  split.
  - intros (a & b & H & ->). exists c, a, b. split; [|reflexivity]. split; [auto|]. split; [auto|]. rewrite Eo. cbn [fst snd].
    apply Hf in H. unfold ns in H. destruct r.
    + rewrite !follows_rev in H. destruct H as [(p & q & ->)|[-> (p & q & ->)]].
      * exists p, q. right. auto.
      * exfalso. clear -Eo. unfold parse_oneway in Eo. destruct (tag _ ts); [|discriminate].
        destruct (lookup _ oneway_names) as [x|] eqn:E; [|discriminate]. subst x.
        assert (G : forall (rows : list (string * (bool * bool))) s x, lookup s rows = Some x -> In x (map snd rows)).
        { induction rows as [|[k v] rows IH]; [discriminate|]. intros s x. cbn [lookup]. destruct (text_eqb _ _); [intros H; injection H as ->; now left|]. intros H. right. eapply IH; eauto. }
        apply G in E. cbn in E. intuition discriminate.
    + destruct H as [(p & q & ->)|[-> (p & q & ->)]]; exists p, q; [left; auto|right; split; auto; discriminate].
  - intros (c' & a & b & (E & _ & l & q & H) & ->). injection E as <-. rewrite Eo in H. cbn [fst snd] in H.
    exists a, b. split; [|reflexivity]. apply Hf. unfold ns. destruct H as [[-> ->]|[-> H]].
    + left. now exists l, q.
    + destruct r; [left; apply follows_rev; now exists l, q|]. destruct o; [discriminate (H eq_refl)|]. right. split; auto. now exists l, q.
Qed.

Lemma pbf_edges_in pc objs pe : In pe (pbf_edges pc objs) <->
  exists nodes ts c a b, In (OsmWay nodes ts) objs /\ passable (pc_vehicles pc) nodes ts c a b /\
    pe = plain_edge (way_metrics c ts (ec_categories (cfg_edges (pc_cfg pc)))) a b.
Proof.
  unfold pbf_edges. rewrite in_flat_map. split.
  - intros (o & Ho & H). destruct o as [|nodes ts|]; try destruct H. apply way_edges_in in H. destruct H as (c & a & b & H & E).
    exists nodes, ts, c, a, b. auto.
  - intros (nodes & ts & c & a & b & Ho & H & E). exists (OsmWay nodes ts). split; auto. apply way_edges_in. exists c, a, b. auto.
Qed.

(** *** Nodes *)
Lemma pbf_nodes_in objs n : In n (pbf_nodes objs) <->
  exists id la lo, In (OsmNode id la lo) objs /\ n = {| pn_id := id; pn_coord := from_decimicro la lo; pn_level := None |}.
Proof.
  unfold pbf_nodes. rewrite in_flat_map. split.
  - intros (o & Ho & H). destruct o as [id la lo| |]; try destruct H as [<-|[]]; try destruct H. eauto 6.
  - intros (id & la & lo & Ho & ->). eexists. split; [exact Ho|]. now left.
Qed.

Lemma located_last objs n : last_insertion (pbf_nodes objs) n -> located objs (pn_id n) (pn_coord n).
Proof.
  unfold last_insertion. intros (before & after & E & Hn). revert before E. induction objs as [|o objs IH]; intros before E.
  { destruct before; discriminate. }
  assert (K : forall before, pbf_nodes objs = before ++ n :: after -> located (o :: objs) (pn_id n) (pn_coord n)).
  { intros bf Eb. destruct (IH bf Eb) as (pre & la & lo & post & -> & A & B). exists (o :: pre), la, lo, post. auto. }
  destruct o as [id la lo|nodes ts|]; cbn in E; [|exact (K _ E)|exact (K _ E)]. destruct before as [|x before]; cbn in E; injection E as Ex E; [|exact (K _ E)].
  subst n. cbn in *. exists [], la, lo, objs. split; [reflexivity|]. split; [|reflexivity]. intros la' lo' H.
  apply (Hn {| pn_id := id; pn_coord := from_decimicro la' lo'; pn_level := None |}); [|reflexivity]. unfold pbf_nodes in E. rewrite <- E. apply pbf_nodes_in. eauto.
Qed.

Lemma located_unique objs id x y : located objs id x -> located objs id y -> x = y.
Proof.
  intros (p & la & lo & q & E & A & ->) (p' & la' & lo' & q' & E' & A' & ->). rewrite E in E'. clear E objs. revert p' E'.
  induction p as [|o p IH]; intros [|o' p'] E; cbn in E.
  - now injection E as <- <- _.
  - exfalso. injection E as _ E. eapply A. rewrite E. apply in_or_app. right. now left.
  - exfalso. injection E as _ E. eapply A'. rewrite <- E. apply in_or_app. right. now left.
  - injection E as _ E. apply (IH p' E).
Qed.

(** *** Edges and the insertions they stem from, before metrics are generated *)
Lemma build_traced hav c ch1 ch2 es ns g :
  1 <= ch1 -> 1 <= ch2 -> build hav c ch1 ch2 es ns = Ok g ->
  length (ec_ids (cfg_edges c)) = length (ec_units (cfg_edges c)) -> fitting_edges c es -> ec_normalized (cfg_edges c) = false ->
  exists g0, desc_l g0 /\ desc_l g /\ ids_of g0 = ec_ids (cfg_edges c) /\ foldM (gen_step hav) (cfg_gen_edges c) g0 = Ok g /\ same_net g0 g /\
    edge_count g0 FWD = edge_count g FWD /\
    (forall e, e < edge_count g FWD -> exists pe, In pe es /\ same_ends g e pe /\ edge_metrics g0 e = Ok (map clamp_metric (pe_metrics pe))) /\
    (forall pe, In pe es -> exists e pe', e < edge_count g FWD /\ In pe' es /\ (pe' = pe \/ same_edge pe' pe) /\ same_ends g e pe' /\
       edge_metrics g0 e = Ok (map clamp_metric (pe_metrics pe'))).
Proof.
  intros H1 H2 E Hl Hf Hn. destruct (build_split _ _ _ _ _ _ _ E) as (b & gc & g1 & Eb & Hb & E0 & E1 & E2).
  pose proof (build_core_spec _ _ _ _ _ _ H1 H2 Hb E0) as Hc.
  unfold generate in E1. rewrite (cs_cfg _ _ _ _ _ Hc) in E1.
  apply bind_ok in E1. destruct E1 as (c' & Ec & E1).
  destruct (gen_node_edges _ _ _ Ec) as [Q1 Q2]. rewrite Q1 in E1.
  destruct (gen_dup _ _) eqn:Edup; [discriminate|].
  assert (D0 : desc_l (with_cfg gc c')).
  { pose proof (core_desc _ _ _ _ _ Hb Hc Hl Hf) as (D1 & D2 & D3).
    unfold ids_of, units_of in *. rewrite (cs_cfg _ _ _ _ _ Hc) in D1, D3.
    split; [|split].
    - unfold ids_of, units_of. cbn. rewrite Q1. exact D1.
    - exact D2.
    - intros e m E'. unfold ids_of. cbn. rewrite Q1. exact (D3 e m E'). }
  destruct (gen_steps_spec _ _ _ _ D0 E1) as [D1 S1].
  assert (Eg : g = g1).
  { unfold normalize in E2. rewrite (gen_steps_normalized _ _ _ _ E1) in E2. cbn in E2. rewrite Q1, Hn in E2. now injection E2 as <-. }
  subst g1.
  assert (N : same_net (with_cfg gc c') g) by (destruct (gen_steps_net _ _ _ _ E1) as (N1 & _); exact N1).
  assert (Nc : same_net gc g) by (eapply same_net_trans; [|exact N]; constructor; reflexivity).
  assert (Cnt : edge_count g FWD = length (kept_edges es (nb_node_ids b) (nb_levels b))).
  { rewrite (net_edge_count _ _ FWD Nc). apply (core_edge_count es b c _ gc Hc). }
  set (K := kept_edges es (nb_node_ids b) (nb_levels b)) in *.
  assert (G : forall e k, nth_error K e = Some k -> exists pe, nth_error es (b_idx k) = Some pe /\ same_ends g e pe /\
    edge_metrics (with_cfg gc c') e = Ok (map clamp_metric (pe_metrics pe))).
  { intros e k Ek. destruct (core_in_edge es b c _ gc Hb Hc k (nth_error_In _ _ Ek)) as (pe & Epe & Ekk & Es & Ed).
    exists pe. split; [auto|]. split.
    - exists (b_src k), (b_dst k). split; [split|split].
      + rewrite (net_dst_idx gc g) by auto. apply (core_dst es b c _ gc Hc). eauto.
      + rewrite (net_dst_idx gc g) by auto. apply (core_dst es b c _ gc Hc). eauto.
      + unfold node_id. rewrite (sn_ids _ _ Nc). now apply idx_nth.
      + unfold node_id. rewrite (sn_ids _ _ Nc). now apply idx_nth.
    - unfold edge_metrics. cbn [metrics with_cfg]. rewrite (cs_metrics _ _ _ _ _ Hc). apply idx_ok.
      fold K. rewrite nth_error_map, Ek. simpl. now rewrite Ekk. }
  exists (with_cfg gc c'). split; [exact D0|]. split; [exact D1|].
  split; [unfold ids_of; cbn; now rewrite Q1|]. split; [exact E1|]. split; [exact N|].
  split; [symmetry; now apply net_edge_count|]. split.
  - intros e He. rewrite Cnt in He. destruct (nth_error K e) as [k|] eqn:Ek; [|apply nth_error_None in Ek; lia].
    destruct (G e k Ek) as (pe & Epe & A & B). exists pe. split; [eapply nth_error_In; eauto|auto].
  - intros pe Hpe. apply In_nth_error in Hpe. destruct Hpe as [p Ep].
    destruct (rep_of_spec es (nb_node_ids b) (nb_levels b) p pe Ep) as (k & Ek & Hk). fold K in Ek.
    destruct (G _ k Ek) as (pe' & Epe' & A & B). eexists _, pe'. split; [rewrite Cnt; eapply nth_error_lt; eauto|].
    split; [eapply nth_error_In; eauto|]. split; [|split; [exact A|exact B]].
    destruct Hk as [->|Hk]; [left; simpl in Epe'; congruence|]. right.
    destruct (core_in_edge es b c _ gc Hb Hc k (nth_error_In _ _ Ek)) as (pe2 & Epe2 & Ekk & _ & _).
    assert (pe2 = pe') by congruence. subst pe2. rewrite Ekk in Hk.
    assert (Hs : StronglySorted Z.lt (nb_node_ids b)) by apply (nbi_sorted _ _ Hb).
    assert (Hin : forall pe, In pe es -> In (pe_src pe) (nb_node_ids b) /\ In (pe_dst pe) (nb_node_ids b)).
    { intros x Hx. rewrite !(nbi_ids _ _ Hb). split; exists x; auto. }
    destruct (Hin pe) as [A1 A2]; [eapply nth_error_In; eauto|].
    destruct (Hin pe') as [B1 B2]; [eapply nth_error_In; eauto|].
    apply (dup_same_edge (nb_node_ids b) es (b_idx k) p pe' pe) in Hk; auto.
Qed.

(** *** The metrics of the shipped configuration *)
Definition osm_gens : list gen_cat := cfg_gen_edges (pc_cfg (osm_cfg (mkVehicle Car false))).

Lemma metric_of_ok g e ms : edge_metrics g e = Ok ms -> forall i, metric_of g e i = nth_error ms i.
Proof. unfold metric_of. now intros ->. Qed.

Lemma osm_generated hav g0 g e x y : desc_l g0 -> desc_l g -> ids_of g0 = ["kmph"; "lanecount"] ->
  foldM (gen_step hav) osm_gens g0 = Ok g -> e < edge_count g FWD -> edge_count g0 FWD = edge_count g FWD -> edge_metrics g0 e = Ok [x; y] ->
  exists s d xs xd, edge_from_to g e s d /\ node_coord g s = Ok xs /\ node_coord g d = Ok xd /\
    edge_metrics g e = Ok [x; y; hav xs xd; fdiv (hav xs xd) x].
Proof.
  intros D0 D I F He Hcount Hm.
  change osm_gens with [GMeta GSrcIdx "src-idx"; GMeta GDstIdx "dst-idx"; GHaversine Kilometers "kilometers";
                        GCalc Hours "hours" Kilometers "kilometers" KilometersPerHour "kmph"] in F.
  cbn [foldM] in F. apply bind_ok in F. destruct F as (g1 & F1 & F). apply bind_ok in F. destruct F as (g2 & F2 & F).
  apply bind_ok in F. destruct F as (g3 & F3 & F). apply bind_ok in F. destruct F as (g4 & F4 & F). injection F as ->.
  destruct (gen_step_spec _ _ _ _ D0 F1) as [D1 (I1 & _ & C1 & M1)].
  destruct (gen_step_spec _ _ _ _ D1 F2) as [D2 (I2 & _ & C2 & M2)].
  destruct (gen_step_spec _ _ _ _ D2 F3) as [D3 (_ & I3 & _ & C3 & M3 & N3)].
  destruct (gen_step_spec _ _ _ _ D3 F4) as [D4 (I4 & _ & C4 & M4 & N4)].
  assert (I2' : ids_of g2 = ["kmph"; "lanecount"]) by congruence.
  assert (I3' : ids_of g3 = ["kmph"; "lanecount"; "kilometers"]) by (rewrite I3, I2'; reflexivity).
  assert (I4' : ids_of g = ["kmph"; "lanecount"; "kilometers"; "hours"]) by (rewrite I4, I3'; reflexivity).
  rewrite I2' in M3, N3. rewrite I3' in M4, N4. cbn [length] in *.
  assert (L : e < edge_count g2 FWD) by congruence.
  assert (L3 : e < edge_count g3 FWD) by congruence.
  destruct (N3 e L) as (z & Ez & (s & d & xs & xd & Eft & Es & Ed & ->)).
  destruct (N4 e L3) as (h & Eh & (a & b & (i & (Hi & Fi) & Ha) & (j & (Hj & Fj) & Hb) & Hc)).
  rewrite I3' in Hi, Fi, Hj, Fj.
  assert (i = 2) as ->.
  { destruct i as [|[|[|i]]]; cbn in Hi; try discriminate Hi; auto. destruct i; discriminate Hi. }
  assert (j = 0) as ->.
  { destruct j as [|[|[|j]]]; cbn in Hj; try discriminate Hj; auto. destruct j; discriminate Hj. }
  rewrite Ez in Ha. injection Ha as <-.
  assert (M : forall k, k < 2 -> metric_of g3 e k = nth_error [x; y] k).
  { intros k Hk. rewrite (M3 e k Hk), M2, M1. apply metric_of_ok. exact Hm. }
  rewrite (M 0) in Hb by lia. injection Hb as <-. cbn in Hc. injection Hc as <-.
  assert (G2 : gen_step hav g3 (GCalc Hours "hours" Kilometers "kilometers" KilometersPerHour "kmph") = Ok g) by exact F4.
  assert (N : same_net g2 g).
  { destruct (gen_steps_net hav [GHaversine Kilometers "kilometers"; GCalc Hours "hours" Kilometers "kilometers" KilometersPerHour "kmph"] g2 g) as (N & _); [|exact N].
    cbn [foldM]. rewrite F3. cbn [bind]. rewrite F4. reflexivity. }
  exists s, d, xs, xd. split; [destruct Eft; split; rewrite (net_dst_idx g2 g); auto|].
  split; [unfold node_coord in *; now rewrite (sn_coords _ _ N)|]. split; [unfold node_coord in *; now rewrite (sn_coords _ _ N)|].
  destruct D as (_ & Dn & Dl). rewrite <- Dn in He. destruct (idx_lt (metrics g) e He) as [ms Hms]. change (edge_metrics g e = Ok ms) in Hms. rewrite Hms. f_equal.
  pose proof (Dl e ms (proj1 (idx_ok _ _ _) Hms)) as Ll. rewrite I4' in Ll. cbn in Ll.
  assert (K : forall k, k < 4 -> nth_error ms k = nth_error [x; y; hav xs xd; fdiv (hav xs xd) x] k).
  { intros k Hk. rewrite <- (metric_of_ok g e ms Hms k). destruct k as [|[|[|[|k]]]]; [| | | |lia].
    - rewrite M4 by lia. now apply (M 0); lia.
    - rewrite M4 by lia. now apply (M 1); lia.
    - rewrite M4 by lia. exact Ez.
    - exact Eh. }
  destruct ms as [|m0 [|m1 [|m2 [|m3 [|]]]]]; try discriminate Ll.
  pose proof (K 0 ltac:(lia)) as K0. pose proof (K 1 ltac:(lia)) as K1. pose proof (K 2 ltac:(lia)) as K2. pose proof (K 3 ltac:(lia)) as K3.
  cbn in K0, K1, K2, K3. congruence.
Qed.

(** nothing of it is around zero *)
Definition osm_row (c : street) (ts : tags) : list f64 := [fz (Z.of_N (parse_maxspeed c ts)); fz (Z.of_nat (parse_lane_count c ts))].
Lemma osm_way_metrics vc c ts : way_metrics c ts (ec_categories (cfg_edges (pc_cfg (osm_cfg vc)))) = osm_row c ts.
Proof. reflexivity. Qed.

Lemma clamp_big z : (1 <= z)%Z -> clamp_metric (fz z) = fz z.
Proof.
  intros Hz. pose proof (clamp_lifted (fz z)) as [[(q & Eq & Hq) _]|[_ H]]; [|exact H].
  exfalso. injection Eq as <-. unfold Qlt, Qabs.Qabs, inject_Z in Hq. cbn in Hq. lia.
Qed.

(** what edge [e] is, in terms of the data *)
Definition tells (hav : coord -> coord -> f64) (vc : vehicle_cfg) (objs : list osm_obj) (g : graph) (e : nat) (a b : Z) (v : N) (n : nat) : Prop :=
  exists s d xs xd, leg vc objs a b v n /\ edge_from_to g e s d /\ node_id g s = Ok a /\ node_id g d = Ok b /\
    node_coord g s = Ok xs /\ node_coord g d = Ok xd /\ located objs a xs /\ located objs b xd /\
    edge_metrics g e = Ok [fz (Z.of_N v); fz (Z.of_nat n); hav xs xd; fdiv (hav xs xd) (fz (Z.of_N v))].

Lemma speed_pos c ts : (1 <= Z.of_N (parse_maxspeed c ts))%Z.
Proof. pose proof (C33_min_speed c ts). lia. Qed.
Lemma lanes_pos c ts : (1 <= Z.of_nat (parse_lane_count c ts))%Z.
Proof. unfold parse_lane_count. destruct c; cbn; lia. Qed.

Lemma close_int x y : close (fz x) (fz y) -> x = y.
Proof.
  intros (a & b & Ea & Eb & H). injection Ea as <-. injection Eb as <-.
  assert (G : (Z.abs (x - y) < 1)%Z); [|lia].
  unfold Qlt, Qabs.Qabs, Qminus, Qplus, Qopp, inject_Z in H. cbn in H. lia.
Qed.

Lemma osm_edges hav dim vc ch1 ch2 objs g :
  1 <= ch1 -> 1 <= ch2 -> pbf_graph hav dim (osm_cfg vc) ch1 ch2 objs = Ok g ->
  (forall e, e < edge_count g FWD -> exists a b v n, tells hav vc objs g e a b v n) /\
  (forall a b v n, leg vc objs a b v n -> exists e, e < edge_count g FWD /\ tells hav vc objs g e a b v n).
Proof.
  intros H1 H2 E. unfold pbf_graph in E. apply bind_ok in E. destruct E as ([] & _ & E).
  set (es := pbf_edges (osm_cfg vc) objs) in *.
  assert (Hes : forall pe, In pe es <-> exists nodes ts c a b, In (OsmWay nodes ts) objs /\ passable vc nodes ts c a b /\ pe = plain_edge (osm_row c ts) a b).
  { intros pe. unfold es. rewrite pbf_edges_in. reflexivity. }
  assert (Hf : fitting_edges (pc_cfg (osm_cfg vc)) es).
  { intros pe Hpe. apply Hes in Hpe. destruct Hpe as (? & ts & c & a & b & _ & _ & ->). reflexivity. }
  destruct (build_traced _ _ _ _ _ _ _ H1 H2 E eq_refl Hf eq_refl) as (g0 & D0 & D & I & F & N & C & A & B).
  assert (Hloc : forall i id x, node_id g i = Ok id -> node_coord g i = Ok x -> located objs id x).
  { intros i id x Hi Hx. destruct (build_nodes _ _ _ _ _ _ _ H1 H2 E) as (_ & _ & _ & _ & Hn).
    apply idx_ok in Hi. destruct (Hn i id Hi) as [(n & Hl & <- & Hc) _]. assert (x = pn_coord n) as -> by congruence. now apply located_last. }
  assert (G : forall e nodes ts c a b, e < edge_count g FWD -> In (OsmWay nodes ts) objs -> passable vc nodes ts c a b ->
    same_ends g e (plain_edge (osm_row c ts) a b) -> edge_metrics g0 e = Ok (map clamp_metric (osm_row c ts)) ->
    tells hav vc objs g e a b (parse_maxspeed c ts) (parse_lane_count c ts)).
  { intros e nodes ts c a b He Hw Hp (s & d & Hft & Hs & Hd) Hm. unfold osm_row in Hm. cbn [map] in Hm.
    rewrite !clamp_big in Hm by auto using speed_pos, lanes_pos.
    destruct (osm_generated hav g0 g e _ _ D0 D I F He C Hm) as (s' & d' & xs & xd & [Q1 Q2] & Hxs & Hxd & Hme).
    destruct Hft as [P1 P2]. assert (s' = s) by congruence. assert (d' = d) by congruence. subst s' d'.
    exists s, d, xs, xd. split; [exists nodes, ts, c; auto|]. split; [split; auto|]. split; [exact Hs|]. split; [exact Hd|]. split; [auto|]. split; [auto|].
    split; [apply (Hloc s); auto|]. split; [apply (Hloc d); auto|]. exact Hme. }
  split.
  - intros e He. destruct (A e He) as (pe & Hpe & Hse & Hm). apply Hes in Hpe. destruct Hpe as (nodes & ts & c & a & b & Hw & Hp & ->).
    exists a, b, (parse_maxspeed c ts), (parse_lane_count c ts). eapply G; eauto.
  - intros a b v n (nodes & ts & c & Hw & Hp & -> & ->). set (pe := plain_edge (osm_row c ts) a b).
    assert (Hpe : In pe es) by (apply Hes; exists nodes, ts, c, a, b; auto).
    destruct (B pe Hpe) as (e & pe' & He & Hpe' & Hsame & Hse & Hm). exists e. split; [exact He|].
    apply Hes in Hpe'. destruct Hpe' as (nodes' & ts' & c' & a' & b' & Hw' & Hp' & ->).
    assert (K : a' = a /\ b' = b /\ parse_maxspeed c' ts' = parse_maxspeed c ts /\ parse_lane_count c' ts' = parse_lane_count c ts).
    { destruct Hsame as [Es|(S1 & S2 & _ & S4)].
      - injection Es as -> -> Q1 Q2. repeat split; auto; [apply N2Z.inj; exact Q1|apply Nat2Z.inj; exact Q2].
      - cbn in S1, S2. split; [auto|]. split; [auto|].
        pose proof (S4 0 _ _ eq_refl eq_refl) as T0. pose proof (S4 1 _ _ eq_refl eq_refl) as T1. apply close_int in T0, T1.
        split; [apply N2Z.inj; exact T0|apply Nat2Z.inj; exact T1]. }
    destruct K as (-> & -> & K1 & K2). rewrite <- K1, <- K2.
    destruct (G e nodes' ts' c' a b He Hw' Hp' Hse Hm) as (s & d & xs & xd & T). exists s, d, xs, xd. exact T.
Qed.
