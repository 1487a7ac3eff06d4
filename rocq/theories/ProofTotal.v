(** A run which routes ends well *)
From Coq Require Import String Ascii List Bool Arith NArith ZArith QArith Lia Lqa.
From Verif Require Import Base F64 Lib ModelText ModelUnits ModelConfig ModelGraph ModelBuild ModelDijkstra ModelRoutingCfg ModelBalancing
  ModelFmi ModelParsing ModelYaml ModelDocs ModelProgram Spec SpecRouting SpecPaths SpecProgram SpecRouted
  ProofGraph ProofRouting ProofDijkstra ProofPaths ProofExplorator ProofProgram ProofProgram2 ProofNonneg ProofRouted
  PropsGraph PropsRouting PropsPaths PropsBalancing.
Import ListNotations.
Open Scope nat_scope.

(** *** Cheapest paths use no edge twice *)

Lemma weighted_nonneg al ms q : Forall not_negative al -> (forall x, In x ms -> not_negative x) ->
  weighted_sum al ms = Some q -> (0 <= q)%Q.
Proof.
  unfold weighted_sum. revert ms q. induction al as [|a al IH]; intros [|m ms] q Ha Hm E; cbn in E;
    try (injection E as <-; lra).
  destruct a as [a| | |]; try discriminate. destruct m as [m| | |]; try discriminate.
  destruct (fold_right _ _ (combine al ms)) as [s|] eqn:Es; [|discriminate]. injection E as <-.
  inversion Ha as [|? ? A1 A2]; subst. cbn in A1. assert (M1 : (0 <= m)%Q) by (apply (Hm (Fin m)); now left).
  assert (0 <= s)%Q by (apply (IH ms s A2); [intros x Hx; apply Hm; now right|exact Es]). pose proof (Qmult_le_0_compat _ _ A1 M1). lra.
Qed.

Lemma costs_nonneg g al l q : nonneg_metrics g -> Forall not_negative al -> costs_as g al l q -> (0 <= q)%Q.
Proof.
  intros Hn Ha. induction 1 as [|e es ms a b Em Ew Hc IH]; [lra|].
  assert (0 <= a)%Q by (eapply weighted_nonneg; eauto). lra.
Qed.

Lemma costs_app g al l1 : forall l2 q, costs_as g al (l1 ++ l2) q ->
  exists q1 q2, costs_as g al l1 q1 /\ costs_as g al l2 q2 /\ (q == q1 + q2)%Q.
Proof.
  induction l1 as [|e l1 IH]; intros l2 q H; cbn [app] in H.
  - exists 0%Q, q. split; [constructor|]. split; auto. lra.
  - inversion H as [|? ? ms a b Em Ew Hc]; subst. destruct (IH _ _ Hc) as (q1 & q2 & A & B & C).
    exists (a + q1)%Q, q2. split; [econstructor; eauto|]. split; auto. lra.
Qed.

Lemma costs_join g al l1 q1 : costs_as g al l1 q1 -> forall l2 q2, costs_as g al l2 q2 ->
  exists q, costs_as g al (l1 ++ l2) q /\ (q == q1 + q2)%Q.
Proof.
  induction 1 as [|e es ms a b Em Ew Hc IH]; intros l2 q2 H2; cbn [app].
  - exists q2. split; auto. lra.
  - destruct (IH _ _ H2) as (q & A & B). exists (a + q)%Q. split; [econstructor; eauto|]. lra.
Qed.

Lemma twice_or_not (l : list nat) : NoDup l \/ exists l1 e l2 l3, l = l1 ++ e :: l2 ++ e :: l3.
Proof.
  induction l as [|x l [IH|(l1 & e & l2 & l3 & ->)]].
  - left. constructor.
  - destruct (in_dec Nat.eq_dec x l) as [H|H]; [right|left; now constructor].
    apply in_split in H. destruct H as (a & b & ->). exists [], x, a, b. reflexivity.
  - right. exists (x :: l1), e, l2, l3. reflexivity.
Qed.

Lemma cheapest_once g al tol s t l q : nonneg_metrics g -> Forall not_negative al -> costs_more g al tol ->
  connects g s l t -> costs_as g al l q ->
  (forall l' q', connects g s l' t -> costs_as g al l' q' -> (q <= q' + tol)%Q) -> NoDup l.
Proof.
  intros Hn Ha Hm Hc Hq Hmin. destruct (twice_or_not l) as [H|(l1 & e & l2 & l3 & ->)]; [exact H|exfalso].
  destruct (connects_split g t l1 s _ Hc) as (x & C1 & C2).
  inversion C2 as [|? ? y ? ? Ee C3]; subst. destruct (connects_split g t l2 y _ C3) as (x' & C4 & C5).
  inversion C5 as [|? ? y' ? ? Ee' C6]; subst. destruct Ee as [A1 A2], Ee' as [B1 B2].
  assert (x' = x) by congruence. assert (y' = y) by congruence. subst x' y'.
  destruct (costs_app _ _ _ _ _ Hq) as (q1 & r1 & D1 & D2 & D3).
  inversion D2 as [|? ? ms a b Em Ew D4]; subst. destruct (costs_app _ _ _ _ _ D4) as (q2 & r2 & D5 & D6 & D7).
  inversion D6 as [|? ? ms' a' b' Em' Ew' D8]; subst.
  assert (ms' = ms) by congruence. subst ms'. assert (a' = a) by congruence. subst a'.
  assert (C7 : connects g s (l1 ++ e :: l3) t).
  { apply (connects_app g s l1 x (e :: l3) t C1). econstructor; [split; [exact A1|exact A2]|exact C6]. }
  destruct (costs_join _ _ _ _ D1 (e :: l3) (a + b')%Q ltac:(econstructor; eauto)) as (q' & E1 & E2).
  specialize (Hmin _ _ C7 E1).
  assert (K : (tol < a + 0)%Q) by (apply (Hm e); econstructor; eauto; constructor).
  assert (0 <= q2)%Q by (eapply costs_nonneg; eauto). lra.
Qed.

Lemma once_short g l : NoDup l -> edges_exist g l -> length l <= edge_count g FWD.
Proof.
  intros Hd He. rewrite <- (seq_length (edge_count g FWD) 0). apply NoDup_incl_length; auto.
  intros x Hx. apply in_seq. specialize (He x Hx). lia.
Qed.

(** *** Unrolled paths cost the same *)

Lemma weighted_adds al : forall ms ma mb x, length ma = length ms -> length mb = length ms ->
  weighted_sum al ms = Some x ->
  (forall i q, nth_error ms i = Some (Fin q) -> exists y z, nth_error ma i = Some (Fin y) /\ nth_error mb i = Some (Fin z) /\ (q == y + z)%Q) ->
  exists y z, weighted_sum al ma = Some y /\ weighted_sum al mb = Some z /\ (x == y + z)%Q.
Proof.
  unfold weighted_sum. induction al as [|a al IH]; intros ms ma mb x La Lb E H.
  - cbn in E. injection E as <-. exists 0%Q, 0%Q. cbn. repeat split. 
  - destruct ms as [|m ms]; destruct ma as [|m1 ma]; destruct mb as [|m2 mb]; try discriminate.
    + cbn in E. injection E as <-. exists 0%Q, 0%Q. cbn. repeat split.
    + cbn in E. destruct a as [a| | |]; try discriminate. destruct m as [m| | |]; try discriminate.
      destruct (fold_right _ _ (combine al ms)) as [s|] eqn:Es; [|discriminate]. injection E as <-.
      destruct (H 0 m eq_refl) as (y & z & A & B & C). cbn in A, B. injection A as ->. injection B as ->.
      destruct (IH ms ma mb s) as (y' & z' & A' & B' & C'); auto.
      { intros i q Hi. exact (H (S i) q Hi). }
      cbn. rewrite A', B'. exists (a * y + y')%Q, (a * z + z')%Q. repeat split. rewrite C, C'. ring.
Qed.

Section Unrolled.
  Variables (hav : coord -> coord -> f64) (c : cfg) (ch1 ch2 : nat) (es : list proto_edge) (ns : list proto_node) (g : graph).
  Hypothesis H1 : 1 <= ch1.
  Hypothesis H2 : 1 <= ch2.
  Hypothesis HB : build hav c ch1 ch2 es ns = Ok g.
  Hypothesis Hal : aligned_metrics g.
  Hypothesis Hadd : shortcuts_add_up g.
  Variable al : list f64.

  Lemma stands_costs e l : stands_for g e l -> e < edge_count g FWD -> forall q, costs_as g al [e] q ->
    exists q', costs_as g al l q' /\ (q' == q)%Q.
  Proof.
    induction 1 as [e Es|e a b la lb Es Sa IHa Sb IHb]; intros He q Hq.
    - exists q. split; auto. lra.
    - destruct (build_sc_edges _ _ _ _ _ _ _ _ _ _ H1 H2 HB He Es) as [La Lb].
      inversion Hq as [|? ? ms x y Em Ew Hn]; subst. inversion Hn; subst.
      destruct (build_metrics _ _ _ _ _ _ _ a H1 H2 HB La) as [ma Ema].
      destruct (build_metrics _ _ _ _ _ _ _ b H1 H2 HB Lb) as [mb Emb].
      destruct (weighted_adds al ms ma mb x) as (ya & zb & Wa & Wb & Hs); auto.
      { rewrite (Hal _ _ Em). apply (Hal _ _ Ema). }
      { rewrite (Hal _ _ Em). apply (Hal _ _ Emb). }
      { intros i q Hi. destruct (Hadd e a b i q Es) as (y & z & A & B & C).
        - unfold metric_of. now rewrite Em.
        - unfold metric_of in A, B. rewrite Ema in A. rewrite Emb in B. eauto. }
      destruct (IHa La (ya + 0)%Q) as (qa & A1 & A2); [econstructor; eauto; constructor|].
      destruct (IHb Lb (zb + 0)%Q) as (qb & B1 & B2); [econstructor; eauto; constructor|].
      destruct (costs_join _ _ _ _ A1 _ _ B1) as (r & R1 & R2). exists r. split; auto. lra.
  Qed.

  Lemma all_costs l ls : Forall2 (stands_for g) l ls -> edges_exist g l -> forall q, costs_as g al l q ->
    exists q', costs_as g al (concat ls) q' /\ (q' == q)%Q.
  Proof.
    induction 1 as [|e x l ls He F IH]; intros Hx q Hq; cbn [concat].
    - exists q. split; auto. lra.
    - inversion Hq as [|? ? ms a b Em Ew Hn]; subst.
      destruct (stands_costs e x He (Hx e (or_introl eq_refl)) (a + 0)%Q) as (q1 & A1 & A2); [econstructor; eauto; constructor|].
      destruct (IH (fun y Hy => Hx y (or_intror Hy)) b Hn) as (q2 & B1 & B2).
      destruct (costs_join _ _ _ _ A1 _ _ B1) as (r & R1 & R2). exists r. split; auto. lra.
  Qed.
End Unrolled.

Lemma all_resolve g l : shortcuts_resolve g -> edges_exist g l -> exists ls, Forall2 (stands_for g) l ls.
Proof.
  intros Hr. induction l as [|e l IH]; intros He; [eauto|].
  destruct (Hr e (He e (or_introl eq_refl))) as [x Hx]. destruct IH as [ls F]; [intros y Hy; apply He; now right|]. eauto.
Qed.

(** *** Queries are answered *)

Lemma named_into hav c ch1 ch2 es ns g p s t : 1 <= ch1 -> 1 <= ch2 -> build hav c ch1 ch2 es ns = Ok g ->
  node_named g (fst p) s -> node_named g (snd p) t -> into_node g p = Ok (s, t).
Proof.
  intros H1 H2 HB [Ls Is] [Lt It]. destruct (C04_node_lookup _ _ _ _ _ _ _ H1 H2 HB) as (_ & _ & _ & Hc).
  destruct (Hc _ _ Is) as (co & l & _ & _ & A). destruct (Hc _ _ It) as (co' & l' & _ & _ & A').
  unfold into_node. rewrite A. cbn [bind expect]. rewrite A'. reflexivity.
Qed.

Section Total.
  Variables (hav : coord -> coord -> f64) (c : cfg) (ch1 ch2 : nat) (es : list proto_edge) (ns : list proto_node) (g : graph).
  Hypothesis H1 : 1 <= ch1.
  Hypothesis H2 : 1 <= ch2.
  Hypothesis HB : build hav c ch1 ch2 es ns = Ok g.
  Hypothesis Hnn : nonneg_metrics g.
  Hypothesis Hal : aligned_metrics g.
  Hypothesis Hlast : last_node_connected g.
  Hypothesis Htwo : node_count g <> 2.
  Hypothesis Hres : shortcuts_resolve g.
  Hypothesis Hfit : shortcuts_fit g.
  Hypothesis Hadd : shortcuts_add_up g.
  Variable e : env.
  Variable rc : routing_cfg.
  Hypothesis Ha : Forall not_negative (rc_alphas rc).
  Hypothesis Halg : rc_algo rc = ADijkstra \/ rc_algo rc = ACHDijkstra /\ contracted g (rc_alphas rc).
  Variable delta : Q.
  Hypothesis Hdel : (0 <= delta)%Q.
  Hypothesis Hpk : picks_min delta (e_pick e).
  Hypothesis Hmore : costs_more g (rc_alphas rc) (2 * delta).
  Hypothesis Hfuel : 2 + 2 * powers (edge_count g FWD) (node_count g) <= e_fuel e.
  Hypothesis Hfuel' : 2 * edge_count g FWD <= e_fuel e.

  Lemma found_flattened st s t st' p : history st -> s < node_count g -> t < node_count g ->
    compute_best_path (e_pick e) (e_fuel e) st g rc s t = Ok (st', Some p) -> exists p', flatten g (e_fuel e) p = Ok p'.
  Proof.
    intros Hh Hs Ht Ec. assert (Hr : roomy st g) by (intros X; contradiction).
    destruct (C16_real_path _ _ _ _ _ _ _ _ _ _ _ _ _ _ _ H1 H2 HB Hnn Hh Hr Hs Ht (proj1 Hpk) Ec)
      as (_ & _ & _ & _ & _ & Hc & _).
    assert (Hopt : exists qp, costs_as g (rc_alphas rc) (p_edges p) qp /\
      forall l q, connects g s l t -> costs_as g (rc_alphas rc) l q -> (qp <= q + 2 * delta)%Q).
    { destruct Halg as [Hd|[Hch Hcon]].
      - exact (C18_optimal _ _ _ _ _ _ _ _ _ _ _ _ _ _ _ _ H1 H2 HB Hnn Hh Hr Hs Ht Hdel Hpk Hd Ec).
      - destruct (C19_ch_shortest _ _ _ _ _ _ _ _ _ _ _ _ _ _ _ _ H1 H2 HB Hnn Hh Hr Hs Ht Ha Hdel Hpk Hch (Hcon s t) Ec) as [_ K].
        destruct (K p eq_refl) as (qp & A & B). exists qp. split; auto. intros l q X Y. specialize (B l q X Y). lra. }
    destruct Hopt as (qp & Hq & Hmin). pose proof (connects_exist _ _ _ _ Hc) as Hex.
    destruct (all_resolve g _ Hres Hex) as (ls & F).
    destruct (all_costs _ _ _ _ _ _ _ H1 H2 HB Hal Hadd (rc_alphas rc) _ _ F Hex _ Hq) as (q' & Hq' & Eq).
    pose proof (all_connects g Hfit _ _ _ Hc _ F) as Hc'.
    assert (Hnd : NoDup (concat ls)).
    { apply (cheapest_once g (rc_alphas rc) (2 * delta) s t (concat ls) q'); auto. intros l r X Y. specialize (Hmin l r X Y). lra. }
    pose proof (once_short g _ Hnd (connects_exist _ _ _ _ Hc')) as Hlen.
    destruct (C24_terminates _ _ _ _ _ _ _ (e_fuel e) p ls H1 H2 HB Hex F) as (p' & _ & E & _); [lia|lia|eauto].
  Qed.

  Definition known (r : route) : Prop := exists s t, node_named g (fst (fst r)) s /\ node_named g (snd (fst r)) t.

  Lemma route_once_total st acc r : history st -> capacity st <= node_count g -> known r ->
    exists st' acc', route_once e g rc (st, acc) r = Ok (st', acc') /\ history st' /\ capacity st' <= node_count g.
  Proof.
    intros Hh Hcap (s & t & Ns & Nt). unfold route_once.
    rewrite (named_into _ _ _ _ _ _ _ _ s t H1 H2 HB Ns Nt). cbn [bind fst snd].
    assert (Hr : roomy st g) by (intros X; contradiction).
    assert (Hne : forall i, rc_algo rc <> AExplorator i) by (intros i; destruct Halg as [X|[X _]]; rewrite X; discriminate).
    destruct (C17_total_partial _ _ _ _ _ _ _ (e_pick e) (e_fuel e) st rc s t H1 H2 HB Hnn Hlast Hh Hr (fun _ => Hcap) (proj1 Ns) (proj1 Nt) Ha Hne (proj1 Hpk) Hfuel)
      as (st' & o & Ec).
    rewrite Ec. cbn [bind fst snd].
    assert (K : history st' /\ capacity st' <= node_count g) by (split; [eapply history_query; eauto|eapply capacity_bound; eauto]).
    destruct o as [p|]; [|eauto].
    destruct (found_flattened _ _ _ _ _ Hh (proj1 Ns) (proj1 Nt) Ec) as (p' & ->). cbn [bind]. eauto.
  Qed.

  Lemma route_all_total pairs : Forall known pairs -> forall st acc, history st -> capacity st <= node_count g ->
    exists r, foldM (route_once e g rc) pairs (st, acc) = Ok r.
  Proof.
    induction 1 as [|r pairs Hk F IH]; intros st acc Hh Hc; cbn [foldM]; [eauto|].
    destruct (route_once_total st acc r Hh Hc Hk) as (st' & acc' & E & Hh' & Hc'). rewrite E. cbn [bind]. auto.
  Qed.
End Total.

(** *** The files are read *)

Lemma next_fwd {A B} (m : io A) (k : A -> io B) w w1 a : m w = (w1, Ok a) -> next m k w = k a w1.
Proof. intros H. unfold next. now rewrite H. Qed.

Section Healthy.
  Variable e : env.
  Hypothesis Hok : forall k, e_fails e k = false.

  Lemma read_fwd fail p w t : file_at e w p = Some t -> exists w', read_file e fail p w = (w', Ok t) /\ same_files w w'.
  Proof.
    intros Ht. unfold read_file, next, outside, look, lift. cbn. rewrite Hok. cbn. unfold file_at in Ht. rewrite Ht.
    eexists. split; [reflexivity|]. intros k. reflexivity.
  Qed.

  Lemma load_fwd {A} (read : yaml -> res A) p w a : (exists x, find_supported_ext CFG_EXTS p = Ok x) -> says e w read p a ->
    exists w', load e read p w = (w', Ok a) /\ same_files w w'.
  Proof.
    intros [x Hx] (t & y & Ht & Hy & Hr). destruct (read_fwd (Err "couldn't open config") p w t Ht) as (w1 & E & S).
    exists w1. split; auto. unfold load. rewrite (next_fwd _ _ w w x) by (unfold lift; now rewrite Hx).
    rewrite (next_fwd _ _ _ _ _ E). unfold lift. now rewrite Hy, Hr.
  Qed.

  Lemma gens_fwd cs : (forall from h i info, In (DMerge from h i info) cs -> exists x, find_supported_ext EDGES_EXTS from = Ok x) ->
    forall w gs, Forall2 (with_rows e w) cs gs -> exists w', load_gens e cs w = (w', Ok gs) /\ same_files w w'.
  Proof.
    assert (Hr : forall w w' c g, same_files w w' -> with_rows e w c g -> with_rows e w' c g).
    { intros w w' c g S1. destruct c; cbn; [auto|]. intros (t & Ht & E). exists t. unfold file_at in *. rewrite S1. auto. }
    induction cs as [|c cs IH]; intros Hx w gs F; inversion F as [|? g ? gs' R F']; subst; cbn [load_gens].
    - eexists. split; [reflexivity|apply same_refl].
    - assert (K : exists w1, load_gen e c w = (w1, Ok g) /\ same_files w w1).
      { destruct c as [gc|from h i info]; cbn [load_gen with_rows] in *.
        - subst g. eexists. split; [reflexivity|apply same_refl].
        - destruct R as (t & Ht & ->). destruct (Hx from h i info (or_introl eq_refl)) as [x Ex].
          destruct (read_fwd Panic from w t Ht) as (w1 & E & S1). exists w1. split; auto.
          rewrite (next_fwd _ _ w w x) by (unfold lift; now rewrite Ex). now rewrite (next_fwd _ _ _ _ _ E). }
      destruct K as (w1 & E1 & S1).
      destruct (IH (fun a b c' d' H => Hx a b c' d' (or_intror H)) w1 gs') as (w2 & E2 & S2).
      { clear -F' Hr S1. induction F'; constructor; eauto. }
      exists w2. split; [|eapply same_trans; eauto]. rewrite (next_fwd _ _ _ _ _ E1). now rewrite (next_fwd _ _ _ _ _ E2).
  Qed.

  Lemma check_same w d gens : Forall2 (with_rows e w) (gen_edges d) gens ->
    check_config (e_dim e) (config_of d (map unmerged (gen_edges d))) = check_config (e_dim e) (config_of d gens).
  Proof.
    intros F. assert (K : map added_metrics (map unmerged (gen_edges d)) = map added_metrics gens).
    { induction F as [|c x cs gs R F IH]; cbn [map]; [reflexivity|]. f_equal; auto. destruct c; cbn in *; [now subst|].
      destruct R as (t & _ & ->). reflexivity. }
    unfold check_config. cbn [config_of pc_nodes pc_cfg cfg_edges cfg_gen_edges]. now rewrite K.
  Qed.

  Lemma parse_fwd d w g : (forall from h i info, In (DMerge from h i info) (gen_edges d) -> exists x, find_supported_ext EDGES_EXTS from = Ok x) ->
    graph_of e w d g -> exists w', parse_graph e d w = (w', Ok {| ld_doc := d; ld_graph := g |}) /\ same_files w w'.
  Proof.
    intros Hx (t & gens & Ht & F & Hg). unfold parse_graph. destruct (read_fwd Panic _ w t Ht) as (w1 & E1 & S1).
    assert (F1 : Forall2 (with_rows e w1) (gen_edges d) gens).
    { clear -F S1. induction F as [|c x cs gs R F IH]; constructor; auto. destruct c; cbn in *; auto.
      destruct R as (t & Ht & E). exists t. unfold file_at in *. rewrite S1. auto. }
    destruct (gens_fwd _ Hx w1 gens F1) as (w2 & E2 & S2).
    assert (Hc : check_config (e_dim e) (config_of d gens) = Ok tt).
    { change (config_of d gens) with (told d gens). destruct Hg as [[_ Hg]|[_ Hg]].
      - unfold fmi_graph, fmi_parse, fmi_preprocess in Hg. destruct (check_config (e_dim e) (told d gens)) as [[]| | |]; auto; discriminate.
      - unfold pbf_graph, pbf_preprocess in Hg. destruct (check_config (e_dim e) (told d gens)) as [[]| | |]; auto; discriminate. }
    exists w2. split; [|eapply same_trans; eauto].
    destruct Hg as [[Hext Hg]|[Hext Hg]].
    - rewrite (next_fwd _ _ w w "fmi"%string) by (unfold lift; now rewrite Hext).
      rewrite (next_fwd _ _ w w tt) by (unfold lift; now rewrite (check_same w d gens F), Hc).
      rewrite (next_fwd _ _ _ _ _ E1), (next_fwd _ _ _ _ _ E2). cbn [String.eqb]. 
      rewrite (next_fwd _ _ w2 w2 g); [reflexivity|]. unfold lift. f_equal. exact Hg.
    - rewrite (next_fwd _ _ w w "pbf"%string) by (unfold lift; now rewrite Hext).
      rewrite (next_fwd _ _ w w tt) by (unfold lift; now rewrite (check_same w d gens F), Hc).
      rewrite (next_fwd _ _ _ _ _ E1), (next_fwd _ _ _ _ _ E2).
      rewrite (next_fwd _ _ w2 w2 g); [reflexivity|]. unfold lift. f_equal. exact Hg.
  Qed.

  Lemma says_same {A} w w' (read : yaml -> res A) p a : same_files w w' -> says e w read p a -> says e w' read p a.
  Proof. intros S. apply says_kept. now apply same_kept. Qed.

  (** routing after the graph has been read *)
  Lemma routing_fwd cfg g p rc pairs w r : (exists x, find_supported_ext CFG_EXTS cfg = Ok x) -> (exists x, find_supported_ext PAIRS_EXTS p = Ok x) ->
    routing_says e w cfg g (Some p) rc -> pairs_in e w p pairs ->
    foldM (match rc_algo rc with AExplorator _ => explore_once e g rc | _ => route_once e g rc end) pairs (dijkstra_new, []) = Ok r ->
    exists w', simply_routing e cfg g w = (w', Ok (snd r)).
  Proof.
    intros Hx [x Ex] Hrc (t & Ht & Hp) Hf. destruct (load_fwd _ _ _ _ Hx Hrc) as (w1 & E1 & S1).
    assert (Ht1 : file_at e w1 p = Some t) by (eapply file_kept; [apply same_kept; exact S1|exact Ht]).
    destruct (read_fwd Panic p w1 t Ht1) as (w2 & E2 & S2). exists w2. unfold simply_routing, load_routing.
    rewrite (next_fwd _ _ _ _ _ E1). cbn [fst snd load_pairs].
    rewrite (next_fwd _ _ w1 w2 pairs).
    - rewrite (next_fwd _ _ w2 w2 r) by (unfold lift; now rewrite Hf). reflexivity.
    - rewrite (next_fwd _ _ w1 w1 x) by (unfold lift; now rewrite Ex). rewrite (next_fwd _ _ _ _ _ E2). unfold lift. now rewrite Hp.
  Qed.
End Healthy.
