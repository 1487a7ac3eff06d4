(** Properties C16-C22: bidirectional Dijkstra.  The order in which the
    priority queue delivers its entries is arbitrary ([valid_pick]) or
    arbitrary up to an error ([picks_min delta]). *)
From Coq Require Import String List Bool Arith ZArith QArith Lia Lqa.
From Verif Require Import Base F64 Lib ModelUnits ModelConfig ModelGraph ModelBuild Spec Examples
  ModelDijkstra AbsSearch SpecRouting ProofDijkstra ProofRouting ExamplesRouting.
Import ListNotations.
Open Scope list_scope.
Open Scope nat_scope.

Lemma alphas_of_some pick fuel st g rc s t st' p :
  compute_best_path pick fuel st g rc s t = Ok (st', Some p) -> Forall not_negative (rc_alphas rc).
Proof.
  intros E. rewrite compute_split in E. destruct (existsb _ _) eqn:Ex; [discriminate|].
  apply Forall_forall. intros a Ha. apply not_lt_zero. destruct (fltb a f0) eqn:El; auto.
  assert (existsb (fun a => fltb a f0) (rc_alphas rc) = true) by (apply existsb_exists; eauto). congruence.
Qed.

(** every answer stems from a run of the abstract search *)
Lemma compute_run hav c ch1 ch2 es ns g pick (P : list entry -> nat -> Q -> dir -> list entry -> Prop) fuel st rc s t st' r :
  1 <= ch1 -> 1 <= ch2 -> build hav c ch1 ch2 es ns = Ok g -> nonneg_metrics g ->
  history st -> roomy st g -> s < node_count g -> t < node_count g -> Forall not_negative (rc_alphas rc) ->
  valid_pick pick -> (forall q v c d q', P q v c d q' -> pops q v c d q') ->
  (forall k q v c d,
      nth_error q (pick k (map conc q)) = Some (v, c, d) -> P q v c d (remove_nth (pick k (map conc q)) q)) ->
  compute_best_path pick fuel st g rc s t = Ok (st', r) ->
  exists a, arun (adj g (rc_alphas rc) (is_ch (rc_algo rc))) (tgt g) (wq g (rc_alphas rc)) (is_ch (rc_algo rc)) P
              (init (root s t)) a /\ answer_of g (rc_alphas rc) (is_ch (rc_algo rc)) s t a r.
Proof.
  intros H1 H2 E Hnn Hh Hr Hs Ht Ha Hv HP Hpk Ec. pose proof (build_wf _ _ _ _ _ _ _ H1 H2 E) as Hwf.
  destruct (compute_ok _ _ _ _ _ _ _ _ Hh Hr Ha Ec) as (st0 & Hf & Eq).
  destruct (query_sim g (rc_alphas rc) (is_ch (rc_algo rc)) s t Hwf Hnn Ha Hs Ht pick P fuel st0 Hv HP Hpk Hf)
    as [(st1 & r1 & a & E1 & Hrun & Hans)|[(E1 & _)|(E1 & _)]]; [|congruence|congruence].
  rewrite Eq in E1. injection E1 as <- <-. eauto.
Qed.

(** *** C16: whatever the queue does, a returned path is a path *)
Theorem C16_real_path hav c ch1 ch2 es ns g pick fuel st rc s t st' p :
  1 <= ch1 -> 1 <= ch2 -> build hav c ch1 ch2 es ns = Ok g -> nonneg_metrics g ->
  history st -> roomy st g -> s < node_count g -> t < node_count g -> valid_pick pick ->
  compute_best_path pick fuel st g rc s t = Ok (st', Some p) ->
  p_src_idx p = s /\ p_dst_idx p = t /\
  node_id g s = Ok (p_src_id p) /\ node_id g t = Ok (p_dst_id p) /\ p_costs p = None /\
  connects g s (p_edges p) t /\
  (exists q, costs_as g (rc_alphas rc) (p_edges p) q) /\
  (rc_algo rc = ACHDijkstra -> up_down g (p_edges p)).
Proof.
  intros H1 H2 E Hnn Hh Hr Hs Ht Hv Ec. pose proof (alphas_of_some _ _ _ _ _ _ _ _ _ Ec) as Ha.
  pose proof (build_wf _ _ _ _ _ _ _ H1 H2 E) as Hwf.
  destruct (compute_run _ _ _ _ _ _ _ pick pops fuel st rc s t st' (Some p) H1 H2 E Hnn Hh Hr Hs Ht Ha Hv)
    as (a & _ & Hans); auto using pops_pick.
  unfold answer_of in Hans. destruct (bst a) as [[m b]|]; [|discriminate].
  destruct Hans as (lf & lb & sid & tid & _ & _ & Wf & Wb & Es & Et & Hp). injection Hp as ->. cbn [path_new p_src_idx p_dst_idx p_src_id p_dst_id p_edges p_costs].
  destruct (walk_fwd _ _ _ _ _ Hwf Hs Ht m lf Wf) as (A1 & A2 & A3).
  destruct (walk_bwd _ _ _ _ _ Hwf Hs Ht m lb Wb) as (B1 & B2 & B3).
  repeat (split; [now auto|]). split; [|split].
  - eapply connects_app; eauto.
  - destruct (costs_of g (rc_alphas rc) (lf ++ rev lb)) as (q & Hq & _); [|eauto].
    intros e He. apply in_app_or in He. destruct He; auto.
  - intros Hch. rewrite Hch in *. exists lf, (rev lb). auto.
Qed.
Print Assumptions C16_real_path.

Lemma nonneg_of_list g : Forall (Forall not_negative) (metrics g) -> nonneg_metrics g.
Proof.
  intros H e ms x E Hx. rewrite Forall_forall in H. apply idx_ok in E. apply nth_error_In in E.
  specialize (H _ E). rewrite Forall_forall in H. auto.
Qed.
Lemma rt_nonneg : nonneg_metrics rt_graph.
Proof. apply nonneg_of_list. vm_compute. repeat constructor; discriminate. Qed.
Lemma sink_nonneg : nonneg_metrics sink_graph.
Proof. apply nonneg_of_list. vm_compute. repeat constructor; discriminate. Qed.
Lemma new_roomy g : node_count g <> 2 -> roomy dijkstra_new g.
Proof. intros H E. congruence. Qed.
Example C16_case : exists st' p,
  compute_best_path lifo_pick 50 dijkstra_new rt_graph (ex_rc ADijkstra [Fin 1]) 0 4 = Ok (st', Some p) /\
  p_edges p = [0; 3; 5] /\ valid_pick lifo_pick /\ nonneg_metrics rt_graph /\ history dijkstra_new /\
  roomy dijkstra_new rt_graph.
Proof.
  do 2 eexists. split; [vm_compute; reflexivity|]. split; [reflexivity|]. split; [apply lifo_valid|].
  split; [apply rt_nonneg|]. split; [constructor|]. apply new_roomy. discriminate.
Qed.

(** *** C17 *)
Lemma splits_of g alphas s t es : wf_graph g -> s < node_count g -> t < node_count g ->
  connects g s es t -> (forall e, In e es -> finite g alphas e = true) ->
  forall l1 l2, es = l1 ++ l2 ->
    exists x, walk (adj g alphas false) (tgt g) (root s t) FWD x l1 /\ walk (adj g alphas false) (tgt g) (root s t) BWD x (rev l2).
Proof.
  intros Hwf Hs Ht Hc Hf l1 l2 ->. destruct (connects_split _ _ _ _ _ Hc) as (x & A & B). exists x. split.
  - apply fwd_walk; auto; [|discriminate]. intros e He. apply Hf. apply in_or_app. now left.
  - apply bwd_walk; auto; [|discriminate]. intros e He. apply Hf. apply in_or_app. now right.
Qed.

Lemma up_down_walks g alphas s t es : wf_graph g -> s < node_count g -> t < node_count g ->
  connects g s es t -> (forall e, In e es -> finite g alphas e = true) -> up_down g es ->
  exists x l1 l2, es = l1 ++ l2 /\ walk (adj g alphas true) (tgt g) (root s t) FWD x l1 /\
    walk (adj g alphas true) (tgt g) (root s t) BWD x (rev l2).
Proof.
  intros Hwf Hs Ht Hc Hf (l1 & l2 & -> & Hu & Hd). destruct (connects_split _ _ _ _ _ Hc) as (x & A & B).
  exists x, l1, l2. split; [auto|]. split.
  - apply fwd_walk; auto. intros e He. apply Hf. apply in_or_app. now left.
  - apply bwd_walk; auto. intros e He. apply Hf. apply in_or_app. now right.
Qed.

(** An answer is "no path" iff no path of finite cost exists. *)
Theorem C17_found_iff hav c ch1 ch2 es ns g pick fuel st rc s t st' r :
  1 <= ch1 -> 1 <= ch2 -> build hav c ch1 ch2 es ns = Ok g -> nonneg_metrics g ->
  history st -> roomy st g -> s < node_count g -> t < node_count g -> Forall not_negative (rc_alphas rc) ->
  valid_pick pick -> rc_algo rc = ADijkstra ->
  compute_best_path pick fuel st g rc s t = Ok (st', r) ->
  (r = None <-> ~ exists l q, connects g s l t /\ costs_as g (rc_alphas rc) l q).
Proof.
  intros H1 H2 E Hnn Hh Hr Hs Ht Ha Hv Hal Ec. pose proof (build_wf _ _ _ _ _ _ _ H1 H2 E) as Hwf.
  split.
  - intros -> (l & q & Hl & Hq).
    destruct (compute_run _ _ _ _ _ _ _ pick pops fuel st rc s t st' None H1 H2 E Hnn Hh Hr Hs Ht Ha Hv)
      as (a & Hrun & Hans); auto using pops_pick.
    rewrite Hal in Hrun, Hans. cbn [is_ch] in *.
    destruct (costs_sumw _ _ _ _ Hq) as [Hfin _].
    destruct (splits_of g (rc_alphas rc) s t l Hwf Hs Ht Hl Hfin l []) as (x & Wf & Wb); [now rewrite app_nil_r|].
    pose proof (run_found _ _ _ _ _ (adj_nonneg _ _ _ Hnn Ha) (adj_near _ _ _ s t Hwf Hs Ht) pops (fun _ _ _ _ _ H => H) a x _ _ Hrun Wf Wb) as Hb.
    unfold answer_of in Hans. destruct (bst a) as [[m b]|]; [|congruence].
    destruct Hans as (lf & lb & sid & tid & _ & _ & _ & _ & _ & _ & Hx). discriminate.
  - intros Hn. destruct r as [p|]; auto. exfalso. apply Hn.
    destruct (C16_real_path _ _ _ _ _ _ _ _ _ _ _ _ _ _ _ H1 H2 E Hnn Hh Hr Hs Ht Hv Ec)
      as (_ & _ & _ & _ & _ & A & (q & B) & _). eauto.
Qed.
Print Assumptions C17_found_iff.

(** The same for contracted graphs and up-down paths. *)
Theorem C17_found_iff_ch hav c ch1 ch2 es ns g pick fuel st rc s t st' r :
  1 <= ch1 -> 1 <= ch2 -> build hav c ch1 ch2 es ns = Ok g -> nonneg_metrics g ->
  history st -> roomy st g -> s < node_count g -> t < node_count g -> Forall not_negative (rc_alphas rc) ->
  valid_pick pick -> rc_algo rc = ACHDijkstra ->
  compute_best_path pick fuel st g rc s t = Ok (st', r) ->
  (r = None <-> ~ exists l q, connects g s l t /\ costs_as g (rc_alphas rc) l q /\ up_down g l).
Proof.
  intros H1 H2 E Hnn Hh Hr Hs Ht Ha Hv Hal Ec. pose proof (build_wf _ _ _ _ _ _ _ H1 H2 E) as Hwf.
  split.
  - intros -> (l & q & Hl & Hq & Hud).
    destruct (compute_run _ _ _ _ _ _ _ pick pops fuel st rc s t st' None H1 H2 E Hnn Hh Hr Hs Ht Ha Hv)
      as (a & Hrun & Hans); auto using pops_pick.
    rewrite Hal in Hrun, Hans. cbn [is_ch] in *.
    destruct (costs_sumw _ _ _ _ Hq) as [Hfin _].
    destruct (up_down_walks g (rc_alphas rc) s t l Hwf Hs Ht Hl Hfin Hud) as (x & l1 & l2 & _ & Wf & Wb).
    pose proof (run_found _ _ _ _ _ (adj_nonneg _ _ _ Hnn Ha) (adj_near _ _ _ s t Hwf Hs Ht) pops (fun _ _ _ _ _ H => H) a x _ _ Hrun Wf Wb) as Hb.
    unfold answer_of in Hans. destruct (bst a) as [[m b]|]; [|congruence].
    destruct Hans as (lf & lb & sid & tid & _ & _ & _ & _ & _ & _ & Hx). discriminate.
  - intros Hn. destruct r as [p|]; auto. exfalso. apply Hn.
    destruct (C16_real_path _ _ _ _ _ _ _ _ _ _ _ _ _ _ _ H1 H2 E Hnn Hh Hr Hs Ht Hv Ec)
      as (_ & _ & _ & _ & _ & A & (q & B) & C). exists (p_edges p), q. auto.
Qed.
Print Assumptions C17_found_iff_ch.

Example C17_case_none : exists st',
  compute_best_path exact_pick 50 dijkstra_new sink_graph (ex_rc ADijkstra [Fin 1]) 0 1 = Ok (st', None) /\
  nonneg_metrics sink_graph /\ roomy dijkstra_new sink_graph /\ Forall not_negative [Fin 1].
Proof.
  eexists. split; [vm_compute; reflexivity|]. split; [apply sink_nonneg|].
  split; [apply new_roomy; discriminate|repeat constructor; discriminate].
Qed.

(** the query's preparation succeeds and yields blank arrays *)
Lemma compute_prepared pick fuel st g rc s t :
  history st -> roomy st g -> (node_count g <> 2 -> capacity st <= node_count g) ->
  Forall not_negative (rc_alphas rc) -> (forall i, rc_algo rc <> AExplorator i) ->
  exists st0, fresh g (is_ch (rc_algo rc)) st0 /\
    compute_best_path pick fuel st g rc s t = query g (rc_alphas rc) s t pick fuel st0.
Proof.
  intros Hh Hr Hcap Ha Hal. pose proof (history_clean _ Hh) as Hc. rewrite compute_split.
  assert (Hn : existsb (fun a => fltb a f0) (rc_alphas rc) = false).
  { destruct (existsb _ _) eqn:Ex; auto. apply existsb_exists in Ex. destruct Ex as (a & Hin & Hlt).
    rewrite Forall_forall in Ha. apply Ha, not_lt_zero in Hin. congruence. }
  rewrite Hn.
  assert (Hx : match rc_algo rc with ADijkstra => Ok false | ACHDijkstra => Ok true | AExplorator _ => Panic end
               = Ok (is_ch (rc_algo rc))).
  { destruct (rc_algo rc) eqn:Er; auto. now destruct (Hal inner_ch). }
  rewrite Hx. cbn [bind].
  destruct (init_query_total (capacity st) (node_count g) (is_ch (rc_algo rc)) st Hc) as (st0 & E0).
  { intros d v Hv. pose proof (c_touch _ _ Hc d v Hv). unfold new_size.
    destruct (Nat.eqb_spec 2 (node_count g)); [lia|]. assert (capacity st <= node_count g) by (apply Hcap; lia). lia. }
  rewrite E0. cbn [bind]. exists st0. split; auto. rewrite (init_query_spec _ _ _ _ _ Hc E0). apply blank_fresh.
  - unfold new_size. destruct (Nat.eqb_spec 2 (node_count g)) as [E2|]; auto. pose proof (Hr (eq_sym E2)). lia.
  - intros ->. reflexivity.
Qed.

Lemma powers_lists m n : length (lists_of m n) = powers m n.
Proof. induction n as [|n IH]; auto. rewrite lists_of_length, IH. reflexivity. Qed.
Lemma powers_ge m n : 1 <= m -> n <= powers m n.
Proof. intros H. induction n as [|n IH]; simpl; [lia|]. nia. Qed.

Lemma query_terminates g alphas ch s t pick fuel st0 :
  wf_graph g -> nonneg_metrics g -> Forall not_negative alphas -> s < node_count g -> t < node_count g ->
  valid_pick pick -> fresh g ch st0 -> 2 + 2 * powers (edge_count g FWD) (node_count g) <= fuel ->
  query g alphas s t pick fuel st0 <> Diverge.
Proof.
  intros Hwf Hnn Ha Hs Ht Hv Hf Hfuel Hd.
  destruct (query_sim g alphas ch s t Hwf Hnn Ha Hs Ht pick pops fuel st0 Hv (fun _ _ _ _ _ H => H) (fun k q v c d => pops_pick pick k q v c d) Hf)
    as [(st1 & r1 & a & E1 & _)|[(_ & [(a & Hst & Hq)|[Hn Hm]])|(E1 & _)]]; [congruence| | |congruence].
  - pose proof (asteps_bound _ _ _ ch (root s t) (adj_nonneg g alphas ch Hnn Ha) (adj_near g alphas ch s t Hwf Hs Ht) pops
                  (node_count g) (edge_count g FWD) fuel a (fun _ _ _ _ _ H => H)
                  (adj_bound g alphas ch s t Hwf Hs Ht)) as Hb.
    assert (fuel + length (que a) <= steps_bound (node_count g) (edge_count g FWD)) by (apply Hb; [intros []; auto|auto]).
    unfold steps_bound in H. rewrite powers_lists in H. destruct (que a); [congruence|simpl in H; lia].
  - destruct (edge_count g FWD) eqn:Em; [lia|]. pose proof (powers_ge (S n) (node_count g) ltac:(lia)). lia.
Qed.

(** Routing neither panics nor fails if the last node of the graph has a
    leaving and an entering edge and the object's arrays get the right size. *)
Theorem C17_total_partial hav c ch1 ch2 es ns g pick fuel st rc s t :
  1 <= ch1 -> 1 <= ch2 -> build hav c ch1 ch2 es ns = Ok g -> nonneg_metrics g -> last_node_connected g ->
  history st -> roomy st g -> (node_count g <> 2 -> capacity st <= node_count g) ->
  s < node_count g -> t < node_count g -> Forall not_negative (rc_alphas rc) ->
  (forall i, rc_algo rc <> AExplorator i) -> valid_pick pick ->
  2 + 2 * powers (edge_count g FWD) (node_count g) <= fuel ->
  exists st' r, compute_best_path pick fuel st g rc s t = Ok (st', r).
Proof.
  intros H1 H2 E Hnn Hl Hh Hr Hcap Hs Ht Ha Hal Hv Hfuel. pose proof (build_wf _ _ _ _ _ _ _ H1 H2 E) as Hwf.
  destruct (compute_prepared pick fuel st g rc s t Hh Hr Hcap Ha Hal) as (st0 & Hf & ->).
  pose proof (query_terminates g (rc_alphas rc) (is_ch (rc_algo rc)) s t pick fuel st0 Hwf Hnn Ha Hs Ht Hv Hf Hfuel) as Hd.
  destruct (query_sim g (rc_alphas rc) (is_ch (rc_algo rc)) s t Hwf Hnn Ha Hs Ht pick pops fuel st0 Hv (fun _ _ _ _ _ H => H) (fun k q v c d => pops_pick pick k q v c d) Hf)
    as [(st1 & r1 & a & E1 & _)|[(E1 & _)|(_ & Hp)]]; [eauto|congruence|].
  exfalso. apply Hp. exact (routable_last _ _ _ _ _ _ _ H1 H2 E Hl).
Qed.
Print Assumptions C17_total_partial.

Lemma last_connected_of g : (exists e s d, edge_from_to g e s d /\ node_count g <= S s) ->
  (exists e s d, edge_from_to g e s d /\ node_count g <= S d) -> last_node_connected g.
Proof.
  intros (e & s & d & H & Hs) (e' & s' & d' & H' & Hd) v Hv. split.
  - exists e, s, d. split; [auto|lia].
  - exists e', s', d'. split; [auto|lia].
Qed.
Example C17_total_case : last_node_connected rt_graph /\
  (forall s t, s < node_count rt_graph -> t < node_count rt_graph ->
   exists st' r, compute_best_path lifo_pick (6 * 1000) dijkstra_new rt_graph (ex_rc ADijkstra [Fin 1]) s t = Ok (st', r)).
Proof.
  assert (H : last_node_connected rt_graph).
  { apply last_connected_of; [exists 6, 4, 2|exists 5, 3, 4]; (split; [split; reflexivity|vm_compute; lia]). }
  split; auto. intros s t Hs Ht.
  apply (C17_total_partial _ _ _ _ _ _ rt_graph lifo_pick (6 * 1000) dijkstra_new (ex_rc ADijkstra [Fin 1]) s t
          (le_S _ _ (le_n 1)) (le_S _ _ (le_S _ _ (le_n 1))) rt_build rt_nonneg H); auto.
  - constructor.
  - apply new_roomy. discriminate.
  - intros _. vm_compute. lia.
  - repeat constructor. discriminate.
  - discriminate.
  - apply lifo_valid.
  - apply Nat.leb_le. vm_compute. reflexivity.
Qed.

(** Without these restrictions routing panics: a last node without a leaving
    edge; a graph of two nodes and a new object. *)
Theorem C17_no_panic_refuted :
  (exists hav c es ns g s t, build hav c 1 1 es ns = Ok g /\ nonneg_metrics g /\ node_count g <> 2 /\
     s < node_count g /\ t < node_count g /\
     exists pick, picks_min 0 pick /\ forall fuel, 2 <= fuel ->
       compute_best_path pick fuel dijkstra_new g (ex_rc ADijkstra [Fin 1]) s t = Panic) /\
  (exists hav c es ns g s t, build hav c 1 1 es ns = Ok g /\ nonneg_metrics g /\ last_node_connected g /\
     s < node_count g /\ t < node_count g /\
     forall pick fuel, compute_best_path pick fuel dijkstra_new g (ex_rc ADijkstra [Fin 1]) s t = Panic).
Proof.
  split.
  - exists ex_hav, (ex_cfg false), lone_es, sink_ns, lone_graph, 2, 2. split; [exact lone_build|].
    split; [apply nonneg_of_list; vm_compute; repeat constructor; discriminate|].
    split; [discriminate|]. split; [vm_compute; lia|]. split; [vm_compute; lia|].
    exists exact_pick. split; [apply exact_picks|].
    intros [|[|fuel]] Hf; [lia|lia|]. vm_compute. reflexivity.
  - exists ex_hav, (ex_cfg false), pair_es, pair_ns, pair_graph, 0, 1. split; [exact pair_build|].
    split; [apply nonneg_of_list; vm_compute; repeat constructor; discriminate|].
    split; [apply last_connected_of; [exists 1, 1, 0|exists 0, 0, 1]; (split; [split; reflexivity|vm_compute; lia])|].
    split; [vm_compute; lia|]. split; [vm_compute; lia|]. intros pick fuel. reflexivity.
Qed.
Print Assumptions C17_no_panic_refuted.

(** *** C18: no path is cheaper; with a queue that errs by up to [delta] the
    returned path is at most [2 * delta] more expensive *)
Theorem C18_optimal hav c ch1 ch2 es ns g pick delta fuel st rc s t st' p :
  1 <= ch1 -> 1 <= ch2 -> build hav c ch1 ch2 es ns = Ok g -> nonneg_metrics g ->
  history st -> roomy st g -> s < node_count g -> t < node_count g ->
  (0 <= delta)%Q -> picks_min delta pick -> rc_algo rc = ADijkstra ->
  compute_best_path pick fuel st g rc s t = Ok (st', Some p) ->
  exists qp, costs_as g (rc_alphas rc) (p_edges p) qp /\
    forall l q, connects g s l t -> costs_as g (rc_alphas rc) l q -> (qp <= q + 2 * delta)%Q.
Proof.
  intros H1 H2 E Hnn Hh Hr Hs Ht Hdel Hpk Hal Ec. pose proof (build_wf _ _ _ _ _ _ _ H1 H2 E) as Hwf.
  pose proof (alphas_of_some _ _ _ _ _ _ _ _ _ Ec) as Ha.
  destruct (compute_run _ _ _ _ _ _ _ pick (near_min delta) fuel st rc s t st' (Some p) H1 H2 E Hnn Hh Hr Hs Ht Ha (proj1 Hpk))
    as (a & Hrun & Hans); auto.
  { intros q v c0 d q' [H _]. exact H. }
  { intros k q v c0 d. now apply near_pick. }
  rewrite Hal in Hrun, Hans. cbn [is_ch] in *.
  assert (Hnear : forall q v c d q', near_min delta q v c d q' -> pops q v c d q') by (intros q v c0 d q' [H _]; exact H).
  unfold answer_of in Hans. destruct (bst a) as [[m b]|] eqn:Eb; [|discriminate].
  destruct Hans as (lf & lb & sid & tid & Cf & Cb & Wf & Wb & _ & _ & Hp). injection Hp as ->. cbn [path_new p_edges].
  destruct (walk_fwd _ _ _ _ _ Hwf Hs Ht m lf Wf) as (_ & A2 & _).
  destruct (walk_bwd _ _ _ _ _ Hwf Hs Ht m lb Wb) as (_ & B2 & _).
  destruct (costs_of g (rc_alphas rc) (lf ++ rev lb)) as (qp & Hqp & Hsum).
  { intros e He. apply in_app_or in He. destruct He; auto. }
  exists qp. split; auto. intros l q Hl Hq.
  destruct (costs_sumw _ _ _ _ Hq) as [Hfin Hqs].
  destruct (run_plain_optimal _ _ _ _ (root s t) (adj_nonneg g (rc_alphas rc) false Hnn Ha) (adj_near g (rc_alphas rc) false s t Hwf Hs Ht)
              delta Hdel eq_refl (adj_mirror g (rc_alphas rc) false s t Hwf Hs Ht eq_refl) l
              (splits_of g (rc_alphas rc) s t l Hwf Hs Ht Hl Hfin) a Hrun) as (m' & b' & Eb' & Hle).
  rewrite Eb in Eb'. injection Eb' as <- <-.
  destruct (run_path _ _ _ _ (root s t) (adj_nonneg g (rc_alphas rc) false Hnn Ha) (adj_near g (rc_alphas rc) false s t Hwf Hs Ht)
              _ Hnear a m b Hrun Eb) as (lf' & lb' & Cf' & Cb' & _ & _ & Hb).
  rewrite (chain_det _ _ _ _ _ _ _ Cf' _ Cf), (chain_det _ _ _ _ _ _ _ Cb' _ Cb) in Hb.
  rewrite Hsum, sumw_app, sumw_rev, Hqs. lra.
Qed.
Print Assumptions C18_optimal.
Example C18_case : exists st' p, picks_min 0 exact_pick /\
  compute_best_path exact_pick 50 dijkstra_new rt_graph (ex_rc ADijkstra [Fin 1]) 0 4 = Ok (st', Some p) /\
  p_edges p = [0; 3; 5] /\ (exists q, costs_as rt_graph [Fin 1] [0; 3; 5] q /\ (q == 4)%Q) /\
  (exists q, costs_as rt_graph [Fin 1] [2] q /\ (q == 6)%Q) /\
  connects rt_graph 0 [2] 4.
Proof.
  do 2 eexists. split; [apply exact_picks|]. split; [vm_compute; reflexivity|]. split; [reflexivity|].
  split; [|split].
  - eexists. split; [repeat (econstructor; [vm_compute; reflexivity|vm_compute; reflexivity|]); constructor|reflexivity].
  - eexists. split; [repeat (econstructor; [vm_compute; reflexivity|vm_compute; reflexivity|]); constructor|reflexivity].
  - econstructor; [split; reflexivity|]. constructor.
Qed.

(** *** C19: contracted graphs *)
Theorem C19_ch_optimal hav c ch1 ch2 es ns g pick delta fuel st rc s t st' p :
  1 <= ch1 -> 1 <= ch2 -> build hav c ch1 ch2 es ns = Ok g -> nonneg_metrics g ->
  history st -> roomy st g -> s < node_count g -> t < node_count g ->
  (0 <= delta)%Q -> picks_min delta pick -> rc_algo rc = ACHDijkstra ->
  compute_best_path pick fuel st g rc s t = Ok (st', Some p) ->
  up_down g (p_edges p) /\
  exists qp, costs_as g (rc_alphas rc) (p_edges p) qp /\
    forall l q, connects g s l t -> costs_as g (rc_alphas rc) l q -> up_down g l -> (qp <= q + delta)%Q.
Proof.
  intros H1 H2 E Hnn Hh Hr Hs Ht Hdel Hpk Hal Ec. pose proof (build_wf _ _ _ _ _ _ _ H1 H2 E) as Hwf.
  pose proof (alphas_of_some _ _ _ _ _ _ _ _ _ Ec) as Ha.
  split. { apply (C16_real_path _ _ _ _ _ _ _ _ _ _ _ _ _ _ _ H1 H2 E Hnn Hh Hr Hs Ht (proj1 Hpk) Ec); auto. }
  destruct (compute_run _ _ _ _ _ _ _ pick (near_min delta) fuel st rc s t st' (Some p) H1 H2 E Hnn Hh Hr Hs Ht Ha (proj1 Hpk))
    as (a & Hrun & Hans); auto.
  { intros q v c0 d q' [H _]. exact H. }
  { intros k q v c0 d. now apply near_pick. }
  rewrite Hal in Hrun, Hans. cbn [is_ch] in *.
  assert (Hnear : forall q v c d q', near_min delta q v c d q' -> pops q v c d q') by (intros q v c0 d q' [H _]; exact H).
  unfold answer_of in Hans. destruct (bst a) as [[m b]|] eqn:Eb; [|discriminate].
  destruct Hans as (lf & lb & sid & tid & Cf & Cb & Wf & Wb & _ & _ & Hp). injection Hp as ->. cbn [path_new p_edges].
  destruct (walk_fwd _ _ _ _ _ Hwf Hs Ht m lf Wf) as (_ & A2 & _).
  destruct (walk_bwd _ _ _ _ _ Hwf Hs Ht m lb Wb) as (_ & B2 & _).
  destruct (costs_of g (rc_alphas rc) (lf ++ rev lb)) as (qp & Hqp & Hsum).
  { intros e He. apply in_app_or in He. destruct He; auto. }
  exists qp. split; auto. intros l q Hl Hq Hud.
  destruct (costs_sumw _ _ _ _ Hq) as [Hfin Hqs].
  destruct (up_down_walks g (rc_alphas rc) s t l Hwf Hs Ht Hl Hfin Hud) as (x & l1 & l2 & El & W1 & W2).
  destruct (run_ch_optimal _ _ _ _ (root s t) (adj_nonneg g (rc_alphas rc) true Hnn Ha) (adj_near g (rc_alphas rc) true s t Hwf Hs Ht)
              delta Hdel a x l1 (rev l2) eq_refl Hrun W1 W2) as (m' & b' & Eb' & Hle).
  rewrite Eb in Eb'. injection Eb' as <- <-.
  destruct (run_path _ _ _ _ (root s t) (adj_nonneg g (rc_alphas rc) true Hnn Ha) (adj_near g (rc_alphas rc) true s t Hwf Hs Ht)
              _ Hnear a m b Hrun Eb) as (lf' & lb' & Cf' & Cb' & _ & _ & Hb).
  rewrite (chain_det _ _ _ _ _ _ _ Cf' _ Cf), (chain_det _ _ _ _ _ _ _ Cb' _ Cb) in Hb.
  rewrite sumw_rev in Hle. rewrite Hsum, sumw_app, sumw_rev, Hqs, El, sumw_app. lra.
Qed.
Print Assumptions C19_ch_optimal.

(** If shortest distances are attained by up-down paths, CH-Dijkstra finds
    shortest paths. *)
Theorem C19_ch_shortest hav c ch1 ch2 es ns g pick delta fuel st rc s t st' r :
  1 <= ch1 -> 1 <= ch2 -> build hav c ch1 ch2 es ns = Ok g -> nonneg_metrics g ->
  history st -> roomy st g -> s < node_count g -> t < node_count g -> Forall not_negative (rc_alphas rc) ->
  (0 <= delta)%Q -> picks_min delta pick -> rc_algo rc = ACHDijkstra ->
  (forall l q, connects g s l t -> costs_as g (rc_alphas rc) l q ->
     exists l' q', connects g s l' t /\ costs_as g (rc_alphas rc) l' q' /\ up_down g l' /\ (q' <= q)%Q) ->
  compute_best_path pick fuel st g rc s t = Ok (st', r) ->
  (r = None <-> ~ exists l q, connects g s l t /\ costs_as g (rc_alphas rc) l q) /\
  forall p, r = Some p -> exists qp, costs_as g (rc_alphas rc) (p_edges p) qp /\
    forall l q, connects g s l t -> costs_as g (rc_alphas rc) l q -> (qp <= q + delta)%Q.
Proof.
  intros H1 H2 E Hnn Hh Hr Hs Ht Ha Hdel Hpk Hal Hpres Ec. split.
  - rewrite (C17_found_iff_ch _ _ _ _ _ _ _ _ _ _ _ _ _ _ _ H1 H2 E Hnn Hh Hr Hs Ht Ha (proj1 Hpk) Hal Ec). split.
    + intros Hn (l & q & A & B). destruct (Hpres l q A B) as (l' & q' & A' & B' & C' & _). apply Hn. eauto.
    + intros Hn (l & q & A & B & _). apply Hn. eauto.
  - intros p ->. destruct (C19_ch_optimal _ _ _ _ _ _ _ _ _ _ _ _ _ _ _ _ H1 H2 E Hnn Hh Hr Hs Ht Hdel Hpk Hal Ec)
      as (_ & qp & Hqp & Hopt). exists qp. split; auto. intros l q A B.
    destruct (Hpres l q A B) as (l' & q' & A' & B' & C' & Hle). specialize (Hopt l' q' A' B' C'). lra.
Qed.
Print Assumptions C19_ch_shortest.
(** in [rt_graph] the best path 0 -> 1 -> 3 -> 4 climbs the levels 0, 1, 2 and
    descends to 0 *)
Example C19_case : exists st' p, picks_min 0 exact_pick /\ up_down rt_graph [0; 3; 5] /\
  compute_best_path exact_pick 50 dijkstra_new rt_graph (ex_rc ACHDijkstra [Fin 1]) 0 4 = Ok (st', Some p) /\
  p_edges p = [0; 3; 5].
Proof.
  do 2 eexists. split; [apply exact_picks|]. split; [|split; [vm_compute; reflexivity|reflexivity]].
  exists [0; 3], [5]. split; [reflexivity|]. split.
  - intros e s d ls ld [<-|[<-|[]]] [A B] Hs Hd; vm_compute in A, B; injection A as <-; injection B as <-;
      vm_compute in Hs, Hd; injection Hs as <-; injection Hd as <-; lia.
  - intros e s d ls ld [<-|[]] [A B] Hs Hd; vm_compute in A, B; injection A as <-; injection B as <-;
      vm_compute in Hs, Hd; injection Hs as <-; injection Hd as <-; lia.
Qed.

(** *** C20 *)
Theorem C20_negative_alpha pick fuel st g rc s t a :
  In a (rc_alphas rc) -> ~ not_negative a ->
  compute_best_path pick fuel st g rc s t = Ok (st, None).
Proof.
  intros Hin Hn. rewrite compute_split.
  assert (existsb (fun a => fltb a f0) (rc_alphas rc) = true) as ->; auto.
  apply existsb_exists. exists a. split; auto. destruct (fltb a f0) eqn:E; auto. apply not_lt_zero in E. contradiction.
Qed.
Print Assumptions C20_negative_alpha.
Example C20_negative_case : ~ not_negative (Fin (-1)) /\ In (Fin (-1)) (rc_alphas (ex_rc ADijkstra [Fin 1; Fin (-1)])).
Proof. split; [intros H; apply Qle_bool_iff in H; discriminate|simpl; auto]. Qed.

Theorem C20_same_node hav c ch1 ch2 es ns g pick fuel st rc s st' r :
  1 <= ch1 -> 1 <= ch2 -> build hav c ch1 ch2 es ns = Ok g -> nonneg_metrics g ->
  history st -> roomy st g -> s < node_count g -> Forall not_negative (rc_alphas rc) -> valid_pick pick ->
  compute_best_path pick fuel st g rc s s = Ok (st', r) ->
  exists p, r = Some p /\ p_edges p = [] /\ p_src_idx p = s /\ p_dst_idx p = s.
Proof.
  intros H1 H2 E Hnn Hh Hr Hs Ha Hv Ec. pose proof (build_wf _ _ _ _ _ _ _ H1 H2 E) as Hwf.
  destruct (compute_run _ _ _ _ _ _ _ pick pops fuel st rc s s st' r H1 H2 E Hnn Hh Hr Hs Hs Ha Hv)
    as (a & Hrun & Hans); auto using pops_pick.
  destruct (run_same _ _ _ _ (root s s) (adj_nonneg g _ _ Hnn Ha) (adj_near g _ _ s s Hwf Hs Hs) eq_refl pops a (fun _ _ _ _ _ H => H) Hrun)
    as [(b & Eb & _) Hprd].
  unfold answer_of in Hans. rewrite Eb in Hans.
  destruct Hans as (lf & lb & sid & tid & Cf & Cb & _ & _ & _ & _ & ->).
  assert (Hl : forall d l, chain (adj g (rc_alphas rc) (is_ch (rc_algo rc))) (tgt g) (root s s) (prd a d) d (root s s d) l -> l = []).
  { intros d l Hc. inversion Hc as [|v e l' Hp]; subst; auto. specialize (Hprd d). congruence. }
  eexists. split; [reflexivity|]. cbn [path_new p_edges p_src_idx p_dst_idx].
  rewrite (Hl FWD lf Cf), (Hl BWD lb Cb). auto.
Qed.
Print Assumptions C20_same_node.
Example C20_same_case : exists st' p,
  compute_best_path fifo_pick 100 dijkstra_new rt_graph (ex_rc ACHDijkstra [Fin 1]) 3 3 = Ok (st', Some p) /\ p_edges p = [].
Proof. do 2 eexists. split; [vm_compute; reflexivity|reflexivity]. Qed.

(** *** C21: a used object answers like a new one *)
(** an object that has answered a query on five nodes *)
Definition used_dijkstra : dijkstra := Eval vm_compute in
  match compute_best_path exact_pick 50 dijkstra_new rt_graph (ex_rc ADijkstra [Fin 1]) 0 4 with Ok x => fst x | _ => dijkstra_new end.
Lemma used_history : history used_dijkstra.
Proof.
  eapply (history_query exact_pick 50 dijkstra_new rt_graph (ex_rc ADijkstra [Fin 1]) 0 4); [constructor|].
  vm_compute. reflexivity.
Qed.

Theorem C21_reuse_partial pick fuel st g rc s t :
  history st -> capacity st <= node_count g -> node_count g <> 2 ->
  answer (compute_best_path pick fuel st g rc s t) = answer (compute_best_path pick fuel dijkstra_new g rc s t).
Proof.
  intros Hh Hcap Hn. rewrite !compute_split. destruct (existsb _ _); [reflexivity|].
  destruct (match rc_algo rc with ADijkstra => Ok false | ACHDijkstra => Ok true | AExplorator _ => Panic end) as [ch| | |] eqn:Ech;
    cbn [bind answer]; auto.
  pose proof (history_clean _ Hh) as Hc.
  destruct (init_query_total (capacity st) (node_count g) ch st Hc) as (st0 & E0).
  { intros d v Hv. pose proof (c_touch _ _ Hc d v Hv). unfold new_size. destruct (Nat.eqb_spec 2 (node_count g)); lia. }
  destruct (init_query_total 0 (node_count g) ch dijkstra_new clean_new) as (st1 & E1).
  { intros [] v []. }
  rewrite E0, E1. cbn [bind].
  rewrite (init_query_spec _ _ _ _ _ Hc E0), (init_query_spec _ _ _ _ _ clean_new E1).
  assert (Hsz : forall L, new_size L (node_count g) = node_count g) by (intros; unfold new_size; destruct (Nat.eqb_spec 2 (node_count g)); congruence).
  rewrite !Hsz. destruct ch; cbn [new_visited]; auto.
  exact (query_visited (dj_visited st) g (rc_alphas rc) s t pick fuel (blank true (node_count g) (dj_visited dijkstra_new)) eq_refl).
Qed.
Print Assumptions C21_reuse_partial.
Example C21_case : history used_dijkstra /\ used_dijkstra <> dijkstra_new /\ capacity used_dijkstra <= node_count rt_graph /\
  node_count rt_graph <> 2.
Proof. split; [exact used_history|]. split; [discriminate|]. split; [vm_compute; lia|discriminate]. Qed.

(** On a graph of two nodes a new object panics, a used one answers. *)
Theorem C21_two_nodes_refuted : exists hav c es ns g rc st pick fuel s t,
  build hav c 1 1 es ns = Ok g /\ history st /\ valid_pick pick /\ s < node_count g /\ t < node_count g /\
  (exists p, answer (compute_best_path pick fuel st g rc s t) = Ok (Some p)) /\
  answer (compute_best_path pick fuel dijkstra_new g rc s t) = Panic.
Proof.
  exists ex_hav, (ex_cfg false), pair_es, pair_ns, pair_graph, (ex_rc ADijkstra [Fin 1]), used_dijkstra, exact_pick, 50, 0, 1.
  split; [exact pair_build|]. split; [exact used_history|]. split; [exact exact_valid|].
  split; [vm_compute; lia|]. split; [vm_compute; lia|].
  split; [eexists; vm_compute; reflexivity|vm_compute; reflexivity].
Qed.
Print Assumptions C21_two_nodes_refuted.

(** On a smaller graph a used object may panic where a new one answers. *)
Theorem C21_shrinking_refuted : exists hav c es ns g rc st pick fuel s t,
  build hav c 1 1 es ns = Ok g /\ node_count g <> 2 /\ history st /\ valid_pick pick /\ s < node_count g /\ t < node_count g /\
  answer (compute_best_path pick fuel st g rc s t) = Panic /\
  exists p, answer (compute_best_path pick fuel dijkstra_new g rc s t) = Ok p.
Proof.
  exists ex_hav, (ex_cfg false), sink_es, sink_ns, sink_graph, (ex_rc ADijkstra [Fin 1]), used_dijkstra, exact_pick, 50, 1, 2.
  split; [exact sink_build|]. split; [discriminate|]. split; [exact used_history|]. split; [exact exact_valid|].
  split; [vm_compute; lia|]. split; [vm_compute; lia|].
  split; [vm_compute; reflexivity|eexists; vm_compute; reflexivity].
Qed.
Print Assumptions C21_shrinking_refuted.

(** *** C22 *)
Lemma reset_no_diverge ts : forall cs ps, reset_touched ts cs ps <> Diverge.
Proof.
  unfold reset_touched. induction ts as [|v ts IH]; intros cs ps; [discriminate|]. cbn [foldM fst snd]. unfold set at 1 2.
  destruct (v <? length cs); cbn [bind]; [|discriminate]. destruct (v <? length ps); cbn [bind]; [|discriminate]. apply IH.
Qed.
Lemma init_query_no_diverge n st : init_query n st <> Diverge.
Proof.
  unfold init_query, init_dir.
  match goal with |- context [reset_touched ?a ?b ?c] => pose proof (reset_no_diverge a b c); destruct (reset_touched a b c) end;
    cbn [bind]; try discriminate; [|congruence].
  match goal with |- context [reset_touched ?a ?b ?c] => pose proof (reset_no_diverge a b c); destruct (reset_touched a b c) end;
    cbn [bind]; try discriminate; congruence.
Qed.
Lemma NoDup_app_intro {A} (l l' : list A) : NoDup l -> NoDup l' -> (forall x, In x l -> ~ In x l') -> NoDup (l ++ l').
Proof.
  induction l as [|x l IH]; intros H H' Hd; auto. inversion H; subst. simpl. constructor.
  - intros Hi. apply in_app_or in Hi. destruct Hi as [Hi|Hi]; auto. apply (Hd x); simpl; auto.
  - apply IH; auto. intros y Hy. apply Hd. now right.
Qed.
Lemma compute_diverge pick fuel st g rc s t :
  history st -> roomy st g -> compute_best_path pick fuel st g rc s t = Diverge ->
  Forall not_negative (rc_alphas rc) /\
  exists st0, fresh g (is_ch (rc_algo rc)) st0 /\ query g (rc_alphas rc) s t pick fuel st0 = Diverge.
Proof.
  intros Hh Hr. pose proof (history_clean _ Hh) as Hc. rewrite compute_split.
  destruct (existsb _ _) eqn:Ex; [discriminate|]. intros Ed. split.
  { apply Forall_forall. intros a Hin. destruct (fltb a f0) eqn:El; [|now apply not_lt_zero].
    assert (existsb (fun a => fltb a f0) (rc_alphas rc) = true) by (apply existsb_exists; eauto). congruence. }
  revert Ed. set (x := match rc_algo rc with ADijkstra => Ok false | ACHDijkstra => Ok true | AExplorator _ => Panic end).
  assert (Hx : x = Ok (is_ch (rc_algo rc)) \/ x = Panic) by (unfold x; destruct (rc_algo rc); auto).
  destruct Hx as [->| ->]; cbn [bind]; [|discriminate].
  destruct (init_query (node_count g) (with_ch st (is_ch (rc_algo rc)))) as [st0| | |] eqn:E0; cbn [bind]; try discriminate.
  - intros Hd. exists st0. split; auto. rewrite (init_query_spec _ _ _ _ _ Hc E0). apply blank_fresh.
    + unfold new_size. destruct (Nat.eqb_spec 2 (node_count g)) as [E2|]; auto. pose proof (Hr (eq_sym E2)). lia.
    + intros ->. reflexivity.
  - exfalso. revert E0. apply init_query_no_diverge.
Qed.

Theorem C22_terminates hav c ch1 ch2 es ns g pick fuel st rc s t :
  1 <= ch1 -> 1 <= ch2 -> build hav c ch1 ch2 es ns = Ok g -> nonneg_metrics g ->
  history st -> roomy st g -> s < node_count g -> t < node_count g -> valid_pick pick ->
  2 + 2 * powers (edge_count g FWD) (node_count g) <= fuel ->
  compute_best_path pick fuel st g rc s t <> Diverge.
Proof.
  intros H1 H2 E Hnn Hh Hr Hs Ht Hv Hfuel Hd. pose proof (build_wf _ _ _ _ _ _ _ H1 H2 E) as Hwf.
  destruct (compute_diverge _ _ _ _ _ _ _ Hh Hr Hd) as (Ha & st0 & Hf & Hq).
  exact (query_terminates _ _ _ _ _ _ _ _ Hwf Hnn Ha Hs Ht Hv Hf Hfuel Hq).
Qed.
Print Assumptions C22_terminates.

Lemma NoDup_bound (l : list nat) m : NoDup l -> (forall e, In e l -> e < m) -> length l <= m.
Proof.
  intros Hn Hb. rewrite <- (seq_length m 0). apply NoDup_incl_length; auto.
  intros e He. apply in_seq. specialize (Hb e He). lia.
Qed.
Lemma adj_nodup g alphas ch d v : wf_graph g -> NoDup (adj g alphas ch d v).
Proof.
  intros Hwf. unfold adj. destruct (Nat.ltb_spec v (node_count g)) as [Hv|]; [|constructor].
  destruct (wg_start _ Hwf d v Hv) as [(l & -> & Hn & _)|[-> _]]; [|constructor]. now apply NoDup_filter.
Qed.
Lemma adj_total g alphas ch s t d : wf_graph g -> s < node_count g -> t < node_count g ->
  list_sum (map (fun v => length (adj g alphas ch d v)) (seq 0 (node_count g))) <= edge_count g FWD.
Proof.
  intros Hwf Hs Ht.
  assert (H : forall vs, NoDup vs -> NoDup (flat_map (adj g alphas ch d) vs)).
  { induction vs as [|v vs IH]; intros Hn; [constructor|]. inversion Hn; subst. cbn [flat_map].
    apply NoDup_app_intro; [now apply adj_nodup|auto|].
    intros e He Hf. apply in_flat_map in Hf. destruct Hf as (u & Hu & Hf).
    pose proof (adj_near g alphas ch s t Hwf Hs Ht _ _ _ He). pose proof (adj_near g alphas ch s t Hwf Hs Ht _ _ _ Hf).
    congruence. }
  specialize (H _ (seq_NoDup (node_count g) 0)).
  assert (Hl : forall vs, list_sum (map (fun v => length (adj g alphas ch d v)) vs) = length (flat_map (adj g alphas ch d) vs)).
  { induction vs as [|v vs IH]; auto. cbn [map list_sum flat_map fold_right]. rewrite app_length. unfold list_sum in IH. now rewrite IH. }
  rewrite Hl. apply NoDup_bound; auto. intros e He. apply in_flat_map in He. destruct He as (v & _ & He).
  apply (adj_bound g alphas ch s t Hwf Hs Ht _ _ _ He).
Qed.

Theorem C22_exact_queue hav c ch1 ch2 es ns g pick fuel st rc s t :
  1 <= ch1 -> 1 <= ch2 -> build hav c ch1 ch2 es ns = Ok g -> nonneg_metrics g ->
  history st -> roomy st g -> s < node_count g -> t < node_count g -> picks_min 0 pick ->
  2 + 2 * edge_count g FWD <= fuel ->
  compute_best_path pick fuel st g rc s t <> Diverge.
Proof.
  intros H1 H2 E Hnn Hh Hr Hs Ht Hpk Hfuel Hd. pose proof (build_wf _ _ _ _ _ _ _ H1 H2 E) as Hwf.
  destruct (compute_diverge _ _ _ _ _ _ _ Hh Hr Hd) as (Ha & st0 & Hf & Hq).
  set (ch := is_ch (rc_algo rc)) in *. set (al := rc_alphas rc) in *.
  destruct (query_sim g al ch s t Hwf Hnn Ha Hs Ht pick (near_min 0) fuel st0 (proj1 Hpk))
    as [(st1 & r1 & a & E1 & _)|[(_ & [(a & Hst & Hne)|[Hn Hm]])|(E1 & _)]]; auto.
  { intros q v c0 d q' [H _]. exact H. }
  { intros k q v c0 d. now apply near_pick. }
  - congruence.
  - pose proof (asteps_exact _ _ _ ch (root s t) (adj_nonneg g al ch Hnn Ha) (adj_near g al ch s t Hwf Hs Ht)
       (node_count g) fuel (init (root s t)) a) as Hb.
    assert (Hb' : fuel + length (que a) + open_edges (adj g al ch) (node_count g) (dn a) <=
                  length (que (init (root s t))) + open_edges (adj g al ch) (node_count g) (dn (init (root s t)))).
    { refine (Hb _ _ Hst (init_inv _ _ _ _) (proj1 (init_inv2 (adj g al ch) (tgt g) (wq g al) ch _))
                (proj2 (init_inv2 _ _ _ ch _)) (init_inv3 _ _ (Qle_refl _)) (init_inv4 _)).
      - intros d u e He. apply (adj_bound g al ch s t Hwf Hs Ht _ _ _ He).
      - intros []; auto. }
    cbn [init que dn length] in Hb'. unfold open_edges at 2 in Hb'. cbn [list_prod] in Hb'.
    rewrite app_nil_r, map_app, !map_map, list_sum_app in Hb'. cbn [fst snd] in Hb'.
    pose proof (adj_total g al ch s t FWD Hwf Hs Ht). pose proof (adj_total g al ch s t BWD Hwf Hs Ht).
    destruct (que a); [congruence|simpl in Hb'; lia].
  - lia.
  - congruence.
Qed.
Print Assumptions C22_exact_queue.
Example C22_case : exists st' r, 2 + 2 * edge_count loop_graph FWD = 4 /\
  compute_best_path exact_pick 4 dijkstra_new loop_graph (ex_rc ADijkstra [Fin 0]) 0 0 = Ok (st', r) /\
  Forall not_negative [Fin 0].
Proof.
  do 2 eexists. split; [reflexivity|]. split; [vm_compute; reflexivity|repeat constructor; discriminate].
Qed.
