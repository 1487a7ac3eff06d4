(** Properties C55: when a run that routes ends well *)
From Coq Require Import String Ascii List Bool Arith NArith ZArith QArith Lia Lqa.
From Verif Require Import Base F64 Lib ModelText ModelUnits ModelConfig ModelGraph ModelBuild ModelDijkstra ModelRoutingCfg ModelBalancing
  ModelFmi ModelParsing ModelYaml ModelDocs ModelProgram Spec SpecRouting SpecPaths SpecProgram SpecRouted
  ProofProgram2 ProofNonneg ProofRouted ProofTotal PropsGraph PropsRouting PropsPaths PropsRouted Examples SpecDocs ExamplesDocs ExamplesRouting ExamplesProgram.
Import ListNotations.
Open Scope string_scope.
Open Scope list_scope.
Open Scope nat_scope.

(** *** C55 *)

(** A cheapest path uses no edge twice, so it's never too long to be flattened
    (cf. C24_false_cycle_refuted), provided every edge costs more than the queue's
    inaccuracy. *)
Theorem C55_no_edge_twice g al tol s t l q : nonneg_metrics g -> Forall not_negative al -> costs_more g al tol ->
  connects g s l t -> costs_as g al l q ->
  (forall l' q', connects g s l' t -> costs_as g al l' q' -> (q <= q' + tol)%Q) ->
  NoDup l.
Proof. exact (cheapest_once g al tol s t l q). Qed.
Print Assumptions C55_no_edge_twice.

(** A run that only routes ends well if nothing fails outside of the program,
    all ids are known, the graph isn't one of those on which Dijkstra panics, and
    its shortcuts are those of a contraction.  Missing for the full statement:
    graphs of two nodes, graphs whose last node isn't connected, unknown ids (all
    refuted), edges without costs, and exploring (C65_run). *)
Theorem C55_total_partial e a w delta d g p rc pairs :
  1 <= e_chunk1 e -> 1 <= e_chunk2 e -> (0 <= delta)%Q -> picks_min delta (e_pick e) -> (forall k, e_fails e k = false) ->
  (forall gd, In gd (gen_edges d) -> nothing_negative_in e w gd) ->
  a_graph a = false -> a_edges a = false -> a_pairs a = false -> a_evaluating a = false -> a_balancing a = false -> a_routing a = true ->
  readable (a_cfg a) d p ->
  says e w (read_parsing (e_scalars e)) (a_cfg a) d -> graph_of e w d g ->
  routing_says e w (a_cfg a) g (Some p) rc -> pairs_in e w p pairs ->
  (forall r, In r pairs -> exists s t, node_named g (fst (fst r)) s /\ node_named g (snd (fst r)) t) ->
  node_count g <> 2 -> last_node_connected g ->
  shortcuts_resolve g -> shortcuts_fit g -> shortcuts_add_up g ->
  Forall not_negative (rc_alphas rc) -> costs_more g (rc_alphas rc) (2 * delta) ->
  rc_algo rc = ADijkstra \/ rc_algo rc = ACHDijkstra /\ contracted g (rc_alphas rc) ->
  2 + 2 * powers (edge_count g FWD) (node_count g) <= e_fuel e -> 2 * edge_count g FWD <= e_fuel e ->
  exists w' rs, run e a w = (w', Ok rs).
Proof.
  intros H1 H2 Hdel Hpk Hok Hneg A1 A2 A3 A4 A5 A6 (Hx1 & Hx2 & Hx3) Hd Hg Hrc Hp Hk Htwo Hlast Hres Hfit Hadd Ha Hmore Halg Hf1 Hf2.
  destruct (graph_built e w _ d g H1 H2 Hd Hg) as (c & es & ns & B & Al & Nn). specialize (Nn Hneg).
  destruct (route_all_total _ _ _ _ _ _ _ H1 H2 B Nn Al Hlast Htwo Hres Hfit Hadd e rc Ha Halg delta Hdel Hpk Hmore Hf1 Hf2 pairs)
    with (st := dijkstra_new) (acc := @nil report) as (r & Hr).
  { apply Forall_forall. exact Hk. }
  { constructor. }
  { unfold capacity. simpl. lia. }
  rewrite ProofProgram2.run_split by auto. unfold ProofProgram.run_front. rewrite A1, A2, A3, A4, A6.
  destruct (load_fwd e Hok _ _ _ _ Hx1 Hd) as (w1 & E1 & S1). rewrite (next_fwd _ _ _ _ _ E1).
  assert (Hg1 : graph_of e w1 d g).
  { destruct Hg as (t & gens & Ht & F & Hg). exists t, gens. split; [eapply file_kept; [apply same_kept; exact S1|exact Ht]|]. split; auto.
    clear -F S1. induction F as [|c x cs gs R F IH]; constructor; auto. destruct c; cbn in *; auto.
    destruct R as (t & Ht & E). exists t. unfold file_at in *. rewrite S1. auto. }
  destruct (parse_fwd e Hok d w1 g Hx3 Hg1) as (w2 & E2 & S2). rewrite (next_fwd _ _ _ _ _ E2). unfold when.
  rewrite !(next_fwd _ _ w2 w2 tt) by reflexivity. cbn [ld_graph].
  assert (S : same_files w w2) by (eapply same_trans; eauto).
  destruct (routing_fwd e Hok (a_cfg a) g p rc pairs w2 r Hx1 Hx2) as (w3 & E3).
  - unfold routing_says in *. eapply says_same; eauto.
  - destruct Hp as (t & Ht & Hp). exists t. split; auto. eapply file_kept; [apply same_kept; exact S|exact Ht].
  - destruct Halg as [X|[X _]]; rewrite X; exact Hr.
  - exists w3, (snd r). exact E3.
Qed.
Print Assumptions C55_total_partial.

(** *** Cases *)

(** 10 -> 20 -> 30 -> 10 with a shortcut from 10 to 30, which costs as much *)
Definition total_map : text := T "# contracted
3
4
10 1.5 2
20 1.5 3
30 2.5 3
7 10 20 1 -1 -1
8 20 30 1.25 -1 -1
9 10 30 2.25 0 1
6 30 10 0.5 -1 -1
".
Definition total_yaml : yaml :=
  YMap [("parsing", YMap [
    ("map-file", quoted "in/map.fmi");
    ("nodes", YSeq [meta_ "NodeId" "node-id"; metric_ "Latitude" "lat"; metric_ "Longitude" "lon"]);
    ("edges", YMap [("data", YSeq [meta_ "EdgeId" "edge-id"; meta_ "SrcId" "src"; meta_ "DstId" "dst"; metric_ "Kilometers" "km";
                                   meta_ "ShortcutIdx0" "sc0"; meta_ "ShortcutIdx1" "sc1"])])]); prog_routing].
Definition total_env : env := {|
  e_resolve := e_resolve prog_env; e_fails := e_fails prog_env; e_torn := e_torn prog_env;
  e_yaml := fun t => if text_eqb t (T "contracted") then Some total_yaml else None;
  e_scalars := e_scalars prog_env; e_pbf := e_pbf prog_env; e_parse_f64 := e_parse_f64 prog_env; e_show_f64 := e_show_f64 prog_env;
  e_show_ids := e_show_ids prog_env; e_hav := e_hav prog_env; e_dim := e_dim prog_env; e_chunk1 := e_chunk1 prog_env;
  e_chunk2 := e_chunk2 prog_env; e_pick := e_pick prog_env; e_fuel := e_fuel prog_env; e_tri := e_tri prog_env;
  e_tri_new := e_tri_new prog_env; e_tri_add := e_tri_add prog_env; e_tri_cells := e_tri_cells prog_env; e_solve := e_solve prog_env;
  e_rounds := e_rounds prog_env; e_sample := e_sample prog_env; e_work_off := e_work_off prog_env; e_contract := e_contract prog_env;
  e_date := e_date prog_env |}.
Definition total_world : world :=
  {| w_files := files [("cfg.yaml", T "contracted"); ("in/map.fmi", total_map);
                       ("out/all.route-pairs", T "3
10 30 1
30 20 1
20 20 1
")]; w_ops := 0 |}.
Definition total_doc : parsing_doc :=
  ltac:(let x := eval vm_compute in (read_parsing (e_scalars total_env) total_yaml) in match x with Ok ?d => exact d end).
Definition total_graph : graph :=
  ltac:(let x := eval vm_compute in (snd (parse_graph total_env total_doc total_world)) in match x with Ok {| ld_doc := _; ld_graph := ?g |} => exact g end).

Lemma total_edge e s d : edge_from_to total_graph e s d -> In (e, s, d) [(0, 0, 1); (1, 0, 2); (2, 1, 2); (3, 2, 0)].
Proof.
  intros [A B]. do 4 (destruct e as [|e]; [vm_compute in A, B; injection A as <-; injection B as <-; simpl; tauto|]).
  vm_compute in A. destruct e; discriminate.
Qed.
Lemma total_shortcut e a b : sc_edges total_graph e = Ok (Some (a, b)) -> e = 1 /\ a = 0 /\ b = 2.
Proof.
  intros A. destruct e as [|[|[|[|e]]]]; try (vm_compute in A; discriminate).
  - vm_compute in A. injection A as <- <-. auto.
  - vm_compute in A. destruct e as [|[|e]]; discriminate.
Qed.

Example C55_total_case : exists rc pairs,
  let d := total_doc in let g := total_graph in let e := total_env in let w := total_world in let a := lost_args in
  let p := "out/all.route-pairs" in
  1 <= e_chunk1 e /\ 1 <= e_chunk2 e /\ picks_min 0 (e_pick e) /\ (forall k, e_fails e k = false) /\
  (forall gd, In gd (gen_edges d) -> nothing_negative_in e w gd) /\
  a_graph a = false /\ a_edges a = false /\ a_pairs a = false /\ a_evaluating a = false /\ a_balancing a = false /\ a_routing a = true /\
  readable (a_cfg a) d p /\
  says e w (read_parsing (e_scalars e)) (a_cfg a) d /\ graph_of e w d g /\
  routing_says e w (a_cfg a) g (Some p) rc /\ pairs_in e w p pairs /\ length pairs = 3 /\
  (forall r, In r pairs -> exists s t, node_named g (fst (fst r)) s /\ node_named g (snd (fst r)) t) /\
  node_count g <> 2 /\ last_node_connected g /\
  shortcuts_resolve g /\ shortcuts_fit g /\ shortcuts_add_up g /\ sc_edges g 1 = Ok (Some (0, 2)) /\
  Forall not_negative (rc_alphas rc) /\ costs_more g (rc_alphas rc) (2 * 0) /\ rc_algo rc = ADijkstra /\
  2 + 2 * powers (edge_count g FWD) (node_count g) <= e_fuel e /\ 2 * edge_count g FWD <= e_fuel e.
Proof.
  do 2 eexists. cbv zeta.
  split; [vm_compute; lia|]. split; [vm_compute; lia|]. split; [apply exact_picks|]. split; [reflexivity|]. split; [intros gd []|].
  do 6 (split; [reflexivity|]).
  split. { split; [eexists; vm_compute; reflexivity|]. split; [eexists; vm_compute; reflexivity|]. intros ? ? ? ? []. }
  split; [do 2 eexists; split; [vm_compute; reflexivity|split; [vm_compute; reflexivity|vm_compute; reflexivity]]|].
  split; [do 2 eexists; split; [vm_compute; reflexivity|split; [constructor|left; split; vm_compute; reflexivity]]|].
  split; [do 2 eexists; split; [vm_compute; reflexivity|split; [vm_compute; reflexivity|vm_compute; reflexivity]]|].
  split; [eexists; split; [vm_compute; reflexivity|vm_compute; reflexivity]|]. split; [reflexivity|].
  split.
  { intros r [<-|[<-|[<-|[]]]]; cbn [fst snd].
    - exists 0, 2. split; (split; [vm_compute; lia|reflexivity]).
    - exists 2, 1. split; (split; [vm_compute; lia|reflexivity]).
    - exists 1, 1. split; (split; [vm_compute; lia|reflexivity]). }
  split; [discriminate|].
  split. { intros v Hv. change (node_count total_graph) with 3 in Hv. split; [exists 3, 2, 0|exists 2, 1, 2]; (split; [split; reflexivity|lia]). }
  split. { intros e He. change (edge_count total_graph FWD) with 4 in He.
    assert (P : forall k, In k [0; 2; 3] -> stands_for total_graph k [k]).
    { intros k [<-|[<-|[<-|[]]]]; constructor; reflexivity. }
    destruct e as [|[|[|[|e]]]]; try lia; try (eexists; apply P; simpl; tauto).
    exists ([0] ++ [2]). apply stands_shortcut with 0 2; [reflexivity|apply P|apply P]; simpl; tauto. }
  split. { intros e a b s d Hs He. apply total_shortcut in Hs. destruct Hs as (-> & -> & ->). apply total_edge in He.
    repeat (destruct He as [He|He]; [try discriminate|]); [|destruct He]. injection He as <- <-. exists 1. split; split; reflexivity. }
  split. { intros e a b i x Hs Hm. apply total_shortcut in Hs. destruct Hs as (-> & -> & ->).
    destruct i as [|i]; [|vm_compute in Hm; destruct i; discriminate]. vm_compute in Hm. injection Hm as <-.
    do 2 eexists. split; [vm_compute; reflexivity|]. split; [vm_compute; reflexivity|]. reflexivity. }
  split; [reflexivity|]. split; [repeat constructor; discriminate|].
  split. { intros e q Hq. inversion Hq as [|? ? ms x y Em Ew Hn]; subst. inversion Hn; subst.
    do 4 (destruct e as [|e]; [vm_compute in Em; injection Em as <-; vm_compute in Ew; injection Ew as <-; reflexivity|]).
    vm_compute in Em. destruct e; discriminate. }
  split; [reflexivity|]. split; vm_compute; lia.
Qed.

(** the shortcut is unrolled *)
Example C55_total_run : exists rs, snd (run total_env lost_args total_world) = Ok rs /\
  map (fun r => (r_src r, r_dst r, map p_edges (r_paths r))) rs = [(0, 2, [[0; 2]]); (2, 1, [[3; 0]]); (1, 1, [[]])].
Proof. eexists. split; vm_compute; reflexivity. Qed.

(** without levels, every way climbs and descends *)
Example C55_total_contracted : contracted total_graph [Fin 1] /\
  exists l q, connects total_graph 0 l 0 /\ costs_as total_graph [Fin 1] l q /\ length l = 2.
Proof.
  split.
  - intros s t l q Hc Hq. exists l, q. split; auto. split; auto. split; [|lra]. exists l, []. split; [now rewrite app_nil_r|].
    split; [|intros e ? ? ? ? []]. intros e x y lx ly _ _ Hx Hy. unfold node_level in *.
    apply idx_ok in Hx, Hy. apply nth_error_In in Hx, Hy. vm_compute in Hx, Hy. intuition lia.
  - exists [1; 3]. eexists. split; [|split; [|reflexivity]].
    + econstructor; [split; reflexivity|]. econstructor; [split; reflexivity|]. constructor.
    + econstructor; [reflexivity|reflexivity|]. econstructor; [reflexivity|reflexivity|]. constructor.
Qed.
