(** Properties C65: when a run that explores ends well *)
From Coq Require Import String Ascii List Bool Arith NArith ZArith QArith Lia Lqa.
From Verif Require Import Base F64 Lib ModelText ModelUnits ModelConfig ModelGraph ModelBuild ModelDijkstra ModelExplorator ModelRoutingCfg ModelBalancing
  ModelFmi ModelParsing ModelYaml ModelDocs ModelProgram Spec SpecRouting SpecPaths SpecExplorator SpecCells SpecExploreEnds SpecProgram SpecRouted
  ProofRouting ProofProgram2 ProofNonneg ProofRouted ProofTotal PropsGraph PropsRouting PropsPaths PropsExplorator PropsCells PropsRouted PropsTotal
  ProofExploreEnds2 ProofExploreEnds3 PropsExploreEnds Examples SpecDocs ExamplesDocs ExamplesRouting ExamplesProgram.
Import ListNotations.
Open Scope string_scope.
Open Scope list_scope.
Open Scope nat_scope.

(** *** What is read has as many entries as the graph has metrics *)
Lemma set_length {A} (l : list A) i x l' : set l i x = Ok l' -> length l' = length l.
Proof.
  intros H. unfold set in H. destruct (Nat.ltb_spec i (length l)); [|discriminate]. injection H as <-. apply upd_length.
Qed.
Lemma entries_length ids es : forall s s', foldM (set_entry ids) es s = Ok s' -> length (fst s') = length (fst s) /\ length (snd s') = length (snd s).
Proof.
  induction es as [|x es IH]; intros s s' E; cbn [foldM] in E; [injection E as <-; auto|].
  apply bind_ok in E. destruct E as (s1 & E1 & E). apply IH in E. unfold set_entry in E1.
  apply bind_ok in E1. destruct E1 as (i & _ & E1). apply bind_ok in E1. destruct E1 as (a & Ea & E1).
  apply bind_ok in E1. destruct E1 as (t & Et & E1). injection E1 as <-. cbn [fst snd] in E.
  apply set_length in Ea, Et. lia.
Qed.
Lemma read_lengths sc pf ec y o rc : read_routing_cfg sc pf ec y = Ok (o, rc) ->
  length (rc_alphas rc) = length (ec_units ec) /\ length (rc_scales rc) = length (ec_units ec).
Proof.
  intros E. unfold read_routing_cfg in E. apply bind_ok in E. destruct E as (d & _ & E). apply bind_ok in E. destruct E as (c & Ec & E).
  injection E as _ <-. unfold routing_try_from in Ec. apply bind_ok in Ec. destruct Ec as (es & _ & Ec). unfold routing_from_proto in Ec.
  apply bind_ok in Ec. destruct Ec as (s & Es & Ec). injection Ec as <-. cbn [rc_alphas rc_scales].
  apply entries_length in Es. cbn [fst snd] in Es. now rewrite !repeat_length in Es.
Qed.
Lemma says_lengths e w cfg g o rc : routing_says e w cfg g o rc ->
  length (rc_alphas rc) = metric_dim g /\ length (rc_scales rc) = metric_dim g.
Proof. intros (t & y & _ & _ & E). exact (read_lengths _ _ _ _ _ _ E). Qed.

(** *** All pairs are explored *)
Section Explored.
  Variables (hav : coord -> coord -> f64) (c : cfg) (ch1 ch2 : nat) (es : list proto_edge) (ns : list proto_node) (g : graph).
  Hypothesis H1 : 1 <= ch1.
  Hypothesis H2 : 1 <= ch2.
  Hypothesis HB : build hav c ch1 ch2 es ns = Ok g.
  Hypothesis Hnn : nonneg_metrics g.
  Hypothesis Hal : aligned_metrics g.
  Hypothesis Hfin : finite_metrics g.
  Hypothesis Hlast : last_node_connected g.
  Hypothesis H32 : metric_dim g < 32.
  Variable e : env.
  Variable rc : routing_cfg.
  Hypothesis Hv : valid_pick (e_pick e).
  Hypothesis Hids : fresh_ids (e_tri e) (e_tri_new e) (e_tri_add e).
  Hypothesis Hcells : no_new_cells (e_tri e) (e_tri_new e) (e_tri_add e) (e_tri_cells e).
  Hypothesis Htakes : takes_points (e_tri e) (e_tri_add e) (considered_metrics (flags rc)).
  Hypothesis Hsound : sound_cells (e_tri e) (e_tri_new e) (e_tri_add e) (e_tri_cells e) (flags rc).
  Hypothesis Ha : length (rc_alphas rc) = metric_dim g.
  Hypothesis Hsc : length (rc_scales rc) = metric_dim g.
  Hypothesis Hfuel : 2 + 2 * powers (edge_count g FWD) (node_count g) <= e_fuel e.
  Hypothesis Hrounds : enough_rounds g <= e_rounds e.

  Lemma inner_plain i : rc_algo (inner_cfg rc) <> AExplorator i.
  Proof. unfold inner_cfg. cbn [rc_algo]. destruct (rc_algo rc) as [| |[]] eqn:E; discriminate. Qed.

  Lemma explore_all_total pairs : Forall (known g) pairs -> forall s, ready g (fst s) ->
    exists r, foldM (explore_once e g rc) pairs s = Ok r.
  Proof.
    induction 1 as [|r pairs (s & t & Ns & Nt) F IH]; intros [st acc] HJ; cbn [foldM fst] in *; [eauto|].
    unfold explore_once at 1. rewrite (named_into _ _ _ _ _ _ _ _ s t H1 H2 HB Ns Nt). cbn [bind fst snd].
    destruct (exploration_works _ _ _ _ _ _ g (e_pick e) (e_fuel e) (e_tri e) (e_tri_new e) (e_tri_add e) (e_tri_cells e) (e_solve e) (e_rounds e)
      (inner_cfg rc) s t st H1 H2 HB Hnn Hal Hfin Hlast H32 Hids Hcells Htakes Hsound HJ (proj1 Ns) (proj1 Nt) Hv Ha Hsc inner_plain Hfuel Hrounds)
      as (st' & ps & E & HJ').
    rewrite E. cbn [bind fst snd]. apply IH. exact HJ'.
  Qed.
End Explored.

(** *** C65 *)

(** For every graph there is a number of rounds such that each run which only
    explores it ends well, if nothing fails outside of the program, all ids are
    known, the graph isn't one of those on which Dijkstra panics, its metrics are
    finite and less than 32, and the triangulation does as assumed. *)
Theorem C65_run g : node_count g <> 2 -> last_node_connected g -> finite_metrics g -> metric_dim g < 32 ->
  exists enough, forall e a w d p rc pairs,
  1 <= e_chunk1 e -> 1 <= e_chunk2 e -> valid_pick (e_pick e) -> (forall k, e_fails e k = false) ->
  (forall gd, In gd (gen_edges d) -> nothing_negative_in e w gd) ->
  a_graph a = false -> a_edges a = false -> a_pairs a = false -> a_evaluating a = false -> a_balancing a = false -> a_routing a = true ->
  readable (a_cfg a) d p ->
  says e w (read_parsing (e_scalars e)) (a_cfg a) d -> graph_of e w d g ->
  routing_says e w (a_cfg a) g (Some p) rc -> pairs_in e w p pairs ->
  (forall r, In r pairs -> exists s t, node_named g (fst (fst r)) s /\ node_named g (snd (fst r)) t) ->
  (exists i, rc_algo rc = AExplorator i) ->
  fresh_ids (e_tri e) (e_tri_new e) (e_tri_add e) -> no_new_cells (e_tri e) (e_tri_new e) (e_tri_add e) (e_tri_cells e) ->
  takes_points (e_tri e) (e_tri_add e) (considered_metrics (flags rc)) ->
  sound_cells (e_tri e) (e_tri_new e) (e_tri_add e) (e_tri_cells e) (flags rc) ->
  2 + 2 * powers (edge_count g FWD) (node_count g) <= e_fuel e -> enough <= e_rounds e ->
  exists w' rs, run e a w = (w', Ok rs).
Proof.
  intros Htwo Hlast Hfin H32. exists (enough_rounds g).
  intros e a w d p rc pairs H1 H2 Hv Hok Hneg A1 A2 A3 A4 A5 A6 (Hx1 & Hx2 & Hx3) Hd Hg Hrc Hp Hk (i & Halg) Hids Hcells Htakes Hsound Hfuel Hrounds.
  destruct (graph_built e w _ d g H1 H2 Hd Hg) as (c & es & ns & B & Al & Nn). specialize (Nn Hneg).
  destruct (says_lengths _ _ _ _ _ _ Hrc) as [La Ls].
  destruct (explore_all_total _ _ _ _ _ _ g H1 H2 B Nn Al Hfin Hlast H32 e rc Hv Hids Hcells Htakes Hsound La Ls Hfuel Hrounds pairs)
    with (s := (dijkstra_new, @nil report)) as (r & Hr).
  { apply Forall_forall. exact Hk. }
  { split; [split; [constructor|intros X; contradiction]|]. intros _. unfold capacity. simpl. lia. }
  rewrite ProofProgram2.run_split by auto. unfold ProofProgram.run_front. rewrite A1, A2, A3, A4, A6.
  destruct (load_fwd e Hok _ _ _ _ Hx1 Hd) as (w1 & E1 & S1). rewrite (next_fwd _ _ _ _ _ E1).
  assert (Hg1 : graph_of e w1 d g).
  { destruct Hg as (t & gens & Ht & F & Hg). exists t, gens. split; [eapply file_kept; [apply same_kept; exact S1|exact Ht]|]. split; auto.
    clear -F S1. induction F as [|c x cs gs R F IH]; constructor; auto. destruct c; cbn in *; auto.
    destruct R as (t & Ht & E). exists t. unfold file_at in *. rewrite S1. auto. }
  destruct (parse_fwd e Hok d w1 g Hx3 Hg1) as (w2 & E2 & S2). rewrite (next_fwd _ _ _ _ _ E2). unfold when.
  rewrite !(next_fwd _ _ w2 w2 tt) by reflexivity. cbn [ld_graph].
  assert (S : same_files w w2) by (eapply same_trans; eauto).
  destruct (routing_fwd e Hok (a_cfg a) g p rc pairs w2 r Hx1 Hx2) as (w3 & E3).
  - unfold routing_says in *. eapply says_same; eauto.
  - destruct Hp as (t & Ht & Hp). exists t. split; auto. eapply file_kept; [apply same_kept; exact S|exact Ht].
  - rewrite Halg. exact Hr.
  - exists w3, (snd r). exact E3.
Qed.
Print Assumptions C65_run.

(** *** Case *)

(** three roads 10 -> 20 with costs (1, 10), (10, 1) and (4, 4), and
    20 -> 30 -> 10 *)
Definition roads_map : text := T "# three roads
3
5
10 1.5 2
20 1.5 3
30 2.5 3
7 10 20 1 10
8 10 20 10 1
9 10 20 4 4
6 20 30 1 1
5 30 10 1 1
".
Definition roads_yaml : yaml :=
  YMap [("parsing", YMap [
    ("map-file", quoted "in/map.fmi");
    ("nodes", YSeq [meta_ "NodeId" "node-id"; metric_ "Latitude" "lat"; metric_ "Longitude" "lon"]);
    ("edges", YMap [("data", YSeq [meta_ "EdgeId" "edge-id"; meta_ "SrcId" "src"; meta_ "DstId" "dst"; metric_ "F64" "a"; metric_ "F64" "b"])])]);
    ("routing", YMap [
      ("route-pairs-file", quoted "out/all.route-pairs");
      ("algorithm", YMap [("Explorator", YMap [("algo", plain "Dijkstra")])]);
      ("metrics", YSeq [id_ "a"; id_ "b"])])].
Definition roads_env (rounds : nat) : env := {|
  e_resolve := e_resolve prog_env; e_fails := e_fails prog_env; e_torn := e_torn prog_env;
  e_yaml := fun t => if text_eqb t (T "three roads") then Some roads_yaml else None;
  e_scalars := e_scalars prog_env; e_pbf := e_pbf prog_env; e_parse_f64 := e_parse_f64 prog_env; e_show_f64 := e_show_f64 prog_env;
  e_show_ids := e_show_ids prog_env; e_hav := e_hav prog_env; e_dim := 2; e_chunk1 := e_chunk1 prog_env;
  e_chunk2 := e_chunk2 prog_env; e_pick := e_pick prog_env; e_fuel := e_fuel prog_env; e_tri := lines_tri;
  e_tri_new := lines_new; e_tri_add := lines_add; e_tri_cells := lines_cells; e_solve := xp_solve;
  e_rounds := rounds; e_sample := e_sample prog_env; e_work_off := e_work_off prog_env; e_contract := e_contract prog_env;
  e_date := e_date prog_env |}.
Definition roads_world : world :=
  {| w_files := files [("cfg.yaml", T "three roads"); ("in/map.fmi", roads_map);
                       ("out/all.route-pairs", T "3
10 20 1
30 20 1
20 20 1
")]; w_ops := 0 |}.
Definition roads_doc : parsing_doc :=
  ltac:(let x := eval vm_compute in (read_parsing (e_scalars (roads_env 0)) roads_yaml) in match x with Ok ?d => exact d end).
Definition roads_graph : graph :=
  ltac:(let x := eval vm_compute in (snd (parse_graph (roads_env 0) roads_doc roads_world)) in match x with Ok {| ld_doc := _; ld_graph := ?g |} => exact g end).
Lemma roads_connected : last_node_connected roads_graph.
Proof. intros v Hv. assert (v <= 2) by (vm_compute in Hv; lia). split; [exists 4, 2, 0|exists 3, 1, 2]; (split; [split; reflexivity|auto]). Qed.
Lemma roads_finite : finite_metrics roads_graph.
Proof.
  intros e ms x He Hx. do 5 (destruct e as [|e]; [vm_compute in He; injection He as <-; repeat (destruct Hx as [<-|Hx]; [eauto|]); destruct Hx|]).
  vm_compute in He. destruct e; discriminate.
Qed.
Definition roads_rc : routing_cfg := {| rc_algo := AExplorator false; rc_alphas := [Fin 1; Fin 1]; rc_scales := [PInf; PInf] |}.

(** with enough rounds the run ends well; four are enough, and between 10 and 20
    the third road is found twice *)
Example C65_run_case :
  (exists enough, forall rounds, enough <= rounds -> exists w' rs, run (roads_env rounds) lost_args roads_world = (w', Ok rs)) /\
  exists rs, snd (run (roads_env 4) lost_args roads_world) = Ok rs /\
    map (fun r => (r_src r, r_dst r, map p_edges (r_paths r))) rs =
      [(0, 1, [[0]; [1]; [2]; [2]]); (2, 1, [[4; 0]; [4; 1]; [4; 2]; [4; 2]]); (1, 1, [[]])].
Proof.
  split; [|eexists; split; [vm_compute; reflexivity|vm_compute; reflexivity]].
  destruct (C65_run roads_graph) as (enough & H); [discriminate|exact roads_connected|exact roads_finite|vm_compute; lia|].
  exists enough. intros rounds Hr. eapply (H (roads_env rounds) lost_args roads_world roads_doc "out/all.route-pairs" roads_rc).
  - cbn. lia.
  - cbn. lia.
  - apply exact_picks.
  - reflexivity.
  - intros gd [].
  - reflexivity.
  - reflexivity.
  - reflexivity.
  - reflexivity.
  - reflexivity.
  - reflexivity.
  - split; [eexists; vm_compute; reflexivity|]. split; [eexists; vm_compute; reflexivity|]. intros ? ? ? ? [].
  - do 2 eexists; split; [vm_compute; reflexivity|split; [vm_compute; reflexivity|vm_compute; reflexivity]].
  - do 2 eexists; split; [vm_compute; reflexivity|split; [constructor|left; split; vm_compute; reflexivity]].
  - do 2 eexists; split; [vm_compute; reflexivity|split; [vm_compute; reflexivity|vm_compute; reflexivity]].
  - eexists; split; [vm_compute; reflexivity|vm_compute; reflexivity].
  - intros r [<-|[<-|[<-|[]]]]; cbn [fst snd].
    + exists 0, 1. split; (split; [vm_compute; lia|reflexivity]).
    + exists 2, 1. split; (split; [vm_compute; lia|reflexivity]).
    + exists 1, 1. split; (split; [vm_compute; lia|reflexivity]).
  - exists false. reflexivity.
  - exact lines_fresh.
  - exact lines_settle.
  - apply lines_take.
  - apply lines_sound. vm_compute. lia.
  - vm_compute. lia.
  - exact Hr.
Qed.
