(** C53: what configuration documents mean. *)
From Coq Require Import String Ascii List Bool Arith NArith QArith Permutation.
From Verif Require Import Base Lib F64 ModelUnits ModelConfig ModelText ModelStreets ModelDijkstra ModelParsing
  ModelWriting ModelBalancing ModelRoutingCfg ModelYaml ModelDocs SpecDocs ProofDocs ProofDocs2 ProofDocs3 ProofDocs4
  ExamplesDocs.
Import ListNotations.
Open Scope string_scope.
Open Scope list_scope.
Open Scope nat_scope.

(** The scalars of the examples meet the theorems' assumptions. *)
Lemma sc0_ok : scalars_ok sc0.
Proof.
  assert (N : forall t, null_text t = true -> t = "" \/ t = "~" \/ t = "null").
  { intros t H. unfold null_text in H. cbn in H.
    repeat (apply orb_prop in H; destruct H as [H|H]; [apply String.eqb_eq in H; tauto|]). discriminate. }
  constructor; try reflexivity;
    (intros t b H; destruct (sc_null sc0 t) eqn:E; [|reflexivity]; apply N in E;
     destruct E as [->|[->| ->]]; discriminate H).
Qed.
Lemma sc0_numbers : numbers_ok sc0.
Proof. constructor; reflexivity. Qed.

(** *** The order of keys makes no difference, anywhere in a document. *)
Theorem C53_order : forall sc y y', same_doc y y' ->
  read_parsing sc y = read_parsing sc y' /\
  read_writing_graph sc y = read_writing_graph sc y' /\
  read_writing_edges sc y = read_writing_edges sc y' /\
  read_writing_pairs sc y = read_writing_pairs sc y' /\
  read_routing sc y = read_routing sc y' /\
  read_balancing sc y = read_balancing sc y' /\
  read_evaluating sc y = read_evaluating sc y' /\
  read_mch sc y = read_mch sc y'.
Proof.
  intros sc y y' H. repeat split;
    [now apply read_parsing_same|now apply read_writing_graph_same|now apply read_writing_edges_same
    |now apply read_writing_pairs_same|now apply read_routing_same|now apply read_balancing_same
    |now apply read_evaluating_same|now apply read_mch_same].
Qed.
Print Assumptions C53_order.

Definition pairs_doc1 : yaml :=
  YMap [("writing", YMap [("route-pairs", YMap [("file", quoted "a.route-pairs");
    ("random_or_all", YMap [("seed", plain "7"); ("max_count", plain "100")])])])].
Definition pairs_doc2 : yaml :=
  YMap [("writing", YMap [("route-pairs", YMap [
    ("random_or_all", YMap [("max_count", plain "100"); ("seed", plain "7")]); ("file", quoted "a.route-pairs")])])].
Lemma pairs_docs_same : same_doc pairs_doc1 pairs_doc2.
Proof.
  assert (R : forall p t, same_doc (YScalar p t) (YScalar p t)) by constructor.
  eapply same_map; [apply Permutation_refl|]. constructor; [|constructor]. split; [reflexivity|].
  eapply same_map; [apply Permutation_refl|]. constructor; [|constructor]. split; [reflexivity|].
  eapply same_map; [apply perm_swap|]. constructor; [|constructor; [|constructor]]; (split; [reflexivity|]); [|apply R].
  eapply same_map; [apply perm_swap|]. constructor; [|constructor; [|constructor]]; (split; [reflexivity|]); apply R.
Qed.
Example C53_order_case :
  pairs_doc1 <> pairs_doc2 /\ same_doc pairs_doc1 pairs_doc2 /\
  read_writing_pairs sc0 pairs_doc1 = Ok {| pr_file := "a.route-pairs"; pr_seed := 7%N; pr_max := 100%N |}.
Proof. split; [discriminate|]. split; [exact pairs_docs_same|reflexivity]. Qed.

(** *** A section means the same in all documents having it: other sections make no difference. *)
Theorem C53_sections : forall sc y y',
  (agree_at ["parsing"] y y' -> read_parsing sc y = read_parsing sc y') /\
  (agree_at ["writing"; "graph"] y y' -> read_writing_graph sc y = read_writing_graph sc y') /\
  (agree_at ["writing"; "edges-info"] y y' -> read_writing_edges sc y = read_writing_edges sc y') /\
  (agree_at ["writing"; "route-pairs"] y y' -> read_writing_pairs sc y = read_writing_pairs sc y') /\
  (agree_at ["routing"] y y' -> read_routing sc y = read_routing sc y') /\
  (agree_at ["balancing"] y y' -> read_balancing sc y = read_balancing sc y') /\
  (agree_at ["evaluating_balance"] y y' -> read_evaluating sc y = read_evaluating sc y') /\
  (agree_at ["multi-ch-constructor"] y y' -> read_mch sc y = read_mch sc y').
Proof.
  intros sc y y'. repeat split; intro H.
  - exact (section_agree (read_parsing_content sc)
             (fun r => do d <- r; do _ <- find_supported_ext MAP_EXTS (pd_map_file d); Ok d) "parsing" y y' H).
  - exact (section_agree2 (read_graph_content sc)
             (fun r => do d <- r; do _ <- find_supported_ext GRAPH_EXTS (gd_file d); Ok d) "writing" "graph" y y' H).
  - exact (section_agree2 (read_edges_content sc false)
             (fun r => do d <- r; do _ <- find_supported_ext EDGES_EXTS (ed_file d); Ok d) "writing" "edges-info" y y' H).
  - exact (section_agree2 (read_pairs_content sc)
             (fun r => do d <- r; do _ <- find_supported_ext PAIRS_EXTS (pr_file d); Ok d) "writing" "route-pairs" y y' H).
  - exact (section_agree _ (fun r => r) "routing" y y' H).
  - exact (section_agree _ (fun r => r) "balancing" y y' H).
  - exact (section_agree _ (fun r => r) "evaluating_balance" y y' H).
  - exact (section_agree _ (fun r => r) "multi-ch-constructor" y y' H).
Qed.
Print Assumptions C53_sections.

(** the shipped document for balancing without its other sections *)
Definition only_section (k : string) (y : yaml) : yaml :=
  match y with YMap l => YMap (filter (fun e => String.eqb (fst e) k) l) | _ => y end.
Example C53_sections_case :
  only_section "balancing" config_yaml <> config_yaml /\
  agree_at ["balancing"] config_yaml (only_section "balancing" config_yaml) /\
  exists d, read_balancing sc0 config_yaml = Ok d /\ bd_num_iter d = 3%N /\ mc_dim (bd_mch d) = 3%N /\
            bc_metric (bd_cfg d) = "workload" /\ bc_min (bd_cfg d) = Some (Fin (1 # 10)).
Proof.
  split; [discriminate|]. split.
  - constructor. vm_compute. constructor; [constructor|constructor].
  - eexists. split; [vm_compute; reflexivity|]. vm_compute. auto.
Qed.

(** *** What is accepted has no unknown and no duplicate keys in the mappings listed in the tables. *)
Theorem C53_strict : forall sc y,
  (forall d, read_parsing sc y = Ok d -> strict parsing_keys y) /\
  (forall d, read_writing_graph sc y = Ok d -> strict writing_graph_keys y) /\
  (forall d, read_writing_edges sc y = Ok d -> strict writing_edges_keys y) /\
  (forall d, read_writing_pairs sc y = Ok d -> strict writing_pairs_keys y) /\
  (forall d, read_routing sc y = Ok d -> strict routing_keys y) /\
  (forall d, read_balancing sc y = Ok d -> strict balancing_keys y) /\
  (forall d, read_evaluating sc y = Ok d -> strict evaluating_keys y) /\
  (forall d, read_mch sc y = Ok d -> strict mch_section_keys y).
Proof.
  intros sc y. repeat split; intro d;
    [apply strict_parsing|apply strict_writing_graph|apply strict_writing_edges|apply strict_writing_pairs
    |apply strict_routing|apply strict_balancing|apply strict_evaluating|apply strict_mch].
Qed.
Print Assumptions C53_strict.

(** an unknown key among the documented ones is an error *)
Example C53_strict_case :
  (exists d, read_parsing sc0 iteration_yaml = Ok d /\ pd_map_file d = "graph.ch.fmi") /\
  read_routing sc0 (YMap [("routing", YMap [("algorithm", quoted "Dijkstra");
    ("metrics", YSeq [YMap [("id", quoted "km"); ("tolerated_scale", plain "1.2")]])])]) = Err "unknown field".
Proof. split; [eexists; split; vm_compute; reflexivity|reflexivity]. Qed.

(** It doesn't hold for every mapping: inside the categories of edges, a misspelled
    key is ignored, and the default is taken. *)
Definition typo_yaml (key : string) : yaml :=
  YMap [("parsing", YMap [("map-file", quoted "graph.fmi"); ("nodes", YSeq []); ("edges", YMap [("data", YSeq [])]);
    ("generating", YMap [("nodes", YSeq []);
       ("edges", YSeq [YMap [("custom", YMap [("id", quoted "workload"); (key, plain "5.0")])]])])])].
Theorem C53_typo_refuted :
  exists key d, key <> "default" /\ read_parsing sc0 (typo_yaml key) = Ok d /\
    pd_generating d = Some ([], [DGen (GCustom UF64 "workload" f0)]) /\
    exists d', read_parsing sc0 (typo_yaml "default") = Ok d' /\
      pd_generating d' = Some ([], [DGen (GCustom UF64 "workload" (Fin 5))]).
Proof.
  exists "defualt". eexists. split; [discriminate|]. split; [vm_compute; reflexivity|]. split; [reflexivity|].
  eexists. split; vm_compute; reflexivity.
Qed.
Print Assumptions C53_typo_refuted.

(** *** Exactly these configurations for parsing can be written down. *)
Theorem C53_configurations : forall sc d, scalars_ok sc ->
  (exists y, read_parsing sc y = Ok d) <-> expressible sc d.
Proof.
  intros sc d so. split; [intros (y & H); eapply read_parsing_expressible; eassumption|now apply expressible_read].
Qed.
Print Assumptions C53_configurations.

Example C53_configurations_case :
  exists d, read_parsing sc0 config_yaml = Ok d /\ scalars_ok sc0 /\
    ec_ids (pd_edges d) = ["kilometers"; "hours"; "lane-count"] /\
    ~ expressible sc0 {| pd_map_file := "graph.txt"; pd_vehicles := pd_vehicles d; pd_nodes := pd_nodes d;
                         pd_edges := pd_edges d; pd_generating := pd_generating d |}.
Proof.
  eexists. split; [vm_compute; reflexivity|]. split; [exact sc0_ok|]. split; [reflexivity|].
  intro H. apply ex_file in H. cbn [pd_map_file] in H.
  apply (proj2 (find_ext_ok MAP_EXTS "graph.txt"
    ltac:(intros e [<-|[<-|[]]]; (split; [discriminate|cbn; intuition discriminate])))) in H.
  destruct H as (e & H). discriminate H.
Qed.

(** The blueprint lists categories to be generated which no document can contain. *)
Theorem C53_blueprint_unreadable : forall sc,
  (forall y c id, read_gen_edge sc y = Ok c -> c <> DGen (GMeta GShortcutIdx0 id) /\ c <> DGen (GMeta GShortcutIdx1 id)) /\
  (forall y c id, read_gen_node sc y = Ok c -> c <> (NCHLevel, id)).
Proof.
  intro sc. split.
  - intros y c id H. apply read_gen_edge_inv in H. split; intros ->; cbn in H; intuition.
  - intros y c id H. apply read_gen_node_inv in H. intros ->. discriminate H.
Qed.
Print Assumptions C53_blueprint_unreadable.
Example C53_blueprint_case :
  read_gen_edge sc0 (YMap [("meta", YMap [("info", quoted "ShortcutIdx0"); ("id", quoted "sc-idx-0")])]) = Err "unknown variant" /\
  read_gen_node sc0 (YMap [("meta", YMap [("info", quoted "CHLevel"); ("id", quoted "ch-level")])]) = Err "unknown variant" /\
  read_gen_edge sc0 (YMap [("meta", YMap [("info", quoted "SrcLat"); ("id", quoted "src-lat")])]) = Ok (DGen (GMeta GSrcLat "src-lat")).
Proof. repeat split. Qed.

(** *** Documented defaults: spelling one out makes no difference. *)
Theorem C53_defaults : forall sc, scalars_ok sc -> numbers_ok sc ->
  may_be_omitted parsing_defaults (read_parsing sc) /\
  may_be_omitted writing_graph_defaults (read_writing_graph sc) /\
  may_be_omitted writing_edges_defaults (read_writing_edges sc) /\
  may_be_omitted writing_pairs_defaults (read_writing_pairs sc) /\
  (forall parse_f64 ec, may_be_omitted routing_defaults (read_routing_cfg sc parse_f64 ec)) /\
  may_be_omitted balancing_defaults (read_balancing sc) /\
  may_be_omitted evaluating_defaults (read_evaluating sc) /\
  may_be_omitted mch_section_defaults (read_mch sc).
Proof.
  intros sc so no. repeat split;
    [now apply omit_parsing|now apply omit_writing_graph|now apply omit_writing_edges|now apply omit_writing_pairs
    |intros pf ec; now apply omit_routing|now apply omit_balancing|now apply omit_evaluating|now apply omit_mch].
Qed.
Print Assumptions C53_defaults.

Definition pairs_doc0 (l : list (string * yaml)) : yaml :=
  YMap [("writing", YMap [("route-pairs", YMap [("file", quoted "a.route-pairs"); ("random_or_all", YMap l)])])].
Example C53_defaults_case :
  adds [Key "writing"; Key "route-pairs"; Key "random_or_all"] "seed" (plain "42")
    (pairs_doc0 [("max_count", plain "100")]) (pairs_doc0 [("max_count", plain "100"); ("seed", plain "42")]) /\
  read_writing_pairs sc0 (pairs_doc0 [("max_count", plain "100")]) =
    Ok {| pr_file := "a.route-pairs"; pr_seed := 42%N; pr_max := 100%N |} /\
  scalars_ok sc0 /\ numbers_ok sc0.
Proof.
  split; [|split; [reflexivity|split; [exact sc0_ok|exact sc0_numbers]]].
  apply (adds_key "writing" _ _ _ _ _ [] []). apply (adds_key "route-pairs" _ _ _ _ _ [] []).
  apply (adds_key "random_or_all" _ _ _ _ _ [_] []).
  apply (adds_here "seed" (plain "42") [("max_count", plain "100")] []). cbn. intros [E|[]]. discriminate E.
Qed.

(** It doesn't hold for the vehicles' defaults: the blueprint documents one for each
    of both keys, but none of them may be omitted if the other one is there. *)
Definition vehicles_yaml (l : list (string * yaml)) : yaml :=
  YMap [("parsing", YMap [("map-file", quoted "graph.fmi"); ("vehicles", YMap l); ("nodes", YSeq []);
    ("edges", YMap [("data", YSeq [])])])].
Theorem C53_vehicles_refuted :
  exists y y', adds [Key "parsing"; Key "vehicles"] "category" (quoted "Car") y y' /\
    (exists d, read_parsing sc0 y' = Ok d) /\ read_parsing sc0 y = Err "missing field".
Proof.
  exists (vehicles_yaml [("are_drivers_picky", plain "false")]),
         (vehicles_yaml [("are_drivers_picky", plain "false"); ("category", quoted "Car")]).
  split; [|split; [eexists|]; vm_compute; reflexivity].
  apply (adds_key "parsing" _ _ _ _ _ [] []). apply (adds_key "vehicles" _ _ _ _ _ [_] [_; _]).
  apply (adds_here "category" (quoted "Car") [_] []). cbn. intros [E|[]]. discriminate E.
Qed.
Print Assumptions C53_vehicles_refuted.

(** *** The same section under another one *)

(** The section for the constructor of contraction hierarchies has to be written
    differently in the balancing's section: a ratio without quotes is accepted at the
    top of a document only. *)
Definition mch_yaml (ratio : yaml) : yaml :=
  YMap [("fmi-graph", quoted "graph.fmi"); ("contracted-graph", quoted "graph.ch.fmi"); ("dimension", plain "3");
        ("contraction-ratio", ratio); ("is_printing_osm-ids", plain "true"); ("is_using_external_edge-ids", plain "true")].
Definition with_mch (mch : yaml) (y : yaml) : yaml :=
  match y with
  | YMap l => YMap (map (fun e => if String.eqb (fst e) "balancing" then
      (fst e, match snd e with
              | YMap l => YMap (map (fun e => if String.eqb (fst e) "multi-ch-constructor" then (fst e, mch) else e) l)
              | y => y
              end) else e) l)
  | _ => y
  end.
Theorem C53_ratio_refuted :
  (exists d, read_mch sc0 (YMap [("multi-ch-constructor", mch_yaml (plain "98.5"))]) = Ok d /\ mc_ratio d = "98.5") /\
  (exists e, read_balancing sc0 (with_mch (mch_yaml (plain "98.5")) config_yaml) = Err e) /\
  (exists d, read_balancing sc0 (with_mch (mch_yaml (quoted "98.5")) config_yaml) = Ok d /\ mc_ratio (bd_mch d) = "98.5").
Proof. repeat split; eexists; [split| |split]; vm_compute; reflexivity. Qed.
Print Assumptions C53_ratio_refuted.

(** The minimal cost is read and has no effect. *)
Theorem C53_minimum_cost : forall sc x x' l l1 l2 a b,
  l = l1 ++ l2 -> sc_f64 sc a = Some x -> sc_f64 sc b = Some x' -> scalars_ok sc ->
  ~ In "minimum-cost" (map fst l) ->
  read_mch sc (YMap [("multi-ch-constructor", YMap (l1 ++ ("minimum-cost", plain a) :: l2))]) =
  read_mch sc (YMap [("multi-ch-constructor", YMap (l1 ++ ("minimum-cost", plain b) :: l2))]).
Proof.
  intros sc x x' l l1 l2 a b -> Ha Hb so Hn.
  assert (X : forall t z, sc_f64 sc t = Some z ->
    read_mch_content sc false (YMap (l1 ++ l2)) = read_mch_content sc false (YMap (l1 ++ ("minimum-cost", plain t) :: l2))).
  { intros t z Ht. pose proof (adds_here "minimum-cost" (plain t) l1 l2 Hn) as A.
    unfold read_mch_content. eapply bind_here; [|exact A|]; [cbn; tauto|].
    intros f f' H0 H1 Ho. rewrite H0, H1. others f' Ho.
    now rewrite (opt_f64 sc so _ _ Ht). }
  unfold read_mch.
  change (read_mch_content sc false (YMap (l1 ++ ("minimum-cost", plain a) :: l2)) =
          read_mch_content sc false (YMap (l1 ++ ("minimum-cost", plain b) :: l2))).
  now rewrite <- (X a x Ha), <- (X b x' Hb).
Qed.
Print Assumptions C53_minimum_cost.
Example C53_minimum_cost_case :
  exists d, read_mch sc0 (YMap [("multi-ch-constructor", match mch_yaml (quoted "98.5") with
    YMap l => YMap ([] ++ ("minimum-cost", plain "3.5") :: l) | y => y end)]) = Ok d /\ mc_dim d = 3%N.
Proof. eexists. split; vm_compute; reflexivity. Qed.

(** *** Ids of nodes may occur twice, ids of edges may not. *)
Theorem C53_node_ids_refuted :
  exists d id, (exists y, read_parsing sc0 y = Ok d) /\
    pd_nodes d = [NCMeta NNodeId id; NCMetric Latitude id; NCMetric Longitude id].
Proof.
  eexists {| pd_nodes := [NCMeta NNodeId "x"; NCMetric Latitude "x"; NCMetric Longitude "x"] |}, "x".
  split; [|reflexivity].
  exists (YMap [("parsing", YMap [("map-file", quoted "graph.fmi"); ("edges", YMap [("data", YSeq [])]);
    ("nodes", YSeq [YMap [("meta", YMap [("info", quoted "NodeId"); ("id", quoted "x")])];
      YMap [("metric", YMap [("unit", quoted "Latitude"); ("id", quoted "x")])];
      YMap [("metric", YMap [("unit", quoted "Longitude"); ("id", quoted "x")])]])])]).
  vm_compute. reflexivity.
Qed.
Print Assumptions C53_node_ids_refuted.

(** *** Documents shipped with the project *)

(** These are read. *)
Example C53_shipped_accepted :
  (exists a b c d, read_parsing sc0 config_yaml = Ok a /\ read_balancing sc0 config_yaml = Ok b /\
     read_routing sc0 config_yaml = Ok c /\ read_writing_graph sc0 config_yaml = Ok d) /\
  (exists a b c, read_parsing sc0 iteration_yaml = Ok a /\ read_writing_graph sc0 iteration_yaml = Ok b /\
     read_writing_edges sc0 iteration_yaml = Ok c) /\
  (exists a, read_mch sc0 fmi_to_ch_yaml = Ok a) /\
  (exists a b, read_parsing sc0 eval_yaml = Ok a /\ read_evaluating sc0 eval_yaml = Ok b) /\
  (exists a b, read_parsing sc0 small_yaml = Ok a /\ read_writing_pairs sc0 small_yaml = Ok b).
Proof. repeat split; repeat eexists; vm_compute; reflexivity. Qed.

(** These aren't: their sections have the shape of older versions. *)
Theorem C53_shipped_refuted :
  (exists e, read_balancing sc0 stuttgart_config_yaml = Err e) /\
  (exists e, read_writing_graph sc0 stuttgart_pbf_to_fmi_yaml = Err e) /\
  (exists e, read_routing sc0 normalized_yaml = Err e).
Proof. repeat split; eexists; vm_compute; reflexivity. Qed.
Print Assumptions C53_shipped_refuted.
