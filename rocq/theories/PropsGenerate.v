(** Property C39: generated metrics *)
From Coq Require Import String List Bool Arith ZArith QArith Lia.
From Verif Require Import Base F64 ModelApprox ModelUnits ModelConfig ModelGraph ModelBuild Lib ProofBuild ProofGraph
  Spec ProofMetrics ProofProps SpecGenerate ProofGenerate SpecPaths Examples.
Import ListNotations.
Open Scope string_scope.
Open Scope list_scope.
Open Scope nat_scope.

(** one category: the description stays aligned and the category's formula holds *)
Theorem C39_step hav g gc g' : described g -> gen_step hav g gc = Ok g' ->
  described g' /\ meets_formula hav g g' gc.
Proof.
  rewrite <- !desc_described. intros D H. destruct (gen_step_spec _ _ _ _ D H) as [A B].
  split; auto.
Qed.
Print Assumptions C39_step.

(** a build: starting with the inserted metrics, one step per category, then
    possibly normalizing; the description is aligned at the end *)
Theorem C39_built hav c ch1 ch2 es ns g :
  1 <= ch1 -> 1 <= ch2 -> build hav c ch1 ch2 es ns = Ok g ->
  length (ec_ids (cfg_edges c)) = length (ec_units (cfg_edges c)) -> fitting_edges c es ->
  described g /\
  exists g0 g1, described g0 /\ ids_of g0 = ec_ids (cfg_edges c) /\ units_of g0 = ec_units (cfg_edges c) /\
    edge_count g0 FWD = edge_count g FWD /\
    (forall e, e < edge_count g FWD -> exists pe ms, In pe es /\ same_ends g e pe /\
       edge_metrics g0 e = Ok ms /\ Forall2 lifted (pe_metrics pe) ms) /\
    steps hav g0 (cfg_gen_edges c) g1 /\
    ids_of g = ids_of g1 /\ units_of g = units_of g1 /\
    (ec_normalized (cfg_edges c) = false -> g = g1).
Proof.
  intros H1 H2 E Hl Hf.
  destruct (build_steps _ _ _ _ _ _ _ H1 H2 E Hl Hf)
    as (g0 & g1 & D0 & D1 & D2 & I & U & C & S & N & _ & _ & Hc & He).
  split; [now apply desc_described|].
  destruct (gen_steps_spec _ _ _ _ D0 S) as [_ St].
  destruct (normalize_net _ _ N) as (_ & _ & _ & Ecfg).
  exists g0, g1. split; [now apply desc_described|]. split; auto. split; auto. split; auto. split; auto.
  split; auto. unfold ids_of, units_of. rewrite Ecfg. split; auto. split; auto.
  intros Hn. unfold normalize in N. rewrite (gen_steps_normalized _ _ _ _ S) in N.
  destruct (build_split _ _ _ _ _ _ _ E) as (b & gc & g2 & _ & Hb & E0 & E1 & E2).
  pose proof (build_core_spec _ _ _ _ _ _ H1 H2 Hb E0) as Hcore.
  assert (Hn2 : ec_normalized (cfg_edges (g_cfg g)) = false).
  { destruct (normalize_net _ _ E2) as (_ & _ & _ & ->).
    unfold generate in E1. apply bind_ok in E1. destruct E1 as (c' & Ec & E1).
    destruct (gen_node_edges _ _ _ Ec) as [Q1 _].
    destruct (gen_dup _ _); [discriminate|]. rewrite (gen_steps_normalized _ _ _ _ E1). cbn.
    rewrite Q1, (cs_cfg _ _ _ _ _ Hcore). exact Hn. }
  rewrite Ecfg in Hn2. rewrite (gen_steps_normalized _ _ _ _ S) in Hn2. rewrite Hn2 in N. congruence.
Qed.
Print Assumptions C39_built.

(** what C23 and C24 ask for *)
Corollary C39_aligned hav c ch1 ch2 es ns g :
  1 <= ch1 -> 1 <= ch2 -> build hav c ch1 ch2 es ns = Ok g ->
  length (ec_ids (cfg_edges c)) = length (ec_units (cfg_edges c)) -> fitting_edges c es ->
  aligned_metrics g.
Proof.
  intros H1 H2 E Hl Hf. destruct (C39_built _ _ _ _ _ _ _ H1 H2 E Hl Hf) as [(_ & _ & D) _].
  intros e ms Hms. exact (D e ms Hms).
Qed.
Print Assumptions C39_aligned.

(** any sequence of categories adding metrics leaves the inserted ones alone *)
Theorem C39_existing hav c ch1 ch2 es ns g :
  1 <= ch1 -> 1 <= ch2 -> build hav c ch1 ch2 es ns = Ok g ->
  length (ec_ids (cfg_edges c)) = length (ec_units (cfg_edges c)) -> fitting_edges c es ->
  ec_normalized (cfg_edges c) = false -> (forall gc, In gc (cfg_gen_edges c) -> out_of_place gc) ->
  (exists more, ids_of g = ec_ids (cfg_edges c) ++ more) /\
  (exists more, units_of g = ec_units (cfg_edges c) ++ more) /\
  forall e, e < edge_count g FWD -> exists pe, In pe es /\ same_ends g e pe /\
    forall i x, nth_error (pe_metrics pe) i = Some x -> exists y, metric_of g e i = Some y /\ lifted x y.
Proof.
  intros H1 H2 E Hl Hf Hn Ho.
  destruct (C39_built _ _ _ _ _ _ _ H1 H2 E Hl Hf)
    as (_ & g0 & g1 & D0 & I & U & Hc & He & S & _ & _ & Hg). rewrite <- (Hg Hn) in S.
  destruct (steps_keep _ _ _ _ S Ho) as (A & B & C & D). rewrite I in A. rewrite U in B. split; auto. split; auto.
  intros e L. destruct (He e L) as (pe & ms & Hin & Hs & Hm & Hfa). exists pe. split; auto. split; auto.
  intros i x Hx. destruct (Forall2_nth _ _ _ _ _ Hfa Hx) as (y & Hy & Hlift). exists y. split; auto.
  rewrite D.
  - unfold metric_of. now rewrite Hm.
  - rewrite I, Hl, <- (Hf pe Hin). apply nth_error_Some. congruence.
Qed.
Print Assumptions C39_existing.

(** the list of categories keeps agreeing with ids and units *)
Theorem C39_categories hav g gc g' : gen_step hav g gc = Ok g' -> cats_agree g ->
  NoDup (ids_of g) \/ out_of_place gc -> cats_agree g'.
Proof. exact (gen_step_cats hav g gc g'). Qed.
Print Assumptions C39_categories.

(** generating an id that is parsed already: an error if parsing itself works,
    and never a graph *)
Theorem C39_duplicate hav c ch1 ch2 es ns gc id g0 :
  In gc (cfg_gen_edges c) -> creates gc id -> parsed_id c id ->
  build hav (without_generating c) ch1 ch2 es ns = Ok g0 ->
  exists m, build hav c ch1 ch2 es ns = Err m.
Proof. intros H1 H2 H3 H. exact (dup_err _ _ _ _ _ _ _ H (dup_found _ _ _ H1 H2 H3)). Qed.
Print Assumptions C39_duplicate.
Theorem C39_duplicate_no_graph hav c ch1 ch2 es ns gc id g :
  1 <= ch1 -> 1 <= ch2 ->
  In gc (cfg_gen_edges c) -> creates gc id -> parsed_id c id ->
  build hav c ch1 ch2 es ns <> Ok g.
Proof.
  intros L1 L2 H1 H2 H3 E. destruct (build_split _ _ _ _ _ _ _ E) as (b & gc' & g2 & _ & Hb & E0 & E1 & _).
  pose proof (build_core_spec _ _ _ _ _ _ L1 L2 Hb E0) as Hc.
  unfold generate in E1. rewrite (cs_cfg _ _ _ _ _ Hc) in E1. apply bind_ok in E1. destruct E1 as (c' & Ec & E1).
  destruct (gen_node_edges _ _ _ Ec) as [Q _]. rewrite Q, (dup_found _ _ _ H1 H2 H3) in E1. discriminate.
Qed.
Print Assumptions C39_duplicate_no_graph.

(** an example using every kind of category *)
Definition tok_n (n : nat) : token := {| tok_usize := Some n; tok_f64 := Some (of_nat n) |}.
Definition gen_cfg (gens : list gen_cat) : cfg :=
  {| cfg_edges := cfg_edges (ex_cfg false); cfg_nodes := []; cfg_gen_nodes := []; cfg_gen_edges := gens |}.
Definition all_gens : list gen_cat :=
  [ GMeta GSrcIdx "srcIdx"; GCustom KilometersPerHour "speed" (Fin 50);
    GHaversine Kilometers "hav"; GCalc Hours "dur" Kilometers "km" KilometersPerHour "speed";
    GCopy Kilometers "km" Meters "m"; GConvert Hours "dur" Minutes "min";
    GMerge [[tok_n 3; tok_n 9; tok_n 70]; [tok_n 1; tok_n 9; tok_n 80]; [tok_n 3; tok_n 9; tok_n 90]]
      "id" [MId "id"; MIgnored; MId "speed"] ].
Definition all_gen_graph : graph :=
  Eval vm_compute in unok empty_graph (build ex_hav (gen_cfg all_gens) 2 3 ex_es ex_ns).
Lemma all_gen_build : build ex_hav (gen_cfg all_gens) 2 3 ex_es ex_ns = Ok all_gen_graph.
Proof. vm_compute. reflexivity. Qed.
Lemma ex_fitting gens : fitting_edges (gen_cfg gens) ex_es.
Proof. intros e [<-|[<-|[<-|[<-|[<-|[]]]]]]; reflexivity. Qed.
Example C39_built_case :
  build ex_hav (gen_cfg all_gens) 2 3 ex_es ex_ns = Ok all_gen_graph /\ fitting_edges (gen_cfg all_gens) ex_es /\
  ids_of all_gen_graph = ["km"; "speed"; "hav"; "min"; "m"] /\
  edge_count all_gen_graph FWD = 4 /\
  (exists a, edge_metrics all_gen_graph 0 = Ok [Fin 5; Fin 90; Fin 1; Fin a; Fin 5000] /\ (a == 6)%Q) /\
  exists b, edge_metrics all_gen_graph 2 = Ok [Fin 3; Fin 50; Fin 1; Fin b; Fin 3000] /\ (b == 18 # 5)%Q.
Proof.
  split; [exact all_gen_build|]. split; [apply ex_fitting|]. split; [reflexivity|]. split; [reflexivity|].
  split; eexists; (split; [vm_compute; reflexivity|reflexivity]).
Qed.
Example C39_existing_case :
  build ex_hav ex_cfg_gen 2 3 ex_es ex_ns = Ok ex_graph_gen /\ fitting_edges ex_cfg_gen ex_es /\
  (forall gc, In gc (cfg_gen_edges ex_cfg_gen) -> out_of_place gc).
Proof.
  split; [exact ex_build_gen|]. split; [intros e [<-|[<-|[<-|[<-|[<-|[]]]]]]; reflexivity|].
  intros gc [<-|[<-|[<-|[]]]]; exact I.
Qed.
Example C39_categories_case :
  cats_agree ex_graph /\ NoDup (ids_of ex_graph) /\
  exists g', gen_step ex_hav ex_graph (GConvert Kilometers "km" Meters "m") = Ok g' /\
    cats_of g' = [CMeta SrcId "src"; CMeta DstId "dst"; CMetric Meters "m"].
Proof.
  split; [split; reflexivity|]. split; [repeat constructor; intros []|].
  eexists. split; [vm_compute; reflexivity|reflexivity].
Qed.
Example C39_duplicate_case :
  creates (GCustom UF64 "km" (Fin 1)) "km" /\ parsed_id (gen_cfg [GCustom UF64 "km" (Fin 1)]) "km" /\
  exists g0, build ex_hav (without_generating (gen_cfg [GCustom UF64 "km" (Fin 1)])) 2 3 ex_es ex_ns = Ok g0.
Proof.
  split; [reflexivity|]. split.
  - exists (CMetric Kilometers "km"). split; [simpl; auto|]. right. exists Kilometers. reflexivity.
  - eexists. vm_compute. reflexivity.
Qed.

(** finding: ids among the generated categories are not compared *)
Theorem C39_unique_refuted :
  exists hav c es ns g, build hav c 1 1 es ns = Ok g /\
    length (ec_ids (cfg_edges c)) = length (ec_units (cfg_edges c)) /\ fitting_edges c es /\
    NoDup (ec_ids (cfg_edges c)) /\ ~ NoDup (ids_of g).
Proof.
  set (gens := [GCustom UF64 "x" (Fin 1); GCustom UF64 "x" (Fin 2)]).
  exists ex_hav, (gen_cfg gens), ex_es, ex_ns,
    (unok empty_graph (build ex_hav (gen_cfg gens) 1 1 ex_es ex_ns)).
  split; [vm_compute; reflexivity|]. split; [reflexivity|]. split; [apply ex_fitting|].
  split; [repeat constructor; intros []|].
  assert (E : ids_of (unok empty_graph (build ex_hav (gen_cfg gens) 1 1 ex_es ex_ns)) = ["km"; "x"; "x"])
    by (vm_compute; reflexivity).
  rewrite E. intros N. inversion N as [|? ? _ N2]; subst. inversion N2 as [|? ? N3 _]; subst. apply N3. now left.
Qed.
Print Assumptions C39_unique_refuted.
(** ... and then converting makes the categories disagree with the ids *)
Theorem C39_categories_refuted :
  exists hav c es ns g, build hav c 1 1 es ns = Ok g /\ consistent_cfg c /\ fitting_edges c es /\
    NoDup (ec_ids (cfg_edges c)) /\ ~ cats_agree g.
Proof.
  set (gens := [GCustom Meters "x" (Fin 1); GCustom Meters "x" (Fin 2); GConvert Meters "x" Kilometers "y"]).
  exists ex_hav, (gen_cfg gens), ex_es, ex_ns,
    (unok empty_graph (build ex_hav (gen_cfg gens) 1 1 ex_es ex_ns)).
  split; [vm_compute; reflexivity|]. split; [split; reflexivity|]. split; [apply ex_fitting|].
  split; [repeat constructor; intros []|].
  intros [H _]. vm_compute in H. discriminate.
Qed.
Print Assumptions C39_categories_refuted.
(** finding: generated metrics may be zero, which inserted ones may not (C12) *)
Theorem C39_small_refuted :
  exists hav c es ns g, build hav c 1 1 es ns = Ok g /\ fitting_edges c es /\
    metric_of g 0 1 = Some (Fin 0) /\ ~ not_too_small (Fin 0).
Proof.
  set (gens := [GCustom UF64 "x" (Fin 0)]).
  exists ex_hav, (gen_cfg gens), ex_es, ex_ns,
    (unok empty_graph (build ex_hav (gen_cfg gens) 1 1 ex_es ex_ns)).
  split; [vm_compute; reflexivity|]. split; [apply ex_fitting|]. split; [vm_compute; reflexivity|].
  unfold not_too_small, Qle. simpl. lia.
Qed.
Print Assumptions C39_small_refuted.
