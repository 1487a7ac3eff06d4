(** Properties C55: what the program answers when it is told to route *)
From Coq Require Import String Ascii List Bool Arith NArith ZArith QArith Lia Lqa.
From Verif Require Import Base F64 Lib ModelText ModelUnits ModelConfig ModelGraph ModelBuild ModelDijkstra ModelRoutingCfg ModelBalancing
  ModelFmi ModelParsing ModelRoutePairs ModelYaml ModelDocs ModelProgram Spec SpecRouting SpecPaths SpecExplorator SpecGenerate SpecProgram SpecRouted
  SpecRoutePairs ProofProgram2 ProofNonneg ProofRouted PropsGraph PropsRouting PropsPaths PropsRoutePairs PropsGenerate Examples ExamplesRouting ExamplesProgram.
Import ListNotations.
Open Scope string_scope.
Open Scope list_scope.
Open Scope nat_scope.

(** *** C55 *)

(** No metric of a built graph is negative, whatever is generated out of
    numbers which aren't, and also after normalizing. *)
Theorem C55_nonneg hav c ch1 ch2 es ns g : 1 <= ch1 -> 1 <= ch2 -> build hav c ch1 ch2 es ns = Ok g ->
  (forall gc, In gc (cfg_gen_edges c) -> nothing_negative hav gc) -> nonneg_metrics g.
Proof. exact (build_nonneg hav c ch1 ch2 es ns g). Qed.
Print Assumptions C55_nonneg.

(** The graph a program loads: built, with as many metrics at each edge as the
    graph has dimensions. *)
Theorem C55_loaded e w cfg d g : 1 <= e_chunk1 e -> 1 <= e_chunk2 e ->
  says e w (read_parsing (e_scalars e)) cfg d -> graph_of e w d g ->
  aligned_metrics g /\ ((forall gd, In gd (gen_edges d) -> nothing_negative_in e w gd) -> nonneg_metrics g).
Proof.
  intros H1 H2 Hd Hg. destruct (graph_built e w cfg d g H1 H2 Hd Hg) as (c & es & ns & _ & A & B). auto.
Qed.
Print Assumptions C55_loaded.

(** A run which routes answers exactly the pairs of the file, in the file's
    order, with a cheapest path or none if there is none. *)
Theorem C55_routes e a w w' rs delta :
  1 <= e_chunk1 e -> 1 <= e_chunk2 e -> (0 <= delta)%Q -> picks_min delta (e_pick e) ->
  (forall d gd, says e w (read_parsing (e_scalars e)) (a_cfg a) d -> In gd (gen_edges d) -> nothing_negative_in e w gd) ->
  a_balancing a = false -> a_evaluating a = false -> a_routing a = true ->
  run e a w = (w', Ok rs) ->
  exists d g p rc pairs, says e w (read_parsing (e_scalars e)) (a_cfg a) d /\ graph_of e w d g /\
    routing_says e w (a_cfg a) g (Some p) rc /\ pairs_in e w' p pairs /\
    (rc_algo rc = ADijkstra -> Forall not_negative (rc_alphas rc) -> Forall2 (answered g rc (2 * delta)) pairs rs) /\
    (rc_algo rc = ACHDijkstra -> Forall not_negative (rc_alphas rc) -> Forall2 (answered_ch g rc delta) pairs rs) /\
    (rc_algo rc = ADijkstra \/ rc_algo rc = ACHDijkstra -> (exists x, In x (rc_alphas rc) /\ ~ not_negative x) ->
       length rs = length pairs /\ forall r, In r rs -> r_paths r = []) /\
    ((exists i, rc_algo rc = AExplorator i) -> fresh_ids (e_tri e) (e_tri_new e) (e_tri_add e) -> node_count g <> 2 ->
       Forall2 (explored_paths g) pairs rs).
Proof.
  intros H1 H2 Hdel Hpk Hneg Hb He Hr E.
  destruct (run_routes _ _ _ _ _ Hb He Hr E) as (d & g & p & rc & pairs & Hd & Hg & Hrc & Hp & st' & F).
  exists d, g, p, rc, pairs. split; auto. split; auto. split; auto. split; auto.
  destruct (graph_built e w _ d g H1 H2 Hd Hg) as (c & es & ns & B & Al & Nn). assert (Nn' : nonneg_metrics g) by (apply Nn; eauto).
  split; [|split; [|split]].
  - intros Halg Ha. rewrite Halg in F.
    apply (route_new_ok _ _ _ _ _ _ _ H1 H2 B Nn' Al e rc Ha delta Hdel Hpk pairs st' rs F). exact Halg.
  - intros Halg Ha. rewrite Halg in F.
    apply (route_new_ok _ _ _ _ _ _ _ H1 H2 B Nn' Al e rc Ha delta Hdel Hpk pairs st' rs F). exact Halg.
  - intros Halg (x & Hx & Hn).
    assert (F' : foldM (route_once e g rc) pairs (dijkstra_new, []) = Ok (st', rs)) by (destruct Halg as [Halg|Halg]; rewrite Halg in F; exact F).
    destruct (route_negative _ _ _ _ _ Hx Hn _ _ _ _ F') as (rs' & -> & A & B'). auto.
  - intros (i & Halg) Hf Hn. rewrite Halg in F.
    destruct (explore_all_ok _ _ _ _ _ _ _ H1 H2 B Nn' Al e rc delta Hpk pairs Hf Hn _ _ _ _ history_new F) as (rs' & -> & A). exact A.
Qed.
Print Assumptions C55_routes.

(** *** Writing pairs and routing them in one run *)

Lemma with_rows_fun e w c g g' : with_rows e w c g -> with_rows e w c g' -> g = g'.
Proof. destruct c; cbn; [congruence|]. intros (t & A & ->) (t' & A' & ->). congruence. Qed.

Lemma graph_of_fun e w d g g' : graph_of e w d g -> graph_of e w d g' -> g = g'.
Proof.
  intros (t & gens & Ht & F & H) (t' & gens' & Ht' & F' & H'). assert (t' = t) by congruence. subst t'.
  assert (gens' = gens).
  { clear -F F'. revert gens' F'. induction F as [|c x cs xs Hx F IH]; intros gens' F'; inversion F'; subst; auto.
    f_equal; eauto using with_rows_fun. }
  subst gens'. destruct H as [[A B]|[A B]], H' as [[A' B']|[A' B']]; congruence.
Qed.

(** If the pairs to be routed are those which the run itself has written, every
    one of them has a path; no pair is answered twice, and with a sufficient
    maximum every reachable pair is answered. *)
Theorem C55_own_pairs e a w w' rs delta d g p rc pd :
  1 <= e_chunk1 e -> 1 <= e_chunk2 e -> (0 <= delta)%Q -> picks_min delta (e_pick e) ->
  (forall gd, In gd (gen_edges d) -> nothing_negative_in e w gd) ->
  a_balancing a = false -> a_evaluating a = false -> a_routing a = true -> a_pairs a = true ->
  run e a w = (w', Ok rs) ->
  says e w (read_parsing (e_scalars e)) (a_cfg a) d -> graph_of e w d g ->
  routing_says e w (a_cfg a) g (Some p) rc -> says e w (read_writing_pairs (e_scalars e)) (a_cfg a) pd ->
  e_resolve e (pr_file pd) = e_resolve e p ->
  node_count g <> 2 -> Forall fits_i64 (node_ids g) -> ~ In LF (list_ascii_of_string (pd_map_file d)) ->
  (pr_max pd * 24 < 2 ^ 63)%N -> (forall k, e_sample e (pr_seed pd) k < node_count g) ->
  rc_algo rc = ADijkstra -> Forall not_negative (rc_alphas rc) ->
  length rs <= N.to_nat (pr_max pd) /\
  NoDup (map (fun r => (r_src r, r_dst r)) rs) /\
  (forall r, In r rs -> r_src r <> r_dst r /\ exists q, r_paths r = [q]) /\
  (node_count g * node_count g <= N.to_nat (pr_max pd) -> forall s t, s < node_count g -> t < node_count g -> s <> t ->
     has_way g rc s t -> exists r, In r rs /\ r_src r = s /\ r_dst r = t).
Proof.
  intros H1 H2 Hdel Hpk Hneg Hb He Hr Hpa E Hd Hg Hrc Hpd Hfile Hn Hid Hlf Hmax Hsam Halg Ha.
  destruct (run_routes _ _ _ _ _ Hb He Hr E) as (d' & g' & p' & rc' & pairs & Hd' & Hg' & Hrc' & Hp & st' & F).
  assert (d' = d) by (eapply says_fun; eauto). subst d'. assert (g' = g) by (eapply graph_of_fun; eauto). subst g'.
  assert (Q : (Some p', rc') = (Some p, rc)) by (eapply says_fun; eauto). injection Q as -> ->.
  destruct (graph_built e w _ d g H1 H2 Hd Hg) as (c & es & ns & B & Al & Nn). specialize (Nn Hneg).
  rewrite Halg in F. destruct (route_new_ok _ _ _ _ _ _ _ H1 H2 B Nn Al e rc Ha delta Hdel Hpk pairs st' rs F) as [An _]. specialize (An Halg).
  rewrite ProofProgram2.run_split in E by auto. destruct (front_ok _ _ _ _ _ E) as (_ & d' & g' & Hd2 & Hg2 & Ho & _).
  assert (d' = d) by (eapply says_fun; eauto). subst d'. assert (g' = g) by (eapply graph_of_fun; eauto). subst g'.
  destruct (out_pairs _ _ _ _ _ _ Ho Hpa) as (o & rc2 & pd2 & t & Hrc2 & Hpd2 & Hw & [_ Hc]).
  assert (Q : (o, rc2) = (Some p, rc)) by (eapply says_fun; eauto). injection Q as -> ->.
  assert (pd2 = pd) by (eapply says_fun; eauto). subst pd2.
  destruct Hp as (t' & Ht' & Hp). unfold file_at in Hc, Ht'. rewrite Hfile in Hc. assert (t' = t) by congruence. subst t'.
  assert (Hl : forall l, route_pairs (e_pick e) (e_fuel e) (e_sample e (pr_seed pd)) (e_fuel e) g rc (N.to_nat (pr_max pd)) = Ok l ->
    NoDup l /\ length l <= N.to_nat (pr_max pd) /\ (forall x, In x l -> exists s t, pair_of g s t x /\ has_way g rc s t)).
  { intros l El. destruct (C36_pairs _ _ _ _ _ _ _ _ _ _ _ _ _ _ H1 H2 B Hn Nn (proj1 Hpk) Hsam El) as (_ & X & Y & Z).
    split; auto. split; auto. intros x Hx. destruct (Z x Hx) as (s & t1 & P1 & P2 & _). exists s, t1. auto. }
  assert (X1 : (N.of_nat (N.to_nat (pr_max pd)) * 24 < 2 ^ 63)%N) by (rewrite N2Nat.id; exact Hmax).
  assert (X2 : forall l, route_pairs (e_pick e) (e_fuel e) (e_sample e (pr_seed pd)) (e_fuel e) g rc (N.to_nat (pr_max pd)) = Ok l ->
    length l <= N.to_nat (pr_max pd) /\ forall x, In x l -> exists s t, pair_of g s t x).
  { intros l El. destruct (Hl l El) as (_ & X & Y). split; auto. intros x Hx. destruct (Y x Hx) as (s & t1 & P1 & _). eauto. }
  destruct (C36_file _ _ _ _ _ _ _ _ _ _ Hlf Hid X1 X2 Hw) as (l & El & Epr).
  assert (pairs = map (fun p => (p, 1)) l) by congruence. subst pairs.
  destruct (Hl l El) as (Nd & Le & Re).
  assert (An' : Forall2 (fun x r => answered g rc (2 * delta) (x, 1) r) l rs).
  { clear -An. remember (map (fun p => (p, 1)) l) as m eqn:Em. revert l Em. induction An as [|x r m rs Hx An IH]; intros [|y l] Em; try discriminate; constructor.
    - simpl in Em. injection Em as -> _. exact Hx.
    - simpl in Em. injection Em as _ ->. apply IH. reflexivity. }
  destruct (C04_node_lookup _ _ _ _ _ _ _ H1 H2 B) as (Hi & _).
  assert (Inj : forall id v v', node_named g id v -> node_id g v' = Ok id -> v = v').
  { intros id v v' [_ A1] A2. apply Hi in A1, A2. congruence. }
  split; [|split; [|split]].
  - assert (length l = length rs) by (clear -An'; induction An'; simpl; auto). lia.
  - clear -An' Nd. induction An' as [|x r l rs Hx An' IH]; simpl; [constructor|]. inversion Nd as [|? ? Nx Nl]; subst. constructor; auto.
    intros Hin. apply in_map_iff in Hin. destruct Hin as (r' & Er & Hin). injection Er as Es Ed. apply Nx.
    destruct Hx as ((_ & X1) & (_ & X2) & _). cbn [fst snd] in *.
    clear -An' Hin Es Ed X1 X2. induction An' as [|y r0 l rs Hy An' IH]; [destruct Hin|].
    destruct Hin as [->|Hin]; [left|right; auto]. destruct Hy as ((_ & Y1) & (_ & Y2) & _). cbn [fst snd] in *.
    destruct x, y; cbn [fst snd] in *. congruence.
  - intros r Hin. assert (K : exists x, In x l /\ answered g rc (2 * delta) (x, 1) r).
    { clear -An' Hin. induction An' as [|y r0 l rs Hy An' IH]; [destruct Hin|]. destruct Hin as [->|Hin]; [exists y; simpl; auto|].
      destruct (IH Hin) as (x & A1 & A2). exists x. simpl. auto. }
    destruct K as (x & Hx & (Ns & Nt & K)). destruct (Re x Hx) as (s & t1 & (_ & _ & Hne & Is & It) & Hre). cbn [fst snd] in *.
    assert (r_src r = s) by eauto. assert (r_dst r = t1) by eauto. subst s t1. split; auto.
    destruct K as [[_ K]|(q & _ & _ & K & _)]; [contradiction|eauto].
  - intros Hall s t1 Hs Ht Hne Hre.
    destruct (C04_node_lookup _ _ _ _ _ _ _ H1 H2 B) as (_ & _ & _ & _).
    destruct (idx_lt (node_ids g) s Hs) as [ids Is]. destruct (idx_lt (node_ids g) t1 Ht) as [idt It].
    assert (P : pair_of g s t1 (ids, idt)) by (repeat split; auto).
    destruct (C36_complete _ _ _ _ _ _ _ _ _ _ _ _ _ _ H1 H2 B Hn Nn Ha (proj1 Hpk) Hsam El Hall s t1 _ P) as [Q _].
    specialize (Q Halg Hre). clear -An' Q Inj Is It. induction An' as [|y r0 l rs Hy An' IH]; [destruct Q|].
    destruct Q as [->|Q].
    + exists r0. destruct Hy as (A1 & A2 & _). cbn [fst snd] in *. split; [now left|]. split; eauto.
    + destruct (IH Q) as (r & A1 & A2). exists r. split; [now right|auto].
Qed.
Print Assumptions C55_own_pairs.

(** *** Cases *)

Definition prog_run := run prog_env prog_routing_args prog_world.
Definition prog_reports : list report := match snd prog_run with Ok rs => rs | _ => [] end.
Definition prog_graph : option graph :=
  match read_parsing (e_scalars prog_env) prog_yaml with
  | Ok d => match parse_graph prog_env d prog_world with (_, Ok l) => Some (ld_graph l) | _ => None end
  | _ => None
  end.

(** the run writes seven pairs and answers them: from 10 to 30 via 20 *)
Example C55_routes_case :
  1 <= e_chunk1 prog_env /\ 1 <= e_chunk2 prog_env /\ picks_min 0 (e_pick prog_env) /\
  (forall d gd, says prog_env prog_world (read_parsing (e_scalars prog_env)) (a_cfg prog_routing_args) d -> In gd (gen_edges d) ->
     nothing_negative_in prog_env prog_world gd) /\
  a_balancing prog_routing_args = false /\ a_evaluating prog_routing_args = false /\ a_routing prog_routing_args = true /\
  snd prog_run = Ok prog_reports /\
  map (fun r => (r_src r, r_dst r, map p_edges (r_paths r))) prog_reports =
    [(0, 1, [[0]]); (0, 2, [[0; 2]]); (0, 3, [[0; 2; 3]]); (1, 2, [[2]]); (1, 3, [[2; 3]]); (2, 3, [[3]]); (3, 2, [[4]])].
Proof.
  split; [vm_compute; lia|]. split; [vm_compute; lia|]. split; [apply exact_picks|]. split.
  - intros d gd (t & y & H1 & H2 & H3). vm_compute in H1. injection H1 as <-. vm_compute in H2. injection H2 as <-.
    vm_compute in H3. injection H3 as <-. intros [].
  - vm_compute. repeat split.
Qed.

Example C55_own_pairs_case : exists d g p rc pd,
  says prog_env prog_world (read_parsing (e_scalars prog_env)) (a_cfg prog_routing_args) d /\ graph_of prog_env prog_world d g /\
  routing_says prog_env prog_world (a_cfg prog_routing_args) g (Some p) rc /\
  says prog_env prog_world (read_writing_pairs (e_scalars prog_env)) (a_cfg prog_routing_args) pd /\
  e_resolve prog_env (pr_file pd) = e_resolve prog_env p /\ a_pairs prog_routing_args = true /\
  node_count g <> 2 /\ Forall fits_i64 (node_ids g) /\ ~ In LF (list_ascii_of_string (pd_map_file d)) /\
  (pr_max pd * 24 < 2 ^ 63)%N /\ (forall k, e_sample prog_env (pr_seed pd) k < node_count g) /\
  rc_algo rc = ADijkstra /\ Forall not_negative (rc_alphas rc) /\ node_count g * node_count g <= N.to_nat (pr_max pd).
Proof.
  do 5 eexists.
  split; [do 2 eexists; split; [vm_compute; reflexivity|split; [vm_compute; reflexivity|vm_compute; reflexivity]]|].
  split; [do 2 eexists; split; [vm_compute; reflexivity|split; [constructor|left; split; vm_compute; reflexivity]]|].
  split; [do 2 eexists; split; [vm_compute; reflexivity|split; [vm_compute; reflexivity|vm_compute; reflexivity]]|].
  split; [do 2 eexists; split; [vm_compute; reflexivity|split; [vm_compute; reflexivity|vm_compute; reflexivity]]|].
  split; [reflexivity|]. split; [reflexivity|]. split; [discriminate|].
  split; [repeat constructor; discriminate|]. split; [vm_compute; intuition discriminate|]. split; [vm_compute; reflexivity|].
  split; [intros k; apply (Nat.mod_upper_bound k 4); discriminate|]. split; [reflexivity|].
  split; [repeat constructor; discriminate|vm_compute; lia].
Qed.

(** every kind of category, with normalizing *)
Example C55_nonneg_case : exists g,
  build ex_hav (gen_cfg all_gens) 1 1 ex_es ex_ns = Ok g /\ (forall gc, In gc all_gens -> nothing_negative ex_hav gc) /\
  length all_gens = 7.
Proof.
  eexists. split; [vm_compute; reflexivity|]. split; [|reflexivity].
  intros gc H. repeat (destruct H as [<-|H]); try destruct H; simpl; auto; try (intros; simpl; lra); try (unfold Qle; simpl; lia).
  intros row t x Hr Ht Hx. repeat (destruct Hr as [<-|Hr]; [repeat (destruct Ht as [<-|Ht]; [injection Hx as <-; simpl; unfold Qle; simpl; lia|]); destruct Ht|]).
  destruct Hr.
Qed.
(** a negative number is kept: finding *)
Theorem C55_nonneg_refuted : exists hav c es ns g, build hav c 1 1 es ns = Ok g /\ ~ nonneg_metrics g.
Proof.
  exists ex_hav, (gen_cfg [GCustom UF64 "x" (Fin (-1))]), ex_es, ex_ns. eexists. split; [vm_compute; reflexivity|].
  intros H. specialize (H 0 _ (Fin (-1)) eq_refl). simpl in H. assert (K : (0 <= -1)%Q) by (apply H; right; now left). revert K. unfold Qle. simpl. lia.
Qed.
Print Assumptions C55_nonneg_refuted.

(** finding: an id which isn't in the graph, and nothing is answered *)
Definition lost_world : world :=
  {| w_files := files [("cfg.yaml", T "all sections"); ("in/map.fmi", prog_map);
                       ("out/all.route-pairs", T "2
10 20 1
10 99 1
")]; w_ops := 0 |}.
Definition lost_args : args :=
  {| a_cfg := "cfg.yaml"; a_graph := false; a_edges := false; a_pairs := false; a_routing := true; a_evaluating := false; a_balancing := false |}.
Theorem C55_unknown_refuted : exists e a w pairs,
  pairs_in e w "out/all.route-pairs" pairs /\ length pairs = 2 /\ a_routing a = true /\ snd (run e a w) = Panic.
Proof.
  exists prog_env, lost_args, lost_world. eexists. split; [eexists; split; [vm_compute; reflexivity|vm_compute; reflexivity]|].
  split; [reflexivity|]. split; [reflexivity|]. vm_compute. reflexivity.
Qed.
Print Assumptions C55_unknown_refuted.
