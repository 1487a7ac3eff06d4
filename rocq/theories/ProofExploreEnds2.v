(** Lemmas about the end of an exploration: the paths found *)
From Coq Require Import List Bool Arith Lia QArith.
From Verif Require Import Base F64 Lib ModelApprox ModelUnits ModelConfig ModelGraph ModelBuild ModelDijkstra ModelExplorator
  Spec SpecRouting SpecPaths SpecExplorator SpecCells SpecExploreEnds AbsSearch ProofRouting ProofDijkstra ProofPaths ProofExplorator PropsGraph PropsRouting PropsExplorator
  ProofCells ProofCells3 ProofExploreEnds.
Import ListNotations.
Open Scope nat_scope.

Definition costs_of_edges (g : graph) (es : list nat) : list f64 :=
  match foldM (fun acc e => do m <- edge_metrics g e; Ok (vadd acc m)) es (repeat f0 (metric_dim g)) with
  | Ok cs => cs
  | _ => []
  end.
Definition points_of (g : graph) (imc : list bool) : list (list f64) :=
  map (fun es => map snd (filter fst (combine imc (costs_of_edges g es)))) (lists_of (edge_count g FWD) (2 * edge_count g FWD)).

Section Graph.
  Variables (hav : coord -> coord -> f64) (c : cfg) (ch1 ch2 : nat) (es : list proto_edge) (ns : list proto_node) (g : graph).
  Hypothesis H1 : 1 <= ch1.
  Hypothesis H2 : 1 <= ch2.
  Hypothesis HB : build hav c ch1 ch2 es ns = Ok g.
  Hypothesis Hnn : nonneg_metrics g.

  Lemma answer_short pick fuel st rc s t st' p : history st -> roomy st g -> s < node_count g -> t < node_count g -> valid_pick pick ->
    compute_best_path pick fuel st g rc s t = Ok (st', Some p) -> length (p_edges p) <= 2 * edge_count g FWD.
  Proof.
    intros Hh Hr Hs Ht Hv Ec. pose proof (alphas_of_some _ _ _ _ _ _ _ _ _ Ec) as Ha.
    pose proof (build_wf _ _ _ _ _ _ _ H1 H2 HB) as Hwf.
    destruct (compute_run _ _ _ _ _ _ _ pick pops fuel st rc s t st' (Some p) H1 H2 HB Hnn Hh Hr Hs Ht Ha Hv)
      as (a & _ & Hans); auto using pops_pick.
    unfold answer_of in Hans. destruct (bst a) as [[m b]|]; [|discriminate].
    destruct Hans as (lf & lb & sid & tid & Cf & Cb & _ & _ & _ & _ & Hp). injection Hp as ->. cbn [path_new p_edges].
    rewrite app_length, rev_length.
    pose proof (chain_edges_len g (rc_alphas rc) (is_ch (rc_algo rc)) s t Hwf Hs Ht _ _ _ _ Cf).
    pose proof (chain_edges_len g (rc_alphas rc) (is_ch (rc_algo rc)) s t Hwf Hs Ht _ _ _ _ Cb). lia.
  Qed.

  Lemma best_pool pick fuel q st al st' p : history st -> roomy st g -> xq_src q < node_count g -> xq_dst q < node_count g -> valid_pick pick ->
    xbest pick fuel g q st al = Ok (st', Some p) -> pointed q (points_of g (xq_imc q)) p.
  Proof.
    intros Hh Hr Hs Ht Hv Ex. unfold xbest in Ex. apply bind_ok in Ex. destruct Ex as ([st1 [p0|]] & Ec & Ex);
      cbn [fst snd] in Ex; [|discriminate].
    apply bind_ok in Ex. destruct Ex as (p1 & Ep & Ex). injection Ex as <- <-.
    destruct (C16_real_path _ _ _ _ _ _ _ _ _ _ _ _ _ _ _ H1 H2 HB Hnn Hh Hr Hs Ht Hv Ec) as (_ & _ & _ & _ & A5 & A6 & _).
    pose proof (answer_short _ _ _ _ _ _ _ _ Hh Hr Hs Ht Hv Ec) as Hl.
    unfold calc_costs in Ep. rewrite A5 in Ep. apply bind_ok in Ep. destruct Ep as (cs & Ecs & Ep). injection Ep as <-.
    intros cs' E. cbn [p_costs] in E. injection E as <-. unfold points_of, point. apply in_map_iff. exists (p_edges p0).
    unfold costs_of_edges. rewrite Ecs. split; [reflexivity|]. apply lists_of_in; auto. exact (connects_exist _ _ _ _ A6).
  Qed.

  Lemma best_ends pick fuel q st al : history st -> roomy st g -> xq_src q < node_count g -> xq_dst q < node_count g -> valid_pick pick ->
    2 + 2 * powers (edge_count g FWD) (node_count g) <= fuel -> xbest pick fuel g q st al <> Diverge.
  Proof.
    intros Hh Hr Hs Ht Hv Hf. unfold xbest. apply bind_ends.
    - exact (C22_terminates _ _ _ _ _ _ _ _ _ _ _ _ _ H1 H2 HB Hnn Hh Hr Hs Ht Hv Hf).
    - intros [st1 [p|]] _; cbn [fst snd]; [|discriminate]. apply bind_ends; [|discriminate].
      unfold calc_costs. destruct (p_costs p); [discriminate|]. apply bind_ends; [|discriminate].
      apply (foldM_ends _ (fun _ => True)); auto. intros acc e _. apply bind_ends; [apply idx_ends|discriminate].
  Qed.

  Lemma set_tolerance_ends rc costs tol mi : set_tolerance rc costs tol mi <> Diverge.
  Proof.
    destruct mi as [i|]; [|discriminate]. cbn [set_tolerance]. apply bind_ends; [apply idx_ends|]. intros sc _.
    destruct (feqb sc PInf); [apply set_ends|]. apply bind_ends; [apply idx_ends|]. intros x _. apply set_ends.
  Qed.

  Lemma initial_ends pick fuel q st : history st -> roomy st g -> xq_src q < node_count g -> xq_dst q < node_count g -> valid_pick pick ->
    2 + 2 * powers (edge_count g FWD) (node_count g) <= fuel -> explore_initial_paths pick fuel g q st <> Diverge.
  Proof.
    intros Hh Hr Hs Ht Hv Hf. unfold explore_initial_paths. apply bind_ends; [unfold init_alphas; destruct (32 <=? xq_dim q); discriminate|]. intros ias _.
    apply (foldM_ends _ (fun x => history (fst (fst x)) /\ roomy (fst (fst x)) g)); [| |auto].
    - intros [[st0 tol] found] ia [A B]. cbn [fst] in *. unfold init_step. apply bind_ends; [now apply best_ends|].
      intros [st1 [p|]] _; cbn [fst snd].
      + apply bind_ends; [apply costs_end|]. intros cs _. apply bind_ends; [apply set_tolerance_ends|]. intros tol' _.
        apply bind_ends; [apply mapM_ends; intros x _; apply costs_end|]. intros l _. destruct (existsb _ l); discriminate.
      + discriminate.
    - intros [[st0 tol] found] ia [[st1 tol1] found1] [A B] E. cbn [fst] in *. unfold init_step in E. apply bind_ok in E.
      destruct E as ([st2 o] & Ex & E). cbn [fst snd] in E. pose proof (xbest_history _ _ _ _ _ _ _ _ A B Ex) as G.
      assert (st1 = st2); [|now subst]. destruct o as [p|].
      + apply bind_ok in E. destruct E as (cs & _ & E). apply bind_ok in E. destruct E as (tol' & _ & E). apply bind_ok in E. destruct E as (l & _ & E).
        destruct (existsb _ l); injection E as <- _ _; auto.
      + injection E as <- _ _; auto.
  Qed.

  Lemma collect_ends ids : forall found, collect ids found <> Diverge.
  Proof.
    induction ids as [|id ids IH]; intros found; [discriminate|]. cbn [collect]. apply bind_ends; [apply expect_ends|]. intros p _.
    apply bind_ends; [apply IH|discriminate].
  Qed.

  Definition enough_rounds : nat := 2 * length (lists_of (edge_count g FWD) (2 * edge_count g FWD)) + 2.

  Lemma exploration_ends pick fuel T tri_new tri_add tri_cells solve rounds rc s t st : no_new_cells T tri_new tri_add tri_cells ->
    history st -> roomy st g -> s < node_count g -> t < node_count g -> valid_pick pick ->
    2 + 2 * powers (edge_count g FWD) (node_count g) <= fuel -> enough_rounds <= rounds ->
    fully_explorate pick fuel T tri_new tri_add tri_cells solve rounds g rc s t st <> Diverge.
  Proof.
    intros (pts & _ & Hp) Hh Hr Hs Ht Hv Hf HN. unfold fully_explorate. cbv zeta.
    apply bind_ends; [now apply initial_ends|]. intros [[st1 tol] new] E1.
    assert (HJ : history st1 /\ roomy st1 g).
    { destruct (initial_ok pick fuel g (xquery_with g rc s t) st st1 tol new Hh Hr eq_refl E1) as (A & _). exact A. }
    match goal with |- context [update T tri_add ?x new] => set (q := x) end.
    apply bind_ends; [apply update_ends|]. intros s1 _. apply bind_ends.
    - match goal with |- (if ?b then _ else _) <> _ => destruct b; [|discriminate] end.
      apply (explore_ends pick fuel T tri_add tri_cells solve g q (fun d => history d /\ roomy d g)) with (pool := points_of g (xq_imc q)) (pts := pts); auto.
      + intros d al [A B]. now apply best_ends.
      + intros d al d' r [A B] E. exact (xbest_history _ _ _ _ _ _ _ _ A B E).
      + intros d al d' p [A B] E. exact (best_pool pick fuel q d al d' p A B Hs Ht Hv E).
      + intros x y x' id E. exact (proj1 (Hp _ _ _ _ E)).
      + intros x y x' id E. exact (proj2 (Hp _ _ _ _ E)).
      + right. unfold enough_rounds in HN.
        assert (G : forall {A} (f : A -> bool) m, length (filter f m) <= length m)
          by (intros A f m; induction m as [|a m IHm]; cbn [filter length]; [lia|destruct (f a); cbn [length]; lia]).
        pose proof (G _ (fun c => if in_dec point_dec c (pts (xs_tri T s1)) then false else true) (points_of g (xq_imc q))) as Hle.
        unfold points_of in Hle at 2. rewrite map_length in Hle. unfold missing. lia.
    - intros [st2 s2] _. apply bind_ends; [apply collect_ends|discriminate].
  Qed.
End Graph.
