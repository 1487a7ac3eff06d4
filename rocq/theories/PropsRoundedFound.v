(** C68: what the explorator keeps, calculating in `f64` *)
From Coq Require Import String List Bool Arith ZArith QArith Qabs Lia NArith.
From Verif Require Import Base F64 Lib ModelApprox ModelUnits ModelConfig ModelGraph ModelBuild ModelDijkstra ModelExplorator
  ModelHeap ModelRounded ModelRoundedHeap ModelRoundedExplorator
  Spec SpecRouting SpecPaths SpecExplorator SpecCells SpecRounded SpecRoundedHeap SpecRoundedExplorator SpecRoundedFound ProofDijkstra ProofRouting ProofExplorator
  ProofRoundedExplorator ProofRoundedExploratorCosts ProofRoundedFound PropsRoundedExplorator PropsCells PropsExplorator Examples ExamplesRouting.
Import ListNotations.
Open Scope list_scope.
Open Scope nat_scope.

(** Of the initial queries, every answer is found, unless all its costs are
    like those of a path found before; the paths found differ in their costs. *)
Theorem C68_initial fuel g q st st' tol found ias : rhistory_h st -> roomy st g -> xq_tol q = repeat PInf (xq_dim q) ->
  init_alphas (xq_dim q) (xq_imc q) = Ok ias -> rexplore_initial_paths ieee fuel g q st = Ok (st', tol, found) ->
  ForallOrdPairs differs found /\
  forall i al, In (i, al) ias ->
    exists st0 st1 r, rhistory_h st0 /\ roomy st0 g /\ rxbest ieee fuel g q st0 al = Ok (st1, r) /\
      forall p, r = Some p -> exists p', In p' found /\ resembles p' p.
Proof.
  intros Hh Hr Et Ei E. split.
  - destruct (rinitial_inv ieee fuel g q st _ ias Hh Hr Et Ei E) as [_ _ _ C _ _]. cbn [snd] in C. clear - C.
    induction C as [|a l Ha Hl IH]; constructor; auto. eapply Forall_impl; [|exact Ha]. intros b. apply apart_differs.
  - intros i al Hin. unfold rexplore_initial_paths in E. rewrite Ei in E. cbn [bind] in E.
    destruct (initial_represented fuel g q ias st _ [] _ Hh Hr E) as [_ K]. cbn [snd] in K. apply K.
    change al with (snd (i, al)). now apply in_map.
Qed.
Print Assumptions C68_initial.
Example C68_initial_case : exists st' tol found ias,
  rexplore_initial_paths ieee 20 xp64_graph (xquery_with xp64_graph (xp_rc (Fin 5) (Fin 6)) 0 2) dijkstra_new = Ok (st', tol, found) /\
  length found = 3 /\ init_alphas 2 [true; true] = Ok ias /\ length ias = 3 /\ rhistory_h dijkstra_new /\ roomy dijkstra_new xp64_graph.
Proof.
  do 4 eexists. split; [vm_compute; reflexivity|]. split; [reflexivity|]. split; [vm_compute; reflexivity|]. split; [reflexivity|]. split; [constructor|].
  intros H. discriminate H.
Qed.

(** An initial path whose costs don't exceed the tolerances is returned. *)
Theorem C68_kept T tri_new tri_add tri_cells solve fuel rounds g rc s t st st' ps st1 tol new :
  fresh_ids T tri_new tri_add -> rhistory_h st -> roomy st g ->
  rfully_explorate ieee fuel T tri_new tri_add tri_cells solve rounds g rc s t st = Ok (st', ps) ->
  rexplore_initial_paths ieee fuel g (xquery_with g rc s t) st = Ok (st1, tol, new) ->
  forall p, In p new -> affordable tol p -> In p ps.
Proof.
  intros (ids & Hnew & Hadd) Hh Hr Er Ei p Hp Ha.
  destruct (rrun_split _ _ _ _ _ _ _ _ _ _ _ _ _ _ _ Er) as (st1' & tol' & new' & s1 & s2 & E1 & E2 & E3 & E4). cbv zeta in *.
  rewrite E1 in Ei. injection Ei as -> -> ->.
  set (q0 := xquery_with g rc s t) in *.
  set (q := {| xq_src := s; xq_dst := t; xq_rc := rc; xq_dim := metric_dim g; xq_tdim := xq_tdim q0; xq_tol := tol; xq_imc := xq_imc q0 |}) in *.
  pose proof (proj2 (has_update T tri_add ids Hadd q _ _ _ E2) p Hp Ha) as H1.
  destruct (rinitial_ok _ _ _ q0 _ _ _ _ Hh Hr eq_refl E1) as ([Hh1 Hr1] & _).
  assert (I1 : rxinv T ids ieee q (fun _ => True) s1).
  { eapply (rupdate_inv T tri_add ids Hadd ieee q); [|auto|exact E2].
    constructor; cbn [xs_found xs_tri xs_tolerated]; [intros ? ? []|intros ? []|constructor|intros ? []]. }
  assert (K : has T ids p s2 /\ rxinv T ids ieee q (fun _ => True) s2).
  { destruct (_ && _).
    - split; [exact (has_explore T tri_add tri_cells solve ids Hadd fuel g q rounds _ _ _ _ E3 p H1)|].
      exact (proj2 (rexplore_inv T tri_add tri_cells solve ids Hadd ieee fuel g q (fun _ => True) (fun _ _ _ => I) rounds _ _ _ _ Hh1 Hr1 I1 E3)).
    - injection E3 as <- <-. auto. }
  destruct K as [(id & A & _ & C) [_ _ J3 _]]. pose proof (collect_spec _ _ _ E4 J3) as F.
  apply In_nth_error in A. destruct A as (k & Hk). destruct (Forall2_nth _ _ _ _ _ F Hk) as (p' & Hp' & Hl).
  assert (p' = p) by congruence. subst p'. eapply nth_error_In; eauto.
Qed.
Print Assumptions C68_kept.
Example C68_kept_case : exists st' ps st1 tol new p,
  rfully_explorate ieee 20 nat xp_new xp_add xp_cells xp_solve 5 xp64_graph (xp_rc (Fin 5) (Fin 6)) 0 2 dijkstra_new = Ok (st', ps) /\
  rexplore_initial_paths ieee 20 xp64_graph (xquery_with xp64_graph (xp_rc (Fin 5) (Fin 6)) 0 2) dijkstra_new = Ok (st1, tol, new) /\
  In p new /\ affordable tol p /\ exists p', In p' new /\ ~ affordable tol p'.
Proof.
  do 6 eexists. split; [vm_compute; reflexivity|]. split; [vm_compute; reflexivity|]. split; [right; right; left; reflexivity|]. split.
  - eexists. split; [reflexivity|]. intros [|[|[|i]]] x y Hx Hy; cbn in Hx, Hy; try discriminate;
      injection Hx as <-; injection Hy as <-; eexists; (split; [reflexivity|]); right; eexists; (split; [reflexivity|]); vm_compute; discriminate.
  - eexists. split; [right; left; reflexivity|]. intros (cs & Hc & H). injection Hc as <-.
    destruct (H 0 _ _ eq_refl eq_refl) as (a & Ha & [Hb|(b & Hb & L)]); [discriminate Hb|]. injection Ha as <-. injection Hb as <-. vm_compute in L. now apply L.
Qed.

(** *** Cells *)

(** A path is added for a cell only if, with weights the solver has found for
    the cell, it is calculated to cost noticeably less than a corner; it is the
    answer to the query with these weights. *)
Theorem C68_undercuts hav c ch1 ch2 es ns g0 g fuel q solve found st vis new cell_id st' vis' new' :
  1 <= ch1 -> 1 <= ch2 -> build hav c ch1 ch2 es ns = Ok g0 -> remeasured g0 g -> aligned_metrics g ->
  rhistory_h st -> roomy st g -> xq_src q < node_count g -> xq_dst q < node_count g ->
  rexplore_cell ieee fuel solve g q found (st, vis, new) cell_id = Ok (st', vis', new') ->
  new' = new \/
  exists p cell rows b al v0 cs c0, new' = new ++ [p] /\ Forall2 (fun id v => lookup id found = Some v) (snd cell_id) cell /\
    rcreate_linear_system ieee q cell = Ok (Some (rows, b)) /\ solve rows b = Some al /\
    rxbest ieee fuel g q st al = Ok (st', Some p) /\ costed_road ieee g (xq_src q) (xq_dst q) p /\
    nth_error cell 0 = Some v0 /\ p_costs p = Some cs /\ p_costs v0 = Some c0 /\ saves64 (rdot ieee al cs) (rdot ieee al c0).
Proof.
  intros H1 H2 E Hg Hal Hh Hr Hs Ht Ec.
  destruct (rcell_added _ _ _ _ _ _ _ _ _ _ _ _ Ec) as [->|(p & cell & rows & b & al & v0 & cs & c0 & A & B & C & D & F & G & J & K & L)]; [auto|].
  right. exists p, cell, rows, b, al, v0, cs, c0. do 5 (split; [assumption|]). split; [|auto].
  apply (rasked_costed ieee g fuel q al p eq_refl eq_refl (built_wf _ _ _ _ _ _ _ _ H1 H2 E Hg) Hal Hs Ht). exists st, st'. auto.
Qed.
Print Assumptions C68_undercuts.

(** And if a cell not visited yet that meets the tolerances has weights for
    which the query's answer is clearly cheaper than the first corner, this road
    is among the new ones. *)
Theorem C68_noticed fuel g q solve found st vis new c x cell rows b al st1 p v0 cs c0 a w :
  ~ In (fst c) vis -> cell_from found (snd c) = Ok cell -> misses_tolerance (xq_tol q) cell = Ok false ->
  rcreate_linear_system ieee q cell = Ok (Some (rows, b)) -> solve rows b = Some al ->
  rxbest ieee fuel g q st al = Ok (st1, Some p) -> nth_error cell 0 = Some v0 -> p_costs p = Some cs -> p_costs v0 = Some c0 ->
  rdot ieee al cs = Fin a -> rdot ieee al c0 = Fin w -> (accuracy64 <= w - a)%Q ->
  rexplore_cell ieee fuel solve g q found (st, vis, new) c = Ok x ->
  exists p', In p' (snd x) /\ p_edges p' = p_edges p.
Proof. exact (rcell_noticed fuel g q solve found st vis new c x cell rows b al st1 p v0 cs c0 a w). Qed.
Print Assumptions C68_noticed.

(** The linear system of a cell is the exact one, the differences of costs
    being rounded. *)
Theorem C68_system ar q cell rows b : rcreate_linear_system ar q cell = Ok (Some (rows, b)) <->
  exists rows0, create_linear_system q cell = Ok (Some (rows0, b)) /\
    rows = map (map ar) (firstn (length cell - 1) rows0) ++ skipn (length cell - 1) rows0.
Proof. exact (rsystem ar q cell rows b). Qed.
Print Assumptions C68_system.
Example C68_system_case : exists rows b x,
  rcreate_linear_system ieee cs_query [cs_path 0 [Fin (1 # 10); Fin 7; Fin 10]; cs_path 1 [Fin 10; Fin 8; Fin (1 # 10)]] = Ok (Some (rows, b)) /\
  entry rows 0 0 (Fin x) /\ (~ x == - (99 # 10))%Q.
Proof.
  do 3 eexists. split; [vm_compute; reflexivity|]. split; [eexists; split; reflexivity|]. vm_compute. discriminate.
Qed.

(** the cell between the two first roads of C68_tolerances_case; with equal
    weights, the third road is cheaper *)
Definition cell64_query : xquery := xquery_with xp64_graph (xp_rc PInf PInf) 0 1.
Definition cell64_found : list (nat * path) := Eval vm_compute in
  match rexplore_initial_paths ieee 20 xp64_graph cell64_query dijkstra_new with
  | Ok (_, _, ps) => enumerate (firstn 2 ps)
  | _ => []
  end.
Example C68_cells_case : exists st' vis' p,
  rexplore_cell ieee 20 (fun _ _ => Some [Fin (1 # 2); Fin (1 # 2)]) xp64_graph cell64_query cell64_found (dijkstra_new, [], []) (7, [0; 1]) =
    Ok (st', vis', [p]) /\ length cell64_found = 2 /\ p_edges p = [2].
Proof. do 3 eexists. split; [vm_compute; reflexivity|]. split; reflexivity. Qed.
Example C68_noticed_case : exists cell rows b st1 p v0 cs c0 a w,
  cell_from cell64_found [0; 1] = Ok cell /\ misses_tolerance (xq_tol cell64_query) cell = Ok false /\
  rcreate_linear_system ieee cell64_query cell = Ok (Some (rows, b)) /\
  rxbest ieee 20 xp64_graph cell64_query dijkstra_new [Fin (1 # 2); Fin (1 # 2)] = Ok (st1, Some p) /\
  nth_error cell 0 = Some v0 /\ p_costs p = Some cs /\ p_costs v0 = Some c0 /\
  rdot ieee [Fin (1 # 2); Fin (1 # 2)] cs = Fin a /\ rdot ieee [Fin (1 # 2); Fin (1 # 2)] c0 = Fin w /\ (accuracy64 <= w - a)%Q.
Proof.
  do 10 eexists. do 4 (split; [vm_compute; reflexivity|]). do 3 (split; [reflexivity|]). do 2 (split; [vm_compute; reflexivity|]). vm_compute. discriminate.
Qed.
