(** Properties C65: the exploration ends *)
From Coq Require Import List Bool Arith Lia QArith.
From Verif Require Import Base F64 Lib ModelApprox ModelUnits ModelConfig ModelGraph ModelBuild ModelDijkstra ModelExplorator
  Spec SpecRouting SpecPaths SpecExplorator SpecCells SpecExploreEnds Examples ExamplesRouting AbsSearch ProofRouting ProofDijkstra ProofPaths ProofExplorator
  PropsGraph PropsRouting PropsPaths PropsExplorator ProofCells ProofCells2 ProofCells3 PropsCells ProofExploreEnds ProofExploreEnds2 ProofExploreEnds3.
Import ListNotations.
Open Scope nat_scope.

(** *** C65 *)

(** For every graph there is a number of rounds no exploration exceeds, however
    the queue, the triangulation and the solver behave, as long as a point added
    again brings no new cells. *)
Theorem C65_ends hav c ch1 ch2 es ns g :
  1 <= ch1 -> 1 <= ch2 -> build hav c ch1 ch2 es ns = Ok g -> nonneg_metrics g ->
  exists enough, forall pick fuel T tri_new tri_add tri_cells solve rounds rc s t st,
    no_new_cells T tri_new tri_add tri_cells -> history st -> roomy st g -> s < node_count g -> t < node_count g -> valid_pick pick ->
    2 + 2 * powers (edge_count g FWD) (node_count g) <= fuel -> enough <= rounds ->
    fully_explorate pick fuel T tri_new tri_add tri_cells solve rounds g rc s t st <> Diverge.
Proof.
  intros H1 H2 HB Hnn. exists (enough_rounds g). intros. exact (exploration_ends hav c ch1 ch2 es ns g H1 H2 HB Hnn pick fuel T tri_new tri_add tri_cells solve rounds rc s t st H H0 H3 H4 H5 H6 H7 H8).
Qed.
Print Assumptions C65_ends.

(** It even ends with an answer if the triangulation takes all points and
    answers sound cells, and the graph isn't one of those on which Dijkstra
    panics. *)
Theorem C65_answers hav c ch1 ch2 es ns g :
  1 <= ch1 -> 1 <= ch2 -> build hav c ch1 ch2 es ns = Ok g -> nonneg_metrics g -> aligned_metrics g -> finite_metrics g ->
  last_node_connected g -> metric_dim g < 32 ->
  exists enough, forall pick fuel T tri_new tri_add tri_cells solve rounds rc s t st,
    fresh_ids T tri_new tri_add -> no_new_cells T tri_new tri_add tri_cells ->
    takes_points T tri_add (considered_metrics (flags rc)) -> sound_cells T tri_new tri_add tri_cells (flags rc) ->
    history st -> roomy st g -> (node_count g <> 2 -> capacity st <= node_count g) -> s < node_count g -> t < node_count g -> valid_pick pick ->
    length (rc_alphas rc) = metric_dim g -> length (rc_scales rc) = metric_dim g -> (forall i, rc_algo rc <> AExplorator i) ->
    2 + 2 * powers (edge_count g FWD) (node_count g) <= fuel -> enough <= rounds ->
    exists st' ps, fully_explorate pick fuel T tri_new tri_add tri_cells solve rounds g rc s t st = Ok (st', ps).
Proof.
  intros H1 H2 HB Hnn Hal Hfin Hlast H32. exists (enough_rounds g).
  intros pick fuel T tri_new tri_add tri_cells solve rounds rc s t st Hids Hcells Htakes Hsound Hh Hr Hcap Hs Ht Hv Ha Hsc Halgo Hfuel Hrounds.
  destruct (exploration_works _ _ _ _ _ _ _ pick fuel T tri_new tri_add tri_cells solve rounds rc s t st H1 H2 HB Hnn Hal Hfin Hlast H32
    Hids Hcells Htakes Hsound (conj (conj Hh Hr) Hcap) Hs Ht Hv Ha Hsc Halgo Hfuel Hrounds) as (st' & ps & E & _). eauto.
Qed.
Print Assumptions C65_answers.

(** a triangulation of points in the plane: the number of points added, the
    ids of those that were new, and all points.  Its cells are the lines between
    any two of the new ones. *)
Definition same64 (a b : f64) : bool :=
  match a, b with
  | Fin x, Fin y => Qeq_bool x y
  | PInf, PInf | NInf, NInf | NaN, NaN => true
  | _, _ => false
  end.
Fixpoint same_point (a b : list f64) : bool :=
  match a, b with
  | [], [] => true
  | x :: a, y :: b => same64 x y && same_point a b
  | _, _ => false
  end.
Lemma same_point_refl a : same_point a a = true.
Proof.
  induction a as [|[x| | |] a IH]; cbn; auto. rewrite IH, andb_true_r. apply Qeq_bool_iff. reflexivity.
Qed.
Definition lines_tri : Type := nat * list nat * list (list f64).
Definition lines_new (d : nat) : lines_tri := (0, [], []).
Definition lines_add (t : lines_tri) (c : list f64) : option (lines_tri * nat) :=
  let '(n, cs, ps) := t in
  Some ((S n, if existsb (same_point c) ps then cs else cs ++ [n], c :: ps), n).
Fixpoint lines_of (cs : list nat) : list (nat * list nat) :=
  match cs with
  | [] => []
  | a :: cs => map (fun b => (100 * a + b, [a; b])) cs ++ lines_of cs
  end.
Definition lines_cells (t : lines_tri) : list (nat * list nat) := lines_of (snd (fst t)).

Lemma lines_fresh : fresh_ids lines_tri lines_new lines_add.
Proof.
  exists (fun t => seq 0 (fst (fst t))). split; [reflexivity|]. intros [[n cs] ps] c t' id E. injection E as <- <-. cbn [fst]. rewrite in_seq. split; [lia|].
  intros k. rewrite !in_seq. lia.
Qed.
Lemma lines_settle : no_new_cells lines_tri lines_new lines_add lines_cells.
Proof.
  exists snd. split; [reflexivity|]. intros [[n cs] ps] c t' id E. injection E as <- <-. cbn [snd]. split.
  - intros x. cbn [In]. intuition.
  - intros Hin k vs. assert (Ex : existsb (same_point c) ps = true) by (apply existsb_exists; exists c; split; [auto|apply same_point_refl]).
    rewrite Ex. unfold lines_cells. cbn [fst snd]. eauto.
Qed.
Lemma lines_take d : takes_points lines_tri lines_add d.
Proof. intros [[n cs] ps] c _. do 2 eexists. reflexivity. Qed.
Lemma lines_in cs : forall k vs, In (k, vs) (lines_of cs) -> exists a b, vs = [a; b] /\ In a cs /\ In b cs.
Proof.
  induction cs as [|a cs IH]; intros k vs H; [destruct H|]. cbn [lines_of] in H. apply in_app_or in H. destruct H as [H|H].
  - apply in_map_iff in H. destruct H as (b & E & Hb). injection E as <- <-. exists a, b. cbn. auto.
  - destruct (IH _ _ H) as (x & y & -> & Hx & Hy). exists x, y. cbn. auto.
Qed.
Lemma lines_sound imc : 0 < considered_metrics imc -> sound_cells lines_tri lines_new lines_add lines_cells imc.
Proof.
  intros Hpos t l k vs Hh Hc.
  assert (G : forall id, id < fst (fst t) -> exists p, In (id, p) l).
  { clear Hc. induction Hh as [|[[n cs] ps] l p cs' t' id Hh IH Ep E]; [cbn; lia|]. injection E as <- <-. cbn [fst snd] in *. intros j Hj.
    destruct (Nat.eq_dec j n) as [->|Hne]; [exists p; now left|]. destruct (IH j ltac:(lia)) as (p' & Hp). exists p'. now right. }
  assert (B : forall id, In id (snd (fst t)) -> id < fst (fst t)).
  { clear Hc G. induction Hh as [|[[n cs] ps] l p cs' t' id Hh IH Ep E]; [intros ? []|]. injection E as <- <-. cbn [fst snd] in *. intros j Hj.
    destruct (existsb _ ps); [specialize (IH j Hj); lia|]. apply in_app_or in Hj. destruct Hj as [Hj|[<-|[]]]; [specialize (IH j Hj)|]; lia. }
  unfold lines_cells in Hc. apply lines_in in Hc. destruct Hc as (a & b & -> & Ha & Hb). cbn [length]. split; [lia|].
  intros id [<-|[<-|[]]]; auto.
Qed.

(** on the three roads, whatever the solver answers, the exploration ends; by
    Cramer's rule it finds the third road again and then ends *)
Example C65_answers_case :
  (exists enough, forall solve rounds, enough <= rounds ->
     exists st' ps, fully_explorate exact_pick (6 * 100) lines_tri lines_new lines_add lines_cells solve rounds xp_graph (xp_rc PInf PInf) 0 1 dijkstra_new = Ok (st', ps)) /\
  (exists st' ps, fully_explorate exact_pick (6 * 100) lines_tri lines_new lines_add lines_cells xp_solve 4 xp_graph (xp_rc PInf PInf) 0 1 dijkstra_new = Ok (st', ps) /\
     map p_edges ps = [[0]; [1]; [2]; [2]]).
Proof.
  split.
  - assert (Hl : last_node_connected xp_graph).
    { intros v Hv. assert (v <= 2) by (vm_compute in Hv; lia). split; [exists 4, 2, 0|exists 3, 1, 2]; (split; [split; reflexivity|auto]). }
    destruct (C65_answers _ _ _ _ _ _ xp_graph (le_n 1) (le_n 1) xp_build xp_nonneg xp_aligned xp_finite Hl) as (enough & H); [vm_compute; lia|].
    exists enough. intros solve rounds Hr. apply H; auto.
    + exact lines_fresh.
    + exact lines_settle.
    + apply lines_take.
    + apply lines_sound. vm_compute. lia.
    + constructor.
    + intros Hn. discriminate Hn.
    + intros _. vm_compute. lia.
    + vm_compute. lia.
    + vm_compute. lia.
    + apply exact_picks.
    + discriminate.
    + apply Nat.leb_le. vm_compute. reflexivity.
  - do 2 eexists. split; [vm_compute; reflexivity|reflexivity].
Qed.

(** *** Restless triangulations *)

(** one cell, which has a new id after every point *)
Definition again_cells (n : nat) : list (nat * list nat) := if 3 <=? n then [(n, [0; 1])] else [].
Definition again_q : xquery :=
  {| xq_src := 0; xq_dst := 1; xq_rc := xp_rc PInf PInf; xq_dim := 2; xq_tdim := 2; xq_tol := [PInf; PInf]; xq_imc := [true; true] |}.
Definition again_start : dijkstra * xstate nat := ltac:(
  let x := eval vm_compute in (do r <- explore_initial_paths exact_pick (6 * 100) xp_graph (xquery_with xp_graph (xp_rc PInf PInf) 0 1) dijkstra_new;
     do s1 <- update nat xp_add again_q (snd r) {| xs_tri := 0; xs_found := []; xs_tolerated := []; xs_visited := []; xs_dirty := false |};
     Ok (fst (fst r), s1)) in match x with Ok ?y => exact y end).
Definition again_best : dijkstra * path := ltac:(
  let x := eval vm_compute in (xbest exact_pick (6 * 100) xp_graph again_q (fst again_start) [Fin (1 # 2); Fin (1 # 2)]) in
  match x with Ok (?a, Some ?p) => exact (a, p) end).
Definition again_ends : list path := [cs_path 0 [Fin 1; Fin 10]; cs_path 1 [Fin 10; Fin 1]].

Lemma again_cell st found vis n : st = fst again_start \/ st = fst again_best -> cell_from found [0; 1] = Ok again_ends -> ~ In n vis ->
  explore_cell exact_pick (6 * 100) xp_solve xp_graph again_q found (st, vis, []) (n, [0; 1]) = Ok (fst again_best, n :: vis, [snd again_best]).
Proof.
  intros Hst Hf Hn. unfold explore_cell. cbn [fst snd].
  destruct (existsb (fun k => k =? n) vis) eqn:Ev.
  { apply existsb_exists in Ev. destruct Ev as (k & Hk & Ek). apply Nat.eqb_eq in Ek. subst k. contradiction. }
  rewrite Hf. destruct Hst as [-> | ->]; vm_compute; reflexivity.
Qed.

Lemma again_loop rounds : forall st s, (st = fst again_start \/ st = fst again_best) -> xs_dirty nat s = true -> 3 <= xs_tri nat s ->
  cell_from (xs_found nat s) [0; 1] = Ok again_ends -> (forall k, In k (xs_visited nat s) -> k < xs_tri nat s) ->
  explore exact_pick (6 * 100) nat xp_add again_cells xp_solve xp_graph again_q rounds st s = Diverge.
Proof.
  induction rounds as [|k IH]; intros st s Hst Hd Hn Hf Hv; cbn [explore]; rewrite Hd; [reflexivity|].
  unfold again_cells. destruct (Nat.leb_spec 3 (xs_tri nat s)) as [_|]; [|lia]. cbn [foldM].
  rewrite again_cell; auto; [|intros H; specialize (Hv _ H); lia]. cbn [bind].
  match goal with |- bind ?x _ = _ => assert (E : exists s', x = Ok s' /\ xs_dirty nat s' = true /\ xs_tri nat s' = S (xs_tri nat s) /\
    xs_found nat s' = (xs_tri nat s, snd again_best) :: remove_id (xs_tri nat s) (xs_found nat s) /\ xs_visited nat s' = xs_tri nat s :: xs_visited nat s) end.
  { eexists. split; [cbn; reflexivity|]. repeat split. }
  destruct E as (s' & E & A & B & C & D). rewrite E. cbn [bind]. fold again_cells. apply IH; auto.
  - lia.
  - rewrite C. unfold cell_from in *. cbn [mapM] in *. cbn [lookup]. destruct (Nat.eqb_spec (xs_tri nat s) 0); [lia|]. destruct (Nat.eqb_spec (xs_tri nat s) 1); [lia|].
    rewrite !lookup_remove. destruct (Nat.eqb_spec 0 (xs_tri nat s)); [lia|]. destruct (Nat.eqb_spec 1 (xs_tri nat s)); [lia|]. exact Hf.
  - rewrite B, D. intros j [<-|Hj]; [lia|]. specialize (Hv j Hj). lia.
Qed.

(** With a triangulation that gives its cells new ids when a known point is
    added, the exploration goes on forever: fresh ids, stable cells and an exact
    solver don't suffice. *)
Theorem C65_restless_refuted : exists hav c es ns g rc tri_cells,
  build hav c 1 1 es ns = Ok g /\ nonneg_metrics g /\ aligned_metrics g /\ finite_metrics g /\ last_node_connected g /\
  fresh_ids nat xp_new xp_add /\ stable_cells nat tri_cells /\ takes_points nat xp_add 2 /\ sound_cells nat xp_new xp_add tri_cells (flags rc) /\
  considered_metrics (flags rc) = 2 /\ exact_solver 2 xp_solve /\ picks_min 0 exact_pick /\
  2 + 2 * powers (edge_count g FWD) (node_count g) <= 6 * 100 /\
  forall rounds, fully_explorate exact_pick (6 * 100) nat xp_new xp_add tri_cells xp_solve rounds g rc 0 1 dijkstra_new = Diverge.
Proof.
  exists ex_hav, xp_cfg, xp_es, sink_ns, xp_graph, (xp_rc PInf PInf), again_cells.
  split; [exact xp_build|]. split; [exact xp_nonneg|]. split; [exact xp_aligned|]. split; [exact xp_finite|]. split.
  { intros v Hv. assert (v <= 2) by (vm_compute in Hv; lia). split; [exists 4, 2, 0|exists 3, 1, 2]; (split; [split; reflexivity|auto]). }
  split; [exact xp_fresh|]. split.
  { intros t t' id vs vs' H H'. unfold again_cells in *. destruct (3 <=? t), (3 <=? t'); cbn [In] in *; try tauto. destruct H as [H|[]], H' as [H'|[]]. congruence. }
  split; [intros t c _; do 2 eexists; reflexivity|]. split.
  { intros t l k vs Hh Hc. unfold again_cells in Hc. destruct (Nat.leb_spec 3 t) as [Ht|]; [|destruct Hc]. destruct Hc as [Hc|[]]. injection Hc as <- <-.
    split; [vm_compute; lia|]. assert (G : forall id, id < t -> exists p, In (id, p) l).
    { clear Ht. induction Hh as [|n l p cs' t' id Hh IH Ep E]; [unfold xp_new; lia|]. injection E as <- <-. intros j Hj.
      destruct (Nat.eq_dec j n) as [->|Hne]; [exists p; now left|]. destruct (IH j ltac:(lia)) as (p' & Hp). exists p'. now right. }
    intros id [<-|[<-|[]]]; apply G; lia. }
  split; [reflexivity|]. split; [exact xp_exact|]. split; [exact exact_picks|]. split; [apply Nat.leb_le; vm_compute; reflexivity|].
  intros rounds. unfold fully_explorate. cbv zeta.
  assert (E : exists st1 new, explore_initial_paths exact_pick (6 * 100) xp_graph (xquery_with xp_graph (xp_rc PInf PInf) 0 1) dijkstra_new = Ok (st1, [PInf; PInf], new) /\
    st1 = fst again_start /\ update nat xp_add again_q new {| xs_tri := 0; xs_found := []; xs_tolerated := []; xs_visited := []; xs_dirty := false |} = Ok (snd again_start)).
  { do 2 eexists. split; [vm_compute; reflexivity|]. split; [reflexivity|]. vm_compute. reflexivity. }
  destruct E as (st1 & new & E1 & Est & E2). rewrite E1. cbn [bind].
  change {| xq_src := xq_src (xquery_with xp_graph (xp_rc PInf PInf) 0 1); xq_dst := xq_dst (xquery_with xp_graph (xp_rc PInf PInf) 0 1);
    xq_rc := xq_rc (xquery_with xp_graph (xp_rc PInf PInf) 0 1); xq_dim := xq_dim (xquery_with xp_graph (xp_rc PInf PInf) 0 1);
    xq_tdim := xq_tdim (xquery_with xp_graph (xp_rc PInf PInf) 0 1); xq_tol := [PInf; PInf]; xq_imc := xq_imc (xquery_with xp_graph (xp_rc PInf PInf) 0 1) |} with again_q.
  change (xp_new (xq_tdim again_q)) with 0. rewrite E2. cbn [bind].
  change ((1 <? xq_tdim again_q) && (xq_tdim again_q <? length (xs_found nat (snd again_start)))) with true. cbv iota.
  rewrite again_loop; [reflexivity|auto|reflexivity|vm_compute; lia|vm_compute; reflexivity|intros k []].
Qed.
Print Assumptions C65_restless_refuted.
