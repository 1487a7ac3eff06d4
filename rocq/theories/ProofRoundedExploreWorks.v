(** Lemmas about the end of an exploration with arithmetic that rounds: nothing
    panics *)
From Coq Require Import List Bool Arith Lia ZArith QArith.
From Verif Require Import Base F64 Lib ModelApprox ModelUnits ModelConfig ModelGraph ModelBuild ModelDijkstra ModelExplorator ModelHeap
  ModelRounded ModelRoundedHeap ModelRoundedExplorator
  Spec SpecRouting SpecPaths SpecExplorator SpecCells SpecExploreEnds SpecRounded SpecRoundedHeap AbsSearch ProofDijkstra ProofPaths ProofExplorator PropsGraph PropsRouting
  ProofRouting PropsExplorator ProofCells ProofCells2 ProofCells3 PropsCells ProofExploreEnds ProofExploreEnds2 ProofExploreEnds3 ProofRounded ProofRoundedRun ProofHeap ProofHeapSearch ProofRoundedHeap ProofOverflow
  ProofRoundedAny ProofRoundedExplorator ProofRoundedExploratorCosts ProofRoundedEnds ProofRoundedExploreEnds ProofRoundedWorks.
Import ListNotations.
Open Scope nat_scope.

Lemma rcapacity_fits ar fuel st g rc s t st' r : rhistory_h st -> (node_count g <> 2 -> capacity st <= node_count g) ->
  rcompute_best_path_h ar fuel st g rc s t = Ok (st', r) -> node_count g <> 2 -> capacity st' <= node_count g.
Proof.
  intros Hh Hr E Hn. specialize (Hr Hn).
  destruct (rp_history st Hh) as (st0 & Hh0 & S0). destruct (rp_query ar g rc fuel st0 st s t S0) as (pick & K). rewrite E in K.
  destruct (rcompute_best_path ar pick fuel st0 g rc s t) as [[st1 r1]| | |] eqn:E1; cbn [alike fst snd] in K; try contradiction.
  destruct K as [S1 _]. unfold capacity in *. rewrite <- (sm_costs _ _ S1). rewrite <- (sm_costs _ _ S0) in Hr. clear E S1 S0.
  rewrite rcompute_split in E1. destruct (existsb _ _); [now injection E1 as <- _|].
  apply bind_ok in E1. destruct E1 as (ch & _ & E). apply bind_ok in E. destruct E as (st2 & E0 & E).
  pose proof (rhistory_clean _ Hh0) as Hc. rewrite (init_query_spec _ _ _ _ _ Hc E0) in E.
  pose proof (rquery_clean ar _ _ _ _ _ _ _ _ _ _ (blank_clean _ _ _) E) as Hc'.
  pose proof (c_cost _ _ Hc' FWD) as El. cbn [get] in El. rewrite El. unfold new_size.
  destruct (Nat.eqb_spec 2 (node_count g)); [congruence|auto].
Qed.

Section Works.
  Variables (u eta : Q) (rnd : Q -> Q) (top : Q).
  Hypothesis R : rounding u eta rnd.
  Hypothesis top_nonneg : (0 <= top)%Q.
  Notation ar := (ofin rnd top).
  Variable g : graph.
  Hypothesis wf : wf_graph g.
  Hypothesis rt : routable g.
  Hypothesis Hnn : nonneg_metrics g.
  Hypothesis Hal : aligned_metrics g.
  Variable fuel : nat.
  Hypothesis Hfuel : 2 + 2 * powers (edge_count g FWD) (node_count g) <= fuel.
  Variable q : xquery.
  Hypothesis Hs : xq_src q < node_count g.
  Hypothesis Ht : xq_dst q < node_count g.
  Hypothesis Hdim : xq_dim q = metric_dim g.
  Hypothesis Himc : length (xq_imc q) = xq_dim q.
  Hypothesis Hsc : length (rc_scales (xq_rc q)) = xq_dim q.
  Hypothesis Halgo : forall i, rc_algo (xq_rc q) <> AExplorator i.

  Definition rready (st : dijkstra) : Prop := (rhistory_h st /\ roomy st g) /\ (node_count g <> 2 -> capacity st <= node_count g).
  Definition realq (p : path) : Prop := exists cs, p_costs p = Some cs /\ length cs = xq_dim q.

  Lemma metrics_of e : e < edge_count g FWD -> exists ms, edge_metrics g e = Ok ms.
  Proof.
    intros He. unfold edge_count in He. destruct (idx_lt _ _ He) as (v & Ev). exact (wg_metrics g wf FWD e v Ev).
  Qed.

  Lemma calc_works p : p_costs p = None -> edges_exist g (p_edges p) -> exists p', rcalc_costs ar g p = Ok p' /\ realq p'.
  Proof.
    intros Hp He. unfold rcalc_costs. rewrite Hp.
    destruct (foldM_works (fun acc e => do m <- edge_metrics g e; Ok (rvadd ar acc m)) (fun acc => length acc = metric_dim g) (p_edges p)) with (s := repeat f0 (metric_dim g))
      as (cs & E & L).
    - intros acc e Hin Ha. destruct (metrics_of e (He e Hin)) as (ms & Em). rewrite Em. cbn [bind]. eexists. split; [reflexivity|].
      rewrite any_rvadd_length; [auto|]. rewrite (Hal _ _ Em). auto.
    - apply repeat_length.
    - rewrite E. cbn [bind]. eexists. split; [reflexivity|]. exists cs. split; [reflexivity|congruence].
  Qed.

  Lemma best_works st al : rready st -> exists st' r, rxbest ar fuel g q st al = Ok (st', r) /\ rready st' /\
    forall p, r = Some p -> realq p.
  Proof.
    intros [[Hh Hr] Hc].
    destruct (ofin_path_h_works u eta rnd top R top_nonneg g fuel st (with_alphas (xq_rc q) al) (xq_src q) (xq_dst q)) as (st' & r & E); auto.
    assert (D : rready st') by (split; [exact (rcapacity_after _ _ _ _ _ _ _ _ _ Hh Hr E)|exact (rcapacity_fits _ _ _ _ _ _ _ _ _ Hh Hc E)]).
    unfold rxbest. rewrite E. cbn [bind fst snd]. destruct r as [p|]; [|exists st', None; split; [reflexivity|split; [auto|discriminate]]].
    destruct (any_path_h ar g fuel st _ _ _ st' p eq_refl eq_refl wf Hh Hr Hs Ht E) as (_ & _ & _ & _ & A5 & A6 & _).
    destruct (calc_works p A5 (connects_exist _ _ _ _ A6)) as (p' & E' & G). rewrite E'. cbn [bind].
    exists st', (Some p'). split; [reflexivity|]. split; auto. intros p0 E0. now injection E0 as <-.
  Qed.

  Lemma real_works p : realq p -> exists cs, path_costs p = Ok cs /\ p_costs p = Some cs /\ length cs = xq_dim q.
  Proof. intros (cs & A & B). exists cs. split; [now apply path_costs_ok|auto]. Qed.
  Lemma costs_work ps : (forall p, In p ps -> realq p) -> exists cs, mapM path_costs ps = Ok cs /\ Forall (fun c => length c = xq_dim q) cs /\ length cs = length ps.
  Proof.
    intros H. destruct (mapM_works path_costs (fun _ c => length c = xq_dim q) ps) as (cs & E & F).
    - intros p Hp. destruct (real_works p (H p Hp)) as (cs & A & _ & B). eauto.
    - exists cs. split; auto. clear -F. induction F as [|a b l l' Hx F [I1 I2]]; cbn; auto.
  Qed.

  Lemma rsystem_works cell : cell <> [] -> length cell <= S (considered_metrics (xq_imc q)) -> (forall p, In p cell -> realq p) ->
    exists ls, rcreate_linear_system ar q cell = Ok ls.
  Proof.
    intros Hne Hlen H. destruct cell as [|v0 vs]; [congruence|]. cbn [rcreate_linear_system length] in *.
    destruct (real_works v0 (H v0 (or_introl eq_refl))) as (c0 & -> & _). cbn [bind].
    destruct (costs_work vs (fun p Hp => H p (or_intror Hp))) as (cs & -> & _ & Lc). cbn [bind].
    set (F := filter _ _).
    destruct (mapM_works (fun ib : nat * bool => set (repeat f0 (xq_dim q)) (fst ib) (Fin 1)) (fun _ _ => True) F) as (rows & E & Fr).
    { intros [i b] Hin. unfold F in Hin. apply filter_In in Hin. destruct Hin as [Hin _]. apply enumerate_in in Hin. cbn [fst].
      rewrite set_lt; [eauto|]. rewrite repeat_length, <- Himc. apply nth_error_Some. congruence. }
    rewrite E. cbn [bind]. assert (LF : length rows = length F) by (clear -Fr; induction Fr; cbn; congruence).
    assert (C : length F + considered_metrics (xq_imc q) = xq_dim q).
    { rewrite <- Himc, <- ignored_count. f_equal. unfold ignored. now rewrite map_length. }
    rewrite app_length, map_length. destruct (Nat.ltb_spec (xq_dim q) (length cs + length rows)); [lia|].
    destruct (xq_dim q - _) as [|[|]]; eauto.
  Qed.

  (** *** Initial paths *)
  Definition rstarted (x : dijkstra * list f64 * list path) : Prop :=
    rready (fst (fst x)) /\ length (snd (fst x)) = xq_dim q /\ forall p, In p (snd x) -> realq p.

  Lemma rinit_step_works x ia : (forall i, fst ia = Some i -> i < xq_dim q) -> rstarted x ->
    exists x', rinit_step ar fuel g q x ia = Ok x' /\ rstarted x'.
  Proof.
    destruct x as [[st tol] found]. intros Hi (A & B & C). cbn [fst snd] in *. unfold rinit_step.
    destruct (best_works st (snd ia) A) as (st' & r & E & D & Rp). rewrite E. cbn [bind fst snd]. destruct r as [p|].
    - specialize (Rp p eq_refl). destruct (real_works p Rp) as (cs & Ec & _ & Lc). rewrite Ec. cbn [bind].
      assert (G : exists tol', rset_tolerance ar (xq_rc q) cs tol (fst ia) = Ok tol' /\ length tol' = xq_dim q).
      { destruct (fst ia) as [i|]; [|exists tol; auto]. specialize (Hi i eq_refl). cbn [rset_tolerance].
        destruct (idx_lt (rc_scales (xq_rc q)) i) as (sc & Es); [lia|]. rewrite Es. cbn [bind].
        destruct (feqb sc PInf).
        - rewrite set_lt by lia. eexists. split; [reflexivity|]. now rewrite upd_length'.
        - destruct (idx_lt cs i) as (x & Ex); [lia|]. rewrite Ex. cbn [bind]. rewrite set_lt by lia. eexists. split; [reflexivity|]. now rewrite upd_length'. }
      destruct G as (tol' & Et & Lt). rewrite Et. cbn [bind].
      destruct (costs_work found C) as (l & El & _ & _). rewrite El. cbn [bind]. destruct (existsb _ l); eexists; (split; [reflexivity|]).
      + split; auto.
      + split; auto. split; auto. cbn [snd]. intros p' Hp'. apply in_app_or in Hp'. destruct Hp' as [Hp'|[<-|[]]]; auto.
    - eexists. split; [reflexivity|]. split; auto.
  Qed.

  Lemma rinitial_works st : xq_dim q < 32 -> xq_tol q = repeat PInf (xq_dim q) -> rready st ->
    exists x, rexplore_initial_paths ar fuel g q st = Ok x /\ rstarted x.
  Proof.
    intros H32 Etol HJ. unfold rexplore_initial_paths. destruct (init_alphas (xq_dim q) (xq_imc q)) as [ias| | |] eqn:E;
      try (unfold init_alphas in E; destruct (Nat.leb_spec 32 (xq_dim q)); [lia|discriminate]).
    cbn [bind]. apply foldM_works.
    - intros x ia Hin Hx. apply rinit_step_works; auto. intros i Hi.
      destruct (init_alphas_spec _ _ _ Himc E) as (_ & A & B).
      destruct (proj1 (A (snd ia)) (in_map snd _ _ Hin)) as (sub & (Hl & _) & Hsub).
      destruct ia as [o v]. cbn [fst snd] in *. subst o v. pose proof (proj1 (B _ _ Hin i) eq_refl) as Ho.
      assert (Hone : In true sub).
      { destruct (proj1 (A _) (in_map snd _ _ Hin)) as (sub' & (_ & _ & Hc) & Hs'). cbn [snd] in Hs'. apply indicator_inj in Hs'. now subst. }
      apply In_nth_error in Hone. destruct Hone as (j & Hj). apply Ho in Hj. lia.
    - split; auto. cbn [fst snd]. split; [rewrite Etol; apply repeat_length|]. intros p [].
  Qed.

  (** *** Rounds *)
  Variable T : Type.
  Variable tri_new : nat -> T.
  Variable tri_add : T -> list f64 -> option (T * nat).
  Variable tri_cells : T -> list (nat * list nat).
  Variable solve : list (list f64) -> list f64 -> option (list f64).
  Variable ids : T -> list nat.
  Hypothesis ids_add : forall t c t' id, tri_add t c = Some (t', id) ->
    ~ In id (ids t) /\ forall k, In k (ids t') <-> k = id \/ In k (ids t).
  Hypothesis Htakes : takes_points T tri_add (considered_metrics (xq_imc q)).
  Hypothesis Hsound : sound_cells T tri_new tri_add tri_cells (xq_imc q).
  Hypothesis Htol : length (xq_tol q) = xq_dim q.

  Record rworking (s : xstate T) : Prop := {
    rwk_holds : holds T tri_new tri_add (xq_imc q) (xs_tri T s) (xs_found T s);
    rwk_real : forall id p, In (id, p) (xs_found T s) -> realq p;
    rwk_ids : forall id p, In (id, p) (xs_found T s) -> In id (ids (xs_tri T s));
    rwk_tids : forall id, In id (xs_tolerated T s) -> In id (ids (xs_tri T s));
    rwk_nodup : NoDup (xs_tolerated T s);
    rwk_tol : forall id, In id (xs_tolerated T s) -> exists p, lookup id (xs_found T s) = Some p;
  }.

  Lemma rupdate_path_works s p : realq p -> rworking s -> exists s', rupdate_path ar T tri_add q s p = Ok s' /\ rworking s'.
  Proof.
    intros Hp [W1 W2 W3 W4 W5 W6]. destruct (real_works p Hp) as (cs & Ec & Ep & Lc). unfold rupdate_path. rewrite Ec. cbn [bind].
    destruct (considered_works (xq_imc q) cs) as (cc & Ecc & Lcc); [lia|]. rewrite Ecc. cbn [bind].
    destruct (Htakes (xs_tri T s) cc Lcc) as (tri & id & Et). unfold expect. rewrite Et. cbn [bind].
    eexists. split; [reflexivity|]. destruct (ids_add _ _ _ _ Et) as [Hnew Hids].
    assert (Habs : remove_id id (xs_found T s) = xs_found T s).
    { clear -Hnew W3. assert (G : forall m, (forall p, ~ In (id, p) m) -> remove_id id m = m).
      { induction m as [|[k p] m IH]; intros H; [reflexivity|]. cbn. destruct (Nat.eqb_spec k id) as [->|Hk].
        - exfalso. apply (H p). now left.
        - cbn. f_equal. apply IH. intros p' Hp'. apply (H p'). now right. }
      apply G. intros p Hp. apply Hnew. eauto. }
    rewrite Habs.
    assert (Hsame : forall k, In k (xs_tolerated T s) -> k <> id) by (intros k Hk ->; apply Hnew; auto).
    constructor; cbn [xs_tri xs_found xs_tolerated].
    - econstructor; [exact W1|exact Ep|]. apply considered_eq in Ecc. now rewrite <- Ecc.
    - intros k p' [H|H]; [injection H as <- <-; auto|eauto].
    - intros k p' [H|H]; [injection H as <- <-; apply Hids; auto|apply Hids; right; eauto].
    - intros k Hk. apply Hids. destruct (rapprox_le_vec ar cs (xq_tol q)); auto. apply in_app_or in Hk. destruct Hk as [Hk|[<-|[]]]; auto.
    - destruct (rapprox_le_vec ar cs (xq_tol q)); auto. apply NoDup_rev in W5. rewrite <- (rev_involutive (_ ++ [id])). apply NoDup_rev.
      rewrite rev_app_distr. cbn. constructor; auto. rewrite <- in_rev. intros H. now apply (Hsame id).
    - intros k Hk. cbn [lookup]. destruct (Nat.eqb_spec id k) as [->|Hne]; [eauto|].
      apply W6. destruct (rapprox_le_vec ar cs (xq_tol q)); auto. apply in_app_or in Hk. destruct Hk as [Hk|[<-|[]]]; auto. congruence.
  Qed.

  Lemma rupdate_works new s : (forall p, In p new -> realq p) -> rworking s -> exists s', rupdate ar T tri_add q new s = Ok s' /\ rworking s'.
  Proof.
    intros Hn [W1 W2 W3 W4 W5 W6]. unfold rupdate. apply foldM_works.
    - intros s' p Hp W. apply rupdate_path_works; auto.
    - constructor; auto.
  Qed.

  Lemma rlookup_some id p m : In (id, p) m -> exists p', lookup id m = Some p'.
  Proof.
    induction m as [|[k v] m IH]; intros []; cbn [lookup].
    - injection H as -> ->. rewrite Nat.eqb_refl. eauto.
    - destruct (k =? id); eauto.
  Qed.

  Lemma rexplore_cell_works s x cl : rworking s -> In cl (tri_cells (xs_tri T s)) ->
    rready (fst (fst x)) /\ (forall p, In p (snd x) -> realq p) ->
    exists x', rexplore_cell ar fuel solve g q (xs_found T s) x cl = Ok x' /\ rready (fst (fst x')) /\ forall p, In p (snd x') -> realq p.
  Proof.
    intros W Hcl [HJ Hn]. destruct x as [[st vis] new]. cbn [fst snd] in *. unfold rexplore_cell.
    destruct (existsb _ vis); [eexists; split; [reflexivity|auto]|].
    destruct cl as [k vs]. cbn [fst snd]. destruct (Hsound _ _ _ _ (rwk_holds _ W) Hcl) as [[Hpos Hlen] Hids].
    destruct (mapM_works (fun id => expect (lookup id (xs_found T s))) (fun _ p => realq p) vs) as (cell & Ecell & Fcell).
    { intros id Hid. destruct (Hids id Hid) as (p & Hp). destruct (rlookup_some _ _ _ Hp) as (p' & Ep). rewrite Ep. exists p'. split; auto.
      apply lookup_in in Ep. exact (rwk_real _ W _ _ Ep). }
    unfold cell_from. rewrite Ecell. cbn [bind].
    assert (Lcell : length cell = length vs) by (clear -Fcell; induction Fcell; cbn; congruence).
    assert (Rcell : forall p, In p cell -> realq p).
    { clear -Fcell. induction Fcell as [|a b l l' Rx F IH]; intros p []; subst; auto. }
    destruct (costs_work cell Rcell) as (cs & Ecs & Lcs & _).
    assert (Em : exists miss, misses_tolerance (xq_tol q) cell = Ok miss).
    { unfold misses_tolerance. rewrite Ecs. cbn [bind].
      destruct (mapM_works (fun it : nat * f64 => do ds <- mapM (fun c => idx c (fst it)) cs; Ok (negb (existsb (fun d => fleb d (snd it)) ds)))
                  (fun _ _ => True) (enumerate (xq_tol q))) as (l & El & _).
      - intros [i x] Hi. cbn [fst snd]. apply enumerate_in in Hi. assert (i < xq_dim q) by (rewrite <- Htol; apply nth_error_Some; congruence).
        destruct (mapM_works (fun c : list f64 => idx c i) (fun _ _ => True) cs) as (ds & Ed & _).
        + intros cv Hcv. rewrite Forall_forall in Lcs. specialize (Lcs cv Hcv). destruct (idx_lt cv i) as (y & Ey); [lia|]. eauto.
        + rewrite Ed. cbn [bind]. eauto.
      - rewrite El. cbn [bind]. eauto. }
    destruct Em as (miss & Em). rewrite Em. cbn [bind]. destruct miss; [eexists; split; [reflexivity|auto]|].
    assert (Hne : cell <> []) by (intros ->; cbn in Lcell; lia).
    assert (Els : exists ls, rcreate_linear_system ar q cell = Ok ls) by (apply rsystem_works; auto; lia).
    destruct Els as (ls & Els). rewrite Els. cbn [bind]. destruct ls as [[rows b]|]; [|eexists; split; [reflexivity|auto]].
    destruct (solve rows b) as [al|]; [|eexists; split; [reflexivity|auto]].
    destruct (best_works st al HJ) as (st' & r & E & D & Rp). rewrite E. cbn [bind fst snd].
    destruct r as [p|]; [|eexists; split; [reflexivity|auto]]. specialize (Rp p eq_refl).
    destruct (real_works p Rp) as (pcs & Ep & _). rewrite Ep. cbn [bind]. destruct cell as [|v0 cell]; [congruence|]. cbn [idx nth_error bind].
    destruct (real_works v0 (Rcell v0 (or_introl eq_refl))) as (c0 & E0 & _). unfold idx. cbn [nth_error bind]. rewrite E0. cbn [bind].
    destruct (_ && _); (eexists; split; [reflexivity|]); split; auto.
    cbn [snd]. intros p' Hp'. apply in_app_or in Hp'. destruct Hp' as [Hp'|[<-|[]]]; auto.
  Qed.

  Lemma rexplore_works rounds : forall st s, rready st -> rworking s ->
    (exists st' s', rexplore ar fuel T tri_add tri_cells solve g q rounds st s = Ok (st', s') /\ rworking s' /\ rready st') \/
    rexplore ar fuel T tri_add tri_cells solve g q rounds st s = Diverge.
  Proof.
    induction rounds as [|k IH]; intros st s HJ W; cbn [rexplore]; destruct (xs_dirty T s); auto; try (left; exists st, s; split; auto; fail).
    destruct (foldM_works (rexplore_cell ar fuel solve g q (xs_found T s))
       (fun x => rready (fst (fst x)) /\ forall p, In p (snd x) -> realq p) (tri_cells (xs_tri T s))) with (s := (st, xs_visited T s, @nil path))
      as ([[st1 vis] new] & E1 & A & B).
    - intros x cl Hcl Hx. destruct (rexplore_cell_works s x cl W Hcl Hx) as (x' & E & X). eauto.
    - split; auto. intros p [].
    - rewrite E1. cbn [bind]. cbn [fst snd] in A, B.
      destruct (rupdate_works new {| xs_tri := xs_tri T s; xs_found := xs_found T s; xs_tolerated := xs_tolerated T s; xs_visited := vis; xs_dirty := xs_dirty T s |} B)
        as (s1 & E2 & W1); [destruct W; constructor; auto|].
      match goal with |- context [rupdate ar T tri_add q new ?x] => replace (rupdate ar T tri_add q new x) with (Ok s1) by (symmetry; exact E2) end.
      cbn [bind]. apply IH; auto.
  Qed.
End Works.

(** after an exploration, its Dijkstra may be used again *)
Lemma rexploration_works u eta rnd top g fuel T tri_new tri_add tri_cells solve rounds rc s t st :
  rounding u eta rnd -> (0 <= top)%Q ->
  wf_graph g -> routable g -> nonneg_metrics g -> aligned_metrics g -> metric_dim g < 32 ->
  fresh_ids T tri_new tri_add -> no_new_cells T tri_new tri_add tri_cells ->
  takes_points T tri_add (considered_metrics (flags rc)) -> sound_cells T tri_new tri_add tri_cells (flags rc) ->
  rready g st -> s < node_count g -> t < node_count g ->
  length (rc_alphas rc) = metric_dim g -> length (rc_scales rc) = metric_dim g -> (forall i, rc_algo rc <> AExplorator i) ->
  2 + 2 * powers (edge_count g FWD) (node_count g) <= fuel -> renough_rounds g <= rounds ->
  exists st' ps, rfully_explorate (ofin rnd top) fuel T tri_new tri_add tri_cells solve rounds g rc s t st = Ok (st', ps) /\ rready g st'.
Proof.
  intros R Htop wf rt Hnn Hal H32 (ids & Hnew & Hadd) Hcells Htakes Hsound Hready Hs Ht Ha Hsc Halgo Hfuel Hrounds.
  pose proof Hready as [[Hh Hr] Hcap].
  pose proof (rexploration_ends u eta rnd top R Htop g wf Hnn fuel T tri_new tri_add tri_cells solve rounds rc s t st Hcells Hh Hr Hs Ht Hfuel Hrounds) as He.
  revert He. unfold rfully_explorate. cbv zeta. set (q0 := xquery_with g rc s t).
  assert (Himc : length (xq_imc q0) = xq_dim q0) by (unfold q0; cbn; now rewrite map_length).
  destruct (rinitial_works u eta rnd top R Htop g wf rt Hnn Hal fuel Hfuel q0 Hs Ht eq_refl Himc Hsc Halgo st H32 eq_refl Hready) as ([[st1 tol] new] & E1 & A & B & C).
  cbn [fst snd] in A, B, C. rewrite E1. cbn [bind].
  set (q := {| xq_src := xq_src q0; xq_dst := xq_dst q0; xq_rc := xq_rc q0; xq_dim := xq_dim q0; xq_tdim := xq_tdim q0; xq_tol := tol; xq_imc := xq_imc q0 |}).
  assert (Htd : xq_tdim q0 = considered_metrics (flags rc)) by (unfold q0, flags; cbn; apply tdim_considered).
  destruct (rupdate_works rnd top g fuel Hfuel q Hs Ht eq_refl Himc Hsc T tri_new tri_add ids Hadd Htakes B new
    {| xs_tri := tri_new (xq_tdim q); xs_found := []; xs_tolerated := []; xs_visited := []; xs_dirty := false |} C) as (s1 & E2 & W).
  { constructor; cbn [xs_tri xs_found xs_tolerated]; try (intros ? ? []); try (intros ? []); [|constructor].
    change (xq_tdim q) with (xq_tdim q0). rewrite Htd. constructor. }
  rewrite E2. cbn [bind]. destruct ((1 <? xq_tdim q) && (xq_tdim q <? length (xs_found T s1))).
  - destruct (rexplore_works u eta rnd top R Htop g wf rt Hnn Hal fuel Hfuel q Hs Ht eq_refl Himc Hsc Halgo T tri_new tri_add tri_cells solve ids Hadd Htakes Hsound B
       rounds st1 s1 A W) as [(st2 & s2 & E3 & W2 & R2)|E3]; rewrite E3; cbn [bind]; [|congruence].
    intros _. cbn [fst snd]. destruct (collect_works (xs_tolerated T s2) (xs_found T s2)) as (ps & E4); [apply W2|apply W2|].
    rewrite E4. cbn [bind]. eauto.
  - intros _. cbn [bind fst snd]. destruct (collect_works (xs_tolerated T s1) (xs_found T s1)) as (ps & E4); [apply W|apply W|].
    rewrite E4. cbn [bind]. eauto.
Qed.
