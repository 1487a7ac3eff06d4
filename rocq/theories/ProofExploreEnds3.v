(** Lemmas about the end of an exploration: nothing panics *)
From Coq Require Import List Bool Arith Lia QArith.
From Verif Require Import Base F64 Lib ModelApprox ModelUnits ModelConfig ModelGraph ModelBuild ModelDijkstra ModelExplorator
  Spec SpecRouting SpecPaths SpecExplorator SpecCells SpecExploreEnds AbsSearch ProofRouting ProofDijkstra ProofPaths ProofExplorator PropsGraph PropsRouting PropsPaths
  PropsExplorator ProofCells ProofCells2 ProofCells3 PropsCells ProofExploreEnds ProofExploreEnds2.
Import ListNotations.
Open Scope nat_scope.

Lemma foldM_works {A S} (f : S -> A -> res S) (Inv : S -> Prop) l :
  (forall s a, In a l -> Inv s -> exists s', f s a = Ok s' /\ Inv s') -> forall s, Inv s -> exists s', foldM f l s = Ok s' /\ Inv s'.
Proof.
  intros H. induction l as [|a l IH]; intros s Hs; [exists s; auto|]. cbn [foldM].
  destruct (H s a (or_introl eq_refl) Hs) as (s1 & E & H1). rewrite E. cbn [bind]. apply IH; auto. intros s0 b Hb. apply H. now right.
Qed.
Lemma mapM_works {A B} (f : A -> res B) (R : A -> B -> Prop) l : (forall a, In a l -> exists b, f a = Ok b /\ R a b) ->
  exists bs, mapM f l = Ok bs /\ Forall2 R l bs.
Proof.
  induction l as [|a l IH]; intros H; [exists []; split; [reflexivity|constructor]|]. cbn [mapM].
  destruct (H a (or_introl eq_refl)) as (b & E & Hb). destruct (IH (fun x Hx => H x (or_intror Hx))) as (bs & E' & F).
  rewrite E. cbn [bind]. rewrite E'. cbn [bind]. exists (b :: bs). split; [reflexivity|now constructor].
Qed.

Lemma considered_works imc costs : length costs = length imc -> exists cc, considered_costs imc costs = Ok cc /\ length cc = considered_metrics imc.
Proof.
  intros Hl.
  destruct (mapM_works (fun p : nat * f64 => do b <- idx imc (fst p); Ok (b : bool, snd p)) (fun _ _ => True) (enumerate costs)) as (bs & E & _).
  { intros [i x] Hi. cbn [fst snd]. apply enumerate_in in Hi. assert (i < length imc) by (rewrite <- Hl; apply nth_error_Some; congruence).
    destruct (idx_lt imc i) as (b & Eb); auto. rewrite Eb. cbn [bind]. eauto. }
  unfold considered_costs. rewrite E. cbn [bind]. eexists. split; [reflexivity|].
  assert (E2 : considered_costs imc costs = Ok (map snd (filter (fun p : bool * f64 => fst p) bs))) by (unfold considered_costs; now rewrite E).
  apply considered_eq in E2. rewrite E2, map_length. clear -Hl. revert costs Hl.
  unfold considered_metrics. induction imc as [|b imc IH]; intros [|x costs] Hl; try discriminate; [reflexivity|].
  cbn [combine filter fst count_occ]. injection Hl as Hl. destruct b; cbn [length]; [|auto].
  destruct (bool_dec true true); [|congruence]. f_equal. auto.
Qed.

Lemma collect_works ids : forall found, NoDup ids -> (forall id, In id ids -> exists p, lookup id found = Some p) -> exists ps, collect ids found = Ok ps.
Proof.
  induction ids as [|id ids IH]; intros found Hn H; [exists []; reflexivity|]. apply NoDup_cons_iff in Hn. destruct Hn as [Hni Hn].
  destruct (H id (or_introl eq_refl)) as (p & Ep). cbn [collect]. unfold expect. rewrite Ep. cbn [bind].
  destruct (IH (remove_id id found) Hn) as (ps & E).
  - intros k Hk. rewrite lookup_remove. destruct (Nat.eqb_spec k id) as [->|_]; [contradiction|]. apply H. now right.
  - rewrite E. cbn [bind]. eauto.
Qed.

Section Works.
  Variables (hav : coord -> coord -> f64) (c : cfg) (ch1 ch2 : nat) (es : list proto_edge) (ns : list proto_node) (g : graph).
  Hypothesis H1 : 1 <= ch1.
  Hypothesis H2 : 1 <= ch2.
  Hypothesis HB : build hav c ch1 ch2 es ns = Ok g.
  Hypothesis Hnn : nonneg_metrics g.
  Hypothesis Hal : aligned_metrics g.
  Hypothesis Hfin : finite_metrics g.
  Hypothesis Hlast : last_node_connected g.
  Variable pick : nat -> list costnode -> nat.
  Hypothesis Hv : valid_pick pick.
  Variable fuel : nat.
  Hypothesis Hfuel : 2 + 2 * powers (edge_count g FWD) (node_count g) <= fuel.
  Variable q : xquery.
  Hypothesis Hs : xq_src q < node_count g.
  Hypothesis Ht : xq_dst q < node_count g.
  Hypothesis Hdim : xq_dim q = metric_dim g.
  Hypothesis Himc : length (xq_imc q) = xq_dim q.
  Hypothesis Hsc : length (rc_scales (xq_rc q)) = xq_dim q.
  Hypothesis Halgo : forall i, rc_algo (xq_rc q) <> AExplorator i.

  Definition ready (st : dijkstra) : Prop := (history st /\ roomy st g) /\ (node_count g <> 2 -> capacity st <= node_count g).

  Lemma capacity_fits st rc s t st' r : ready st -> compute_best_path pick fuel st g rc s t = Ok (st', r) -> ready st'.
  Proof.
    intros [[Hh Hr] Hc] E. split; [exact (capacity_after _ _ _ _ _ _ _ _ _ Hh Hr E)|]. intros Hn.
    rewrite compute_split in E. destruct (existsb _ _); [injection E as <- _; auto|].
    apply bind_ok in E. destruct E as (ch & _ & E). apply bind_ok in E. destruct E as (st0 & E0 & E).
    pose proof (history_clean _ Hh) as Hcl. rewrite (init_query_spec _ _ _ _ _ Hcl E0) in E.
    pose proof (query_clean _ _ _ _ _ _ _ _ _ _ (blank_clean _ _ _) E) as Hc'.
    pose proof (c_cost _ _ Hc' FWD) as El. cbn [get] in El. unfold capacity. rewrite El. unfold new_size.
    destruct (Nat.eqb_spec 2 (node_count g)); [congruence|auto].
  Qed.

  Lemma best_works st al : ready st -> exists st' r, xbest pick fuel g q st al = Ok (st', r) /\ ready st' /\
    forall p, r = Some p -> real_path g (xq_src q) (xq_dst q) p.
  Proof.
    intros HJ. pose proof HJ as [[Hh Hr] Hc].
    assert (G : exists st' r, compute_best_path pick fuel st g (with_alphas (xq_rc q) al) (xq_src q) (xq_dst q) = Ok (st', r)).
    { destruct (existsb (fun a => fltb a f0) al) eqn:Ex.
      - exists st, None. unfold compute_best_path. cbn [with_alphas rc_alphas]. now rewrite Ex.
      - apply (C17_total_partial hav c ch1 ch2 es ns g pick fuel st (with_alphas (xq_rc q) al) (xq_src q) (xq_dst q)); auto.
        cbn [with_alphas rc_alphas]. apply Forall_forall. intros a Ha. destruct (fltb a f0) eqn:El; [|now apply not_lt_zero].
        assert (existsb (fun a => fltb a f0) al = true) by (apply existsb_exists; eauto). congruence. }
    destruct G as (st' & r & E). pose proof (capacity_fits _ _ _ _ _ _ HJ E) as HJ'.
    destruct r as [p|].
    - destruct (C16_real_path _ _ _ _ _ _ _ _ _ _ _ _ _ _ _ H1 H2 HB Hnn Hh Hr Hs Ht Hv E) as (_ & _ & _ & _ & A5 & A6 & _).
      destruct (C23_calc_costs _ _ _ _ _ _ _ p H1 H2 HB Hal (connects_exist _ _ _ _ A6) A5) as (p' & cs & B1 & _).
      assert (Ex : xbest pick fuel g q st al = Ok (st', Some p')).
      { unfold xbest. rewrite E. cbn [bind fst snd]. rewrite B1. reflexivity. }
      exists st', (Some p'). split; [exact Ex|]. split; auto. intros p0 E0. injection E0 as <-.
      exact (xbest_real _ _ _ _ _ _ _ _ _ _ _ _ _ _ H1 H2 HB Hnn Hal Hh Hr Hs Ht Hv Ex).
    - exists st', None. split; [|split; [auto|discriminate]]. unfold xbest. rewrite E. reflexivity.
  Qed.

  Notation realq := (real_path g (xq_src q) (xq_dst q)).
  Lemma real_works p : realq p -> exists cs, path_costs p = Ok cs /\ p_costs p = Some cs /\ numbers cs /\ length cs = xq_dim q.
  Proof.
    intros Hp. destruct (real_costed _ _ _ _ _ _ _ H1 H2 HB Hal Hfin _ _ _ Hp) as (cs & A & B & C). exists cs. rewrite Hdim.
    split; [now apply path_costs_ok|]. auto.
  Qed.
  Lemma costs_work ps : (forall p, In p ps -> realq p) -> exists cs, mapM path_costs ps = Ok cs /\ Forall (fun c => length c = xq_dim q) cs.
  Proof.
    intros H. destruct (mapM_works path_costs (fun _ c => length c = xq_dim q) ps) as (cs & E & F).
    - intros p Hp. destruct (real_works p (H p Hp)) as (cs & A & _ & _ & B). eauto.
    - exists cs. split; auto. clear -F. induction F; auto.
  Qed.

  (** *** Initial paths *)
  Definition started (x : dijkstra * list f64 * list path) : Prop :=
    ready (fst (fst x)) /\ length (snd (fst x)) = xq_dim q /\ forall p, In p (snd x) -> realq p.

  Lemma init_step_works x ia : (forall i, fst ia = Some i -> i < xq_dim q) -> started x ->
    exists x', init_step pick fuel g q x ia = Ok x' /\ started x'.
  Proof.
    destruct x as [[st tol] found]. intros Hi (A & B & C). cbn [fst snd] in *. unfold init_step.
    destruct (best_works st (snd ia) A) as (st' & r & E & D & R). rewrite E. cbn [bind fst snd]. destruct r as [p|].
    - specialize (R p eq_refl). destruct (real_works p R) as (cs & Ec & _ & _ & Lc). rewrite Ec. cbn [bind].
      assert (G : exists tol', set_tolerance (xq_rc q) cs tol (fst ia) = Ok tol' /\ length tol' = xq_dim q).
      { destruct (fst ia) as [i|]; [|exists tol; auto]. specialize (Hi i eq_refl). cbn [set_tolerance].
        destruct (idx_lt (rc_scales (xq_rc q)) i) as (sc & Es); [lia|]. rewrite Es. cbn [bind].
        destruct (feqb sc PInf).
        - rewrite set_lt by lia. eexists. split; [reflexivity|]. now rewrite upd_length'.
        - destruct (idx_lt cs i) as (x & Ex); [lia|]. rewrite Ex. cbn [bind]. rewrite set_lt by lia. eexists. split; [reflexivity|]. now rewrite upd_length'. }
      destruct G as (tol' & Et & Lt). rewrite Et. cbn [bind].
      destruct (costs_work found C) as (l & El & _). rewrite El. cbn [bind]. destruct (existsb _ l); eexists; (split; [reflexivity|]).
      + split; auto.
      + split; auto. split; auto. cbn [snd]. intros p' Hp'. apply in_app_or in Hp'. destruct Hp' as [Hp'|[<-|[]]]; auto.
    - eexists. split; [reflexivity|]. split; auto.
  Qed.

  Lemma initial_works st : xq_dim q < 32 -> xq_tol q = repeat PInf (xq_dim q) -> ready st ->
    exists x, explore_initial_paths pick fuel g q st = Ok x /\ started x.
  Proof.
    intros H32 Etol HJ. unfold explore_initial_paths. destruct (init_alphas (xq_dim q) (xq_imc q)) as [ias| | |] eqn:E;
      try (unfold init_alphas in E; destruct (Nat.leb_spec 32 (xq_dim q)); [lia|discriminate]).
    cbn [bind]. apply foldM_works.
    - intros x ia Hin Hx. apply init_step_works; auto. intros i Hi.
      destruct (init_alphas_spec _ _ _ Himc E) as (_ & A & B).
      destruct (proj1 (A (snd ia)) (in_map snd _ _ Hin)) as (sub & (Hl & _) & Hsub).
      destruct ia as [o v]. cbn [fst snd] in *. subst o v. pose proof (proj1 (B _ _ Hin i) eq_refl) as Ho.
      assert (Hone : In true sub).
      { destruct (proj1 (A _) (in_map snd _ _ Hin)) as (sub' & (_ & _ & Hc) & Hs'). cbn [snd] in Hs'. apply indicator_inj in Hs'. now subst. }
      apply In_nth_error in Hone. destruct Hone as (j & Hj). apply Ho in Hj. lia.
    - split; auto. cbn [fst snd]. split; [rewrite Etol; apply repeat_length|]. intros p [].
  Qed.

  (** *** Rounds *)
  Variable T : Type.
  Variable tri_new : nat -> T.
  Variable tri_add : T -> list f64 -> option (T * nat).
  Variable tri_cells : T -> list (nat * list nat).
  Variable solve : list (list f64) -> list f64 -> option (list f64).
  Variable ids : T -> list nat.
  Hypothesis ids_add : forall t c t' id, tri_add t c = Some (t', id) ->
    ~ In id (ids t) /\ forall k, In k (ids t') <-> k = id \/ In k (ids t).
  Hypothesis Htakes : takes_points T tri_add (considered_metrics (xq_imc q)).
  Hypothesis Hsound : sound_cells T tri_new tri_add tri_cells (xq_imc q).
  Hypothesis Htol : length (xq_tol q) = xq_dim q.

  Record working (s : xstate T) : Prop := {
    wk_holds : holds T tri_new tri_add (xq_imc q) (xs_tri T s) (xs_found T s);
    wk_real : forall id p, In (id, p) (xs_found T s) -> realq p;
    wk_ids : forall id p, In (id, p) (xs_found T s) -> In id (ids (xs_tri T s));
    wk_tids : forall id, In id (xs_tolerated T s) -> In id (ids (xs_tri T s));
    wk_nodup : NoDup (xs_tolerated T s);
    wk_tol : forall id, In id (xs_tolerated T s) -> exists p, lookup id (xs_found T s) = Some p;
  }.

  Lemma update_path_works s p : realq p -> working s -> exists s', update_path T tri_add q s p = Ok s' /\ working s'.
  Proof.
    intros Hp [W1 W2 W3 W4 W5 W6]. destruct (real_works p Hp) as (cs & Ec & Ep & _ & Lc). unfold update_path. rewrite Ec. cbn [bind].
    destruct (considered_works (xq_imc q) cs) as (cc & Ecc & Lcc); [lia|]. rewrite Ecc. cbn [bind].
    destruct (Htakes (xs_tri T s) cc Lcc) as (tri & id & Et). unfold expect. rewrite Et. cbn [bind].
    eexists. split; [reflexivity|]. destruct (ids_add _ _ _ _ Et) as [Hnew Hids].
    assert (Habs : remove_id id (xs_found T s) = xs_found T s).
    { clear -Hnew W3. assert (G : forall m, (forall p, ~ In (id, p) m) -> remove_id id m = m).
      { induction m as [|[k p] m IH]; intros H; [reflexivity|]. cbn. destruct (Nat.eqb_spec k id) as [->|Hk].
        - exfalso. apply (H p). now left.
        - cbn. f_equal. apply IH. intros p' Hp'. apply (H p'). now right. }
      apply G. intros p Hp. apply Hnew. eauto. }
    rewrite Habs.
    assert (Hsame : forall k, In k (xs_tolerated T s) -> k <> id) by (intros k Hk ->; apply Hnew; auto).
    constructor; cbn [xs_tri xs_found xs_tolerated].
    - econstructor; [exact W1|exact Ep|]. apply considered_eq in Ecc. now rewrite <- Ecc.
    - intros k p' [H|H]; [injection H as <- <-; auto|eauto].
    - intros k p' [H|H]; [injection H as <- <-; apply Hids; auto|apply Hids; right; eauto].
    - intros k Hk. apply Hids. destruct (approx_le_vec cs (xq_tol q)); auto. apply in_app_or in Hk. destruct Hk as [Hk|[<-|[]]]; auto.
    - destruct (approx_le_vec cs (xq_tol q)); auto. apply NoDup_rev in W5. rewrite <- (rev_involutive (_ ++ [id])). apply NoDup_rev.
      rewrite rev_app_distr. cbn. constructor; auto. rewrite <- in_rev. intros H. now apply (Hsame id).
    - intros k Hk. cbn [lookup]. destruct (Nat.eqb_spec id k) as [->|Hne]; [eauto|].
      apply W6. destruct (approx_le_vec cs (xq_tol q)); auto. apply in_app_or in Hk. destruct Hk as [Hk|[<-|[]]]; auto. congruence.
  Qed.

  Lemma update_works new s : (forall p, In p new -> realq p) -> working s -> exists s', update T tri_add q new s = Ok s' /\ working s'.
  Proof.
    intros Hn [W1 W2 W3 W4 W5 W6]. unfold update. apply foldM_works.
    - intros s' p Hp W. apply update_path_works; auto.
    - constructor; auto.
  Qed.

  Lemma lookup_some id p m : In (id, p) m -> exists p', lookup id m = Some p'.
  Proof.
    induction m as [|[k v] m IH]; intros []; cbn [lookup].
    - injection H as -> ->. rewrite Nat.eqb_refl. eauto.
    - destruct (k =? id); eauto.
  Qed.

  Lemma explore_cell_works s x cl : working s -> In cl (tri_cells (xs_tri T s)) ->
    ready (fst (fst x)) /\ (forall p, In p (snd x) -> realq p) ->
    exists x', explore_cell pick fuel solve g q (xs_found T s) x cl = Ok x' /\ ready (fst (fst x')) /\ forall p, In p (snd x') -> realq p.
  Proof.
    intros W Hcl [HJ Hn]. destruct x as [[st vis] new]. cbn [fst snd] in *. unfold explore_cell.
    destruct (existsb _ vis); [eexists; split; [reflexivity|auto]|].
    destruct cl as [k vs]. cbn [fst snd]. destruct (Hsound _ _ _ _ (wk_holds _ W) Hcl) as [[Hpos Hlen] Hids].
    destruct (mapM_works (fun id => expect (lookup id (xs_found T s))) (fun _ p => realq p) vs) as (cell & Ecell & Fcell).
    { intros id Hid. destruct (Hids id Hid) as (p & Hp). destruct (lookup_some _ _ _ Hp) as (p' & Ep). rewrite Ep. exists p'. split; auto.
      apply lookup_in in Ep. exact (wk_real _ W _ _ Ep). }
    unfold cell_from. rewrite Ecell. cbn [bind].
    assert (Lcell : length cell = length vs) by (clear -Fcell; induction Fcell; cbn; congruence).
    assert (Rcell : forall p, In p cell -> realq p).
    { clear -Fcell. induction Fcell as [|a b l l' R F IH]; intros p []; subst; auto. }
    destruct (costs_work cell Rcell) as (cs & Ecs & Lcs).
    assert (Em : exists miss, misses_tolerance (xq_tol q) cell = Ok miss).
    { unfold misses_tolerance. rewrite Ecs. cbn [bind].
      destruct (mapM_works (fun it : nat * f64 => do ds <- mapM (fun c => idx c (fst it)) cs; Ok (negb (existsb (fun d => fleb d (snd it)) ds)))
                  (fun _ _ => True) (enumerate (xq_tol q))) as (l & El & _).
      - intros [i x] Hi. cbn [fst snd]. apply enumerate_in in Hi. assert (i < xq_dim q) by (rewrite <- Htol; apply nth_error_Some; congruence).
        destruct (mapM_works (fun c : list f64 => idx c i) (fun _ _ => True) cs) as (ds & Ed & _).
        + intros cv Hcv. rewrite Forall_forall in Lcs. specialize (Lcs cv Hcv). destruct (idx_lt cv i) as (y & Ey); [lia|]. eauto.
        + rewrite Ed. cbn [bind]. eauto.
      - rewrite El. cbn [bind]. eauto. }
    destruct Em as (miss & Em). rewrite Em. cbn [bind]. destruct miss; [eexists; split; [reflexivity|auto]|].
    assert (Hc : costed (xq_dim q) cell).
    { intros p Hp. destruct (real_works p (Rcell p Hp)) as (x & _ & A & B & C). eauto. }
    assert (Hne : cell <> []) by (intros ->; cbn in Lcell; lia).
    destruct (system_spec q cell Himc Hc Hne) as (_ & S2 & S3).
    assert (Els : exists ls, create_linear_system q cell = Ok ls).
    { destruct (Nat.lt_ge_cases (length cell) (considered_metrics (xq_imc q))) as [Hx|Hx]; [eauto|].
      destruct S3 as (rows & b & E & _); [lia|eauto]. }
    destruct Els as (ls & Els). rewrite Els. cbn [bind]. destruct ls as [[rows b]|]; [|eexists; split; [reflexivity|auto]].
    destruct (solve rows b) as [al|]; [|eexists; split; [reflexivity|auto]].
    destruct (best_works st al HJ) as (st' & r & E & D & R). rewrite E. cbn [bind fst snd].
    destruct r as [p|]; [|eexists; split; [reflexivity|auto]]. specialize (R p eq_refl).
    destruct (real_works p R) as (pcs & Ep & _). rewrite Ep. cbn [bind]. destruct cell as [|v0 cell]; [congruence|]. cbn [idx nth_error bind].
    destruct (real_works v0 (Rcell v0 (or_introl eq_refl))) as (c0 & E0 & _). unfold idx. cbn [nth_error bind]. rewrite E0. cbn [bind].
    destruct (_ && _); (eexists; split; [reflexivity|]); split; auto.
    cbn [snd]. intros p' Hp'. apply in_app_or in Hp'. destruct Hp' as [Hp'|[<-|[]]]; auto.
  Qed.

  Lemma explore_works rounds : forall st s, ready st -> working s ->
    (exists st' s', explore pick fuel T tri_add tri_cells solve g q rounds st s = Ok (st', s') /\ working s' /\ ready st') \/
    explore pick fuel T tri_add tri_cells solve g q rounds st s = Diverge.
  Proof.
    induction rounds as [|k IH]; intros st s HJ W; cbn [explore]; destruct (xs_dirty T s); auto; try (left; exists st, s; split; auto; fail).
    destruct (foldM_works (explore_cell pick fuel solve g q (xs_found T s))
       (fun x => ready (fst (fst x)) /\ forall p, In p (snd x) -> realq p) (tri_cells (xs_tri T s))) with (s := (st, xs_visited T s, @nil path))
      as ([[st1 vis] new] & E1 & A & B).
    - intros x cl Hcl Hx. destruct (explore_cell_works s x cl W Hcl Hx) as (x' & E & X). eauto.
    - split; auto. intros p [].
    - rewrite E1. cbn [bind]. cbn [fst snd] in A, B.
      destruct (update_works new {| xs_tri := xs_tri T s; xs_found := xs_found T s; xs_tolerated := xs_tolerated T s; xs_visited := vis; xs_dirty := xs_dirty T s |} B)
        as (s1 & E2 & W1); [destruct W; constructor; auto|].
      match goal with |- context [update T tri_add q new ?x] => replace (update T tri_add q new x) with (Ok s1) by (symmetry; exact E2) end.
      cbn [bind]. apply IH; auto.
  Qed.
End Works.

(** after an exploration, its Dijkstra may be used again *)
Lemma exploration_works hav c ch1 ch2 es ns g pick fuel T tri_new tri_add tri_cells solve rounds rc s t st :
  1 <= ch1 -> 1 <= ch2 -> build hav c ch1 ch2 es ns = Ok g -> nonneg_metrics g -> aligned_metrics g -> finite_metrics g ->
  last_node_connected g -> metric_dim g < 32 ->
  fresh_ids T tri_new tri_add -> no_new_cells T tri_new tri_add tri_cells ->
  takes_points T tri_add (considered_metrics (flags rc)) -> sound_cells T tri_new tri_add tri_cells (flags rc) ->
  ready g st -> s < node_count g -> t < node_count g -> valid_pick pick ->
  length (rc_alphas rc) = metric_dim g -> length (rc_scales rc) = metric_dim g -> (forall i, rc_algo rc <> AExplorator i) ->
  2 + 2 * powers (edge_count g FWD) (node_count g) <= fuel -> enough_rounds g <= rounds ->
  exists st' ps, fully_explorate pick fuel T tri_new tri_add tri_cells solve rounds g rc s t st = Ok (st', ps) /\ ready g st'.
Proof.
  intros H1 H2 HB Hnn Hal Hfin Hlast H32 (ids & Hnew & Hadd) Hcells Htakes Hsound Hready Hs Ht Hv Ha Hsc Halgo Hfuel Hrounds.
  pose proof Hready as [[Hh Hr] Hcap].
  pose proof (exploration_ends _ _ _ _ _ _ _ H1 H2 HB Hnn pick fuel T tri_new tri_add tri_cells solve rounds rc s t st Hcells Hh Hr Hs Ht Hv Hfuel Hrounds) as He.
  revert He. unfold fully_explorate. cbv zeta. set (q0 := xquery_with g rc s t).
  assert (Himc : length (xq_imc q0) = xq_dim q0) by (unfold q0; cbn; now rewrite map_length).
  destruct (initial_works _ _ _ _ _ _ g H1 H2 HB Hnn Hal Hfin Hlast pick Hv fuel Hfuel q0 Hs Ht eq_refl Himc Hsc Halgo st H32 eq_refl Hready) as ([[st1 tol] new] & E1 & A & B & C).
  cbn [fst snd] in A, B, C. rewrite E1. cbn [bind].
  set (q := {| xq_src := xq_src q0; xq_dst := xq_dst q0; xq_rc := xq_rc q0; xq_dim := xq_dim q0; xq_tdim := xq_tdim q0; xq_tol := tol; xq_imc := xq_imc q0 |}).
  assert (Htd : xq_tdim q0 = considered_metrics (flags rc)) by (unfold q0, flags; cbn; apply tdim_considered).
  destruct (update_works _ _ _ _ _ _ g H1 H2 HB Hal Hfin fuel Hfuel q Hs Ht eq_refl Himc Hsc T tri_new tri_add ids Hadd Htakes B new
    {| xs_tri := tri_new (xq_tdim q); xs_found := []; xs_tolerated := []; xs_visited := []; xs_dirty := false |} C) as (s1 & E2 & W).
  { constructor; cbn [xs_tri xs_found xs_tolerated]; try (intros ? ? []); try (intros ? []); [|constructor].
    change (xq_tdim q) with (xq_tdim q0). rewrite Htd. constructor. }
  rewrite E2. cbn [bind]. destruct ((1 <? xq_tdim q) && (xq_tdim q <? length (xs_found T s1))).
  - destruct (explore_works _ _ _ _ _ _ g H1 H2 HB Hnn Hal Hfin Hlast pick Hv fuel Hfuel q Hs Ht eq_refl Himc Hsc Halgo T tri_new tri_add tri_cells solve ids Hadd Htakes Hsound B
       rounds st1 s1 A W) as [(st2 & s2 & E3 & W2 & R2)|E3]; rewrite E3; cbn [bind]; [|congruence].
    intros _. cbn [fst snd]. destruct (collect_works (xs_tolerated T s2) (xs_found T s2)) as (ps & E4); [apply W2|apply W2|].
    rewrite E4. cbn [bind]. eauto.
  - intros _. cbn [bind fst snd]. destruct (collect_works (xs_tolerated T s1) (xs_found T s1)) as (ps & E4); [apply W|apply W|].
    rewrite E4. cbn [bind]. eauto.
Qed.
